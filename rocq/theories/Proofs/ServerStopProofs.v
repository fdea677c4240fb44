(** Proofs about stopping an rrpc server. *)
From stdpp Require Import gmap.
From Verif.Base Require Import Base.
From Verif.Model Require Import ServerStop.
From Verif.Spec Require Import ServerStopSpec.

Lemma sum_insert {A} (f : A → nat) (l : list A) (i : nat) (x y : A) :
  l !! i = Some x → sum_list_with f (<[i := y]> l) + f x = sum_list_with f l + f y.
Proof.
  revert i. induction l as [|z l IH]; intros [|i] Hi; simplify_eq/=; [lia|].
  specialize (IH i Hi). lia.
Qed.
Lemma sum_snoc {A} (f : A → nat) (l : list A) (x : A) : sum_list_with f (l ++ [x]) = sum_list_with f l + f x.
Proof. induction l as [|z l IH]; simpl; lia. Qed.

Section stop.
Context (n q : nat).
Notation istep := (istep n q).
Notation vstep := (vstep n q).
Notation vsteps := (vsteps n q).

(** * After Stop only finitely many steps are left. *)
Definition wpipe (c : pipe) : nat := p_len c + p_busy c + 3 * p_idle c.
Definition wjob (j : job) : nat := match j with JRun _ => 2 * n + 3 | JSend _ i => 2 * (n - i) + 1 | JGone => 0 end.
Definition wparcel : nat := 2 * n + 5.
Definition wreader (r : reader) : nat :=
  match r_state r with RdRecv => 1 | RdInvalid => 3 | RdParcel _ => wparcel + 2 | RdEnd => 0 end.
Definition wcoll (c : coll) : nat := match c with CSelect => 1 | CError _ => 3 | CEnd => 0 end.
Definition winc (c : incoming) : nat := match c with ISelect => 1 | IFwd _ => 3 | IEnd => 0 end.
Definition wphase (x : phase) : nat := match x with SNone => 3 | SGrpc => 2 | SWait => 1 | SReturned => 0 end.
Definition weight (s : srv) : nat :=
  wphase (v_phase s) + wcoll (v_coll s) + wparcel * length (v_queue s) + size (v_tasks s) +
  sum_list_with wjob (v_jobs s) + sum_list_with wreader (v_readers s) + sum_list_with wpipe (v_back s) +
  winc (v_inc s) + 3 * size (v_table s) + sum_list_with wpipe (v_front s) +
  (if v_clean s then 1 else 0) + (if v_crash s then 0 else 1).

Lemma size_delete_lt {A} (m : gmap string A) (u : string) : is_Some (m !! u) → size (delete u m) < size m.
Proof.
  intros [x Hx]. rewrite map_size_delete, Hx. simpl.
  assert (size m ≠ 0). { intros E. apply map_size_empty_inv in E. subst m. rewrite lookup_empty in Hx. discriminate. }
  lia.
Qed.
Lemma size_insert_le {A} (m : gmap string A) (u : string) (x : A) : size (<[u := x]> m) ≤ S (size m).
Proof. rewrite map_size_insert. destruct (m !! u); simpl; lia. Qed.
Lemma size_delete_le {A} (m : gmap string A) (u : string) : size (delete u m) ≤ size m.
Proof. rewrite map_size_delete. destruct (m !! u); simpl; lia. Qed.

Ltac ins := repeat match goal with
  | H : ?l !! ?i = Some ?x |- context [sum_list_with ?f (<[?i := ?y]> ?l)] =>
      lazymatch goal with
      | _ : sum_list_with f (<[i := y]> l) + _ = _ |- _ => fail
      | _ => pose proof (sum_insert f l i x y H)
      end
  end.

Lemma weight_step s l s' : stopping s → vstep s l s' → weight s' < weight s.
Proof.
  intros Hst [Hc St]. unfold stopping in Hst.
  unfold weight.
  destruct St; cbn [set_phase set_coll set_queue set_tasks set_jobs set_readers set_back set_inc set_table set_front set_clean set_crash
    v_phase v_coll v_queue v_tasks v_jobs v_readers v_back v_inc v_table v_front v_clean v_crash];
    try contradiction; rewrite ?Hc;
    repeat match goal with
    | E : v_phase s = _ |- _ => rewrite E; clear E
    | E : v_coll s = _ |- _ => rewrite E; clear E
    | E : v_queue s = _ |- _ => rewrite E; clear E
    | E : v_inc s = _ |- _ => rewrite E; clear E
    | E : v_clean s = _ |- _ => rewrite E; clear E
    end;
    try (match goal with E : is_Some (_ !! _) |- _ => pose proof (size_delete_lt _ _ E) end);
    try (match goal with E : v_table s !! _ = Some _ |- _ => pose proof (size_delete_lt _ _ (mk_is_Some _ _ E)) end);
    try (match goal with |- context [size (<[?u := ?x]> ?m)] => pose proof (size_insert_le m u x) end);
    try (match goal with |- context [size (delete ?u ?m)] => pose proof (size_delete_le m u) end);
    ins; rewrite ?app_length, ?sum_snoc;
    cbn [wphase wcoll winc length wjob] in *;
    unfold wpipe, wreader, put in *; cbn [p_len p_busy p_idle r_state wjob] in *; unfold wparcel in *; try lia;
    destruct (v_crash s), (v_clean s); lia.
Qed.

Lemma stopping_step s l s' : stopping s → vstep s l s' → stopping s'.
Proof.
  intros Hst [Hc St]. unfold stopping in *. destruct St; cbn; try congruence; exact Hst.
Qed.
Lemma stopping_steps s ls s' : stopping s → vsteps s ls s' → stopping s'.
Proof. intros Hst R. induction R as [|s l s1 ls s2 St R IH]; [exact Hst|]. apply IH, (stopping_step _ _ _ Hst St). Qed.

Lemma bounded s ls s' : stopping s → vsteps s ls s' → length ls ≤ weight s.
Proof.
  intros Hst R. induction R as [s|s l s1 ls s2 St R IH]; simpl; [lia|].
  pose proof (weight_step _ _ _ Hst St). pose proof (stopping_step _ _ _ Hst St) as Hst1. specialize (IH Hst1). lia.
Qed.

(** * Invariant *)
(** Relay i has opened a stream: its channel is closed or somebody takes messages out of it. *)
Definition served (s : srv) (i : nat) : Prop :=
  ∃ c, v_back s !! i = Some c ∧ (p_closed c = true ∨ 0 < p_idle c + p_busy c).
Record inv (s : srv) : Prop := {
  inv_len : length (v_back s) = n;
  inv_readers : ∀ k i st, v_readers s !! k = Some (mkReader i st) →
    served s i ∧ match st with RdParcel p => pa_index p = i | _ => True end;
  inv_queue : ∀ k p, v_queue s !! k = Some p → served s (pa_index p);
  inv_coll : ∀ i, v_coll s = CError i → served s i;
  inv_inc : ∀ p, v_inc s = IFwd p → p < length (v_front s);
  inv_table : ∀ u p, v_table s !! u = Some p → p < length (v_front s);
  inv_returned : v_phase s = SReturned → v_coll s = CEnd ∧ v_inc s = IEnd ∧ v_clean s = false }.

Lemma served_back (s : srv) (b : list pipe) (i j : nat) (c c' : pipe) :
  v_back s !! i = Some c → (p_closed c = true ∨ 0 < p_idle c + p_busy c → p_closed c' = true ∨ 0 < p_idle c' + p_busy c') →
  served s j → ∃ c0, <[i := c']> (v_back s) !! j = Some c0 ∧ (p_closed c0 = true ∨ 0 < p_idle c0 + p_busy c0).
Proof.
  intros Hi Hc (c0 & Hj & Ho). destruct (decide (i = j)) as [->|Hne].
  - exists c'. split; [apply list_lookup_insert; apply lookup_lt_Some in Hj; exact Hj|]. simplify_eq. exact (Hc Ho).
  - exists c0. split; [rewrite list_lookup_insert_ne by exact Hne; exact Hj|exact Ho].
Qed.
Lemma served_step s l s' i : vstep s l s' → served s i → served s' i.
Proof.
  intros [_ St] Hs. unfold served.
  destruct St; cbn; try exact Hs;
    match goal with
    | E : v_back s !! ?k = Some ?c |- context [<[?k := ?c']> (v_back s)] =>
        refine (served_back s (v_back s) k i c c' E _ Hs); cbn; intuition lia
    end.
Qed.

Lemma inv_init : inv (srv_init n).
Proof.
  split; cbn; try discriminate; intros; rewrite ?replicate_length in *; try done.
Qed.

Lemma readers_case (rs : list reader) (k k' : nat) (x : reader) (i : nat) (st : rdstate) :
  <[k := x]> rs !! k' = Some (mkReader i st) → mkReader i st = x ∨ rs !! k' = Some (mkReader i st).
Proof.
  intros Hx. destruct (decide (k = k')) as [->|Hne].
  - destruct (decide (k' < length rs)) as [Hl|Hl].
    + rewrite list_lookup_insert in Hx by exact Hl. left. congruence.
    + rewrite list_insert_ge in Hx by lia. right. exact Hx.
  - rewrite list_lookup_insert_ne in Hx by exact Hne. right. exact Hx.
Qed.

Lemma inv_step s l s' : vstep s l s' → inv s → inv s'.
Proof.
  intros V I. pose proof (λ i, served_step _ _ _ i V) as Sv. destruct V as [_ St].
  destruct I as [I1 I2 I3 I4 I5 I6 I7].
  assert (Hlen : length (v_back s') = n).
  { destruct St; cbn; rewrite ?insert_length; exact I1. }
  assert (Hrd : ∀ k i st, v_readers s' !! k = Some (mkReader i st) →
      served s' i ∧ match st with RdParcel p => pa_index p = i | _ => True end).
  { intros k i st Hk. destruct St; cbn in Hk;
      try (destruct (I2 _ _ _ Hk) as [A B]; split; [exact (Sv _ A)|exact B]);
      try (apply readers_case in Hk as [E|Hk];
           [injection E as -> ->;
            match goal with E2 : v_readers s !! _ = Some _ |- _ => destruct (I2 _ _ _ E2) as [A B] end;
            split; [exact (Sv _ A)|try exact I; try assumption]
           |destruct (I2 _ _ _ Hk) as [A B]; split; [exact (Sv _ A)|exact B]]).
    - (* W_connect *)
      apply lookup_app_Some in Hk as [Hk|[_ Hk]].
      + destruct (I2 _ _ _ Hk) as [A B]. split; [exact (Sv _ A)|exact B].
      + destruct (k - length (v_readers s)) as [|?]; [|discriminate Hk]. cbn in Hk. injection Hk as <- <-.
        split; [|exact I]. eexists. split; [cbn; apply list_lookup_insert; eapply lookup_lt_Some; eassumption|]. right. cbn. lia. }
  split; [exact Hlen|exact Hrd| | | | |].
  - intros k p Hk. destruct St; cbn in Hk; try (exact (Sv _ (I3 _ _ Hk)));
      try (match goal with E : v_queue s = _ :: _ |- _ => apply (Sv _), (I3 (S k)); rewrite E; exact Hk end).
    apply lookup_app_Some in Hk as [Hk|[_ Hk]]; [exact (Sv _ (I3 _ _ Hk))|].
    destruct (k - length (v_queue s)) as [|?]; [|discriminate Hk]. cbn in Hk. injection Hk as <-.
    match goal with E2 : v_readers s !! _ = Some _ |- _ => destruct (I2 _ _ _ E2) as [A B] end.
    cbn in B. rewrite B. exact (Sv _ A).
  - intros i Hi. destruct St; cbn in Hi; try discriminate Hi; try (exact (Sv _ (I4 _ Hi))).
    injection Hi as <-. apply (Sv _), (I3 0). match goal with E : v_queue s = _ :: _ |- _ => rewrite E; reflexivity end.
  - intros p0 Hp. destruct St; cbn in Hp |- *; try discriminate Hp; rewrite ?insert_length, ?app_length; try (specialize (I5 _ Hp); lia).
    + injection Hp as <-. eapply I6; eassumption.
  - intros u0 p0 Hu. destruct St; cbn in Hu |- *; rewrite ?insert_length, ?app_length; try (specialize (I6 _ _ Hu); lia).
    + apply lookup_delete_Some in Hu as [_ Hu]. exact (I6 _ _ Hu).
    + apply lookup_insert_Some in Hu as [[_ <-]|[_ Hu]]; [eapply lookup_lt_Some; eassumption|exact (I6 _ _ Hu)].
    + apply lookup_delete_Some in Hu as [_ Hu]. exact (I6 _ _ Hu).
  - intros Hp. destruct St; cbn in Hp |- *; try discriminate Hp; try (split_and!; assumption);
      destruct (I7 Hp) as (A1 & A2 & A3); split_and!; congruence.
Qed.
Lemma inv_steps s ls s' : vsteps s ls s' → inv s → inv s'.
Proof. intros R. induction R as [|s l s1 ls s2 St R IH]; [done|]. intros I. exact (IH (inv_step _ _ _ St I)). Qed.
Lemma reachable_inv s : reachable n q s → inv s.
Proof. intros [ls R]. exact (inv_steps _ _ _ R inv_init). Qed.

(** * Runs *)
Lemma vsteps_app s ls1 s1 ls2 s2 : vsteps s ls1 s1 → vsteps s1 ls2 s2 → vsteps s (ls1 ++ ls2) s2.
Proof. intros R1 R2. induction R1; [exact R2|]. simpl. econstructor; [eassumption|]. auto. Qed.
Lemma crash_stays s ls s' : v_crash s = true → vsteps s ls s' → s' = s.
Proof. intros Hc R. destruct R as [|s l s1 ls s2 [Hf _] _]; [done|congruence]. Qed.

Lemma pipe_split (c : pipe) : pipe_cap ≤ p_len c → ∃ len, c = mkPipe (S len) (p_closed c) (p_idle c) (p_busy c).
Proof. destruct c as [[|len] cl id bu]; unfold pipe_cap; cbn; [lia|]. intros _. exists len. reflexivity. Qed.

(** * Where a stopping server ends *)
Lemma final_outcome s : inv s → stopping s → final n q s → returned s ∨ v_crash s = true ∨ hangs s.
Proof.
  intros I Hst Hf. destruct (v_crash s) eqn:Hc; [by right; left|].
  assert (no : ∀ l s', ¬ istep s l s') by (intros l s' St; apply (Hf l s'); split; assumption).
  destruct (v_phase s) eqn:Hp; [contradiction| | |by left].
  { destruct (no _ _ (T_cancel n q s Hp)). }
  assert (Hcan : cancelled s = true) by (unfold cancelled; rewrite Hp; reflexivity).
  right; right.
  destruct (v_inc s) as [|p|] eqn:Hi.
  - destruct (no _ _ (I_done n q s Hi Hcan)).
  - destruct (lookup_lt_is_Some_2 (v_front s) p (inv_inc _ I p Hi)) as [c Hpc].
    exists p, c. split_and!; [exact Hi|exact Hpc| |].
    + destruct (decide (pipe_cap ≤ p_len c)) as [Hl|Hl]; [exact Hl|].
      destruct (no _ _ (I_fwd n q s p c Hi Hpc (not_le _ _ Hl))).
    + destruct c as [[|len] cl [|id] bu]; cbn; [done| |done|].
      * exfalso. refine (no _ _ (I_fwd n q s p _ Hi Hpc _)). unfold has_room, pipe_cap. cbn. lia.
      * destruct (no _ _ (F_take n q s p _ _ _ _ Hpc)).
  - destruct (v_clean s) eqn:Hk.
    { destruct (no _ _ (K_done n q s Hk Hcan)). }
    destruct (v_coll s) as [|i|] eqn:Hcl.
    + destruct (no _ _ (C_done n q s Hcl Hcan)).
    + exfalso. destruct (inv_coll _ I i Hcl) as (c & Hic & Ho).
      destruct (p_closed c) eqn:Hcc.
      { exact (no _ _ (C_send_panic n q s i c Hcl Hic Hcc)). }
      destruct (decide (has_room c)) as [Hr|Hr].
      { exact (no _ _ (C_send n q s i c Hcl Hic Hcc Hr)). }
      destruct (pipe_split c) as [len Hcs]; [unfold has_room in Hr; lia|]. rewrite Hcc in Hcs.
      destruct (p_idle c) as [|id].
      * destruct (p_busy c) as [|bu]; [destruct Ho; [done|lia]|]. rewrite Hcs in Hic. exact (no _ _ (W_fail n q s i _ _ _ Hic)).
      * rewrite Hcs in Hic. exact (no _ _ (W_take n q s i _ _ _ _ Hic)).
    + destruct (no _ _ (T_return n q s Hp Hcl Hi Hk)).
Qed.

(** A server that hangs, hangs for ever. *)
Lemma hangs_step s l s' : stopping s → hangs s → vstep s l s' → hangs s' .
Proof.
  intros Hst (p & c & Hi & Hp & Hl & Hd) [_ St]. unfold stopping in Hst. unfold hangs.
  destruct St; cbn; try congruence; try (exists p, c; split_and!; assumption).
  - match goal with E : v_inc s = IFwd ?p0 |- _ => assert (p0 = p) as -> by congruence end. simplify_eq. unfold has_room in *. lia.
  - match goal with |- context [<[?p0 := ?y]> (v_front s)] => destruct (decide (p0 = p)) as [->|Hne] end.
    + simplify_eq.
    + exists p, c. rewrite list_lookup_insert_ne by exact Hne. split_and!; assumption.
  - match goal with |- context [<[?p0 := ?y]> (v_front s)] => destruct (decide (p0 = p)) as [->|Hne] end.
    + simplify_eq. cbn in Hl, Hd. exists p, (mkPipe len cl idle busy).
      split_and!; [exact Hi|apply list_lookup_insert; eapply lookup_lt_Some; eassumption|exact Hl|exact Hd].
    + exists p, c. rewrite list_lookup_insert_ne by exact Hne. split_and!; assumption.
Qed.
Lemma hangs_steps s ls s' : stopping s → hangs s → vsteps s ls s' → hangs s'.
Proof.
  intros Hst Hh R. induction R as [|s l s1 ls s2 St R IH]; [exact Hh|].
  exact (IH (stopping_step _ _ _ Hst St) (hangs_step _ _ _ Hst Hh St)).
Qed.
Lemma hangs_not_returned s : inv s → hangs s → ¬ returned s.
Proof. intros I (p & c & Hi & _) Hr. destruct (inv_returned _ I Hr) as (_ & E & _). congruence. Qed.

Lemma doomed_step s l s' : stopping s → doomed s → vstep s l s' → doomed s'.
Proof.
  intros Hst (i & c & Hi & Hp & Ho) [_ St]. unfold stopping in Hst. unfold doomed.
  destruct St; cbn; try congruence; try (exists i, c; split_and!; assumption);
    try (match goal with |- context [<[?p0 := ?y]> (v_back s)] => destruct (decide (p0 = i)) as [->|Hne];
      [|exists i, c; rewrite list_lookup_insert_ne by exact Hne; split_and!; assumption];
      try (match goal with E : v_back s !! i = Some ?d |- _ => assert (d = c) as <- by congruence end);
      cbn in Ho;
      exists i, y; split_and!; [exact Hi|apply list_lookup_insert; eapply lookup_lt_Some; eassumption|cbn; unfold has_room in *; intuition (congruence || lia)] end).
  all: unfold has_room in *; assert (i0 = i) as -> by congruence; assert (c0 = c) as -> by congruence; destruct Ho as [Ho|Ho]; [congruence|lia].
Qed.
Lemma doomed_steps s ls s' : stopping s → doomed s → vsteps s ls s' → doomed s'.
Proof.
  intros Hst Hh R. induction R as [|s l s1 ls s2 St R IH]; [exact Hh|].
  exact (IH (stopping_step _ _ _ Hst St) (doomed_step _ _ _ Hst Hh St)).
Qed.
Lemma doomed_not_returned s : inv s → doomed s → ¬ returned s.
Proof. intros I (p & c & Hi & _) Hr. destruct (inv_returned _ I Hr) as (E & _ & _). congruence. Qed.

(** * Stop returns unless a goroutine it waits for is stuck *)
Definition caps (s : srv) : Prop :=
  (∀ i c, v_back s !! i = Some c → p_len c ≤ pipe_cap) ∧ (∀ p c, v_front s !! p = Some c → p_len c ≤ pipe_cap).
Lemma pipes_case (b : list pipe) (k k' : nat) (x c : pipe) : <[k := x]> b !! k' = Some c → c = x ∨ b !! k' = Some c.
Proof.
  intros Hx. destruct (decide (k = k')) as [->|Hne].
  - destruct (decide (k' < length b)) as [Hl|Hl].
    + rewrite list_lookup_insert in Hx by exact Hl. left. congruence.
    + rewrite list_insert_ge in Hx by lia. right. exact Hx.
  - rewrite list_lookup_insert_ne in Hx by exact Hne. right. exact Hx.
Qed.
Lemma caps_step s l s' : vstep s l s' → caps s → caps s'.
Proof.
  intros [_ St] [C1 C2]. split.
  - intros i0 c0 Hc. destruct St; cbn in Hc; try exact (C1 _ _ Hc);
      (apply pipes_case in Hc as [->|Hc]; [|exact (C1 _ _ Hc)]);
      match goal with E : v_back s !! _ = Some _ |- _ => specialize (C1 _ _ E) end; cbn in *; unfold has_room in *; lia.
  - intros i0 c0 Hc. destruct St; cbn in Hc; try exact (C2 _ _ Hc);
      try ((apply pipes_case in Hc as [->|Hc]; [|exact (C2 _ _ Hc)]);
      match goal with E : v_front s !! _ = Some _ |- _ => specialize (C2 _ _ E) end; cbn in *; unfold has_room in *; lia).
    apply lookup_app_Some in Hc as [Hc|[_ Hc]]; [exact (C2 _ _ Hc)|].
    destruct (i0 - length (v_front s)) as [|?]; [|discriminate Hc]. cbn in Hc. injection Hc as <-. cbn. lia.
Qed.
Lemma caps_init : caps (srv_init n).
Proof.
  split; cbn; intros i c Hc; [|discriminate Hc]. apply lookup_replicate in Hc as [-> _]. cbn. lia.
Qed.
Lemma reachable_caps s : reachable n q s → caps s.
Proof.
  intros [ls R]. pose proof caps_init as C. induction R as [|s l s1 ls s2 St R IH]; [exact C|]. exact (IH (caps_step _ _ _ St C)).
Qed.

Definition calm (l : label) : Prop := match l with LQuiet | LReturn => True | _ => False end.
Definition calmly (s : srv) (P : srv → Prop) : Prop := ∃ ls s', vsteps s ls s' ∧ Forall calm ls ∧ P s'.
Lemma calmly_now s (P : srv → Prop) : P s → calmly s P.
Proof. intros HP. exists [], s. split_and!; [constructor|constructor|exact HP]. Qed.
Lemma calmly_step s l s1 (P : srv → Prop) : vstep s l s1 → calm l → calmly s1 P → calmly s P.
Proof. intros St Hl (ls & s2 & R & Hls & HP). exists (l :: ls), s2. split_and!; [econstructor; eassumption|by constructor|exact HP]. Qed.
Lemma calmly_bind s (P Q : srv → Prop) : calmly s P → (∀ s', P s' → calmly s' Q) → calmly s Q.
Proof.
  intros (ls & s1 & R & Hls & HP) HQ. destruct (HQ _ HP) as (ls2 & s2 & R2 & Hls2 & HQ2).
  exists (ls ++ ls2), s2. split_and!; [eapply vsteps_app; eassumption|by apply Forall_app|exact HQ2].
Qed.

(** The collector returns. *)
Lemma coll_returns s : inv s → caps s → v_crash s = false → v_phase s = SWait → ¬ doomed s →
  calmly s (λ s', v_crash s' = false ∧ v_phase s' = SWait ∧ v_coll s' = CEnd ∧ v_inc s' = v_inc s ∧ v_front s' = v_front s ∧ v_clean s' = v_clean s).
Proof.
  intros I [C _] Hc Hp Hd.
  assert (Hsel : ∀ s0, v_crash s0 = false → v_phase s0 = SWait → v_coll s0 = CSelect → v_inc s0 = v_inc s → v_front s0 = v_front s → v_clean s0 = v_clean s →
    calmly s0 (λ s', v_crash s' = false ∧ v_phase s' = SWait ∧ v_coll s' = CEnd ∧ v_inc s' = v_inc s ∧ v_front s' = v_front s ∧ v_clean s' = v_clean s)).
  { intros s0 H1 H2 H3 H4 H5 H6. eapply calmly_step; [split; [exact H1|apply C_done; [exact H3|unfold cancelled; rewrite H2; reflexivity]]|exact Logic.I|].
    apply calmly_now. cbn. split_and!; done. }
  destruct (v_coll s) as [|i|] eqn:Hcl.
  - apply Hsel; done.
  - destruct (inv_coll _ I i Hcl) as (c & Hic & Ho).
    assert (Hn : ¬ (p_closed c = true ∨ (pipe_cap ≤ p_len c ∧ p_idle c = 0))) by (intros H1; apply Hd; exists i, c; done).
    assert (Hcc : p_closed c = false) by (destruct (p_closed c); [destruct Hn; by left|done]).
    destruct (decide (has_room c)) as [Hr|Hr].
    + eapply calmly_step; [split; [exact Hc|exact (C_send n q s i c Hcl Hic Hcc Hr)]|exact Logic.I|]. apply Hsel; done.
    + destruct c as [len cl id bu]. cbn in Hcc. subst cl. unfold has_room in Hr. cbn in Hr, Hn.
      destruct id as [|id]; [destruct Hn; right; split; [lia|done]|]. specialize (C _ _ Hic). cbn in C.
      destruct len as [|len]; [unfold pipe_cap in Hr; lia|].
      eapply calmly_step; [split; [exact Hc|exact (W_take n q s i _ _ _ _ Hic)]|exact Logic.I|].
      eapply calmly_step; [split; [exact Hc|eapply (C_send n q _ i); [exact Hcl|cbn; apply list_lookup_insert; eapply lookup_lt_Some; eassumption|reflexivity|unfold has_room; cbn; lia]]|exact Logic.I|].
      apply Hsel; done.
  - apply calmly_now. split_and!; done.
Qed.
Lemma inc_returns s : inv s → caps s → v_crash s = false → v_phase s = SWait → ¬ hangs s →
  calmly s (λ s', v_crash s' = false ∧ v_phase s' = SWait ∧ v_inc s' = IEnd ∧ v_coll s' = v_coll s ∧ v_clean s' = v_clean s).
Proof.
  intros I [_ C] Hc Hp Hd.
  assert (Hsel : ∀ s0, v_crash s0 = false → v_phase s0 = SWait → v_inc s0 = ISelect → v_coll s0 = v_coll s → v_clean s0 = v_clean s →
    calmly s0 (λ s', v_crash s' = false ∧ v_phase s' = SWait ∧ v_inc s' = IEnd ∧ v_coll s' = v_coll s ∧ v_clean s' = v_clean s)).
  { intros s0 H1 H2 H3 H4 H5. eapply calmly_step; [split; [exact H1|apply I_done; [exact H3|unfold cancelled; rewrite H2; reflexivity]]|exact Logic.I|].
    apply calmly_now. cbn. split_and!; done. }
  destruct (v_inc s) as [|p|] eqn:Hi.
  - apply Hsel; done.
  - destruct (lookup_lt_is_Some_2 (v_front s) p (inv_inc _ I p Hi)) as [c Hpc].
    assert (Hn : ¬ (pipe_cap ≤ p_len c ∧ p_idle c = 0)) by (intros [H1 H2]; apply Hd; exists p, c; done).
    destruct (decide (has_room c)) as [Hr|Hr].
    + eapply calmly_step; [split; [exact Hc|exact (I_fwd n q s p c Hi Hpc Hr)]|exact Logic.I|]. apply Hsel; done.
    + destruct c as [len cl id bu]. unfold has_room in Hr. cbn in Hr, Hn.
      destruct id as [|id]; [destruct Hn; split; [lia|done]|]. specialize (C _ _ Hpc). cbn in C.
      destruct len as [|len]; [unfold pipe_cap in Hr; lia|].
      eapply calmly_step; [split; [exact Hc|exact (F_take n q s p _ _ _ _ Hpc)]|exact Logic.I|].
      eapply calmly_step; [split; [exact Hc|eapply (I_fwd n q _ p); [exact Hi|cbn; apply list_lookup_insert; eapply lookup_lt_Some; eassumption|unfold has_room; cbn; lia]]|exact Logic.I|].
      apply Hsel; done.
  - apply calmly_now. split_and!; done.
Qed.

Lemma can_return s : inv s → caps s → stopping s → v_crash s = false → ¬ hangs s → ¬ doomed s → calmly s returned.
Proof.
  intros I C Hst Hc Hh Hd.
  assert (Hwait : ∀ s0, inv s0 → caps s0 → v_phase s0 = SWait → v_crash s0 = false → ¬ hangs s0 → ¬ doomed s0 → calmly s0 returned).
  { clear. intros s I C Hp Hc Hh Hd.
    destruct (coll_returns s I C Hc Hp Hd) as (ls1 & s1 & R1 & L1 & H1c & H1p & H1l & H1i & H1f & H1k).
    pose proof (inv_steps _ _ _ R1 I) as I1.
    assert (C1 : caps s1). { clear -R1 C. induction R1 as [|s l s1 ls s2 St R IH]; [exact C|]. exact (IH (caps_step _ _ _ St C)). }
    assert (Hh1 : ¬ hangs s1). { intros (p & c & A1 & A2 & A3). apply Hh. exists p, c. rewrite <- H1i, <- H1f. done. }
    destruct (inc_returns s1 I1 C1 H1c H1p Hh1) as (ls2 & s2 & R2 & L2 & H2c & H2p & H2i & H2l & H2k).
    assert (G : calmly s2 returned).
    { destruct (v_clean s2) eqn:Hk.
      - eapply calmly_step; [split; [exact H2c|apply K_done; [exact Hk|unfold cancelled; rewrite H2p; reflexivity]]|exact Logic.I|].
        eapply calmly_step; [split; [exact H2c|apply T_return; cbn; [exact H2p|congruence|exact H2i|reflexivity]]|exact Logic.I|].
        apply calmly_now. reflexivity.
      - eapply calmly_step; [split; [exact H2c|apply T_return; [exact H2p|congruence|exact H2i|exact Hk]]|exact Logic.I|].
        apply calmly_now. reflexivity. }
    destruct G as (ls3 & s3 & R3 & L3 & Hr).
    exists (ls1 ++ ls2 ++ ls3), s3. split_and!; [|by rewrite !Forall_app|exact Hr].
    eapply vsteps_app; [exact R1|]. eapply vsteps_app; eassumption. }
  destruct (v_phase s) eqn:Hp; [contradiction| | |].
  - pose proof (conj Hc (T_cancel n q s Hp) : vstep s LQuiet _) as St.
    eapply calmly_step; [exact St|exact Logic.I|].
    apply Hwait; [exact (inv_step _ _ _ St I)|exact (caps_step _ _ _ St C)|reflexivity|exact Hc|exact Hh|exact Hd].
  - by apply Hwait.
  - by apply calmly_now.
Qed.

(** * Servers that stop *)
Lemma pending_delete_eq (m : gmap string nat) (u : string) (p : nat) :
  m !! u = Some p → S (size (filter (λ e, e.2 = p) (delete u m))) = size (filter (λ e : string * nat, e.2 = p) m).
Proof.
  intros Hu. rewrite map_filter_delete, map_size_delete.
  assert (Hf : filter (λ e : string * nat, e.2 = p) m !! u = Some p) by (apply map_filter_lookup_Some; done).
  rewrite Hf. simpl.
  destruct (size (filter (λ e : string * nat, e.2 = p) m)) eqn:E; [|lia].
  apply map_size_empty_inv in E. rewrite E, lookup_empty in Hf. discriminate.
Qed.
Lemma pending_delete_le (m : gmap string nat) (u : string) (p : nat) :
  size (filter (λ e, e.2 = p) (delete u m)) ≤ size (filter (λ e : string * nat, e.2 = p) m).
Proof. rewrite map_filter_delete. apply size_delete_le. Qed.

Lemma pipes_case' (b : list pipe) (k k' : nat) (x c : pipe) :
  <[k := x]> b !! k' = Some c → (k = k' ∧ c = x) ∨ (k ≠ k' ∧ b !! k' = Some c) ∨ b !! k = None.
Proof.
  intros Hx. destruct (decide (k < length b)) as [Hl|Hl]; [|right; right; apply lookup_ge_None; lia].
  destruct (decide (k = k')) as [->|Hne].
  - rewrite list_lookup_insert in Hx by exact Hl. left. split; congruence.
  - rewrite list_lookup_insert_ne in Hx by exact Hne. right. left. done.
Qed.
Lemma room_step s l s' : stopping s → vstep s l s' → clients_have_room s → clients_have_room s'.
Proof.
  intros Hst [_ St] HR p0 c0 Hc. unfold stopping in Hst. unfold pending in *.
  pose proof (λ c, HR p0 c) as HR0. unfold pending in HR0.
  destruct St; cbn in Hc |- *; try congruence; try exact (HR0 _ Hc);
    try (match goal with E : v_inc s = _ |- _ => rewrite E in HR0 end).
  - specialize (HR0 _ Hc). lia.
  - specialize (HR0 _ Hc). lia.
  - specialize (HR0 _ Hc).
    match goal with E : v_table s !! u = Some p |- _ =>
      pose proof (pending_delete_le (v_table s) u p0); destruct (decide (p = p0)) as [<-|Hne]; [pose proof (pending_delete_eq (v_table s) u p E)|] end; lia.
  - apply pipes_case' in Hc as [[<- ->]|[[Hne Hc]|Hc]]; [| |congruence].
    + match goal with E : v_front s !! p = Some c |- _ => specialize (HR0 _ E) end. rewrite decide_True in HR0 by done. cbn. lia.
    + specialize (HR0 _ Hc). lia.
  - apply pipes_case' in Hc as [[<- ->]|[[Hne Hc]|Hc]]; [| |congruence].
    + match goal with E : v_front s !! p = Some _ |- _ => specialize (HR0 _ E) end. cbn in *. lia.
    + exact (HR0 _ Hc).
  - apply pipes_case' in Hc as [[<- ->]|[[Hne Hc]|Hc]]; [| |congruence].
    + match goal with E : v_front s !! p = Some _ |- _ => specialize (HR0 _ E) end. cbn in *. lia.
    + exact (HR0 _ Hc).
  - specialize (HR0 _ Hc). pose proof (pending_delete_le (v_table s) u p0). lia.
Qed.
Lemma room_no_hang s : clients_have_room s → ¬ hangs s.
Proof.
  intros HR (p & c & Hi & Hp & Hl & _). specialize (HR p c Hp). rewrite Hi, decide_True in HR by done. lia.
Qed.

Lemma known_step s l s' : stopping s → vstep s l s' → parcels_known s → parcels_known s'.
Proof.
  intros Hst [_ St] (K1 & K2 & K3). unfold stopping in Hst. split_and!.
  - intros p0 Hp. destruct St; cbn in Hp; try exact (K1 _ Hp);
      try (match goal with E : v_queue s = _ |- _ => apply K1; rewrite E; right; exact Hp end).
    apply elem_of_app in Hp as [Hp|Hp]; [exact (K1 _ Hp)|]. apply elem_of_list_singleton in Hp. subst p0.
    match goal with E : v_readers s !! _ = Some _ |- _ => refine (K2 _ p (elem_of_list_lookup_2 _ _ _ E) eq_refl) end.
  - intros r0 p0 Hr Hp. destruct St; cbn in Hr; try exact (K2 _ _ Hr Hp);
      try (apply elem_of_list_lookup in Hr as [k Hr]; destruct r0 as [i0 st0];
           apply readers_case in Hr as [Hr|Hr]; [injection Hr as -> ->; cbn in Hp; discriminate|];
           exact (K2 _ _ (elem_of_list_lookup_2 _ _ _ Hr) Hp)).
    all: contradiction.
  - intros i0 Hi. destruct St; cbn in Hi; try exact (K3 _ Hi); try discriminate Hi.
    match goal with E : v_queue s = ?p :: _, F : pa_known ?p = false |- _ => specialize (K1 p); rewrite E, F in K1; discriminate K1; left end.
Qed.
Lemma known_not_doomed s : parcels_known s → ¬ doomed s.
Proof. intros (_ & _ & K) (i & c & Hi & _). exact (K i Hi). Qed.

Lemma returns s ls s' : reachable n q s → stopping s → parcels_known s → clients_have_room s → vsteps s ls s' → final n q s' →
  returned s' ∨ v_crash s' = true.
Proof.
  intros Hr Hst HK HR R Hf. pose proof (reachable_inv _ Hr) as I. clear Hr.
  induction R as [s|s l s1 ls s2 St R IH].
  - destruct (final_outcome s I Hst Hf) as [?|[?|Hh]]; [by left|by right|]. destruct (room_no_hang _ HR Hh).
  - exact (IH (stopping_step _ _ _ Hst St) (known_step _ _ _ Hst St HK) (room_step _ _ _ Hst St HR) Hf (inv_step _ _ _ St I)).
Qed.

Lemma idle_step s l s' : stopping s → vstep s l s' → quiet s → quiet s' ∧ l ≠ LPanic ∧ v_crash s' = false.
Proof.
  intros Hst [Hcr St] (D1 & D2 & D3 & D4 & D5). unfold stopping in Hst.
  assert (Dj : ∀ k j, v_jobs s !! k = Some j → j = JGone) by (intros k j Hk; exact (D2 _ (elem_of_list_lookup_2 _ _ _ Hk))).
  assert (Dr : ∀ k i st, v_readers s !! k = Some (mkReader i st) → st = RdRecv ∨ st = RdEnd)
    by (intros k i st Hk; exact (D3 _ (elem_of_list_lookup_2 _ _ _ Hk))).
  assert (Db : ∀ k c, v_back s !! k = Some c → p_len c = 0 ∧ p_busy c = 0)
    by (intros k c Hk; exact (D5 _ (elem_of_list_lookup_2 _ _ _ Hk))).
  destruct St; try congruence;
    try (match goal with E : v_coll s = CError _ |- _ => destruct (D4 _ E) end);
    try (match goal with E : v_jobs s !! _ = Some _ |- _ => specialize (Dj _ _ E); discriminate Dj end);
    try (match goal with E : v_readers s !! _ = Some _ |- _ => specialize (Dr _ _ _ E); destruct Dr; discriminate end);
    try (match goal with E : v_back s !! _ = Some (mkPipe _ _ _ (S _)) |- _ => specialize (Db _ _ E); cbn in Db; lia end);
    try (match goal with E : v_back s !! _ = Some (mkPipe (S _) _ _ _) |- _ => specialize (Db _ _ E); cbn in Db; lia end);
    (split; [|split; [discriminate|exact Hcr]]); unfold quiet; cbn; split_and!; try assumption; try discriminate.
  - intros c Hc. apply elem_of_list_lookup in Hc as [k Hc]. apply pipes_case in Hc as [->|Hc]; [|exact (Db _ _ Hc)].
    match goal with E : v_back s !! _ = Some _ |- _ => specialize (Db _ _ E) end. cbn in *. exact Db.
  - intros r0 Hr. apply elem_of_list_lookup in Hr as [k Hr]. destruct r0 as [i0 st0].
    apply readers_case in Hr as [Hr|Hr]; [injection Hr as -> ->; by right|]. exact (Dr _ _ _ Hr).
Qed.
Lemma idle_known s : quiet s → parcels_known s.
Proof.
  intros (D1 & D2 & D3 & D4 & D5). split_and!; [|intros r p Hr Hp; destruct (D3 r Hr); congruence|exact D4].
  rewrite D1. intros p Hp. inversion Hp.
Qed.
Lemma idle_steps s ls s' : stopping s → vsteps s ls s' → quiet s → v_crash s = false → LPanic ∉ ls ∧ v_crash s' = false.
Proof.
  intros Hst R. induction R as [s|s l s1 ls s2 St R IH]; intros Hi Hc; [split; [apply not_elem_of_nil|exact Hc]|].
  destruct (idle_step _ _ _ Hst St Hi) as (Hi1 & Hl & Hc1). destruct (IH (stopping_step _ _ _ Hst St) Hi1 Hc1) as [H1 H2].
  split; [|exact H2]. apply not_elem_of_cons. split; [exact (not_eq_sym Hl)|exact H1].
Qed.

(** * After Stop *)
Lemma nothing_delivered s ls s' i : stopping s → vsteps s ls s' → LToRelay i ∉ ls ∧ LToClient i ∉ ls.
Proof.
  intros Hst R. induction R as [s|s l s1 ls s2 St R IH]; [split; apply not_elem_of_nil|].
  destruct (IH (stopping_step _ _ _ Hst St)) as [H1 H2].
  assert (l ≠ LToRelay i ∧ l ≠ LToClient i) as [H3 H4].
  { destruct St as [_ St]. unfold stopping in Hst. destruct St; split; congruence. }
  split; apply not_elem_of_cons; split; try assumption; congruence.
Qed.

Lemma omap_insert {A B} (f : A → option B) (l : list A) (k : nat) (x y : A) :
  l !! k = Some x → option_list (f y) ++ omap f l ≡ₚ option_list (f x) ++ omap f (<[k := y]> l).
Proof.
  intros Hk. rewrite (insert_take_drop l k y) by (eapply lookup_lt_Some; exact Hk).
  rewrite <- (take_drop_middle l k x Hk) at 1. rewrite !omap_app. simpl.
  destruct (f x), (f y); simpl; solve_Permutation.
Qed.
Lemma ended_step s l s' : v_coll s = CEnd → vstep s l s' →
  v_coll s' = CEnd ∧ (∀ u, l ≠ LTask u) ∧ handled [l] ++ waiting s' ⊆+ waiting s.
Proof.
  intros He [_ St].
  assert (Hq : ∀ s0, v_jobs s0 = v_jobs s → waiting s0 ⊆+ waiting s) by (intros s0 E; unfold waiting; rewrite E; reflexivity).
  destruct St; try congruence; (split; [exact He|split; [discriminate|]]); try (apply Hq; reflexivity); cbn [handled omap list_omap app set_jobs waiting v_jobs];
    match goal with E : v_jobs s !! ?k = Some ?x |- context [<[?k := ?y]> (v_jobs s)] =>
    pose proof (omap_insert (λ j, match j with JRun u => Some u | _ => None end) (v_jobs s) k x y E) as HP end;
    cbn in HP; unfold waiting in *; cbn; rewrite HP; try reflexivity; apply submseteq_cons; reflexivity.
Qed.
Lemma ended_steps s ls s' : v_coll s = CEnd → vsteps s ls s' → (∀ u, LTask u ∉ ls) ∧ handled ls ⊆+ waiting s.
Proof.
  intros He R. induction R as [s|s l s1 ls s2 St R IH]; [split; [intros u; apply not_elem_of_nil|apply submseteq_nil_l]|].
  destruct (ended_step _ _ _ He St) as (He1 & Hl & Hs). destruct (IH He1) as [H1 H2]. split.
  - intros u. apply not_elem_of_cons. split; [exact (not_eq_sym (Hl u))|exact (H1 u)].
  - change (l :: ls) with ([l] ++ ls). unfold handled. rewrite omap_app. etrans; [|exact Hs].
    apply submseteq_app; [reflexivity|exact H2].
Qed.
End stop.
