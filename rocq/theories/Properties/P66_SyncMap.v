(** C125: the shared map of internal/msync (Model/SyncMap.v), for every interleaving of its users. *)
From stdpp Require Import gmap.
From Verif.Base Require Import Base.
From Verif.Model Require Import SyncMap.

(** ** Specification *)
Section spec.
Context {K : Type} `{Countable K} {V O : Type} (is_nil : V → bool).
Notation label := (mlabel K V O).

(** The event writes v under k: a Store, or a LoadOrStore that found nothing. *)
Definition puts (k : K) (v : V) (l : label) : Prop :=
  (∃ r, l = MOp (Store k v) r) ∨ ∃ x, l = MOp (LoadOrStore k v) (RVal x false).
(** The event leaves nothing under k. *)
Definition removes (k : K) (l : label) : Prop := ∃ r, l = MOp (Delete k) r ∨ l = MOp (LoadAndDelete k) r.
(** v was the last value written under k, and was not removed since. *)
Definition holds (k : K) (v : V) (tr : list label) : Prop :=
  ∃ tr1 l tr2, tr = tr1 ++ l :: tr2 ∧ puts k v l ∧ ∀ l', l' ∈ tr2 → (∀ v', ¬ puts k v' l') ∧ ¬ removes k l'.
(** Nothing was written under k, ever or since it was last removed. *)
Definition lacks (k : K) (tr : list label) : Prop :=
  ∃ tr1 tr2, tr = tr1 ++ tr2 ∧ (tr1 = [] ∨ ∃ tr0 l, tr1 = tr0 ++ [l] ∧ removes k l) ∧ ∀ l, l ∈ tr2 → ∀ v, ¬ puts k v l.
(** All writes go through the typed methods; no nil interface is written. *)
Definition typed (tr : list label) : Prop :=
  ∀ l, l ∈ tr → match l with
                | MOp (RawStore _ _) _ => False
                | MOp (Store _ v) _ | MOp (LoadOrStore _ v) _ => is_nil v = false
                | _ => True
                end.
End spec.

Section proofs.
Context {K : Type} `{Countable K} {V O : Type} (zero : V) (is_nil : V → bool).
Notation label := (mlabel K V O).
Notation state := (mstate K V O).
Notation step := (mstep (K:=K) (O:=O) zero is_nil).
Notation run := (mrun (K:=K) (O:=O) zero is_nil).

Inductive msteps : state → list label → state → Prop :=
| mss_nil s : msteps s [] s
| mss_cons s l s1 tr s2 : step s l s1 → msteps s1 tr s2 → msteps s (l :: tr) s2.

Lemma msteps_app s tr1 tr2 s' : msteps s (tr1 ++ tr2) s' ↔ ∃ s1, msteps s tr1 s1 ∧ msteps s1 tr2 s'.
Proof.
  revert s. induction tr1 as [|l tr1 IH]; intros s; simpl.
  - split; [intros Hs; exists s; split; [constructor|done]|]. intros (s1 & Hs & Hr). by inversion Hs; subst.
  - split.
    + intros Hs. inversion Hs as [|? ? s2 ? ? Hst Hrest]; subst. apply IH in Hrest as (s1 & ? & ?). exists s1. split; [by econstructor|done].
    + intros (s1 & Hs & Hr). inversion Hs as [|? ? s2 ? ? Hst Hrest]; subst. econstructor; [done|]. apply IH. eauto.
Qed.
Lemma run_msteps tr s : run tr s ↔ msteps empty_map tr s.
Proof.
  split.
  - induction 1 as [|tr l s s' Hr IH Hs]; [constructor|]. apply msteps_app. exists s. split; [done|]. econstructor; [done|constructor].
  - revert s. induction tr as [|l tr IH] using rev_ind; intros s Hs.
    + inversion Hs; subst. constructor.
    + apply msteps_app in Hs as (s1 & Hs1 & Hl). inversion Hl as [|? ? s2 ? ? Hst Hrest]; subst.
      inversion Hrest; subst. econstructor; [by apply IH|done].
Qed.
Lemma run_split tr1 l tr2 s : run (tr1 ++ l :: tr2) s → ∃ s1 s2, run tr1 s1 ∧ step s1 l s2 ∧ msteps s2 tr2 s.
Proof.
  rewrite run_msteps, msteps_app. intros (s1 & Hr & Hs). inversion Hs as [|? ? s2 ? ? Hst Hrest]; subst.
  exists s1, s2. by rewrite run_msteps.
Qed.

(** The content of a key, event by event. *)
Lemma step_put s l s' k v : step s l s' → puts k v l → is_nil v = false → m_map s' !! k = Some (AVal v).
Proof.
  intros Hs Hp Hn. destruct Hp as [[r ->]|[x ->]]; inversion Hs as [? ? m ? Hd| | |]; subst; simpl in *.
  - simplify_eq. rewrite lookup_insert. unfold box. by rewrite Hn.
  - destruct (m_map s !! k) as [a|] eqn:E; simplify_eq.
    + unfold asserted in *. destruct (cast a); simplify_eq.
    + rewrite lookup_insert. unfold box. by rewrite Hn.
Qed.
Lemma step_remove s l s' k : step s l s' → removes k l → m_map s' !! k = None.
Proof.
  intros Hs [r [->| ->]]; inversion Hs as [? ? m ? Hd| | |]; subst; simpl in *; simplify_eq; apply lookup_delete.
Qed.
Lemma step_leaves s l s' k : step s l s' → typed (K:=K) (O:=O) is_nil [l] → (∀ v, ¬ puts k v l) → ¬ removes k l → m_map s' !! k = m_map s !! k.
Proof.
  intros Hs Ht Hp Hr. specialize (Ht l ltac:(by apply elem_of_list_singleton)).
  inversion Hs as [o ? m r Hd| | |]; subst; simpl; try done.
  destruct o as [k'|k' v'|k'|k'|k' v'|k' a']; simpl in Hd; simplify_eq; try done.
  - destruct (decide (k' = k)) as [->|]; [|by rewrite lookup_insert_ne]. exfalso. eapply Hp. left. eauto.
  - destruct (decide (k' = k)) as [->|]; [|by rewrite lookup_delete_ne]. exfalso. eapply Hr. eexists. eauto.
  - destruct (decide (k' = k)) as [->|]; [|by rewrite lookup_delete_ne]. exfalso. eapply Hr. eexists. eauto.
  - destruct (m_map s !! k') as [a|] eqn:E; simplify_eq; [done|].
    destruct (decide (k' = k)) as [->|]; [|by rewrite lookup_insert_ne].
    exfalso. eapply Hp. right. unfold asserted, box. rewrite Ht. simpl. eauto.
Qed.
Lemma typed_app tr1 tr2 : typed (K:=K) (O:=O) is_nil (tr1 ++ tr2) ↔ typed (K:=K) (O:=O) is_nil tr1 ∧ typed (K:=K) (O:=O) is_nil tr2.
Proof. unfold typed. setoid_rewrite elem_of_app. naive_solver. Qed.
Lemma typed_cons l tr : typed (K:=K) (O:=O) is_nil (l :: tr) ↔ typed (K:=K) (O:=O) is_nil [l] ∧ typed (K:=K) (O:=O) is_nil tr.
Proof. apply (typed_app [l]). Qed.
Lemma msteps_leaves s tr s' k : msteps s tr s' → typed (K:=K) (O:=O) is_nil tr →
  (∀ l, l ∈ tr → (∀ v, ¬ puts k v l) ∧ ¬ removes k l) → m_map s' !! k = m_map s !! k.
Proof.
  induction 1 as [|s l s1 tr s2 Hs Hss IH]; intros Ht Hl; [done|]. apply typed_cons in Ht as [Ht1 Ht2].
  rewrite IH; [|done|intros l' Hl'; apply Hl; by right].
  destruct (Hl l ltac:(by left)). by apply (step_leaves _ _ _ _ Hs).
Qed.

(** Every event either writes k, or removes it, or neither. *)
Lemma puts_cases (k : K) (l : label) : (∃ v, puts k v l) ∨ ∀ v, ¬ puts k v l.
Proof.
  destruct l as [o r| | |]; try (right; intros v [[? ?]|[? ?]]; done).
  destruct o as [k'|k' v'|k'|k'|k' v'|k' a']; try (right; intros v [[? ?]|[? ?]]; done).
  - destruct (decide (k' = k)) as [->|]; [left; exists v'; left; eauto|right; intros v [[? ?]|[? ?]]; by simplify_eq].
  - destruct (decide (k' = k)) as [->|]; [|right; intros v [[? ?]|[? ?]]; by simplify_eq].
    destruct r as [x [|]| |]; try (right; intros v [[? ?]|[? ?]]; by simplify_eq). left. exists v'. right. eauto.
Qed.
Lemma removes_cases (k : K) (l : label) : removes k l ∨ ¬ removes k l.
Proof.
  destruct l as [o r| | |]; try (right; intros [? [?|?]]; done).
  destruct o as [k'|k' v'|k'|k'|k' v'|k' a']; try (right; intros [? [?|?]]; done).
  - destruct (decide (k' = k)) as [->|]; [left; exists r; eauto|right; intros [? [?|?]]; by simplify_eq].
  - destruct (decide (k' = k)) as [->|]; [left; exists r; eauto|right; intros [? [?|?]]; by simplify_eq].
Qed.
Lemma puts_not_removes (k : K) v (l : label) : puts k v l → ¬ removes k l.
Proof. intros [[? ->]|[? ->]] [? [?|?]]; by simplify_eq. Qed.

Lemma content tr s : run tr s → typed (K:=K) (O:=O) is_nil tr → ∀ k,
  (∃ v, m_map s !! k = Some (AVal v) ∧ holds k v tr) ∨ (m_map s !! k = None ∧ lacks k tr).
Proof.
  induction 1 as [|tr l s s' Hr IH Hs]; intros Ht k.
  { right. split; [done|]. exists [], []. split; [done|]. split; [by left|]. intros l Hl. by apply elem_of_nil in Hl. }
  apply typed_app in Ht as [Ht1 Ht2]. specialize (IH Ht1 k).
  destruct (puts_cases k l) as [[v Hp]|Hp].
  - left. exists v. split.
    + apply (step_put s l); [done|done|]. specialize (Ht2 l ltac:(by apply elem_of_list_singleton)).
      destruct Hp as [[? ->]|[? ->]]; done.
    + exists tr, l, []. split; [done|]. split; [done|]. intros l' Hl'. by apply elem_of_nil in Hl'.
  - destruct (removes_cases k l) as [Hrm|Hrm].
    + right. split; [by apply (step_remove s l)|]. exists (tr ++ [l]), []. rewrite app_nil_r. split; [done|].
      split; [right; eauto|]. intros l' Hl'. by apply elem_of_nil in Hl'.
    + rewrite (step_leaves s l s' k) by done. destruct IH as [(v & Hk & tr1 & l0 & tr2 & -> & Hl0 & Hrest)|(Hk & tr1 & tr2 & -> & H1 & Hrest)].
      * left. exists v. split; [done|]. exists tr1, l0, (tr2 ++ [l]). split; [by rewrite <- app_assoc|]. split; [done|].
        intros l' [Hl'|Hl']%elem_of_app; [by apply Hrest|]. apply elem_of_list_singleton in Hl' as ->. done.
      * right. split; [done|]. exists tr1, (tr2 ++ [l]). split; [by rewrite app_assoc|]. split; [done|].
        intros l' [Hl'|Hl']%elem_of_app; [by apply Hrest|]. apply elem_of_list_singleton in Hl' as ->. done.
Qed.
Lemma holds_content tr s k v : run tr s → typed (K:=K) (O:=O) is_nil tr → holds k v tr → m_map s !! k = Some (AVal v).
Proof.
  intros Hr Ht (tr1 & l & tr2 & -> & Hp & Hrest). apply run_split in Hr as (s1 & s2 & _ & Hs & Hss).
  apply typed_app in Ht as [_ Ht]. apply typed_cons in Ht as [Hl Ht2].
  rewrite (msteps_leaves s2 tr2 s k) by done. apply (step_put s1 l); [done|done|].
  specialize (Hl l ltac:(by apply elem_of_list_singleton)). destruct Hp as [[? ->]|[? ->]]; done.
Qed.

(** ** C125 *)
(** Every call is answered by the last write to its key; the methods never panic. *)
Theorem C125_answers tr1 o r tr2 s :
  run (tr1 ++ MOp o r :: tr2) s → typed (K:=K) (O:=O) is_nil (tr1 ++ [MOp o r]) →
  match o with
  | Load k | LoadAndDelete k => (∃ v, r = RVal v true ∧ holds k v tr1) ∨ (r = RVal zero false ∧ lacks k tr1)
  | LoadOrStore k v => (∃ v', r = RVal v' true ∧ holds k v' tr1) ∨ (r = RVal v false ∧ lacks k tr1)
  | _ => r = RDone
  end.
Proof.
  intros (s1 & s2 & Hr & Hs & _)%run_split Ht. apply typed_app in Ht as [Ht1 Ht2].
  specialize (Ht2 _ ltac:(by apply elem_of_list_singleton)).
  inversion Hs as [? ? m ? Hd| | |]; subst. destruct o as [k'|k' v'|k'|k'|k' v'|k' a']; simpl in Hd; simplify_eq; try done.
  - destruct (content _ _ Hr Ht1 k') as [(v & -> & Hh)|(-> & Hl)]; [left; simpl; eauto|by right].
  - destruct (content _ _ Hr Ht1 k') as [(v & -> & Hh)|(-> & Hl)]; [left; simpl; eauto|by right].
  - destruct (content _ _ Hr Ht1 k') as [(v & E & Hh)|(E & Hl)]; rewrite E in Hd; simplify_eq.
    + left. simpl. eauto.
    + right. unfold asserted, box. rewrite Ht2. simpl. done.
Qed.

(** Two goroutines never take the same write. *)
Theorem C125_taken_once tr1 k v tr2 v' tr3 s :
  run (tr1 ++ MOp (LoadAndDelete k) (RVal v true) :: tr2 ++ MOp (LoadAndDelete k) (RVal v' true) :: tr3) s →
  typed (K:=K) (O:=O) is_nil (tr1 ++ MOp (LoadAndDelete k) (RVal v true) :: tr2) →
  ∃ l, l ∈ tr2 ∧ puts k v' l.
Proof.
  intros Hr Ht. rewrite app_comm_cons, app_assoc in Hr. apply C125_answers in Hr; simpl in Hr.
  2:{ apply typed_app. split; [done|]. intros l ->%elem_of_list_singleton. done. }
  destruct Hr as [(w & ? & a & l & b & Heq & Hp & Hrest)|[? _]]; simplify_eq.
  exists l. split; [|done]. apply app_eq_inv in Heq as [(c & -> & Heq)|(c & -> & Heq)].
  - destruct c as [|x c]; simplify_eq/=.
    + destruct Hp as [[? ?]|[? ?]]; simplify_eq.
    + exfalso. destruct (Hrest (MOp (LoadAndDelete k) (RVal v true))) as [_ Hn]; [set_solver|]. apply Hn. eexists. eauto.
  - destruct c as [|x c]; simplify_eq/=.
    + destruct Hp as [[? ?]|[? ?]]; simplify_eq.
    + set_solver.
Qed.

(** Of several LoadOrStore one creates the entry. *)
Theorem C125_one_creator tr1 k v tr2 v' tr3 s :
  run (tr1 ++ MOp (LoadOrStore k v) (RVal v false) :: tr2 ++ MOp (LoadOrStore k v') (RVal v' false) :: tr3) s →
  typed (K:=K) (O:=O) is_nil (tr1 ++ MOp (LoadOrStore k v) (RVal v false) :: tr2) → is_nil v' = false →
  ∃ l, l ∈ tr2 ∧ removes k l.
Proof.
  intros Hr Ht Hv'. rewrite app_comm_cons, app_assoc in Hr. apply C125_answers in Hr; simpl in Hr.
  2:{ apply typed_app. split; [done|]. intros l ->%elem_of_list_singleton. done. }
  destruct Hr as [(w & ? & _)|(_ & a & b & Heq & Ha & Hb)]; simplify_eq.
  assert (Hput : puts k v (MOp (LoadOrStore k v) (RVal v false) : label)) by (right; eauto).
  destruct Ha as [->|(a0 & l & -> & Hl)].
  { exfalso. simpl in Heq. eapply (Hb (MOp (LoadOrStore k v) (RVal v false))); [rewrite <- Heq; set_solver|done]. }
  exists l. split; [|done]. rewrite <- app_assoc in Heq. simpl in Heq.
  apply app_eq_inv in Heq as [(c & -> & Heq)|(c & -> & Heq)].
  - destruct c as [|x c]; simplify_eq/=.
    + by destruct (puts_not_removes _ _ _ Hput).
    + exfalso. eapply (Hb (MOp (LoadOrStore k v) (RVal v false))); [set_solver|done].
  - destruct c as [|x c]; simplify_eq/=.
    + by destruct (puts_not_removes _ _ _ Hput).
    + set_solver.
Qed.

(** While nobody overwrites or removes it, every LoadOrStore gets the value the first one got. *)
Theorem C125_same_value tr1 k v x b tr2 v' r tr3 s :
  run (tr1 ++ MOp (LoadOrStore k v) (RVal x b) :: tr2 ++ MOp (LoadOrStore k v') r :: tr3) s →
  typed (K:=K) (O:=O) is_nil (tr1 ++ MOp (LoadOrStore k v) (RVal x b) :: tr2) →
  (∀ l, l ∈ tr2 → ¬ removes k l ∧ ∀ w r', l ≠ MOp (Store k w) r') →
  r = RVal x true.
Proof.
  intros Hr Ht Hno. apply run_split in Hr as (s1 & s2 & Hr1 & Hs & Hss).
  apply msteps_app in Hss as (s3 & Hss2 & Hss3). inversion Hss3 as [|? ? s4 ? ? Hs3 _]; subst.
  apply typed_app in Ht as [Ht1 Ht2]. apply typed_cons in Ht2 as [Htl Ht2].
  specialize (Htl _ ltac:(by apply elem_of_list_singleton)). simpl in Htl.
  assert (Hx : m_map s2 !! k = Some (AVal x)).
  { inversion Hs as [? ? m ? Hd| | |]; subst. simpl in *. destruct (content _ _ Hr1 Ht1 k) as [(w & E & _)|(E & _)]; rewrite E in Hd; simplify_eq/=.
    - unfold asserted in *. simpl in *. simplify_eq. exact E.
    - unfold asserted, box in *. rewrite Htl in *. simpl in *. simplify_eq. apply lookup_insert. }
  clear Hs Hr1 Ht1.
  assert (Hx3 : m_map s3 !! k = Some (AVal x)).
  { clear Hs3 Hss3. induction Hss2 as [|s2 l s2' tr2 s3 Hs Hss2 IH]; [done|]. apply typed_cons in Ht2 as [Ht1 Ht2].
    assert (Hno' : ∀ l', l' ∈ tr2 → ¬ removes k l' ∧ ∀ w r', l' ≠ MOp (Store k w) r') by (intros l' Hl'; apply Hno; by right).
    enough (m_map s2' !! k = Some (AVal x)) by auto.
    destruct (Hno l ltac:(by left)) as [Hn1 Hn2]. destruct (puts_cases k l) as [[w Hp]|Hp].
    - destruct Hp as [[? ->]|[y ->]]; [by edestruct Hn2|]. inversion Hs as [? ? m ? Hd| | |]; subst. simpl in Hd. rewrite Hx in Hd. simplify_eq.
    - by rewrite (step_leaves s2 l s2' k). }
  inversion Hs3 as [? ? m ? Hd| | |]; subst. simpl in Hd. rewrite Hx3 in Hd. simplify_eq. done.
Qed.

(** ** Range *)
Lemma no_range s tr s' t : msteps s tr s' → m_ranges s !! t = None → MRange t ∉ tr → m_ranges s' !! t = None.
Proof.
  induction 1 as [|s l s1 tr s2 Hs Hss IH]; intros Hn Hnot; [done|]. apply IH; [|set_solver].
  inversion Hs as [| | |]; subst; simpl.
  - by rewrite lookup_fmap, Hn.
  - rewrite lookup_insert_ne; [done|]. intros ->. set_solver.
  - rewrite lookup_insert_ne; [done|]. intros ->. congruence.
  - rewrite lookup_delete_None. by right.
Qed.

(** A Range in progress since the state s0. *)
Record range_inv (s0 : state) (t : nat) (tr : list label) (s : state) (r : ranging) : Prop := {
  ri_here : m_ranges s !! t = Some r;
  ri_visited : ∀ k, k ∈ r_visited r ↔ ∃ a b, MVisit t k a b ∈ tr;
  ri_once : ∀ k a b c d e f g, tr ≠ c ++ MVisit t k a b :: d ++ MVisit t k e f :: g;
  ri_seen : ∀ k a, (k, a) ∈ r_seen r → ∃ pre post si, tr = pre ++ post ∧ msteps s0 pre si ∧ m_map si !! k = Some a;
  ri_must : ∀ k, is_Some (m_map s0 !! k) → (∀ l, l ∈ tr → ¬ removes k l) → k ∈ r_must r ∧ is_Some (m_map s !! k);
  ri_stop : r_stop r = true → ∃ k a, MVisit t k a false ∈ tr }.

Lemma step_kept s l s' k : step s l s' → is_Some (m_map s !! k) → ¬ removes k l → is_Some (m_map s' !! k).
Proof.
  intros Hs [a Ha] Hr. inversion Hs as [o ? m r Hd| | |]; subst; simpl; eauto.
  destruct o as [k'|k' v'|k'|k'|k' v'|k' a']; simpl in Hd; simplify_eq; eauto.
  - destruct (decide (k' = k)) as [->|]; [rewrite lookup_insert; eauto|rewrite lookup_insert_ne; eauto].
  - destruct (decide (k' = k)) as [->|]; [|rewrite lookup_delete_ne; eauto]. exfalso. apply Hr. eexists; eauto.
  - destruct (decide (k' = k)) as [->|]; [|rewrite lookup_delete_ne; eauto]. exfalso. apply Hr. eexists; eauto.
  - destruct (m_map s !! k') as [a'|] eqn:E; simplify_eq; eauto.
    destruct (decide (k' = k)) as [->|]; [rewrite lookup_insert; eauto|rewrite lookup_insert_ne; eauto].
  - destruct (decide (k' = k)) as [->|]; [rewrite lookup_insert; eauto|rewrite lookup_insert_ne; eauto].
Qed.

Lemma range_progress s00 t s0 tr s :
  step s00 (MRange t) s0 → msteps s0 tr s → MRange t ∉ tr → MRangeEnd t ∉ tr → ∃ r, range_inv s0 t tr s r.
Proof.
  intros Hst. revert s. induction tr as [|l tr IH] using rev_ind; intros s Hss Hn1 Hn2.
  { inversion Hss; subst. inversion Hst; subst. exists (mkRanging (map_to_list (m_map s00)) (dom (m_map s00)) ∅ false). constructor; simpl.
    - apply lookup_insert.
    - intros k. split; [set_solver|]. intros (a & b & Hin). by apply elem_of_nil in Hin.
    - intros ? ? ? [|? ?] ? ? ? ?; done.
    - intros k a Hin%elem_of_map_to_list. exists [], [], (mkM (m_map s00) (<[t:=mkRanging (map_to_list (m_map s00)) (dom (m_map s00)) ∅ false]> (m_ranges s00))).
      split; [done|]. split; [constructor|done].
    - intros k Hk _. split; [by apply elem_of_dom|done].
    - done. }
  apply msteps_app in Hss as (s1 & Hss & Hl). inversion Hl as [|? ? s2 ? ? Hs Hnil]; subst. inversion Hnil; subst.
  destruct (IH s1 Hss ltac:(set_solver) ltac:(set_solver)) as [r [R1 R2 R3 R4 R5 R6]].
  assert (Hall : msteps s0 (tr ++ [l]) s) by (apply msteps_app; exists s1; split; [done|]; econstructor; [done|constructor]).
  assert (Honce : (∀ k a b, l ≠ MVisit t k a b) → ∀ k a b c d e f g, tr ++ [l] ≠ c ++ MVisit t k a b :: d ++ MVisit t k e f :: g).
  { intros Hnv k a b c d e f g Heq. destruct g as [|x g] using rev_ind.
    - rewrite app_comm_cons, app_assoc in Heq. apply app_inj_2 in Heq as [_ ?]; [|done]. simplify_eq. by eapply Hnv.
    - replace (c ++ MVisit t k a b :: d ++ MVisit t k e f :: g ++ [x]) with ((c ++ MVisit t k a b :: d ++ MVisit t k e f :: g) ++ [x]) in Heq
        by (rewrite <- !app_assoc; simpl; rewrite <- !app_assoc; done).
      apply app_inj_2 in Heq as [Heq _]; [|done]. by eapply R3. }
  assert (Hvis : (∀ k a b, l ≠ MVisit t k a b) → ∀ k, (∃ a b, MVisit t k a b ∈ tr) ↔ ∃ a b, MVisit t k a b ∈ tr ++ [l]).
  { intros Hnv k. split; [set_solver|]. intros (a & b & [Hin|Hin%elem_of_list_singleton]%elem_of_app); [eauto|]. by edestruct Hnv. }
  assert (Hseen : ∀ k a, (k, a) ∈ r_seen r → ∃ pre post si, tr ++ [l] = pre ++ post ∧ msteps s0 pre si ∧ m_map si !! k = Some a).
  { intros k a Hin. destruct (R4 k a Hin) as (pre & post & si & -> & ? & ?). exists pre, (post ++ [l]), si. by rewrite <- app_assoc. }
  assert (Hmust : ∀ k, is_Some (m_map s0 !! k) → (∀ l', l' ∈ tr ++ [l] → ¬ removes k l') → k ∈ r_must r ∧ is_Some (m_map s !! k)).
  { intros k Hk Hnr. destruct (R5 k Hk) as [? ?]; [intros l' ?; apply Hnr; set_solver|]. split; [done|].
    apply (step_kept s1 l); [done|done|apply Hnr; set_solver]. }
  inversion Hs as [o ? m res Hd|t' ? Hnone|t' ? r' k' a' more Hr' Hstop' Hk' Ha'|t' ? r' Hr' Hend]; subst; simpl in *.
  - exists (noticed m r). constructor; simpl.
    + by rewrite lookup_fmap, R1.
    + intros k. rewrite R2. by apply Hvis.
    + by apply Honce.
    + intros k a [Hin|Hin%elem_of_map_to_list]%elem_of_app; [by apply Hseen|].
      eexists (tr ++ [_]), [], _. split; [by rewrite app_nil_r|]. split; [exact Hall|done].
    + intros k Hk Hnr. destruct (Hmust k Hk Hnr) as [? ?]. split; [|done]. apply elem_of_intersection. split; [done|by apply elem_of_dom].
    + intros (k & a & ?)%R6. set_solver.
  - assert (t' ≠ t) by (intros ->; congruence). exists r. constructor; simpl; try done.
    + by rewrite lookup_insert_ne.
    + intros k. rewrite R2. by apply Hvis.
    + by apply Honce.
    + intros (k & a & ?)%R6. set_solver.
  - destruct (decide (t' = t)) as [->|Hne].
    + rewrite R1 in Hr'. simplify_eq. exists (mkRanging (r_seen r') (r_must r') ({[k']} ∪ r_visited r') (negb more)). constructor; simpl.
      * apply lookup_insert.
      * intros k. rewrite elem_of_union, elem_of_singleton, R2. split.
        -- intros [->|(a & b & ?)]; [exists a', more; set_solver|set_solver].
        -- intros (a & b & [Hin|Hin%elem_of_list_singleton]%elem_of_app); [right; eauto|]. simplify_eq. by left.
      * intros k a b c d e f g Heq. destruct g as [|x g] using rev_ind.
        -- rewrite app_comm_cons, app_assoc in Heq. apply app_inj_2 in Heq as [-> ?]; [|done]. simplify_eq.
           apply Hk', R2. exists a, b. set_solver.
        -- replace (c ++ MVisit t k a b :: d ++ MVisit t k e f :: g ++ [x]) with ((c ++ MVisit t k a b :: d ++ MVisit t k e f :: g) ++ [x]) in Heq
             by (rewrite <- !app_assoc; simpl; rewrite <- !app_assoc; done).
           apply app_inj_2 in Heq as [Heq _]; [|done]. by eapply R3.
      * done.
      * done.
      * intros Hmore. exists k', a'. apply elem_of_app. right. apply elem_of_list_singleton. f_equal. by destruct more.
    + assert (Hnv : ∀ k a b, MVisit t' k' a' more ≠ (MVisit t k a b : label)) by (intros; congruence).
      exists r. constructor; simpl; try done.
      * by rewrite lookup_insert_ne.
      * intros k. rewrite R2. by apply Hvis.
      * by apply Honce.
      * intros (k & a & ?)%R6. set_solver.
  - assert (t' ≠ t) by (intros ->; apply Hn2; set_solver). exists r. constructor; simpl; try done.
    + by rewrite lookup_delete_ne.
    + intros k. rewrite R2. by apply Hvis.
    + by apply Honce.
    + intros (k & a & ?)%R6. set_solver.
Qed.

Lemma still_ranging s00 t s0 tr s r :
  step s00 (MRange t) s0 → msteps s0 tr s → MRange t ∉ tr → m_ranges s !! t = Some r → MRangeEnd t ∉ tr.
Proof.
  intros Hst Hss Hn Hr [tr1 [tr2 ->]]%elem_of_list_split. apply msteps_app in Hss as (s1 & _ & Hss).
  inversion Hss as [|? ? s2 ? ? Hs Hss2]; subst. inversion Hs; subst.
  apply (no_range _ _ _ t) in Hss2; [congruence|simpl; apply lookup_delete|set_solver].
Qed.

(** A Range calls its function for no key twice; *)
Theorem C125_range_once tr1 t c k a b d a' b' tr3 s :
  run (tr1 ++ MRange t :: c ++ MVisit t k a b :: d ++ MVisit t k a' b' :: tr3) s → MRange t ∉ c → MRange t ∉ d → False.
Proof.
  intros (s00 & s0 & _ & Hst & Hss)%run_split Hc Hd.
  replace (c ++ MVisit t k a b :: d ++ MVisit t k a' b' :: tr3) with ((c ++ MVisit t k a b :: d ++ [MVisit t k a' b']) ++ tr3) in Hss
    by (rewrite <- !app_assoc; simpl; rewrite <- !app_assoc; done).
  apply msteps_app in Hss as (s1 & Hss & _).
  assert (Hn : MRange t ∉ c ++ MVisit t k a b :: d ++ [MVisit t k a' b']) by set_solver.
  assert (∃ r, m_ranges s1 !! t = Some r) as [r Hr].
  { rewrite app_comm_cons, app_assoc in Hss. apply msteps_app in Hss as (s2 & _ & Hl). inversion Hl as [|? ? s3 ? ? Hs Hnil]; subst.
    inversion Hnil; subst. inversion Hs; subst. simpl. rewrite lookup_insert. eauto. }
  destruct (range_progress _ _ _ _ _ Hst Hss Hn) as [r' R]; [by eapply still_ranging|].
  by eapply (ri_once _ _ _ _ _ R).
Qed.

(** each value it is given was under that key at some moment since the Range began; *)
Theorem C125_range_value tr1 t tr2 k a b tr3 s :
  run (tr1 ++ MRange t :: tr2 ++ MVisit t k a b :: tr3) s → typed (K:=K) (O:=O) is_nil (tr1 ++ tr2) → MRange t ∉ tr2 →
  ∃ v pre post, a = AVal v ∧ tr2 = pre ++ post ∧ holds k v (tr1 ++ MRange t :: pre).
Proof.
  intros (s00 & s0 & Hr & Hst & Hss)%run_split Ht Hn. apply msteps_app in Hss as (s1 & Hss & Hl).
  inversion Hl as [|? ? s2 ? ? Hs _]; subst. inversion Hs as [| |? ? r ? ? ? Hr1 Hstop Hk Ha|]; subst.
  destruct (range_progress _ _ _ _ _ Hst Hss Hn) as [r' R]; [by eapply still_ranging|].
  pose proof (ri_here _ _ _ _ _ R) as Hh. rewrite Hr1 in Hh. injection Hh as <-.
  destruct (ri_seen _ _ _ _ _ R k a Ha) as (pre & post & si & -> & Hpre & Hki).
  assert (Hrun : run (tr1 ++ MRange t :: pre) si).
  { apply run_msteps, msteps_app. exists s00. split; [by apply run_msteps|]. by econstructor. }
  assert (Htp : typed (K:=K) (O:=O) is_nil (tr1 ++ MRange t :: pre)).
  { apply typed_app in Ht as [Ht1 Ht2]. apply typed_app in Ht2 as [Ht2 _]. apply typed_app. split; [done|].
    apply typed_cons. split; [|done]. intros l ->%elem_of_list_singleton. done. }
  destruct (content _ _ Hrun Htp k) as [(v & E & Hh)|(E & _)]; rewrite E in Hki; simplify_eq.
  exists v, pre, post. done.
Qed.

(** and it is called for every key that is there from the beginning to the end. *)
Theorem C125_range_all tr1 t tr2 tr3 s k v :
  run (tr1 ++ MRange t :: tr2 ++ MRangeEnd t :: tr3) s → typed (K:=K) (O:=O) is_nil tr1 → MRangeEnd t ∉ tr2 →
  holds k v tr1 → (∀ l, l ∈ tr2 → ¬ removes k l) → (∀ k' a, MVisit t k' a false ∉ tr2) →
  ∃ a, MVisit t k a true ∈ tr2.
Proof.
  intros (s00 & s0 & Hr & Hst & Hss)%run_split Ht Hne Hh Hnr Hgo. apply msteps_app in Hss as (s1 & Hss & Hl).
  inversion Hl as [|? ? s2 ? ? Hs _]; subst. inversion Hs as [| | |? ? r Hr1 Hend]; subst.
  assert (Hn : MRange t ∉ tr2).
  { intros [x [y ->]]%elem_of_list_split. apply msteps_app in Hss as (s3 & Hss & Hl2).
    inversion Hl2 as [|? ? s4 ? ? Hs2 _]; subst. inversion Hs2 as [|? ? Hnone| |]; subst.
    revert Hnone. clear -Hst Hss Hne. assert (Hx : MRangeEnd t ∉ x) by set_solver. clear Hne. revert Hx.
    assert (Hs0 : is_Some (m_ranges s0 !! t)) by (inversion Hst; subst; simpl; rewrite lookup_insert; eauto). clear Hst.
    induction Hss as [s|s l s1 tr s2 Hs Hss IH]; intros Hx Hnone; [by rewrite Hnone in Hs0; inversion Hs0|].
    apply IH; [|set_solver|done]. destruct Hs0 as [r0 Hr0]. inversion Hs as [|t' ? ?|t' ? ? ? ? ?|t' ? ? ?]; subst; simpl.
    - rewrite lookup_fmap, Hr0. eauto.
    - rewrite lookup_insert_ne; [eauto|]. intros ->. congruence.
    - destruct (decide (t' = t)) as [->|]; [rewrite lookup_insert; eauto|rewrite lookup_insert_ne; eauto].
    - rewrite lookup_delete_ne; [eauto|]. intros ->. set_solver. }
  destruct (range_progress _ _ _ _ _ Hst Hss Hn Hne) as [r' R].
  pose proof (ri_here _ _ _ _ _ R) as Hh1. rewrite Hr1 in Hh1. injection Hh1 as <-.
  pose proof (holds_content _ _ k v Hr Ht Hh) as Hk.
  assert (Hk0 : is_Some (m_map s0 !! k)) by (inversion Hst; subst; simpl; eauto).
  destruct (ri_must _ _ _ _ _ R k Hk0 Hnr) as [Hm _].
  destruct Hend as [Hstop|Hsub]; [destruct (ri_stop _ _ _ _ _ R Hstop) as (? & ? & Hin); by destruct (Hgo _ _ Hin)|].
  apply Hsub, (ri_visited _ _ _ _ _ R) in Hm as (a & b & Hin). destruct b; [eauto|]. by destruct (Hgo _ _ Hin).
Qed.

(** What the types do not prevent: a value of another type written through the embedded sync.Map, or a nil interface
    written by the typed Store, makes the next typed read of the key panic; a LoadOrStore of a nil interface panics after
    having stored it. *)
Theorem C125_untyped tr1 k a tr2 o r tr3 s :
  run (tr1 ++ MOp (RawStore k a) RDone :: tr2 ++ MOp o r :: tr3) s → (∀ v, a ≠ AVal v) →
  (∀ l, l ∈ tr2 → ∀ o' r', l ≠ MOp o' r') → (o = Load k ∨ o = LoadAndDelete k ∨ ∃ v, o = LoadOrStore k v) → r = RPanic.
Proof.
  intros (s00 & s0 & _ & Hst & Hss)%run_split Ha Hno Ho. apply msteps_app in Hss as (s1 & Hss & Hl).
  inversion Hl as [|? ? s2 ? ? Hs _]; subst. clear Hl.
  assert (Hk : m_map s1 !! k = Some a).
  { assert (Hk0 : m_map s0 !! k = Some a) by (inversion Hst as [? ? ? ? Hd| | |]; subst; simpl in *; simplify_eq; apply lookup_insert).
    clear Hs Hst. induction Hss as [|z l z1 tr z2 Hs Hss IH]; [done|].
    assert (Hno' : ∀ l', l' ∈ tr → ∀ o' r', l' ≠ MOp o' r') by (intros l' Hl'; apply Hno; by right).
    enough (m_map z1 !! k = Some a) by auto. inversion Hs; subst; simpl; try done. exfalso. by eapply (Hno _ ltac:(by left)). }
  inversion Hs as [? ? m ? Hd| | |]; subst. destruct Ho as [->|[->|[v ->]]]; simpl in Hd; rewrite Hk in Hd; destruct a; simplify_eq; try done; by edestruct Ha.
Qed.
Theorem C125_nil_interface tr1 k v o r tr3 s : is_nil v = true →
  run (tr1 ++ MOp (Store k v) RDone :: MOp o r :: tr3) s → (o = Load k ∨ o = LoadAndDelete k ∨ ∃ v, o = LoadOrStore k v) → r = RPanic.
Proof.
  intros Hv (s00 & s0 & _ & Hst & Hss)%run_split Ho. inversion Hss as [|? ? s2 ? ? Hs _]; subst.
  inversion Hst as [? ? ? ? Hd0| | |]; subst; simpl in *; simplify_eq.
  inversion Hs as [? ? m ? Hd| | |]; subst. unfold box in Hd. rewrite Hv in Hd.
  destruct Ho as [->|[->|[w ->]]]; simpl in Hd; rewrite lookup_insert in Hd; by simplify_eq.
Qed.
End proofs.

(** ** A run that meets the hypotheses *)
(** Two goroutines race to create an entry under 1; a Range of goroutine 7 meets it while another removes 2. *)
Definition ex_tr : list (mlabel nat string unit) :=
  [MOp (LoadOrStore 1 "a") (RVal "a" false); MOp (LoadOrStore 1 "b") (RVal "a" true); MOp (Store 2 "c") RDone;
   MRange 7; MVisit 7 2 (AVal "c") true; MOp (LoadAndDelete 2) (RVal "c" true); MOp (LoadAndDelete 2) (RVal "" false);
   MVisit 7 1 (AVal "a") true; MRangeEnd 7].
Example C125_example : (∃ s, mrun "" (λ _, false) ex_tr s) ∧ typed (λ _, false) ex_tr ∧ holds 1 "a" (take 3 ex_tr).
Proof.
  split; [|split].
  - eexists. unfold ex_tr.
    eapply (mr_snoc _ _ [_; _; _; _; _; _; _; _]). 1: eapply (mr_snoc _ _ [_; _; _; _; _; _; _]).
    1: eapply (mr_snoc _ _ [_; _; _; _; _; _]). 1: eapply (mr_snoc _ _ [_; _; _; _; _]). 1: eapply (mr_snoc _ _ [_; _; _; _]).
    1: eapply (mr_snoc _ _ [_; _; _]). 1: eapply (mr_snoc _ _ [_; _]). 1: eapply (mr_snoc _ _ [_]). 1: eapply (mr_snoc _ _ []). 1: constructor.
    1-3: eapply ms_op; reflexivity.
    + eapply ms_range. reflexivity.
    + eapply ms_visit; [reflexivity|reflexivity|set_solver|]. simpl. apply elem_of_map_to_list. reflexivity.
    + eapply ms_op. reflexivity.
    + eapply ms_op. reflexivity.
    + eapply ms_visit; [reflexivity|reflexivity|set_solver|]. simpl. rewrite !elem_of_app. left. left. apply elem_of_map_to_list. reflexivity.
    + eapply ms_end; [reflexivity|]. right. simpl. set_solver.
  - intros l Hl. repeat (apply elem_of_cons in Hl as [->|Hl]; [done|]). by apply elem_of_nil in Hl.
  - exists [], (MOp (LoadOrStore 1 "a") (RVal "a" false)), [MOp (LoadOrStore 1 "b") (RVal "a" true); MOp (Store 2 "c") RDone].
    split; [done|]. split; [right; eauto|]. intros l Hl.
    repeat (apply elem_of_cons in Hl as [->|Hl]; [split; [intros v [[? ?]|[? ?]]|intros [? [?|?]]]; by simplify_eq|]). by apply elem_of_nil in Hl.
Qed.
