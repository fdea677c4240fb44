(** Consequences of the mixer invariants: emission counting, liveness, crashes. *)
From stdpp Require Import gmap.
From Verif.Base Require Import Base.
From Verif.Model Require Import Topology Shuffle Onion Mixer.
From Verif.Spec Require Import MixerSpec.
From Verif.Proofs Require Import ShuffleProofs MixerInv.

(** ** Counting labels *)
Lemma cnt_app P tr tr' : cnt P (tr ++ tr') = cnt P tr + cnt P tr'.
Proof. unfold cnt. by rewrite filter_app, app_length. Qed.
Lemma cnt_snoc P tr l : cnt P (tr ++ [l]) = cnt P tr + (if P l then 1 else 0).
Proof. rewrite cnt_app. unfold cnt at 2. rewrite filter_cons, filter_nil. by destruct (P l). Qed.
Lemma cnt_pos P tr : 0 < cnt P tr ↔ ∃ l, l ∈ tr ∧ P l = true.
Proof.
  unfold cnt. split.
  - intros H. destruct (filter P tr) as [|l ls] eqn:E; [simpl in H; lia|].
    exists l. assert (l ∈ filter P tr) as Hl by (rewrite E; left).
    apply elem_of_list_filter in Hl as [H1 H2]. split; [done|]. by apply Is_true_true.
  - intros (l & Hl & HP). assert (l ∈ filter P tr) as Hf.
    { apply elem_of_list_filter. split; [by apply Is_true_true|done]. }
    destruct (filter P tr); [by apply elem_of_nil in Hf|]. simpl. lia.
Qed.

(** ** Completion of the expected counts, as a function of the batches only *)
(** Every predecessor has delivered exactly its expected number of onions. *)
Definition counts_met (preds : gmap physName Z) (bs : list Messages) : Prop :=
  map_Forall (λ k v, v = sum_from k bs) preds.
Global Instance counts_met_dec preds bs : Decision (counts_met preds bs).
Proof. unfold counts_met. apply _. Defined.
(** The number of batches after which the counts were met. *)
Definition completions (preds : gmap physName Z) (bs : list Messages) : nat :=
  length (filter (λ k, counts_met preds (take k bs)) (seq 1 (length bs))).

Lemma received_sum n k tr : received_from n k tr = sum_from k (batches n tr).
Proof. done. Qed.

Lemma filter_ext_in {A} (P Q : A → Prop) `{!∀ x, Decision (P x), !∀ x, Decision (Q x)} (l : list A) :
  (∀ x, x ∈ l → P x ↔ Q x) → filter P l = filter Q l.
Proof.
  induction l as [|x l IH]; intros Hiff; [done|]. rewrite !filter_cons.
  rewrite IH by (intros y Hy; apply Hiff; by right).
  pose proof (Hiff x ltac:(left)) as Hx.
  destruct (decide (P x)), (decide (Q x)); tauto.
Qed.

Lemma completions_snoc preds bs m :
  completions preds (bs ++ [m]) =
  completions preds bs + (if decide (counts_met preds (bs ++ [m])) then 1 else 0).
Proof.
  unfold completions. rewrite app_length. cbn [length].
  rewrite seq_app, filter_app, app_length. f_equal.
  - apply f_equal. apply filter_ext_in. intros k Hk. apply elem_of_seq in Hk.
    rewrite take_app_le by lia. done.
  - cbn [seq]. rewrite filter_cons, filter_nil.
    rewrite take_ge by (rewrite app_length; simpl; lia). by destruct (decide _).
Qed.

Lemma completions_nil preds : completions preds [] = 0.
Proof. done. Qed.

(** ** Second invariant *)
Definition at_check (h : option holder) (n : string) : bool :=
  match h with
  | Some (HPush m _ _) | Some (HCheck m _) => bool_decide (m = n)
  | _ => false
  end.
Definition pend_of (n : string) (p : list (string * phase)) : nat :=
  length (filter (λ e, e.1 = n) p).
Lemma pend_of_app n p q : pend_of n (p ++ q) = pend_of n p + pend_of n q.
Proof. unfold pend_of. by rewrite filter_app, app_length. Qed.
Lemma pend_of_cons n e p : pend_of n (e :: p) = (if decide (e.1 = n) then 1 else 0) + pend_of n p.
Proof. unfold pend_of. rewrite filter_cons. by destruct (decide _). Qed.

Section props.
Context (peel : onion → option (option onion)) (workers taskCap outCap : nat).
Notation step := (step peel workers taskCap outCap).
Notation run := (run peel workers taskCap outCap).

Record mix2 (n : string) (st0 st : mixState) (tr : list label) (s : mixers) : Prop := {
  m2_wg : st_wg st = (st_left st0 - Z.of_nat (cnt (is_decrypt n) tr))%Z;
  m2_shuf : cnt (is_shuffle n) tr = if st_shuffled st then 1 else 0;
  m2_compl : completions (st_preds st0) (batches n tr) =
     cnt (is_check n) tr +
     (if at_check (mm_holder s) n then
        if decide (counts_met (st_preds st0) (batches n tr)) then 1 else 0 else 0);
  m2_emit : st_last st0 = false → cnt (is_check n) tr = pend_of n (mm_pend s) + cnt (is_emit n) tr;
  m2_last : st_last st0 = true → cnt (is_emit n) tr = 0;
  m2_done : 0 < cnt (is_check n) tr → 0 < pend_of n (mm_pend s) ∨ st_shuffled st = true;
  m2_shufchk : st_shuffled st = true → 0 < cnt (is_check n) tr;
  m2_pendchk : 0 < pend_of n (mm_pend s) → 0 < cnt (is_check n) tr
}.

Definition Inv2 (s0 : mixers) (tr : list label) (s : mixers) : Prop :=
  (∀ n st0 st, mm_states s0 !! n = Some st0 → mm_states s !! n = Some st → mix2 n st0 st tr s) ∧
  (∀ n, batches n tr ≠ [] → is_Some (mm_states s0 !! n)) ∧
  (∀ n, 0 < cnt (is_check n) tr → batches n tr ≠ []) ∧
  (∀ n, at_check (mm_holder s) n = true → batches n tr ≠ []).

Lemma batches_snoc_non n tr l : is_batch l = false → batches n (tr ++ [l]) = batches n tr.
Proof. intros H. rewrite batches_app, batches_nonbatch by done. by rewrite app_nil_r. Qed.
Lemma batches_snoc n tr m :
  batches n (tr ++ [LBatch m]) = batches n tr ++ (if decide (msg_recv m = n) then [m] else []).
Proof. rewrite batches_app. f_equal. unfold batches. simpl. by destruct (decide _). Qed.

Lemma isDone_counts s0 tr s n st0 st :
  Inv peel s0 tr s → mm_states s0 !! n = Some st0 → mm_states s !! n = Some st →
  isDone st = bool_decide (counts_met (st_preds st0) (batches n tr)).
Proof.
  intros HI E0 E. unfold isDone. apply bool_decide_ext. unfold counts_met.
  rewrite (mi_preds _ _ _ _ _ _ (co_mix _ _ _ _ _ (in_core _ _ _ _ HI) _ _ _ E0 E)).
  split; intros H k v Hk; specialize (H k v Hk); simpl in *.
  - rewrite (in_recv _ _ _ _ HI n st E) in H. done.
  - rewrite (in_recv _ _ _ _ HI n st E). done.
Qed.

Lemma init_inv2 s0 : init_ok s0 → Inv2 s0 [] s0.
Proof.
  intros (H1 & H2 & H3 & H4 & H5 & H6 & H7 & H8). split; [|split; [|split]].
  - intros n st0 st E0 E. rewrite E0 in E. injection E as <-.
    destruct (H8 _ _ E0) as [(F1 & F2 & F3 & F4 & F5) F6].
    split.
    + rewrite F2. unfold cnt. simpl. lia.
    + by rewrite F4.
    + rewrite H4. done.
    + rewrite H5. done.
    + done.
    + unfold cnt. simpl. lia.
    + by rewrite F4.
    + rewrite H5. unfold pend_of. simpl. lia.
  - done.
  - intros n. unfold cnt. simpl. lia.
  - intros n. by rewrite H4.
Qed.

(** A step that touches only counters irrelevant for the second invariant. *)
Lemma mix2_same n st0 st st' tr l s s' :
  mix2 n st0 st tr s →
  is_batch l = false → is_decrypt n l = false → is_shuffle n l = false →
  is_check n l = false → is_emit n l = false →
  st_wg st' = st_wg st → st_shuffled st' = st_shuffled st →
  at_check (mm_holder s') n = at_check (mm_holder s) n → mm_pend s' = mm_pend s →
  mix2 n st0 st' (tr ++ [l]) s'.
Proof.
  intros [A1 A2 A3 A4 A5 A6 A7 A8] H1 H2 H3 H4 H5 H6 H7 H8 H9.
  split; rewrite ?cnt_snoc, ?H2, ?H3, ?H4, ?H5, ?H6, ?H7, ?H8, ?H9,
    ?batches_snoc_non, ?Nat.add_0_r by done; done.
Qed.

Lemma Inv2_other s0 tr l s' :
  (∀ n st0 st, mm_states s0 !! n = Some st0 → mm_states s' !! n = Some st → mix2 n st0 st (tr ++ [l]) s') →
  is_batch l = false →
  (∀ n, batches n tr ≠ [] → is_Some (mm_states s0 !! n)) →
  (∀ n, 0 < cnt (is_check n) tr → batches n tr ≠ []) →
  (∀ n, is_check n l = true → batches n tr ≠ []) →
  (∀ n, at_check (mm_holder s') n = true → batches n tr ≠ []) →
  Inv2 s0 (tr ++ [l]) s'.
Proof.
  intros H1 H2 H3 H4 H5 H6. split; [done|]. split; [|split].
  - intros n. rewrite batches_snoc_non by done. apply H3.
  - intros n. rewrite batches_snoc_non by done. rewrite cnt_snoc.
    destruct (is_check n l) eqn:E; [intros _; by apply H5|]. rewrite Nat.add_0_r. apply H4.
  - intros n. rewrite batches_snoc_non by done. apply H6.
Qed.

Lemma step_inv2 s0 tr s l s' :
  init_ok s0 → Inv peel s0 tr s → Inv2 s0 tr s → step s l s' → Inv2 s0 (tr ++ [l]) s'.
Proof.
  intros Hinit HI (J1 & J2 & J3 & J4) Hstep.
  pose proof (in_core _ _ _ _ HI) as HC.
  assert (Hname : ∀ n st, mm_states s !! n = Some st → st_name st = n ∧ ∃ st0, mm_states s0 !! n = Some st0 ∧ st_last st = st_last st0).
  { intros n st E. destruct (mm_states s0 !! n) as [st0|] eqn:E0.
    2:{ apply (co_dom _ _ _ _ _ HC) in E0. congruence. }
    pose proof (co_mix _ _ _ _ _ HC _ _ _ E0 E) as Hm.
    rewrite (mi_name _ _ _ _ _ _ Hm). destruct Hinit as (_&_&_&_&_&_&_&H8).
    split; [by destruct (H8 _ _ E0)|]. exists st0. split; [done|]. by apply (mi_last _ _ _ _ _ _ Hm). }
  inversion Hstep; subst; clear Hstep.
  - (* add *) apply Inv2_other; try done. intros n st0 st E0 E.
    eapply mix2_same; [by eapply J1|..]; try done. simpl.
    match goal with H : mm_holder s = None |- _ => by rewrite H end.
  - apply Inv2_other; try done. intros n st0 st E0 E.
    eapply mix2_same; [by eapply J1|..]; done.
  - (* batch *)
    match goal with H : mm_holder s = Some _ |- _ => rename H into Hh end.
    match goal with H : mm_states s !! msg_recv msg = Some st |- _ => rename H into Hst end.
    assert (Hb : ∀ n, batches n (tr ++ [LBatch msg]) ≠ [] → msg_recv msg = n ∨ batches n tr ≠ []).
    { intros n. rewrite batches_snoc. destruct (decide (msg_recv msg = n)); [by left|].
      rewrite app_nil_r. by right. }
    split; [|split; [|split]].
    + intros n st0 st' E0 E. simpl in E.
      assert (Hc : ∀ P, P (LBatch msg) = false → cnt P (tr ++ [LBatch msg]) = cnt P tr)
        by (intros P HP; rewrite cnt_snoc, HP; lia).
      apply lookup_insert_Some in E as [[<- <-]|[Hne E]].
      * destruct (J1 _ _ _ E0 Hst) as [A1 A2 A3 A4 A5 A6 A7 A8].
        split; rewrite ?(Hc (is_decrypt _)), ?(Hc (is_shuffle _)), ?(Hc (is_emit _)), ?(Hc (is_check _)) by done; simpl; try done.
        rewrite batches_snoc, decide_True by done. rewrite completions_snoc.
        rewrite A3, Hh. simpl. rewrite bool_decide_true by done. lia.
      * destruct (J1 _ _ _ E0 E) as [A1 A2 A3 A4 A5 A6 A7 A8].
        split; rewrite ?(Hc (is_decrypt _)), ?(Hc (is_shuffle _)), ?(Hc (is_emit _)), ?(Hc (is_check _)) by done; simpl; try done.
        rewrite batches_snoc, decide_False by done. rewrite app_nil_r.
        rewrite bool_decide_false by done. rewrite A3, Hh. simpl. done.
    + intros n [<-|Hb']%Hb; [|by apply J2].
      destruct (Hname _ _ Hst) as (_ & st0 & E0 & _). eauto.
    + intros n. rewrite cnt_snoc. simpl. rewrite Nat.add_0_r. intros Hn. rewrite batches_snoc.
      intros [? _]%app_eq_nil. by eapply J3.
    + intros n. simpl. intros <-%bool_decide_eq_true. rewrite batches_snoc, decide_True by done.
      intros [_ ?]%app_eq_nil. done.
  - (* push *)
    match goal with H : mm_holder s = Some _ |- _ => rename H into Hh end.
    apply Inv2_other; try done.
    + intros n st0 st E0 E. eapply mix2_same; [by eapply J1|..]; try done. simpl. by rewrite Hh.
    + intros n Hn. apply J4. by rewrite Hh.
  - (* push closed *) apply Inv2_other; try done. intros n st0 st E0 E.
    eapply mix2_same; [by eapply J1|..]; done.
  - (* pushed *)
    match goal with H : mm_holder s = Some _ |- _ => rename H into Hh end.
    apply Inv2_other; try done.
    + intros n st0 st E0 E. eapply mix2_same; [by eapply J1|..]; try done. simpl. by rewrite Hh.
    + intros n Hn. apply J4. by rewrite Hh.
  - (* check *)
    match goal with H : mm_holder s = Some _ |- _ => rename H into Hh end.
    match goal with H : mm_states s !! mix = Some st |- _ => rename H into Hst end.
    apply Inv2_other; try done.
    2:{ intros n Hn. apply J4. rewrite Hh. simpl in *. destruct (isDone st); [done|discriminate Hn]. }
    intros n st0 st' E0 E. simpl in E.
    destruct (J1 _ _ _ E0 E) as [A1 A2 A3 A4 A5 A6 A7 A8].
    assert (Hc : ∀ P, P (LCheck mix (isDone st)) = false → cnt P (tr ++ [LCheck mix (isDone st)]) = cnt P tr)
        by (intros P HP; rewrite cnt_snoc, HP; lia).
    destruct (decide (mix = n)) as [<-|Hne].
    + rewrite E in Hst. injection Hst as ->.
      pose proof (isDone_counts s0 tr s mix st0 st HI E0 E) as Hd.
      rewrite Hh in A3. simpl in A3. rewrite bool_decide_true in A3 by done.
      assert (Hchk : cnt (is_check mix) (tr ++ [LCheck mix (isDone st)]) =
                     cnt (is_check mix) tr + if isDone st then 1 else 0).
      { rewrite cnt_snoc. simpl. destruct (isDone st); [by rewrite bool_decide_true|done]. }
      assert (Hpn : pend_of mix (if isDone st then mm_pend s ++ [(mix, PWait)] else mm_pend s) =
                    pend_of mix (mm_pend s) + if isDone st then 1 else 0).
      { destruct (isDone st); [|lia]. rewrite pend_of_app, pend_of_cons. simpl.
        rewrite decide_True by done. unfold pend_of at 2. simpl. lia. }
      split; rewrite ?(Hc (is_decrypt _)), ?(Hc (is_shuffle _)), ?(Hc (is_emit _)), ?(Hc (is_check _)), ?batches_snoc_non by done; simpl; try done.
      * rewrite A3, Hchk, Hd. rewrite Nat.add_0_r. f_equal.
        case_bool_decide; [by rewrite decide_True|by rewrite decide_False].
      * intros Hl. rewrite Hchk, Hpn, A4 by done. lia.
      * rewrite Hchk, Hpn. destruct (isDone st); [intros _; left; lia|].
        rewrite !Nat.add_0_r. done.
      * rewrite Hchk. intros Hs. specialize (A7 Hs). lia.
      * rewrite Hchk, Hpn. destruct (isDone st); [lia|]. rewrite !Nat.add_0_r. done.
    + rewrite Hh in A3. simpl in A3. rewrite bool_decide_false in A3 by done.
      assert (Hchk : cnt (is_check n) (tr ++ [LCheck mix (isDone st)]) = cnt (is_check n) tr).
      { apply Hc. simpl. destruct (isDone st); [by rewrite bool_decide_false|done]. }
      assert (Hpn : pend_of n (if isDone st then mm_pend s ++ [(mix, PWait)] else mm_pend s) =
                    pend_of n (mm_pend s)).
      { destruct (isDone st); [|lia]. rewrite pend_of_app, pend_of_cons. simpl.
        rewrite decide_False by done. unfold pend_of at 2. simpl. lia. }
      split; rewrite ?(Hc (is_decrypt _)), ?(Hc (is_shuffle _)), ?(Hc (is_emit _)), ?(Hc (is_check _)), ?batches_snoc_non, ?Hchk, ?Hpn by done; simpl; rewrite ?Hpn; done.
  - (* return *)
    match goal with H : mm_holder s = Some _ |- _ => rename H into Hh end.
    apply Inv2_other; try done. intros n st0 st E0 E.
    eapply mix2_same; [by eapply J1|..]; try done. simpl. by rewrite Hh.
  - (* take *) apply Inv2_other; try done. intros n st0 st E0 E.
    eapply mix2_same; [by eapply J1|..]; done.
  - (* decrypt *)
    match goal with H : mm_states s !! tk_mix t = Some st |- _ => rename H into Hst end.
    apply Inv2_other; try done. intros n st0 st' E0 E. simpl in E.
    apply lookup_insert_Some in E as [[<- <-]|[Hne E]].
    + destruct (J1 _ _ _ E0 Hst) as [A1 A2 A3 A4 A5 A6 A7 A8].
      assert (Hc : ∀ P, P (LDecrypt (tk_mix t)) = false → cnt P (tr ++ [LDecrypt (tk_mix t)]) = cnt P tr)
        by (intros P HP; rewrite cnt_snoc, HP; lia).
      split; rewrite ?(Hc (is_decrypt _)), ?(Hc (is_shuffle _)), ?(Hc (is_emit _)), ?(Hc (is_check _)), ?batches_snoc_non by done; simpl; try done.
      rewrite cnt_snoc. simpl. rewrite bool_decide_true by done. lia.
    + eapply mix2_same; [by eapply J1|..]; try done. simpl. by rewrite bool_decide_false.
  - apply Inv2_other; try done. intros n st0 st E0 E.
    eapply mix2_same; [by eapply J1|..]; done.
  - apply Inv2_other; try done. intros n st0 st' E0 E.
    eapply mix2_same; [by eapply J1|..]; done.
  - (* waited *)
    match goal with H : mm_pend s = _ |- _ => rename H into Hp end.
    apply Inv2_other; try done. intros n st0 st' E0 E.
    assert (Hpn : pend_of n (p1 ++ (mix, POnce) :: p2) = pend_of n (mm_pend s)).
    { rewrite Hp, !pend_of_app, !pend_of_cons. done. }
    destruct (J1 _ _ _ E0 E) as [A1 A2 A3 A4 A5 A6 A7 A8].
    assert (Hc : ∀ P, P (LWaited mix) = false → cnt P (tr ++ [LWaited mix]) = cnt P tr)
        by (intros P HP; rewrite cnt_snoc, HP; lia).
    split; rewrite ?(Hc (is_decrypt _)), ?(Hc (is_shuffle _)), ?(Hc (is_emit _)), ?(Hc (is_check _)), ?batches_snoc_non by done; simpl; rewrite ?Hpn; done.
  - (* shuffle *)
    match goal with H : mm_pend s = _ |- _ => rename H into Hp end.
    match goal with H : mm_states s !! mix = Some st |- _ => rename H into Hst end.
    apply Inv2_other; try done. intros n st0 st' E0 E. simpl in E.
    assert (Hc : ∀ P, P (LShuffle mix) = false → cnt P (tr ++ [LShuffle mix]) = cnt P tr)
        by (intros P HP; rewrite cnt_snoc, HP; lia).
    assert (Hpn : mix ≠ n ∨ st_last st = false →
       pend_of n (if st_last st then p1 ++ p2 else p1 ++ (mix, PSend) :: p2) = pend_of n (mm_pend s)).
    { rewrite Hp. intros Hor. destruct (st_last st); rewrite !pend_of_app, ?pend_of_cons; simpl; [|done].
      rewrite decide_False; [done|]. by destruct Hor. }
    apply lookup_insert_Some in E as [[<- <-]|[Hne E]].
    + destruct (J1 _ _ _ E0 Hst) as [A1 A2 A3 A4 A5 A6 A7 A8].
      assert (Hchk : 0 < cnt (is_check mix) tr).
      { apply A8. rewrite Hp, pend_of_app, pend_of_cons, decide_True by done. lia. }
      destruct (Hname _ _ Hst) as (_ & st0' & E0' & Hl). rewrite E0 in E0'. injection E0' as <-.
      split; rewrite ?(Hc (is_decrypt _)), ?(Hc (is_shuffle _)), ?(Hc (is_emit _)), ?(Hc (is_check _)), ?batches_snoc_non by done; simpl; try done.
      * rewrite cnt_snoc. simpl. rewrite bool_decide_true by done.
        match goal with H : st_shuffled st = false |- _ => rewrite H in A2 end. lia.
      * intros Hl0. rewrite Hpn by (right; congruence). by apply A4.
      * by right.
    + destruct (J1 _ _ _ E0 E) as [A1 A2 A3 A4 A5 A6 A7 A8].
      split; rewrite ?(Hc (is_decrypt _)), ?(Hc (is_shuffle _)), ?(Hc (is_emit _)), ?(Hc (is_check _)), ?batches_snoc_non by (simpl; rewrite ?bool_decide_false; done); simpl;
        rewrite ?Hpn by (by left); done.
  - (* once again *)
    match goal with H : mm_pend s = _ |- _ => rename H into Hp end.
    match goal with H : mm_states s !! mix = Some st |- _ => rename H into Hst end.
    apply Inv2_other; try done. intros n st0 st' E0 E. simpl in E.
    assert (Hc : ∀ P, P (LOnceAgain mix) = false → cnt P (tr ++ [LOnceAgain mix]) = cnt P tr)
        by (intros P HP; rewrite cnt_snoc, HP; lia).
    assert (Hpn : mix ≠ n ∨ st_last st = false →
       pend_of n (if st_last st then p1 ++ p2 else p1 ++ (mix, PSend) :: p2) = pend_of n (mm_pend s)).
    { rewrite Hp. intros Hor. destruct (st_last st); rewrite !pend_of_app, ?pend_of_cons; simpl; [|done].
      rewrite decide_False; [done|]. by destruct Hor. }
    destruct (J1 _ _ _ E0 E) as [A1 A2 A3 A4 A5 A6 A7 A8].
    destruct (decide (mix = n)) as [<-|Hne].
    + rewrite E in Hst. injection Hst as ->.
      assert (Hchk : 0 < cnt (is_check mix) tr).
      { apply A8. rewrite Hp, pend_of_app, pend_of_cons, decide_True by done. lia. }
      destruct (Hname _ _ E) as (_ & st0' & E0' & Hl). rewrite E0 in E0'. injection E0' as <-.
      split; rewrite ?(Hc (is_decrypt _)), ?(Hc (is_shuffle _)), ?(Hc (is_emit _)), ?(Hc (is_check _)), ?batches_snoc_non by done; simpl; try done.
      * intros Hl0. rewrite Hpn by (right; congruence). by apply A4.
      * by right.
    + split; rewrite ?(Hc (is_decrypt _)), ?(Hc (is_shuffle _)), ?(Hc (is_emit _)), ?(Hc (is_check _)), ?batches_snoc_non by done; simpl; rewrite ?Hpn by (by left); done.
  - (* emit *)
    match goal with H : mm_pend s = _ |- _ => rename H into Hp end.
    match goal with H : mm_states s !! mix = Some st |- _ => rename H into Hst end.
    match goal with H : st_shuffled st = true |- _ => rename H into Hsh end.
    apply Inv2_other; try done. intros n st0 st' E0 E. simpl in E.
    destruct (Hname _ _ Hst) as (Hnm & st0' & E0' & Hl).
    set (lab := LEmit _).
    assert (Hc : ∀ P, P lab = false → cnt P (tr ++ [lab]) = cnt P tr)
        by (intros P HP; rewrite cnt_snoc, HP; lia).
    destruct (J1 _ _ _ E0 E) as [A1 A2 A3 A4 A5 A6 A7 A8].
    assert (st_last st = false) as Hlast.
    { destruct (in_pend _ _ _ _ HI mix PSend) as (x & Ex & _ & Hx); [rewrite Hp; set_solver|].
      rewrite Ex in Hst. injection Hst as ->. by destruct (Hx eq_refl). }
    destruct (decide (mix = n)) as [<-|Hne].
    + rewrite E0 in E0'. injection E0' as <-. rewrite E in Hst. injection Hst as ->.
      assert (Hpn : pend_of mix (mm_pend s) = S (pend_of mix (p1 ++ p2))).
      { rewrite Hp, !pend_of_app, pend_of_cons, decide_True by done. lia. }
      assert (Hce : cnt (is_emit mix) (tr ++ [lab]) = S (cnt (is_emit mix) tr)).
      { rewrite cnt_snoc. simpl. rewrite bool_decide_true by done. lia. }
      split; rewrite ?(Hc (is_decrypt _)), ?(Hc (is_shuffle _)), ?(Hc (is_emit _)), ?(Hc (is_check _)), ?batches_snoc_non by done; simpl; try done.
      * intros Hl0. rewrite Hce. specialize (A4 Hl0). lia.
      * congruence.
      * by right.
      * intros Hpos. apply A8. lia.
    + assert (Hpn : pend_of n (p1 ++ p2) = pend_of n (mm_pend s)).
      { rewrite Hp, !pend_of_app, pend_of_cons, decide_False by done. done. }
      split; rewrite ?(Hc (is_decrypt _)), ?(Hc (is_shuffle _)), ?(Hc (is_emit _)), ?(Hc (is_check _)), ?batches_snoc_non by (simpl; rewrite ?Hnm, ?bool_decide_false; done); simpl;
        rewrite ?Hpn; done.
  - (* recv *) apply Inv2_other; try done. intros n st0 st E0 E.
    eapply mix2_same; [by eapply J1|..]; done.
  - (* close *) apply Inv2_other; try done. intros n st0 st E0 E.
    eapply mix2_same; [by eapply J1|..]; done.
  - (* close again *) apply Inv2_other; try done. intros n st0 st E0 E.
    eapply mix2_same; [by eapply J1|..]; done.
Qed.

Lemma run_inv2 s0 tr s : init_ok s0 → run s0 tr s → Inv2 s0 tr s.
Proof.
  intros H0 Hr. induction Hr as [|tr l s s' Hr IH Hs]; [by apply init_inv2|].
  eapply step_inv2; try done. by eapply run_inv.
Qed.

End props.
