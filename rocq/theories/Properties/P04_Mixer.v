(** C08-C13: the mixer, for every execution of the transition system of Model/Mixer.v started in the
    state NewMixers returns.  [peel] (what decrypting does), the number of workers and the channel
    capacities are arbitrary; in the code they are 8-byte-header-stripping + TIBE decryption,
    runtime.NumCPU(), 1000 and 2*len(mixes). *)
From stdpp Require Import gmap.
From Verif.Base Require Import Base.
From Verif.Model Require Import Topology Shuffle Onion Mixer.
From Verif.Spec Require Import MixerSpec.
From Verif.Proofs Require Import ShuffleProofs OnionProofs MixerInv MixerProps MixerLive MixerExec.

Section mixer.
Context (peel : onion → option (option onion)) (workers taskCap outCap : nat).
Notation step := (step peel workers taskCap outCap).
Notation run := (run peel workers taskCap outCap).
Notation quiescent := (quiescent peel workers taskCap outCap).
Notation well_behaved := (well_behaved peel).
Notation misbehaved := (misbehaved peel).

(** C08: what GetMessages returns for a mix is a permutation of the decryptions of the first W onions
    handed to it (a prefix of those the callers passed for it, in call order). *)
Theorem C08_outputs_are_decryptions t ms w s0 tr s n v :
  NewMixers t ms w = Some s0 → run s0 tr s → can_return s n v →
  ∃ k rs, Z.of_nat k = workload_of w n ∧ k ≤ length (handed n tr) ∧
    handed n tr `prefix_of` concat (msg_onions <$> to_mix n (added tr)) ∧
    Forall2 (λ x r, peel x = Some r) (take k (handed n tr)) rs ∧ v ≡ₚ rs.
Proof.
  intros H0 Hr (st & E & Hw & Hs & ->).
  pose proof (NewMixers_init_ok _ _ _ _ H0) as Hi.
  pose proof (run_inv _ _ _ _ _ _ _ Hi Hr) as HI.
  pose proof (run_inv3 _ _ _ _ _ _ _ Hi Hr) as H3.
  destruct (mm_states s0 !! n) as [st0|] eqn:E0.
  2:{ apply (co_dom _ _ _ _ _ (in_core _ _ _ _ HI)) in E0. congruence. }
  destruct (NewMixers_left _ _ _ _ _ _ H0 E0) as [Hl Hnn].
  pose proof (co_mix _ _ _ _ _ (in_core _ _ _ _ HI) _ _ _ E0 E) as Hm. simpl in Hm.
  destruct (mi_shuf _ _ _ _ _ _ Hm Hs) as (_ & rs & Hpl & Hp).
  exists (Z.to_nat (workload_of w n)), rs. split; [lia|].
  pose proof (mi_wg _ _ _ _ _ _ Hm) as Hwg. rewrite Hw in Hwg.
  split; [lia|]. split; [|split; [by rewrite <-Hl|done]].
  rewrite (i3_added _ _ _ H3), to_mix_app, fmap_app, concat_app.
  unfold handed. rewrite batches_all. by eexists.
Qed.

(** C09: GetMessages for n can return iff the shuffle was applied; before the (only) shuffle exactly W
    results were stored, after it none; and what it returns never changes. *)
Theorem C09_visible_iff_shuffled t ms w s0 tr s n :
  NewMixers t ms w = Some s0 → run s0 tr s →
  ((∃ v, can_return s n v) ↔ LShuffle n ∈ tr) ∧
  (∀ tr1 tr2, tr = tr1 ++ LShuffle n :: tr2 →
     Z.of_nat (cnt (is_decrypt n) tr1) = workload_of w n ∧
     cnt (is_decrypt n) tr2 = 0 ∧ LShuffle n ∉ tr1 ∧ LShuffle n ∉ tr2).
Proof.
  intros H0 Hr. pose proof (NewMixers_init_ok _ _ _ _ H0) as Hi.
  assert (Hcnt : ∀ tr : list label, LShuffle n ∈ tr ↔ 0 < cnt (is_shuffle n) tr).
  { intros tr'. rewrite cnt_pos. split.
    - intros Hin. eexists. split; [done|]. simpl. by rewrite bool_decide_true.
    - intros (l & Hl & He). destruct l; try done. simpl in He. apply bool_decide_eq_true in He as ->. done. }
  assert (Hshuf : ∀ tr s st, run s0 tr s → mm_states s !! n = Some st →
     cnt (is_shuffle n) tr = (if st_shuffled st then 1 else 0) ∧
     st_wg st = (workload_of w n - Z.of_nat (cnt (is_decrypt n) tr))%Z ∧
     (st_shuffled st = true → st_wg st = 0%Z)).
  { intros tr' s' st Hr' E.
    pose proof (run_inv _ _ _ _ _ _ _ Hi Hr') as HI.
    pose proof (run_inv2 _ _ _ _ _ _ _ Hi Hr') as (J1 & _).
    destruct (mm_states s0 !! n) as [st0|] eqn:E0.
    2:{ apply (co_dom _ _ _ _ _ (in_core _ _ _ _ HI)) in E0. congruence. }
    destruct (NewMixers_left _ _ _ _ _ _ H0 E0) as [Hl Hnn].
    destruct (J1 _ _ _ E0 E) as [A1 A2 _ _ _ _ _ _]. rewrite <-Hl. split; [done|]. split; [done|].
    intros Hs. by eapply Inv_shuf_wg. }
  assert (Hdom : ∀ tr s, run s0 tr s → LShuffle n ∈ tr → is_Some (mm_states s !! n)).
  { intros tr' s' Hr'. induction Hr' as [|tr' l s1 s2 Hr' IH Hs]; [by intros ?%elem_of_nil|].
    intros [Hin|Hin%elem_of_list_singleton]%elem_of_app.
    - specialize (IH Hin). pose proof (run_inv _ _ _ _ _ _ _ Hi Hr') as HI.
      pose proof (run_inv _ _ _ _ _ _ _ Hi (run_snoc _ _ _ _ _ _ _ _ _ Hr' Hs)) as HI'.
      rewrite <-not_eq_None_Some in *. intros Hn. apply IH.
      apply (co_dom _ _ _ _ _ (in_core _ _ _ _ HI)).
      by apply (co_dom _ _ _ _ _ (in_core _ _ _ _ HI')).
    - subst l. inversion Hs; subst. simpl. rewrite lookup_insert. eauto. }
  split.
  - split.
    + intros (v & st & E & Hw & Hs & _). destruct (Hshuf _ _ _ Hr E) as (Hc & _). rewrite Hs in Hc.
      apply Hcnt. lia.
    + intros Hin. destruct (Hdom _ _ Hr Hin) as [st E]. destruct (Hshuf _ _ _ Hr E) as (Hc & _ & Hz).
      apply Hcnt in Hin. exists (st_outs st), st. destruct (st_shuffled st); [|lia].
      split; [done|]. split; [by apply Hz|done].
  - intros tr1 tr2 ->.
    assert (Hin : LShuffle n ∈ tr1 ++ LShuffle n :: tr2) by set_solver.
    destruct (Hdom _ _ Hr Hin) as [st E]. destruct (Hshuf _ _ _ Hr E) as (Hc & Hw & Hz).
    assert (Hone : is_shuffle n (LShuffle n) = true) by (simpl; by rewrite bool_decide_true).
    assert (Hsum : cnt (is_shuffle n) (tr1 ++ LShuffle n :: tr2) =
       cnt (is_shuffle n) tr1 + 1 + cnt (is_shuffle n) tr2).
    { change (LShuffle n :: tr2) with ([LShuffle n] ++ tr2). rewrite app_assoc, cnt_app, cnt_snoc, Hone. done. }
    assert (Hs : st_shuffled st = true).
    { destruct (st_shuffled st); [done|]. lia. }
    rewrite Hs in Hc.
    destruct (run_split _ _ _ _ _ _ _ _ Hr) as (s1 & Hr1 & Hr2).
    change (LShuffle n :: tr2) with ([LShuffle n] ++ tr2) in Hr2.
    destruct (run_split _ _ _ _ _ _ _ _ Hr2) as (s2 & Hr3 & Hr4).
    apply run_one in Hr3. inversion Hr3; subst.
    destruct (in_pend _ _ _ _ (run_inv _ _ _ _ _ _ _ Hi Hr1) n POnce) as (x & Ex & Hx & _).
    { match goal with H : mm_pend s1 = _ |- _ => rewrite H end. set_solver. }
    destruct (Hshuf _ _ _ Hr1 Ex) as (_ & Hw1 & _). rewrite Hx in Hw1 by (by left).
    specialize (Hz Hs). rewrite Hz in Hw.
    change (LShuffle n :: tr2) with ([LShuffle n] ++ tr2) in Hw.
    rewrite app_assoc, cnt_app, cnt_snoc in Hw. simpl in Hw.
    split; [lia|]. split; [lia|]. rewrite !Hcnt. lia.
Qed.

Theorem C09_stable t ms w s0 tr s tr' s' n v :
  NewMixers t ms w = Some s0 → run s0 tr s → can_return s n v → run s tr' s' →
  ∀ v', can_return s' n v' ↔ v' = v.
Proof.
  intros H0 Hr Hv Hr' v'.
  pose proof (NewMixers_init_ok _ _ _ _ H0) as Hi.
  pose proof (can_return_run _ _ _ _ _ _ _ _ _ _ _ Hi Hr Hr' Hv) as Hv'. split.
  - intros H. by eapply can_return_det.
  - by intros ->.
Qed.

Lemma well_behaved_fed t ms w s0 tr :
  NewMixers t ms w = Some s0 → well_behaved ms w tr → well_fed peel s0 tr.
Proof.
  intros H0 (W1 & W2 & W3 & W4). split; [done|]. split.
  - intros m Hm. split; [|intros o Ho; by eapply W3]. apply (NewMixers_dom t w ms); [done|]. by apply W2.
  - intros n st0 E. destruct (NewMixers_left _ _ _ _ _ _ H0 E) as [-> _]. apply W4.
    apply (NewMixers_dom t w ms s0); [done|]. eauto.
Qed.

(** C10: no execution with well-behaved callers crashes ... *)
Theorem C10_no_crash t ms w s0 tr s :
  NewMixers t ms w = Some s0 → run s0 tr s → well_behaved ms w tr →
  LPanic ∉ tr ∧ mm_panic s = false.
Proof.
  intros H0 Hr Hwb. pose proof (NewMixers_init_ok _ _ _ _ H0) as Hi.
  assert (mm_panic s = false) as Hp.
  { eapply well_fed_no_panic; [done|done|]. by eapply well_behaved_fed. }
  split; [|done]. intros Hin. assert (mm_panic s = true); [|congruence].
  apply (i3_panic _ _ _ (run_inv3 _ _ _ _ _ _ _ Hi Hr)). by left.
Qed.

(** ... the server's own steps always terminate (from every state, under every schedule) ... *)
Theorem C10_terminates s : ∃ bound, ∀ tr s', run s tr s' → Forall (λ l, internal l = true) tr → length tr ≤ bound.
Proof. exists (mu s). intros tr s' Hr Hf. pose proof (run_bounded _ _ _ _ _ _ _ Hr Hf). lia. Qed.

(** ... and when they have, every AddMessages call has returned, nothing is left in any queue, and
    every mix that was given its whole workload by its predecessors answers. *)
Theorem C10_completes t ms w s0 tr s :
  0 < workers → 0 < taskCap → 0 < outCap → NoDup (mx_name <$> ms) →
  NewMixers t ms w = Some s0 → run s0 tr s → well_behaved ms w tr → quiescent s →
  mm_holder s = None ∧ mm_tasks s = [] ∧ mm_inflight s = [] ∧ mm_out s = [] ∧
  ∀ m, m ∈ ms → let fed := to_mix (mx_name m) (added tr) in
    fed ≠ [] → all_delivered t w m fed → Z.of_nat (total fed) = workload_of w (mx_name m) →
    ∃ v, can_return s (mx_name m) v.
Proof.
  intros Hw Ht Ho Hnd H0 Hr Hwb Hq. pose proof (NewMixers_init_ok _ _ _ _ H0) as Hi.
  destruct (C10_no_crash _ _ _ _ _ _ H0 Hr Hwb) as [_ Hp].
  pose proof (quiescent_idle _ _ _ _ _ _ _ Hw Ht Ho Hi Hr Hq Hp) as Hid.
  pose proof Hid as (I1 & I2 & I3 & I4 & _). do 4 (split; [done|]).
  intros m Hm fed Hne Hd Htot.
  destruct (NewMixers_one _ _ _ _ _ H0 Hnd Hm) as (st0 & E0 & Hs0).
  assert (Hb : batches (mx_name m) tr = fed).
  { rewrite batches_all. unfold fed. rewrite (i3_added _ _ _ (run_inv3 _ _ _ _ _ _ _ Hi Hr)), I1.
    simpl. by rewrite app_nil_r. }
  eapply idle_returns; try done.
  - rewrite handed_total, Hb. destruct (NewMixers_left _ _ _ _ _ _ H0 E0) as [-> _]. lia.
  - rewrite Hb. apply completions_pos; [done|]. by eapply counts_met_delivered.
Qed.

(** A final state is always reachable, so the two theorems above are about something. *)
Theorem C10_final_state_reachable t ms w s0 tr s :
  0 < workers → 0 < taskCap → 0 < outCap →
  NewMixers t ms w = Some s0 → run s0 tr s → well_behaved ms w tr →
  ∃ tr' s', run s tr' s' ∧ Forall (λ l, internal l = true) tr' ∧ quiescent s'.
Proof.
  intros Hw Ht Ho H0 Hr Hwb. pose proof (NewMixers_init_ok _ _ _ _ H0) as Hi.
  destruct (reach_quiescent _ _ _ _ _ _ _ Hw Ht Ho Hi Hr) as (tr' & s' & Hr' & Hf & Hfin).
  exists tr', s'. split; [done|]. split; [done|].
  destruct Hfin as [Hp|Hid]; [by apply panicked_quiescent|].
  intros l s2 Hs. destruct (internal l) eqn:El; [|done]. exfalso.
  (* an idle, open server has no internal step *)
  assert (Hclo : mm_closed s' = false).
  { destruct (mm_closed s') eqn:Ec; [|done]. exfalso.
    apply (i3_closed _ _ _ (run_inv3 _ _ _ _ _ _ _ Hi (run_app _ _ _ _ _ _ _ _ _ Hr Hr'))) in Ec.
    apply elem_of_app in Ec as [Ec|Ec]; [by destruct Hwb as [? _]|].
    rewrite Forall_forall in Hf. by specialize (Hf _ Ec). }
  destruct Hid as (I1 & I2 & I3 & I4 & I5).
  assert (Hpend : ∀ p1 n p p2 st, mm_pend s' = p1 ++ (n, p) :: p2 → mm_states s' !! n = Some st → p = PWait ∧ st_wg st ≠ 0%Z).
  { intros p1 n p p2 st Hp Hst. destruct (I5 n p) as [-> (st' & E & Hz)]; [rewrite Hp; set_solver|].
    split; [done|]. congruence. }
  inversion Hs; subst; try done; try congruence;
    try (match goal with H : mm_inflight s' = _ |- _ => rewrite I3 in H; by destruct fl1 end);
    try (match goal with H : mm_pend s' = _, H' : mm_states s' !! _ = Some _ |- _ =>
      destruct (Hpend _ _ _ _ _ H H') as [? ?]; done end).
Qed.

(** C11: a message for a mix not hosted here, more onions than announced for a mix, or an onion that
    cannot be parsed: no execution avoids the crash.  (The measure bounds how long it can take; every
    final state is a crashed one; and no execution can go on for ever without one.) *)
Theorem C11_crash_inevitable t ms w s0 tr s :
  0 < workers → 0 < taskCap → 0 < outCap →
  NewMixers t ms w = Some s0 → run s0 tr s → misbehaved ms w tr →
  (quiescent s → mm_panic s = true) ∧
  (mm_panic s = false → ∃ l s', internal l = true ∧ step s l s') ∧
  ∃ bound, ∀ tr' s', run s tr' s' → Forall (λ l, internal l = true) tr' → length tr' ≤ bound.
Proof.
  intros Hw Ht Ho H0 Hr Hmb. pose proof (NewMixers_init_ok _ _ _ _ H0) as Hi.
  assert (Hmis : misfed peel s0 tr).
  { destruct Hmb as [(m & Hm & Hn)|[(n & Hn & Hlt)|H]]; [left|right; left|right; by right].
    - exists m. split; [done|]. apply eq_None_not_Some. by rewrite (NewMixers_dom t w ms).
    - apply (NewMixers_dom t w ms s0) in Hn as [st0 E0]; [|done]. exists n, st0. split; [done|].
      by destruct (NewMixers_left _ _ _ _ _ _ H0 E0) as [-> _]. }
  split; [|split; [|apply C10_terminates]].
  - intros Hq. destruct (mm_panic s) eqn:Hp; [done|]. exfalso.
    eapply misfed_not_idle; [done|exact Hr|done|].
    exact (quiescent_idle _ _ _ _ _ _ _ Hw Ht Ho Hi Hr Hq Hp).
  - intros Hp. destruct (progress _ _ _ _ _ _ _ Hw Ht Ho Hi (run_inv _ _ _ _ _ _ _ Hi Hr) Hp) as [Hid|?]; [|done].
    exfalso. by eapply misfed_not_idle.
Qed.

(** C12: the number of times a mix' output is put on the sender's channel. *)
Theorem C12_emissions t ms w s0 tr s m :
  NoDup (mx_name <$> ms) → NewMixers t ms w = Some s0 → run s0 tr s → m ∈ ms →
  let n := mx_name m in
  let emitted := cnt (is_emit n) tr in
  let is_last := (mx_layer m = Z.of_nat (length (tp_layers t)) - 1)%Z in
  (is_last → emitted = 0) ∧
  (¬ is_last → emitted ≤ completing t w m (batches n tr)) ∧
  (¬ is_last → 0 < workers → 0 < taskCap → 0 < outCap → quiescent s → mm_panic s = false →
     (workload_of w n ≤ Z.of_nat (length (handed n tr)))%Z →
     emitted = completing t w m (batches n tr)) ∧
  (∀ o, LEmit o ∈ tr → mo_sender o = n → can_return s n (mo_onions o)).
Proof.
  intros Hnd H0 Hr Hm n emitted is_last. pose proof (NewMixers_init_ok _ _ _ _ H0) as Hi.
  pose proof (run_inv _ _ _ _ _ _ _ Hi Hr) as HI.
  pose proof (run_inv2 _ _ _ _ _ _ _ Hi Hr) as (J1 & _).
  destruct (NewMixers_one _ _ _ _ _ H0 Hnd Hm) as (st0 & E0 & Hs0).
  destruct (mm_states s !! n) as [st|] eqn:E.
  2:{ apply (co_dom _ _ _ _ _ (in_core _ _ _ _ HI)) in E. subst n. congruence. }
  destruct (J1 _ _ _ E0 E) as [A1 A2 A3 A4 A5 A6 A7 A8].
  assert (Hlast : st_last st0 = bool_decide is_last).
  { clear -Hs0. unfold newMixState in Hs0. case_decide; [done|].
    destruct (pred_map _ _ _ _ _); simpl in Hs0; [|done]. by injection Hs0 as <-. }
  rewrite (completions_completing _ _ _ _ _ Hs0) in A3.
  split; [|split; [|split]].
  - intros Hl. apply A5. rewrite Hlast. by apply bool_decide_eq_true.
  - intros Hl. rewrite <-bool_decide_eq_false, <-Hlast in Hl. specialize (A4 Hl). unfold emitted, n in *. lia.
  - intros Hl Hw Ht Ho Hq Hp Hh. rewrite <-bool_decide_eq_false, <-Hlast in Hl. specialize (A4 Hl).
    pose proof (quiescent_idle _ _ _ _ _ _ _ Hw Ht Ho Hi Hr Hq Hp) as Hid.
    rewrite (idle_pend _ _ _ _ _ _ _ _ _ Hi Hr Hid E0) in A4.
    2:{ by destruct (NewMixers_left _ _ _ _ _ _ H0 E0) as [-> _]. }
    pose proof Hid as (I1 & _). rewrite I1 in A3. simpl in A3. unfold emitted, n. lia.
  - intros o Ho Hn. destruct (i3_emit _ _ _ (run_inv3 _ _ _ _ _ _ _ Hi Hr) o Ho) as (st' & E' & Hs & He).
    rewrite Hn in E'. exists st'. split; [done|]. split; [by eapply Inv_shuf_wg|done].
Qed.

(** Exactly once, if only the last batch met the quotas; once more for every empty batch after that. *)
Theorem C12_emitted_exactly t ms w s0 tr s m bs es :
  0 < workers → 0 < taskCap → 0 < outCap →
  NoDup (mx_name <$> ms) → NewMixers t ms w = Some s0 → run s0 tr s → m ∈ ms →
  mx_layer m ≠ (Z.of_nat (length (tp_layers t)) - 1)%Z →
  batches (mx_name m) tr = bs ++ es → bs ≠ [] →
  all_delivered t w m bs → (∀ k, 1 ≤ k < length bs → ¬ all_delivered t w m (take k bs)) →
  Forall (λ b, msg_onions b = []) es →
  (workload_of w (mx_name m) ≤ Z.of_nat (total bs))%Z →
  quiescent s → mm_panic s = false →
  cnt (is_emit (mx_name m)) tr = 1 + length es.
Proof.
  intros Hw Ht Ho Hnd H0 Hr Hm Hl Hb Hbs Hd Hno Hes Htot Hq Hp.
  destruct (C12_emissions _ _ _ _ _ _ _ Hnd H0 Hr Hm) as (_ & _ & He & _).
  rewrite He; try done.
  2:{ rewrite handed_total, Hb, total_app. lia. }
  rewrite Hb, completing_empties by done. f_equal.
  destruct bs as [|b bs _] using rev_ind; [done|].
  rewrite completing_snoc, decide_True by done.
  rewrite completing_zero; [done|]. intros k Hk.
  specialize (Hno k). rewrite take_app_le in Hno by lia. apply Hno. rewrite app_length. simpl. lia.
Qed.

(** C13: a mix that was never handed a batch blocks its readers; a last-layer mix with workload 0 is
    therefore never readable unless somebody sends it an (empty) batch. *)
Theorem C13_no_batch_no_output t ms w s0 tr s n v :
  NewMixers t ms w = Some s0 → run s0 tr s → can_return s n v → to_mix n (added tr) ≠ [].
Proof.
  intros H0 Hr (st & E & Hw & Hs & ->). pose proof (NewMixers_init_ok _ _ _ _ H0) as Hi.
  pose proof (run_inv _ _ _ _ _ _ _ Hi Hr) as HI.
  pose proof (run_inv2 _ _ _ _ _ _ _ Hi Hr) as (J1 & _ & J3 & _).
  destruct (mm_states s0 !! n) as [st0|] eqn:E0.
  2:{ apply (co_dom _ _ _ _ _ (in_core _ _ _ _ HI)) in E0. congruence. }
  destruct (J1 _ _ _ E0 E) as [A1 A2 A3 A4 A5 A6 A7 A8].
  assert (Hb : batches n tr ≠ []) by (by apply J3, A7).
  rewrite (i3_added _ _ _ (run_inv3 _ _ _ _ _ _ _ Hi Hr)), to_mix_app, <-batches_all.
  intros [? _]%app_eq_nil. done.
Qed.

End mixer.

(** and the sender makes no call for an empty output, so the next mix of the chain gets none. *)
Theorem C13_empty_output_not_forwarded round t address lsender calls :
  (∃ m ms, tp_layers t !! 0 = Some (m :: ms)) →
  sender_iteration round t address [] lsender calls → calls = Some [].
Proof.
  intros H0 H. destruct calls as [calls|].
  - apply sender_iteration_spec in H as (_ & H & H3). destruct calls as [|[h rq] calls]; [done|]. exfalso.
    destruct (H3 h rq) as (_ & _ & _ & Hne & Hm); [left|].
    destruct (rq_msgs rq) as [|m ms] eqn:E; [done|].
    destruct (Hm m) as (_ & _ & Hon & _); [left|].
    rewrite !fmap_cons in H. cbn [concat snd] in H. unfold request_onions in H. rewrite E, fmap_cons in H. cbn [concat] in H.
    destruct (msg_onions m) as [|o os]; [done|]. symmetry in H. by apply Permutation_nil_cons in H.
  - apply sender_iteration_panics_iff in H. destruct (proj1 H eq_refl). destruct H0 as (m & ms & H0).
    split; [eexists; split; [done|done]|constructor].
Qed.

(** ** Concrete executions: the hypotheses above are met, and the findings are real. *)

(** Two servers, two layers; "a" hosts m(0,0) (first layer) and m(1,0) (last layer). *)
Definition ex_topo : topology := default (mkTopo [] ∅) (CreateCascadeTopology ["a"; "b"] 2).
Definition ex_mixes : list LogicalMix := omap (GetMix ex_topo) ["m(0,0)"; "m(1,0)"].
Definition ex_peel (o : onion) : option (option onion) :=
  if decide (8 ≤ length o) then Some (Some (drop 8 o)) else None.
Definition ex_on (b : Byte.byte) : onion := replicate 8 Byte.x00 ++ [b].
Definition ex_client (bs : list Byte.byte) (n : string) : Messages :=
  mkMessages (ex_on <$> bs) "GENESIS" "GENESIS" n.
Definition ex_work : gmap string Z := <["m(0,0)" := 2%Z]> (<["m(1,0)" := 1%Z]> (<["m(0,1)" := 1%Z]> ∅)).
Definition ex_init : mixers :=
  default (mkMixers ∅ [] true [] None [] [] true) (NewMixers ex_topo ex_mixes ex_work).
Definition ex_exec := exec ex_peel 2 2 4.

Definition someb {A} (o : option A) : bool := match o with Some _ => true | None => false end.
Lemma someb_default {A} (o : option A) d : someb o = true → o = Some (default d o).
Proof. by destruct o. Qed.
Lemma ex_new : NewMixers ex_topo ex_mixes ex_work = Some ex_init.
Proof. unfold ex_init. apply someb_default. vm_compute. reflexivity. Qed.

(** Two client batches for m(0,0), one task at a time. *)
Definition ex_sched : list choice :=
  [CAdd [ex_client [Byte.x01] "m(0,0)"]; CHold; CHold; CHold; CHold; CHold;
   CAdd [ex_client [Byte.x02] "m(0,0)"]; CHold; CHold; CHold; CHold;
   CTake; CTake; CDecrypt 1; CHold; CDecrypt 0; CPend 0; CPend 0; CPend 0; CRecv].

Definition run_trace (cs : list choice) : list label :=
  default [] (fst <$> ex_exec cs ex_init).
Definition run_final (cs : list choice) : mixers :=
  default ex_init (snd <$> ex_exec cs ex_init).

Lemma ex_runs cs : someb (ex_exec cs ex_init) = true →
  run ex_peel 2 2 4 ex_init (run_trace cs) (run_final cs).
Proof.
  intros H. apply (exec_sound _ _ _ _ cs). fold ex_exec. unfold run_trace, run_final.
  by destruct (ex_exec cs ex_init) as [[tr s]|].
Qed.
Lemma no_close (tr : list label) :
  forallb (λ l, match l with LClose => false | _ => true end) tr = true → LClose ∉ tr.
Proof.
  induction tr as [|l tr IH]; simpl; [intros _ H; by apply elem_of_nil in H|].
  intros [H1 H2]%andb_prop [<-|H]%elem_of_cons; [done|by apply IH].
Qed.
Definition can_return_b (s : mixers) (n : string) (v : list (option onion)) : bool :=
  match mm_states s !! n with
  | Some st => bool_decide (st_wg st = 0%Z) && st_shuffled st && bool_decide (v = st_outs st)
  | None => false
  end.
Lemma can_return_b_ok s n v : can_return_b s n v = true → can_return s n v.
Proof.
  unfold can_return_b. destruct (mm_states s !! n) as [st|] eqn:E; [|done].
  intros [[H1%bool_decide_eq_true H2]%andb_prop H3%bool_decide_eq_true]%andb_prop. by exists st.
Qed.

(** It is well behaved, complete, and m(0,0) answers with both plaintexts: hypotheses of C08, C09,
    C10 and C12 hold together. *)
Example C10_example :
  run ex_peel 2 2 4 ex_init (run_trace ex_sched) (run_final ex_sched) ∧
  well_behaved ex_peel ex_mixes ex_work (run_trace ex_sched) ∧
  can_return (run_final ex_sched) "m(0,0)" [Some [Byte.x01]; Some [Byte.x02]] ∧
  (∃ m, ex_mixes !! 0 = Some m ∧ all_delivered ex_topo ex_work m (to_mix "m(0,0)" (added (run_trace ex_sched)))) ∧
  cnt (is_emit "m(0,0)") (run_trace ex_sched) = 1 ∧
  mm_holder (run_final ex_sched) = None ∧ mm_tasks (run_final ex_sched) = [] ∧
  mm_inflight (run_final ex_sched) = [] ∧ mm_pend (run_final ex_sched) = [] ∧ mm_out (run_final ex_sched) = [].
Proof.
  split; [apply ex_runs; vm_compute; reflexivity|].
  split.
  { assert (Ha : added (run_trace ex_sched) = [ex_client [Byte.x01] "m(0,0)"; ex_client [Byte.x02] "m(0,0)"])
      by (vm_compute; reflexivity).
    split; [|rewrite Ha; clear Ha; split; [|split]].
    - apply no_close. vm_compute. reflexivity.
    - intros m Hm. repeat (apply elem_of_cons in Hm as [->|Hm]; [vm_compute; left|]). by apply elem_of_nil in Hm.
    - intros m o Hm Ho.
      repeat (apply elem_of_cons in Hm as [->|Hm];
        [apply elem_of_list_singleton in Ho as ->; vm_compute; discriminate|]). by apply elem_of_nil in Hm.
    - intros n Hn.
      assert (n = "m(0,0)" ∨ n = "m(1,0)") as [->| ->].
      { vm_compute in Hn. apply elem_of_cons in Hn as [->|Hn]; [by left|].
        apply elem_of_cons in Hn as [->|Hn]; [by right|]. by apply elem_of_nil in Hn. }
      all: vm_compute; discriminate. }
  split.
  { apply can_return_b_ok. vm_compute. reflexivity. }
  split.
  { eexists. split; [vm_compute; reflexivity|]. vm_compute. repeat constructor. }
  split; [vm_compute; reflexivity|]. repeat split; vm_compute; reflexivity.
Qed.

(** C12, the finding: an empty batch sent to the completed mix forwards the whole output again. *)
Definition ex_late : list choice :=
  ex_sched ++ [CAdd [ex_client [] "m(0,0)"]; CHold; CHold; CHold; CHold; CPend 0; CPend 0; CPend 0; CRecv].
Definition ex_out : mixoutput := mkMixoutput [Some [Byte.x01]; Some [Byte.x02]] "m(0,0)".

Theorem C12_late_empty_batch_refuted :
  ∃ tr s, run ex_peel 2 2 4 ex_init tr s ∧ filter (λ l, is_emit "m(0,0)" l) tr = [LEmit ex_out; LEmit ex_out].
Proof.
  exists (run_trace ex_late), (run_final ex_late). split; [|vm_compute; reflexivity].
  apply ex_runs. vm_compute. reflexivity.
Qed.

(** C11, concretely: each of the three misuses crashes the process. *)
Example C11_unknown_receiver :
  ∃ tr s, run ex_peel 2 2 4 ex_init tr s ∧ mm_panic s = true ∧
     added tr = [ex_client [Byte.x01] "m(0,1)"].
Proof.
  eexists _, _. split; [|split].
  - apply (ex_runs [CAdd [ex_client [Byte.x01] "m(0,1)"]; CHold]). vm_compute. reflexivity.
  - vm_compute. reflexivity.
  - vm_compute. reflexivity.
Qed.
Example C11_over_delivery :
  ∃ tr s, run ex_peel 2 2 4 ex_init tr s ∧ mm_panic s = true ∧
     added tr = [ex_client [Byte.x01; Byte.x02; Byte.x03] "m(0,0)"].
Proof.
  eexists _, _. split; [|split].
  - apply (ex_runs [CAdd [ex_client [Byte.x01; Byte.x02; Byte.x03] "m(0,0)"];
      CHold; CHold; CHold; CTake; CTake; CDecrypt 0; CDecrypt 0; CHold; CTake; CDecrypt 0]). vm_compute. reflexivity.
  - vm_compute. reflexivity.
  - vm_compute. reflexivity.
Qed.

(** C13: with workload 0 everywhere the server is final from the start and nobody can be answered. *)
Lemma fresh_quiescent s0 : init_ok s0 → quiescent ex_peel 2 2 4 s0.
Proof.
  intros (H1 & H2 & H3 & H4 & H5 & H6 & H7 & _) l s' Hs.
  inversion Hs; subst; try reflexivity; try congruence.
  all: match goal with
       | H : mm_inflight _ = ?l ++ _ |- _ => rewrite H3 in H; by destruct l
       | H : mm_pend _ = ?l ++ _ |- _ => rewrite H5 in H; by destruct l
       end.
Qed.
Lemma never_ready t ms w s0 : NewMixers t ms w = Some s0 →
  quiescent ex_peel 2 2 4 s0 ∧ ∀ n v, ¬ can_return s0 n v.
Proof.
  intros H0. split; [apply fresh_quiescent; by eapply NewMixers_init_ok|].
  intros n v Hv. apply (C13_no_batch_no_output ex_peel 2 2 4 _ _ _ _ [] _ _ _ H0) in Hv; [done|constructor].
Qed.
Example C13_example :
  ∃ s0, NewMixers ex_topo ex_mixes ∅ = Some s0 ∧ quiescent ex_peel 2 2 4 s0 ∧
    workload_of ∅ "m(1,0)" = 0%Z ∧ ∀ v, ¬ can_return s0 "m(1,0)" v.
Proof.
  assert (H0 : NewMixers ex_topo ex_mixes ∅ = Some (default ex_init (NewMixers ex_topo ex_mixes ∅))).
  { apply someb_default. vm_compute. reflexivity. }
  destruct (never_ready _ _ _ _ H0) as [H1 H2].
  eexists. split; [exact H0|]. split; [exact H1|]. split; [reflexivity|exact (H2 "m(1,0)")].
Qed.

Print Assumptions C08_outputs_are_decryptions.
Print Assumptions C09_visible_iff_shuffled.
Print Assumptions C09_stable.
Print Assumptions C10_no_crash.
Print Assumptions C10_terminates.
Print Assumptions C10_completes.
Print Assumptions C10_final_state_reachable.
Print Assumptions C11_crash_inevitable.
Print Assumptions C12_emissions.
Print Assumptions C12_emitted_exactly.
Print Assumptions C12_late_empty_batch_refuted.
Print Assumptions C13_no_batch_no_output.
Print Assumptions C13_empty_output_not_forwarded.
