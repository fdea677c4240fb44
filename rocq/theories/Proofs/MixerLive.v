(** Termination, progress, crash and stability facts about the mixer transition system. *)
From stdpp Require Import gmap.
From Verif.Base Require Import Base.
From Verif.Model Require Import Topology Shuffle Onion Mixer.
From Verif.Spec Require Import MixerSpec.
From Verif.Proofs Require Import ShuffleProofs MixerInv MixerProps.

(** ** Vocabulary *)
Lemma added_app tr tr' : added (tr ++ tr') = added tr ++ added tr'.
Proof. unfold added. by rewrite omap_app, concat_app. Qed.
Lemma allbatches_app tr tr' : allbatches (tr ++ tr') = allbatches tr ++ allbatches tr'.
Proof. apply omap_app. Qed.
Lemma batches_all n tr : batches n tr = to_mix n (allbatches tr).
Proof.
  unfold batches, allbatches, to_mix. induction tr as [|l tr IH]; [done|].
  simpl. destruct l; simpl; try done.
  rewrite filter_cons. destruct (decide (msg_recv msg = n)); simpl; [f_equal|]; done.
Qed.
Lemma total_app bs bs' : total (bs ++ bs') = total bs + total bs'.
Proof. unfold total. by rewrite fmap_app, concat_app, app_length. Qed.
Lemma total_cons m bs : total (m :: bs) = length (msg_onions m) + total bs.
Proof. unfold total. simpl. by rewrite app_length. Qed.
Lemma handed_total n tr : length (handed n tr) = total (batches n tr).
Proof. done. Qed.
Lemma to_mix_app n bs bs' : to_mix n (bs ++ bs') = to_mix n bs ++ to_mix n bs'.
Proof. apply filter_app. Qed.

Definition holder_msgs (h : option holder) : list Messages :=
  match h with
  | None => []
  | Some (HMsgs ms) => ms
  | Some (HPush _ _ ms) | Some (HCheck _ ms) => ms
  end.

(** ** The measure *)
Definition cost_msgs (ms : list Messages) : nat :=
  foldr (λ m acc, 3 * length (msg_onions m) + 7 + acc) 1 ms.
Definition cost_holder (h : option holder) : nat :=
  match h with
  | None => 0
  | Some (HMsgs ms) => cost_msgs ms
  | Some (HPush _ ts ms) => 3 * length ts + 6 + cost_msgs ms
  | Some (HCheck _ ms) => 5 + cost_msgs ms
  end.
Definition cost_phase (e : string * phase) : nat :=
  match e.2 with PWait => 4 | POnce => 3 | PSend => 2 end.
Definition cost_pend (p : list (string * phase)) : nat := foldr (λ e acc, cost_phase e + acc) 0 p.
Definition mu (s : mixers) : nat :=
  cost_holder (mm_holder s) + 2 * length (mm_tasks s) + length (mm_inflight s) +
  cost_pend (mm_pend s) + length (mm_out s) + (if mm_panic s then 0 else 1).

Lemma cost_pend_app p q : cost_pend (p ++ q) = cost_pend p + cost_pend q.
Proof. unfold cost_pend. induction p as [|e p IH]; simpl; [done|]. lia. Qed.
Lemma mkTasks_length mix left os : length (mkTasks mix left os) = length os.
Proof. revert left; induction os as [|o os IH]; intros left; simpl; [done|]. by rewrite IH. Qed.

Section live.
Context (peel : onion → option (option onion)) (workers taskCap outCap : nat).
Notation step := (step peel workers taskCap outCap).
Notation run := (run peel workers taskCap outCap).

Lemma step_measure s l s' : step s l s' → internal l = true → mu s' < mu s.
Proof.
  intros Hs Hint. unfold mu.
  inversion Hs; subst; simpl in Hint; try done; simpl;
    repeat match goal with
    | H : mm_panic s = _ |- _ => rewrite H; clear H
    | H : mm_holder s = _ |- _ => rewrite H; clear H
    | H : mm_tasks s = _ |- _ => rewrite H; clear H
    | H : mm_inflight s = _ |- _ => rewrite H; clear H
    | H : mm_pend s = _ |- _ => rewrite H; clear H
    | H : mm_out s = _ |- _ => rewrite H; clear H
    end; simpl; rewrite ?app_length, ?mkTasks_length; simpl; rewrite ?cost_pend_app; simpl;
    unfold cost_phase; simpl; try lia.
  - destruct (isDone st); rewrite ?cost_pend_app; simpl; unfold cost_phase; simpl; lia.
  - destruct (st_last st); rewrite ?cost_pend_app; simpl; unfold cost_phase; simpl; lia.
  - destruct (st_last st); rewrite ?cost_pend_app; simpl; unfold cost_phase; simpl; lia.
Qed.

(** Every run of internal steps is at most [mu s] long. *)
Lemma run_bounded s tr s' : run s tr s' → Forall (λ l, internal l = true) tr → length tr + mu s' ≤ mu s.
Proof.
  induction 1 as [|tr l s1 s2 Hr IH Hs]; intros Hf; simpl; [lia|].
  apply Forall_app in Hf as [Hf Hl]. rewrite Forall_singleton in Hl.
  rewrite app_length. simpl. specialize (IH Hf). pose proof (step_measure _ _ _ Hs Hl). lia.
Qed.

Lemma run_app s tr s1 tr' s2 : run s tr s1 → run s1 tr' s2 → run s (tr ++ tr') s2.
Proof.
  intros H1 H2. induction H2 as [|tr' l s2 s3 Hr IH Hs].
  - by rewrite app_nil_r.
  - rewrite app_assoc. econstructor; [exact IH|done].
Qed.
Lemma run_cons s l s1 tr s2 : step s l s1 → run s1 tr s2 → run s (l :: tr) s2.
Proof.
  intros H1 H2. change (l :: tr) with ([l] ++ tr). eapply run_app; [|exact H2].
  change [l] with ([] ++ [l]). econstructor; [constructor|done].
Qed.
Lemma run_split s0 tr1 tr2 s : run s0 (tr1 ++ tr2) s → ∃ s1, run s0 tr1 s1 ∧ run s1 tr2 s.
Proof.
  revert s. induction tr2 as [|l tr2 IH] using rev_ind; intros s Hr.
  - rewrite app_nil_r in Hr. exists s. split; [done|constructor].
  - rewrite app_assoc in Hr. inversion Hr as [Hn|tr' l' s1 s2 Hr' Hs Heq].
    { by destruct (tr1 ++ tr2). }
    apply app_inj_tail in Heq as [-> ->]. destruct (IH _ Hr') as (x & Hx1 & Hx2).
    exists x. split; [done|]. by econstructor.
Qed.
Lemma run_one s l s' : run s [l] s' ↔ step s l s'.
Proof.
  split.
  - intros H. inversion H as [|tr l' s1 s2 Hr Hs Heq]; subst.
    destruct tr as [|x tr]; [|by destruct tr]. simpl in Heq. injection Heq as ->.
    inversion Hr as [|tr l' s2 s3 Hr' Hs' Heq]; subst; [done|by destruct tr].
  - intros H. change [l] with ([] ++ [l]). econstructor; [constructor|done].
Qed.

(** ** Simple trace invariants *)
Record Inv3 (s0 : mixers) (tr : list label) (s : mixers) : Prop := {
  i3_added : added tr = allbatches tr ++ holder_msgs (mm_holder s);
  i3_closed : mm_closed s = true → LClose ∈ tr;
  i3_panic : mm_panic s = true ↔ LPanic ∈ tr ∨ LCloseTwice ∈ tr;
  i3_over : ∀ n st0 k, mm_states s0 !! n = Some st0 → k < length (handed n tr) →
     (st_left st0 ≤ Z.of_nat k)%Z →
     (n, (st_left st0 - 1 - Z.of_nat k)%Z) ∈ (tkey <$> alltasks s);
  i3_emit : ∀ o, LEmit o ∈ tr → ∃ st, mm_states s !! mo_sender o = Some st ∧
     st_shuffled st = true ∧ mo_onions o = st_outs st
}.

Lemma emit_stable (s s' : mixers) (o : mixoutput) l :
  (∃ st, mm_states s !! mo_sender o = Some st ∧ st_shuffled st = true ∧ mo_onions o = st_outs st ∧ st_wg st = 0%Z) →
  (∀ t st, t ∈ mm_inflight s → mm_states s !! tk_mix t = Some st → (0 ≤ tk_idx t)%Z → st_wg st ≠ 0%Z) →
  step s l s' →
  ∃ st, mm_states s' !! mo_sender o = Some st ∧ st_shuffled st = true ∧ mo_onions o = st_outs st.
Proof.
  intros (st & E & Hs & Ho & Hw) Hpos Hstep.
  inversion Hstep; subst; simpl; eauto.
  - destruct (decide (msg_recv msg = mo_sender o)) as [Heq|Hne].
    + rewrite Heq in *. rewrite lookup_insert. eexists. split; [done|]. simpl.
      match goal with H : mm_states s !! mo_sender o = Some ?x |- _ => rewrite E in H; injection H as <- end. done.
    + rewrite lookup_insert_ne by done. eauto.
  - destruct (decide (tk_mix t = mo_sender o)) as [Heq|Hne].
    + exfalso. rewrite <-Heq in E. eapply (Hpos t); [|exact E|done|done].
      match goal with H : mm_inflight s = _ |- _ => rewrite H end. set_solver.
    + rewrite lookup_insert_ne by done. eauto.
  - destruct (decide (mix = mo_sender o)) as [->|Hne].
    + exfalso. congruence.
    + rewrite lookup_insert_ne by done. eauto.
Qed.

Lemma Inv_inflight_pos s0 tr s :
  Inv peel s0 tr s →
  ∀ t st, t ∈ mm_inflight s → mm_states s !! tk_mix t = Some st → (0 ≤ tk_idx t)%Z → st_wg st ≠ 0%Z.
Proof.
  intros HI t st Ht E Hidx Hz.
  destruct (mm_states s0 !! tk_mix t) as [st0|] eqn:E0.
  2:{ apply (co_dom _ _ _ _ _ (in_core _ _ _ _ HI)) in E0. congruence. }
  pose proof (mi_wg _ _ _ _ _ _ (co_mix _ _ _ _ _ (in_core _ _ _ _ HI) _ _ _ E0 E)) as Hwg.
  assert (t ∈ live (tk_mix t) (alltasks s)) as Hlv.
  { apply elem_of_list_filter. split; [done|]. unfold alltasks. set_solver. }
  destruct (live (tk_mix t) (alltasks s)); [by apply elem_of_nil in Hlv|]. simpl in Hwg. lia.
Qed.

Lemma Inv_shuf_wg s0 tr s n st :
  Inv peel s0 tr s → mm_states s !! n = Some st → st_shuffled st = true → st_wg st = 0%Z.
Proof.
  intros HI E Hs. destruct (mm_states s0 !! n) as [st0|] eqn:E0.
  2:{ apply (co_dom _ _ _ _ _ (in_core _ _ _ _ HI)) in E0. congruence. }
  by destruct (mi_shuf _ _ _ _ _ _ (co_mix _ _ _ _ _ (in_core _ _ _ _ HI) _ _ _ E0 E) Hs).
Qed.

Lemma step_alltasks s l s' :
  step s l s' →
  (∃ msg st, l = LBatch msg ∧ mm_states s !! msg_recv msg = Some st ∧
      alltasks s' ≡ₚ mkTasks (msg_recv msg) (st_left st) (msg_onions msg) ++ alltasks s) ∨
  (is_batch l = false ∧ ∃ t, (0 ≤ tk_idx t)%Z ∧ alltasks s ≡ₚ t :: alltasks s') ∨
  (is_batch l = false ∧ alltasks s' ≡ₚ alltasks s).
Proof.
  intros Hs. inversion Hs; subst; unfold alltasks; simpl;
    repeat match goal with
    | H : mm_holder s = _ |- _ => rewrite H; clear H
    | H : mm_tasks s = _ |- _ => rewrite H; clear H
    | H : mm_inflight s = _ |- _ => rewrite H; clear H
    end; simpl; try (right; right; split; [done|reflexivity]).
  - left. eexists _, st. split; [done|]. split; [done|]. done.
  - right; right. split; [done|].
    rewrite <-(app_assoc (mm_tasks s) [t]). simpl.
    rewrite (app_assoc ts (mm_tasks s) (t :: _)), <-Permutation_middle, <-app_assoc. done.
  - right; right. split; [done|]. f_equiv.
    rewrite app_assoc. by rewrite <-Permutation_cons_append.
  - right; left. split; [done|]. exists t. split; [done|].
    by rewrite !app_assoc, <-Permutation_middle.
Qed.

Lemma step_inv3 s0 tr s l s' :
  init_ok s0 → Inv peel s0 tr s → Inv3 s0 tr s → step s l s' → Inv3 s0 (tr ++ [l]) s'.
Proof.
  intros Hinit HI [A1 A2 A3 A4 A5] Hs. split.
  - rewrite added_app, allbatches_app, A1.
    inversion Hs; subst; simpl; unfold added; simpl;
    repeat match goal with
    | H : mm_holder s = _ |- _ => rewrite H; clear H
    end; simpl; rewrite ?app_nil_r; try done.
    by rewrite <-app_assoc.
  - rewrite elem_of_app, elem_of_list_singleton.
    inversion Hs; subst; simpl; auto.
  - rewrite !elem_of_app, !elem_of_list_singleton.
    inversion Hs; subst; simpl; rewrite ?A3; clear; naive_solver.
  - intros n st0 k E0 Hk Hle.
    destruct (step_alltasks _ _ _ Hs) as [(msg & st & -> & Est & Hp)|[(Hb & t & Hidx & Hp)|(Hb & Hp)]].
    + rewrite Hp, fmap_app. apply elem_of_app.
      rewrite handed_batch in Hk.
      destruct (decide (k < length (handed n tr))) as [Hlt|Hge]; [right; by eapply A4|left].
      destruct (decide (msg_recv msg = n)) as [<-|Hne].
      2:{ rewrite app_nil_r in Hk. lia. }
      rewrite app_length in Hk.
      pose proof (mi_left _ _ _ _ _ _ (co_mix _ _ _ _ _ (in_core _ _ _ _ HI) _ _ _ E0 Est)) as Hleft.
      apply elem_of_list_lookup. exists (k - length (handed (msg_recv msg) tr)).
      rewrite list_lookup_fmap, mkTasks_lookup.
      destruct (msg_onions msg !! (k - length (handed (msg_recv msg) tr))) as [o|] eqn:Eo.
      * simpl. unfold tkey. simpl. do 2 f_equal. lia.
      * apply lookup_ge_None in Eo. lia.
    + rewrite handed_nonbatch in Hk by done. specialize (A4 _ _ _ E0 Hk Hle).
      rewrite Hp in A4. apply elem_of_cons in A4 as [Heq|Hin]; [|done].
      unfold tkey in Heq. injection Heq as Heq1 Heq2. lia.
    + rewrite handed_nonbatch in Hk by done. rewrite Hp. by eapply A4.
  - intros o. rewrite elem_of_app, elem_of_list_singleton. intros [Ho|Ho].
    + destruct (A5 o Ho) as (st & E & H1 & H2). eapply emit_stable; [| |exact Hs].
      * exists st. split; [done|]. split; [done|]. split; [done|]. by eapply Inv_shuf_wg.
      * by eapply Inv_inflight_pos.
    + pose proof (step_inv _ _ _ _ _ _ _ _ _ Hinit HI Hs) as HI'.
      destruct (in_out _ _ _ _ HI' o) as (st & E & H1 & _ & H2); [|by eauto].
      subst l. inversion Hs; subst. simpl. set_solver.
Qed.

Lemma init_inv3 s0 : init_ok s0 → Inv3 s0 [] s0.
Proof.
  intros (H1 & H2 & H3 & H4 & H5 & H6 & H7 & H8). split.
  - by rewrite H4.
  - by rewrite H2.
  - rewrite H7. split; [done|]. intros [H|H]; by apply elem_of_nil in H.
  - intros n st0 k _ Hk. unfold handed in Hk. simpl in Hk. lia.
  - intros o H. by apply elem_of_nil in H.
Qed.

Lemma run_inv3 s0 tr s : init_ok s0 → run s0 tr s → Inv3 s0 tr s.
Proof.
  intros H0 Hr. induction Hr as [|tr l s s' Hr IH Hs]; [by apply init_inv3|].
  eapply step_inv3; try done. by eapply run_inv.
Qed.

(** ** Stability of returned outputs *)
Lemma can_return_step s0 tr s l s' n v :
  init_ok s0 → Inv peel s0 tr s → step s l s' → can_return s n v → can_return s' n v.
Proof.
  intros Hinit HI Hs (st & E & Hw & Hsh & ->).
  destruct (emit_stable s s' (mkMixoutput (st_outs st) n) l) as (st' & E' & Hs' & Ho'); [..|done|].
  - exists st. done.
  - by eapply Inv_inflight_pos.
  - simpl in *. exists st'. split; [done|]. split; [|done].
    eapply Inv_shuf_wg; [eapply step_inv; [exact Hinit|exact HI|exact Hs]|done|done].
Qed.

Lemma can_return_det s n v v' : can_return s n v → can_return s n v' → v = v'.
Proof. intros (st & E & _ & _ & ->) (st' & E' & _ & _ & ->). congruence. Qed.

Lemma can_return_run s0 tr s tr' s' n v :
  init_ok s0 → run s0 tr s → run s tr' s' → can_return s n v → can_return s' n v.
Proof.
  intros Hinit H0 H1 Hv. induction H1 as [|tr' l s1 s2 Hr IH Hs]; [done|].
  eapply can_return_step; [exact Hinit| |exact Hs|exact IH].
  eapply run_inv; [done|]. by eapply run_app.
Qed.

(** ** Progress *)
Notation quiescent := (quiescent peel workers taskCap outCap).

Lemma panicked_quiescent s : mm_panic s = true → quiescent s.
Proof. intros H l s' Hs. inversion Hs; congruence. Qed.

Lemma shuffles_exists {A} (l : list A) : ∃ l', shuffles l l'.
Proof.
  destruct (ShuffleOnions_ok (Reader (λ _ : unit, ([], ()))) (NewShuffler ()) l) as (l' & sh' & p & H & _); [done|].
  by eexists l', _, _, _, _.
Qed.

(** What is left when the server has nothing more to do. *)
Definition idle (s : mixers) : Prop :=
  mm_holder s = None ∧ mm_tasks s = [] ∧ mm_inflight s = [] ∧ mm_out s = [] ∧
  ∀ n p, (n, p) ∈ mm_pend s → p = PWait ∧ ∃ st, mm_states s !! n = Some st ∧ st_wg st ≠ 0%Z.

Lemma progress s0 tr s :
  0 < workers → 0 < taskCap → 0 < outCap →
  init_ok s0 → Inv peel s0 tr s → mm_panic s = false →
  idle s ∨ ∃ l s', internal l = true ∧ step s l s'.
Proof.
  intros Hw Ht Hoc Hinit HI Hnp.
  destruct (mm_inflight s) as [|t fl] eqn:Efl.
  2:{ right. destruct (peel (tk_in t)) as [r|] eqn:Ep.
      2:{ eexists _, _. split; [|eapply (step_decrypt_bad _ _ _ _ s [] t fl); done]. done. }
      destruct (co_tasks _ _ _ _ _ (in_core _ _ _ _ HI) t) as (st0 & k & E0 & _ & _).
      { unfold alltasks. rewrite Efl. set_solver. }
      destruct (mm_states s !! tk_mix t) as [st|] eqn:E.
      2:{ apply (co_dom _ _ _ _ _ (in_core _ _ _ _ HI)) in E. congruence. }
      destruct (decide (0 ≤ tk_idx t ∧ tk_idx t < Z.of_nat (length (st_outs st)))%Z) as [[H1 H2]|Hn].
      - eexists _, _. split; [|eapply (step_decrypt _ _ _ _ s [] t fl); done]. done.
      - eexists _, _. split; [|eapply (step_decrypt_idx _ _ _ _ s [] t fl); try done; lia]. done. }
  destruct (mm_tasks s) as [|t ts] eqn:Ets.
  2:{ right. eexists _, _. split; [|eapply step_take; try done]. { done. } rewrite Efl. simpl. lia. }
  destruct (mm_holder s) as [[[|m ms]|mix [|t ts] ms|mix ms]|] eqn:Eh.
  - right. eexists _, _. split; [|eapply step_return; done]. done.
  - right. destruct (mm_states s !! msg_recv m) as [st|] eqn:E.
    + eexists _, _. split; [|eapply step_batch; done]. done.
    + eexists _, _. split; [|eapply step_batch_nil; done]. done.
  - right. eexists _, _. split; [|eapply step_pushed; done]. done.
  - right. destruct (mm_closed s) eqn:Ec.
    + eexists _, _. split; [|eapply step_push_closed; done]. done.
    + eexists _, _. split; [|eapply step_push; try done]. { done. } rewrite Ets. simpl. lia.
  - right. pose proof (in_holder _ _ _ _ HI) as Hh. rewrite Eh in Hh. destruct Hh as [st E].
    eexists _, _. split; [|eapply step_check; done]. done.
  - destruct (mm_out s) as [|o os] eqn:Eo.
    2:{ right. eexists _, _. split; [|eapply step_recv; done]. done. }
    assert (Hpend : (∀ n p, (n, p) ∈ mm_pend s → p = PWait ∧ ∃ st, mm_states s !! n = Some st ∧ st_wg st ≠ 0%Z)
       ∨ ∃ l s', internal l = true ∧ step s l s').
    2:{ destruct Hpend as [Hp|Hp]; [left|by right]. done. }
    assert (Hone : ∀ e, e ∈ mm_pend s →
       (e.2 = PWait ∧ ∃ st, mm_states s !! e.1 = Some st ∧ st_wg st ≠ 0%Z)
        ∨ ∃ l s', internal l = true ∧ step s l s').
    { intros [n p] Hin. simpl. destruct (in_pend _ _ _ _ HI n p Hin) as (st & E & H1 & H2).
      apply elem_of_list_split in Hin as (p1 & p2 & Hp).
      destruct p.
      - destruct (decide (st_wg st = 0%Z)) as [Hz|Hz]; [right|left; eauto].
        eexists _, _. split; [|eapply step_waited; done]. done.
      - right. destruct (st_shuffled st) eqn:Es.
        + eexists _, _. split; [|eapply step_once_again; done]. done.
        + destruct (shuffles_exists (st_outs st)) as [outs Ho].
          eexists _, _. split; [|eapply step_shuffle; done]. done.
      - right. destruct H2 as [H2 H3]; [done|]. eexists _, _. split; [|eapply step_emit; try done].
        { done. } { apply H1. by right. } rewrite Eo. simpl. lia. }
    clear -Hone. induction (mm_pend s) as [|[n p] ps IH].
    + left. intros n p H. by apply elem_of_nil in H.
    + destruct (Hone (n, p)) as [H1|H1]; [left| |by right].
      destruct IH as [IH|IH]; [|left|by right].
      * intros e He. apply Hone. by right.
      * intros n' p' [Heq|Hin]%elem_of_cons; [|by eapply IH]. injection Heq as -> ->. done.
Qed.

Lemma quiescent_idle s0 tr s :
  0 < workers → 0 < taskCap → 0 < outCap →
  init_ok s0 → run s0 tr s → quiescent s → mm_panic s = false → idle s.
Proof.
  intros Hw Ht Ho Hi Hr Hq Hp.
  destruct (progress s0 tr s) as [H|(l & s' & Hint & Hs)]; try done.
  - by eapply run_inv.
  - apply Hq in Hs. congruence.
Qed.

(** From every reachable state some internal run reaches a final one. *)

Lemma reach_quiescent s0 tr s :
  0 < workers → 0 < taskCap → 0 < outCap →
  init_ok s0 → run s0 tr s →
  ∃ tr' s', run s tr' s' ∧ Forall (λ l, internal l = true) tr' ∧
     (mm_panic s' = true ∨ idle s').
Proof.
  intros Hw Ht Ho Hi. remember (mu s) as k eqn:Ek. revert tr s Ek.
  induction (lt_wf k) as [k _ IH]; intros tr s -> Hr.
  destruct (mm_panic s) eqn:Hp.
  { exists [], s. split; [constructor|]. split; [constructor|]. by left. }
  destruct (progress s0 tr s) as [H|(l & s' & Hint & Hs)]; try done.
  { by eapply run_inv. }
  { exists [], s. split; [constructor|]. split; [constructor|]. by right. }
  destruct (IH (mu s') (step_measure _ _ _ Hs Hint) (tr ++ [l]) s' eq_refl) as (tr' & s2 & H1 & H2 & H3).
  { by econstructor. }
  exists (l :: tr'), s2. split; [by eapply run_cons|]. split; [by constructor|done].
Qed.

(** ** Completion at quiescence *)
Lemma idle_alltasks s : idle s → alltasks s = [].
Proof. intros (H1 & H2 & H3 & _). unfold alltasks. by rewrite H1, H2, H3. Qed.

Lemma idle_complete s0 tr s n st0 st :
  init_ok s0 → run s0 tr s → idle s →
  mm_states s0 !! n = Some st0 → mm_states s !! n = Some st →
  (st_left st0 ≤ Z.of_nat (length (handed n tr)))%Z → st_wg st = 0%Z.
Proof.
  intros Hi Hr Hid E0 E Hle.
  pose proof (run_inv _ _ _ _ _ _ _ Hi Hr) as HI.
  pose proof (mi_wg _ _ _ _ _ _ (co_mix _ _ _ _ _ (in_core _ _ _ _ HI) _ _ _ E0 E)) as Hwg.
  rewrite (idle_alltasks _ Hid) in Hwg. unfold live in Hwg. simpl in Hwg. lia.
Qed.

Lemma idle_pend s0 tr s n st0 :
  init_ok s0 → run s0 tr s → idle s →
  mm_states s0 !! n = Some st0 →
  (st_left st0 ≤ Z.of_nat (length (handed n tr)))%Z → pend_of n (mm_pend s) = 0.
Proof.
  intros Hi Hr Hid E0 Hle.
  destruct (filter (λ e, e.1 = n) (mm_pend s)) as [|[n' p] ps] eqn:Ef.
  { unfold pend_of. by rewrite Ef. }
  exfalso. assert ((n', p) ∈ filter (λ e : string * phase, e.1 = n) (mm_pend s)) as Hin by (rewrite Ef; left).
  apply elem_of_list_filter in Hin as [Hn Hin]. simpl in Hn. subst n'.
  pose proof Hid as (_ & _ & _ & _ & Hp). destruct (Hp _ _ Hin) as (_ & st & E & Hnz).
  apply Hnz. by eapply idle_complete.
Qed.

Lemma completions_pos preds bs :
  bs ≠ [] → counts_met preds bs → 0 < completions preds bs.
Proof.
  intros Hb Hc. destruct bs as [|m bs _] using rev_ind; [done|].
  rewrite completions_snoc, decide_True by done. lia.
Qed.

Lemma idle_returns s0 tr s n st0 :
  init_ok s0 → run s0 tr s → idle s →
  mm_states s0 !! n = Some st0 →
  (st_left st0 ≤ Z.of_nat (length (handed n tr)))%Z →
  0 < completions (st_preds st0) (batches n tr) →
  ∃ v, can_return s n v.
Proof.
  intros Hi Hr Hid E0 Hle Hc.
  pose proof (run_inv _ _ _ _ _ _ _ Hi Hr) as HI.
  pose proof (run_inv2 _ _ _ _ _ _ _ Hi Hr) as (J1 & _).
  destruct (mm_states s !! n) as [st|] eqn:E.
  2:{ apply (co_dom _ _ _ _ _ (in_core _ _ _ _ HI)) in E. congruence. }
  destruct (J1 _ _ _ E0 E) as [A1 A2 A3 A4 A5 A6 A7 A8].
  destruct Hid as (Hh & Hid'). rewrite Hh in A3. simpl in A3.
  destruct A6 as [Hp|Hs]; [lia| |].
  - rewrite (idle_pend s0 tr s n st0) in Hp by done. lia.
  - exists (st_outs st), st. split; [done|]. split; [|done]. by eapply Inv_shuf_wg.
Qed.

(** ** No crash for well-behaved callers *)
Definition well_fed (s0 : mixers) (tr : list label) : Prop :=
  LClose ∉ tr ∧
  (∀ m, m ∈ added tr → is_Some (mm_states s0 !! msg_recv m) ∧ ∀ o, o ∈ msg_onions m → peel o ≠ None) ∧
  (∀ n st0, mm_states s0 !! n = Some st0 → (Z.of_nat (total (to_mix n (added tr))) ≤ st_left st0)%Z).

Lemma well_fed_prefix s0 tr l : well_fed s0 (tr ++ [l]) → well_fed s0 tr.
Proof.
  intros (H1 & H2 & H3). split; [set_solver|]. split.
  - intros m Hm. apply H2. rewrite added_app. set_solver.
  - intros n st0 E. specialize (H3 n st0 E). rewrite added_app, to_mix_app, total_app in H3. lia.
Qed.

Lemma handed_in_added s0 tr s n o :
  Inv3 s0 tr s → o ∈ handed n tr → ∃ m, m ∈ added tr ∧ msg_recv m = n ∧ o ∈ msg_onions m.
Proof.
  intros H3 Ho. unfold handed in Ho. rewrite batches_all in Ho.
  apply elem_of_list_In, in_concat in Ho as (os & Hos & Ho). apply elem_of_list_In in Hos, Ho.
  apply elem_of_list_fmap in Hos as (m & -> & Hm). apply elem_of_list_filter in Hm as [Hn Hm].
  exists m. split; [|done]. rewrite (i3_added _ _ _ H3). set_solver.
Qed.

Lemma handed_le_added s0 tr s n :
  Inv3 s0 tr s → length (handed n tr) ≤ total (to_mix n (added tr)).
Proof.
  intros H3. rewrite handed_total, batches_all, (i3_added _ _ _ H3), to_mix_app, total_app. lia.
Qed.

Lemma well_fed_no_panic s0 tr s :
  init_ok s0 → run s0 tr s → well_fed s0 tr → mm_panic s = false.
Proof.
  intros Hi Hr. induction Hr as [|tr l s s' Hr IH Hs]; intros Hwf.
  { by destruct Hi as (_&_&_&_&_&_&?&_). }
  pose proof (well_fed_prefix _ _ _ Hwf) as Hwf'. specialize (IH Hwf').
  pose proof (run_inv _ _ _ _ _ _ _ Hi Hr) as HI.
  pose proof (run_inv3 _ _ _ Hi Hr) as H3.
  destruct Hwf' as (W1 & W2 & W3).
  assert (Hcl : mm_closed s ≠ true) by (intros H; by apply W1, (i3_closed _ _ _ H3)).
  inversion Hs; subst; try done; exfalso.
  - destruct (W2 msg) as [Hsome _].
    { rewrite (i3_added _ _ _ H3). match goal with H : mm_holder s = _ |- _ => rewrite H end. set_solver. }
    match goal with H : mm_states s !! _ = None |- _ =>
      apply (co_dom _ _ _ _ _ (in_core _ _ _ _ HI)) in H; rewrite H in Hsome end.
    by destruct Hsome.
  - destruct (co_tasks _ _ _ _ _ (in_core _ _ _ _ HI) t) as (st0 & k & E0 & Hk & _).
    { unfold alltasks. match goal with H : mm_inflight s = _ |- _ => rewrite H end. set_solver. }
    apply elem_of_list_lookup_2 in Hk. destruct (handed_in_added _ _ _ _ _ H3 Hk) as (m & Hm & _ & Ho).
    by apply (proj2 (W2 m Hm) _ Ho).
  - destruct (co_tasks _ _ _ _ _ (in_core _ _ _ _ HI) t) as (st0 & k & E0 & Hk & Hidx).
    { unfold alltasks. match goal with H : mm_inflight s = _ |- _ => rewrite H end. set_solver. }
    apply lookup_lt_Some in Hk. pose proof (handed_le_added _ _ _ (tk_mix t) H3) as Hle.
    pose proof (W3 _ _ E0) as Htot.
    match goal with H : mm_states s !! tk_mix t = Some st |- _ =>
      pose proof (mi_len _ _ _ _ _ _ (co_mix _ _ _ _ _ (in_core _ _ _ _ HI) _ _ _ E0 H)) as Hlen end.
    lia.
Qed.

(** ** Inevitable crash for misbehaving callers *)
Definition misfed (s0 : mixers) (tr : list label) : Prop :=
  (∃ m, m ∈ added tr ∧ mm_states s0 !! msg_recv m = None) ∨
  (∃ n st0, mm_states s0 !! n = Some st0 ∧ (st_left st0 < Z.of_nat (total (to_mix n (added tr))))%Z) ∨
  (∃ m o, m ∈ added tr ∧ o ∈ msg_onions m ∧ peel o = None).

Lemma misfed_not_idle s0 tr s :
  init_ok s0 → run s0 tr s → misfed s0 tr → idle s → False.
Proof.
  intros Hi Hr Hm Hid.
  pose proof (run_inv _ _ _ _ _ _ _ Hi Hr) as HI.
  pose proof (run_inv2 _ _ _ _ _ _ _ Hi Hr) as (_ & J2 & _).
  pose proof (run_inv3 _ _ _ Hi Hr) as H3.
  pose proof (i3_added _ _ _ H3) as Hadd. pose proof Hid as (Hh & _). rewrite Hh in Hadd. simpl in Hadd.
  rewrite app_nil_r in Hadd.
  assert (Hbat : ∀ n, batches n tr = to_mix n (added tr)) by (intros n; by rewrite Hadd, batches_all).
  assert (Hhost : ∀ m, m ∈ added tr → is_Some (mm_states s0 !! msg_recv m)).
  { intros m Hin. apply J2. rewrite Hbat. intros Hnil.
    assert (m ∈ to_mix (msg_recv m) (added tr)) as H by (by apply elem_of_list_filter).
    rewrite Hnil in H. by apply elem_of_nil in H. }
  assert (Hover : ∀ n st0, mm_states s0 !! n = Some st0 →
    (Z.of_nat (length (handed n tr)) ≤ st_left st0)%Z).
  { intros n st0 E0. destruct (decide (Z.of_nat (length (handed n tr)) ≤ st_left st0)%Z) as [|Hgt]; [done|].
    exfalso. assert (0 ≤ st_left st0)%Z.
    { destruct Hi as (_&_&_&_&_&_&_&H8). by destruct (H8 _ _ E0) as [(?&_) _]. }
    pose proof (i3_over _ _ _ H3 n st0 (Z.to_nat (st_left st0)) E0) as Hin.
    rewrite (idle_alltasks _ Hid) in Hin. eapply elem_of_nil. apply Hin; lia. }
  destruct Hm as [(m & Hm & Hn)|[(n & st0 & E0 & Hlt)|(m & o & Hm & Ho & Hp)]].
  - destruct (Hhost m Hm). congruence.
  - specialize (Hover _ _ E0). rewrite handed_total, Hbat in Hover. lia.
  - destruct (Hhost m Hm) as [st0 E0].
    destruct (mm_states s !! msg_recv m) as [st|] eqn:E.
    2:{ apply (co_dom _ _ _ _ _ (in_core _ _ _ _ HI)) in E. congruence. }
    pose proof (co_mix _ _ _ _ _ (in_core _ _ _ _ HI) _ _ _ E0 E) as Hmi. simpl in Hmi.
    assert (o ∈ handed (msg_recv m) tr) as Hin.
    { unfold handed. rewrite Hbat. apply elem_of_list_In, in_concat. exists (msg_onions m).
      split; [|by apply elem_of_list_In]. apply elem_of_list_In, elem_of_list_fmap. exists m.
      split; [done|]. by apply elem_of_list_filter. }
    apply elem_of_list_lookup in Hin as [k Hk].
    pose proof (lookup_lt_Some _ _ _ Hk) as Hlt. specialize (Hover _ _ E0).
    destruct (st_shuffled st) eqn:Es.
    + destruct (mi_shuf _ _ _ _ _ _ Hmi Es) as (_ & rs & Hpl & _).
      rewrite take_ge in Hpl by lia.
      destruct (Forall2_lookup_l _ _ _ _ _ Hpl Hk) as (r & _ & Hr'). congruence.
    + destruct (mi_open _ _ _ _ _ _ Hmi Es k o Hk) as (r & Hr' & _).
      * lia.
      * rewrite (idle_alltasks _ Hid). apply not_elem_of_nil.
      * congruence.
Qed.

End live.
