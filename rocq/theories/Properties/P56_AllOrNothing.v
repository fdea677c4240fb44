(** C113: a chain of mixes answers for all its messages or for none. *)
From stdpp Require Import gmap.
From Verif.Base Require Import Base.
From Verif.Model Require Import Topology Shuffle Onion Mixer Rounds Messages System.
From Verif.Spec Require Import MixerSpec MessagesSpec SystemSpec.
From Verif.Proofs Require Import MixerInv MixerProps MixerLive MixerExec SystemProofs.
From Verif.Properties Require Import P04_Mixer P27_System.

(** If any mix of chain i answers, at whatever layer, then everything announced for the chain was sent into it. *)
Theorem C113_all_sent servers L t req fuel w round peel workers taskCap outCap s0 tr s l i x v :
  CreateCascadeTopology servers (Z.of_nat L) = Some t → 0 < L → (Z.of_nat L ≤ 2 ^ 31)%Z →
  round_workload fuel t req = Some (Ok w) → round_opened t servers w s0 →
  yrun t round peel workers taskCap outCap s0 tr s →
  honest_clients t peel tr → within_announced t w tr →
  deref t (l, i) = Some x → GetMessages s (mx_host x) (mx_name x) v →
  Z.of_nat (length (sent_into t i tr)) = announced t w i ∧ length v = length (sent_into t i tr).
Proof.
  intros Ht HL HL31 Hw Hop Hr Hh Hwi Hx Hget.
  destruct (C61_every_layer _ _ _ _ _ _ _ _ _ _ _ _ _ _ _ _ _ _ Ht HL HL31 Hw Hop Hr Hh Hwi Hx Hget) as (outs & HF & Hp).
  apply Forall2_length in HF. apply Permutation_length in Hp. rewrite fmap_length in Hp. split; [|lia].
  destruct Hget as (m & Hm & Hv).
  destruct (host_state true t round peel workers taskCap outCap servers L w Ht HL HL31 s0 Hop _ _ _ _ _ Hr Hx) as (ms & m0 & m' & _ & Hm0 & Hm' & Hrm & _).
  rewrite Hm in Hm'. injection Hm' as <-.
  destruct (C08_outputs_are_decryptions _ _ _ _ _ _ _ _ _ _ _ _ Hm0 Hrm Hv) as (k & rs & Hk & Hle & _ & HF2 & Hp2).
  apply Forall2_length in HF2. apply Permutation_length in Hp2. rewrite take_length in HF2.
  rewrite (deref_workload t servers L w fuel req Ht HL Hw _ _ _ Hx) in Hk. lia.
Qed.

(** Every mix of the chain up to one that answers has answered too, if anything was announced. *)
Lemma answers_below servers L t req fuel w round peel workers taskCap outCap s0 tr s l i x v :
  CreateCascadeTopology servers (Z.of_nat L) = Some t → 0 < L → (Z.of_nat L ≤ 2 ^ 31)%Z →
  round_workload fuel t req = Some (Ok w) → round_opened t servers w s0 →
  yrun t round peel workers taskCap outCap s0 tr s →
  honest_clients t peel tr → within_announced t w tr → (0 < announced t w i)%Z →
  deref t (l, i) = Some x → GetMessages s (mx_host x) (mx_name x) v →
  ∀ l' x', l' ≤ l → deref t (l', i) = Some x' → ∃ v', GetMessages s (mx_host x') (mx_name x') v'.
Proof.
  intros Ht HL HL31 Hw Hop Hr Hh Hwi Hpos. revert x v. induction l as [|l IH]; intros x v Hx Hget l' x' Hl' Hx'.
  - assert (l' = 0) as -> by lia. rewrite Hx in Hx'. injection Hx' as <-. by exists v.
  - destruct (decide (l' = S l)) as [->|Hne]; [rewrite Hx in Hx'; injection Hx' as <-; by exists v|].
    destruct (deref_bound t servers L Ht _ _ _ Hx) as [Hl Hi]. destruct (deref_ex t servers L Ht l i) as [p Hp]; [lia|done|].
    destruct (take_facts true t round peel workers taskCap outCap servers L w fuel req Ht HL HL31 Hw s0 Hop _ _ _ _ _ Hr Hh Hp) as [_ Ht2].
    destruct (takes (mx_name p) tr) as [|o os] eqn:Et.
    + exfalso.
      pose proof (flow_next true t round peel workers taskCap outCap servers L w fuel req Ht HL HL31 Hw s0 Hop _ _ _ _ _ _ Hr Hh Hp Hx) as Hf.
      rewrite Et in Hf. cbn in Hf. apply Permutation_nil_r in Hf.
      destruct Hget as (m & Hm & Hv).
      destruct (host_state true t round peel workers taskCap outCap servers L w Ht HL HL31 s0 Hop _ _ _ _ _ Hr Hx) as (ms & m0 & m' & _ & Hm0 & Hm' & Hrm & _).
      rewrite Hm in Hm'. injection Hm' as <-.
      destruct (C08_outputs_are_decryptions _ _ _ _ _ _ _ _ _ _ _ _ Hm0 Hrm Hv) as (k & rs & Hk & Hle & Hpre & _).
      rewrite (deref_workload t servers L w fuel req Ht HL Hw _ _ _ Hx) in Hk.
      apply prefix_submseteq in Hpre.
      pose proof (to_mix_submseteq (mx_name x) _ _ (added_posted true t round peel workers taskCap outCap servers w s0 Hop _ _ (mx_host x) Hr)) as Hsub.
      apply (fmap_submseteq msg_onions) in Hsub.
      apply concat_submseteq in Hsub. fold (stream x tr) in Hsub. rewrite Hf in Hsub.
      apply submseteq_length in Hsub, Hpre. cbn [length] in Hsub. lia.
    + destruct (Ht2 o ltac:(left)) as (mp & Hmp & Hret).
      refine (IH p (mo_onions o) Hp _ l' x' _ Hx'); [by exists mp|lia].
Qed.

(** If a mix of chain i answers, then no call with a batch for it, or for an earlier mix of its chain, was lost. *)
Theorem C113_nothing_lost servers L t req fuel w round peel workers taskCap outCap s0 tr s l i x v :
  CreateCascadeTopology servers (Z.of_nat L) = Some t → 0 < L → (Z.of_nat L ≤ 2 ^ 31)%Z →
  round_workload fuel t req = Some (Ok w) → round_opened t servers w s0 →
  yrun t round peel workers taskCap outCap s0 tr s →
  honest_clients t peel tr → within_announced t w tr →
  deref t (l, i) = Some x → GetMessages s (mx_host x) (mx_name x) v →
  ∀ c m l' x', YLose c ∈ tr → m ∈ rq_msgs (cl_rq c) → l' ≤ l → deref t (l', i) = Some x' → cl_to c = mx_host x' →
    msg_recv m ≠ mx_name x'.
Proof.
  intros Ht HL HL31 Hw Hop Hr Hh Hwi Hx Hget c m l' x' Hlo Hm Hl' Hx' Hto Hrecv.
  pose proof (stream_bound true t round peel workers taskCap outCap servers L w fuel req Ht HL HL31 Hw s0 Hop _ _ _ _ _ Hr Hh Hwi Hx') as Hb.
  pose proof (announced_nonneg true t round peel workers taskCap outCap servers L w fuel req Ht HL HL31 Hw s0 Hop _ _ _ Hx') as Hnn.
  assert (Hcons : added (host_trace (mx_host x') tr) ++ msgs_to (mx_host x') (sy_net s) ++ msgs_to (mx_host x') (sy_queue s) ++ lost (mx_host x') tr ≡ₚ posted (mx_host x') tr).
  { apply (conservation true t round peel workers taskCap outCap s0); [apply Hop|apply Hop|done]. }
  assert (Hml : m ∈ lost (mx_host x') tr).
  { unfold lost. apply elem_of_concat. exists (rq_msgs (cl_rq c)). split; [done|].
    apply elem_of_list_fmap. exists (YLose c). split; [|done]. by rewrite decide_True. }
  assert (Hmp : m ∈ posted (mx_host x') tr).
  { rewrite <-Hcons. rewrite !elem_of_app. auto. }
  assert (Hne : msg_onions m ≠ []).
  { destruct (pred_facts true t round peel workers taskCap outCap servers L w fuel req Ht HL HL31 Hw s0 Hop _ _ _ _ _ Hr Hh Hx') as (k & _ & _ & Hk).
    by apply (Hk m Hmp). }
  (* what was added and what was lost fit into what was posted *)
  assert (Hsum : length (concat (msg_onions <$> to_mix (mx_name x') (added (host_trace (mx_host x') tr)))) + length (msg_onions m) ≤ length (stream x' tr)).
  { unfold stream, to_mix. rewrite <-Hcons. rewrite !filter_app, !fmap_app, !concat_app, !app_length.
    assert (length (msg_onions m) ≤ length (concat (msg_onions <$> filter (λ m0, msg_recv m0 = mx_name x') (lost (mx_host x') tr)))); [|lia].
    assert (m ∈ filter (λ m0, msg_recv m0 = mx_name x') (lost (mx_host x') tr)) as Hmf by (by apply elem_of_list_filter).
    apply elem_of_list_split in Hmf as (a & b & ->). rewrite fmap_app, concat_app. cbn [fmap list_fmap concat]. rewrite !app_length. lia. }
  assert (length (msg_onions m) > 0) by (destruct (msg_onions m); [done|simpl; lia]).
  destruct (decide (0 < announced t w i)%Z) as [Hpos|Hz]; [|lia].
  destruct (answers_below _ _ _ _ _ _ _ _ _ _ _ _ _ _ _ _ _ _ Ht HL HL31 Hw Hop Hr Hh Hwi Hpos Hx Hget l' x' Hl' Hx') as (v' & mm & Hmm & Hv).
  destruct (host_state true t round peel workers taskCap outCap servers L w Ht HL HL31 s0 Hop _ _ _ _ _ Hr Hx') as (ms & m0 & m' & _ & Hm0 & Hm' & Hrm & _).
  rewrite Hmm in Hm'. injection Hm' as <-.
  destruct (C08_outputs_are_decryptions _ _ _ _ _ _ _ _ _ _ _ _ Hm0 Hrm Hv) as (k & rs & Hk & Hle & Hpre & _).
  rewrite (deref_workload t servers L w fuel req Ht HL Hw _ _ _ Hx') in Hk.
  apply prefix_length in Hpre. lia.
Qed.

(** So one call that is lost on the way (a failed DirectCall is only logged), or one announced onion that is never
    sent, and no later mix of the chain ever answers: nobody's message comes out. *)
Theorem C113_one_loss_stops_chain servers L t req fuel w round peel workers taskCap outCap s0 tr s c m l i x :
  CreateCascadeTopology servers (Z.of_nat L) = Some t → 0 < L → (Z.of_nat L ≤ 2 ^ 31)%Z →
  round_workload fuel t req = Some (Ok w) → round_opened t servers w s0 →
  yrun t round peel workers taskCap outCap s0 tr s →
  honest_clients t peel tr → within_announced t w tr →
  YLose c ∈ tr → m ∈ rq_msgs (cl_rq c) → deref t (l, i) = Some x → cl_to c = mx_host x → msg_recv m = mx_name x →
  ∀ l' x' v, l ≤ l' → deref t (l', i) = Some x' → ¬ GetMessages s (mx_host x') (mx_name x') v.
Proof.
  intros Ht HL HL31 Hw Hop Hr Hh Hwi Hlo Hm Hx Hto Hrecv l' x' v Hl Hx' Hget.
  by eapply (C113_nothing_lost _ _ _ _ _ _ _ _ _ _ _ _ _ _ _ _ _ _ Ht HL HL31 Hw Hop Hr Hh Hwi Hx' Hget c m l x).
Qed.
Theorem C113_one_missing_stops_chain servers L t req fuel w round peel workers taskCap outCap s0 tr s i :
  CreateCascadeTopology servers (Z.of_nat L) = Some t → 0 < L → (Z.of_nat L ≤ 2 ^ 31)%Z →
  round_workload fuel t req = Some (Ok w) → round_opened t servers w s0 →
  yrun t round peel workers taskCap outCap s0 tr s →
  honest_clients t peel tr → within_announced t w tr →
  (Z.of_nat (length (sent_into t i tr)) < announced t w i)%Z →
  ∀ l x v, deref t (l, i) = Some x → ¬ GetMessages s (mx_host x) (mx_name x) v.
Proof.
  intros Ht HL HL31 Hw Hop Hr Hh Hwi Hlt l x v Hx Hget.
  destruct (C113_all_sent _ _ _ _ _ _ _ _ _ _ _ _ _ _ _ _ _ _ Ht HL HL31 Hw Hop Hr Hh Hwi Hx Hget) as [H1 _]. lia.
Qed.

(** Chains do not depend on each other: whatever happens to calls for other chains, a chain whose messages were all
    sent and whose calls were all delivered answers. *)
Theorem C113_other_chains servers L t req fuel w round peel workers taskCap outCap s0 tr s i :
  CreateCascadeTopology servers (Z.of_nat L) = Some t → 0 < L → (Z.of_nat L ≤ 2 ^ 31)%Z →
  round_workload fuel t req = Some (Ok w) → round_opened t servers w s0 →
  (∀ h, h ∈ servers → 0 < workers h ∧ 0 < taskCap h ∧ 0 < outCap h) →
  yrun t round peel workers taskCap outCap s0 tr s →
  honest_clients t peel tr → within_announced t w tr →
  (∀ h, YHost h LClose ∉ tr) →
  (∀ c m l x, YLose c ∈ tr → m ∈ rq_msgs (cl_rq c) → deref t (l, i) = Some x → msg_recv m ≠ mx_name x) →
  settled t round peel workers taskCap outCap s →
  sent_into t i tr ≠ [] → Z.of_nat (length (sent_into t i tr)) = announced t w i →
  ∀ l x, deref t (l, i) = Some x → ∃ v outs, GetMessages s (mx_host x) (mx_name x) v ∧
    Forall2 (delivers t (opens peel) (take (S l) (chain_mixes t i))) (sent_into t i tr) outs ∧ v ≡ₚ Some <$> outs.
Proof.
  intros Ht HL HL31 Hw Hop Hcap Hr Hh Hwi Hcl Hlo Hset Hne Hlen l x Hx.
  destruct (completes_chain true t round peel workers taskCap outCap servers L w fuel req Ht HL HL31 Hw s0 Hop
    i tr s Hr Hh Hwi Hcl Hlo Hcap Hset Hne Hlen _ _ Hx) as (m & v & Hm & Hv).
  assert (GetMessages s (mx_host x) (mx_name x) v) as Hg by (by exists m).
  destruct (C61_every_layer _ _ _ _ _ _ _ _ _ _ _ _ _ _ _ _ _ _ Ht HL HL31 Hw Hop Hr Hh Hwi Hx Hg) as (outs & HF & Hp).
  by exists v, outs.
Qed.
Print Assumptions C113_all_sent.
Print Assumptions C113_nothing_lost.
Print Assumptions C113_one_loss_stops_chain.
Print Assumptions C113_one_missing_stops_chain.
Print Assumptions C113_other_chains.

(** The round of C82_example again, but the call with the message for chain 1 is lost: chain 0 answers with its two
    messages, chain 1 never does. *)
Definition ex56_lost : call := mkCall None "b" (ex27_batch "m(0,1)" [ex27_onion 1 msg3]).
Definition ex56_net : list call :=
  [mkCall None "a" (ex27_batch "m(0,0)" [ex27_onion 0 msg1]); mkCall None "a" (ex27_batch "m(0,0)" [ex27_onion 0 msg2])].
Definition ex56_auto := auto ex27_topo 7 toy_peel (λ _, 2) (λ _, 1) (λ _, 4) 200 ex27_choices ex27_srv [] ex56_net.
Definition ex56_tr : list ylabel := ((λ e, YClient e.1 e.2) <$> ex27_clients) ++ YLose ex56_lost :: ex56_auto.1.
Definition ex56_fin : system := sys_of ex56_auto.2.
Lemma ex56_run : ex27_yrun ex27_s0 ex56_tr ex56_fin.
Proof.
  unfold ex56_tr, ex27_clients. cbn [fmap list_fmap app fst snd].
  do 3 (eapply yrun_cons; [apply y_client|]). cbn [ex27_s0 sy_srv sy_queue sy_net sy_down app].
  eapply yrun_cons; [eapply (y_lose _ _ _ _ _ _ _ _ [_] ex56_lost [_]); reflexivity|].
  cbn [ex27_s0 sy_srv sy_queue sy_net sy_down app]. apply auto_sound.
Qed.
Lemma calls_lose c tr : client_calls (YLose c :: tr) = client_calls tr.
Proof. done. Qed.
Lemma ex56_calls : client_calls ex56_tr = client_calls ex27_tr.
Proof.
  rewrite ex27_calls. unfold ex56_tr. rewrite client_calls_app.
  assert (length (client_calls ex56_auto.1) = 0) as H by (vm_compute; reflexivity).
  apply nil_length_inv in H. rewrite calls_lose, H, app_nil_r. reflexivity.
Qed.
Lemma ex56_settled : settled ex27_topo 7 toy_peel (λ _, 2) (λ _, 1) (λ _, 4) ex56_fin.
Proof.
  eapply (quiet_settled true _ _ _ _ _ _ ["a"; "b"] _ _ ex27_opened _ _ ex56_run).
  assert (∀ h, h ∈ ["a"; "b"] → match sy_srv ex56_fin !! h with
    | Some m => match mm_holder m, mm_tasks m, mm_inflight m, mm_out m, mm_pend m with None, [], [], [], [] => true | _, _, _, _, _ => false end
    | None => false end = true) as Hi.
  { intros h Hh. assert (h = "a" ∨ h = "b") as [->| ->] by set_solver; vm_compute; reflexivity. }
  assert (length (sy_queue ex56_fin) = 0) as Hq by (vm_compute; reflexivity).
  assert (length (sy_net ex56_fin) = 0) as Hn by (vm_compute; reflexivity).
  apply nil_length_inv in Hq, Hn. revert Hi Hq Hn. generalize ex56_fin as s. intros s Hi Hq Hn.
  split; [exact Hq|]. split; [intros c Hc; rewrite Hn in Hc; by apply elem_of_nil in Hc|].
  intros h Hh. specialize (Hi h Hh). destruct (sy_srv s !! h) as [m|]; [|done]. exists m. split; [done|]. unfold idle.
  destruct (mm_holder m), (mm_tasks m), (mm_inflight m), (mm_out m), (mm_pend m); try done.
  repeat (split; [done|]). by intros ? ? ?%elem_of_nil.
Qed.
Example C113_example :
  ex27_yrun ex27_s0 ex56_tr ex56_fin ∧ round_opened ex27_topo ["a"; "b"] ex27_w ex27_s0 ∧
  honest_clients ex27_topo toy_peel ex56_tr ∧ within_announced ex27_topo ex27_w ex56_tr ∧
  YLose ex56_lost ∈ ex56_tr ∧ settled ex27_topo 7 toy_peel (λ _, 2) (λ _, 1) (λ _, 4) ex56_fin ∧
  GetMessages ex56_fin "b" "m(1,1)" [Some msg1; Some msg2] ∧
  ∀ l x v, deref ex27_topo (l, 1) = Some x → ¬ GetMessages ex56_fin (mx_host x) (mx_name x) v.
Proof.
  assert (Hh : honest_clients ex27_topo toy_peel ex56_tr) by (eapply honest_calls; [exact ex56_calls|exact ex27_honest]).
  assert (Hwi : within_announced ex27_topo ex27_w ex56_tr).
  { intros i m Hm. assert (i < 2) as Hi by (by destruct (deref_bound ex27_topo ["a"; "b"] 2 ex27_topo_ok _ _ _ Hm)).
    clear Hm. unfold sent_into. rewrite ex56_calls, ex27_calls. destruct i as [|[|i]]; [vm_compute; discriminate|vm_compute; discriminate|lia]. }
  assert (Hin : YLose ex56_lost ∈ ex56_tr) by (unfold ex56_tr; apply elem_of_app; right; left).
  split; [exact ex56_run|]. split; [exact ex27_opened|]. split; [exact Hh|]. split; [exact Hwi|]. split; [exact Hin|].
  split; [exact ex56_settled|]. split.
  { assert (∀ h n v, match sy_srv ex56_fin !! h with Some m => can_return_b m n v | None => false end = true → GetMessages ex56_fin h n v) as Hg.
    { intros h n v. unfold GetMessages. generalize ex56_fin as s. intros s. destruct (sy_srv s !! h) as [m|]; [|done]. intros Hc%can_return_b_ok. by exists m. }
    apply Hg. vm_compute. reflexivity. }
  intros l x v Hx.
  destruct (deref ex27_topo (0, 1)) as [x0|] eqn:E0; [|exfalso; revert E0; vm_compute; discriminate].
  eapply (C113_one_loss_stops_chain _ 2 _ _ _ _ _ _ _ _ _ _ _ _ ex56_lost (mkMessages [ex27_onion 1 msg3] GenesisName GenesisName "m(0,1)") 0 1 x0
    ex27_topo_ok ltac:(lia) ltac:(lia) ex27_w_ok ex27_opened ex56_run Hh Hwi Hin); [left|exact E0| | |lia|exact Hx].
  - assert (mx_host <$> deref ex27_topo (0, 1) = Some "b") as H by (vm_compute; reflexivity). rewrite E0 in H. by injection H as ->.
  - assert (mx_name <$> deref ex27_topo (0, 1) = Some "m(0,1)") as H by (vm_compute; reflexivity). rewrite E0 in H. by injection H as ->.
Qed.
Print Assumptions C113_example.
