(** C05-C07, C21: rounds.  [peel r] is what decrypting with the key of round r does; the topology is
    arbitrary except where a cascade is mentioned. *)
From stdpp Require Import gmap.
From Verif.Base Require Import Base Strs.
From Verif.Model Require Import Topology Shuffle Onion Mixer Rounds.
From Verif.Spec Require Import MixerSpec RoundsSpec.
From Verif.Proofs Require Import TopologyProofs OnionProofs MixerInv MixerProps MixerLive MixerExec RoundsProofs.
From Verif.Properties Require Import P04_Mixer.

(** C05. [carries t req w]: w gives every mix of every chain the workload the request gives for the
    first mix of that chain. *)
Definition carries (t : topology) (req : gmap string N) (w : gmap string Z) : Prop :=
  ∀ i l m0 m, deref t (0, i) = Some m0 → deref t (l, i) = Some m →
    ∃ k, req !! mx_name m0 = Some k ∧ w !! mx_name m = Some (to_int64 k).
Definition lacks_first (t : topology) (req : gmap string N) : Prop :=
  ∃ i m, deref t (0, i) = Some m ∧ req !! mx_name m = None.

Theorem C05_propagation servers L t req :
  CreateCascadeTopology servers (Z.of_nat L) = Some t → 0 < L →
  (∀ fuel, L ≤ fuel → ∃ r, round_workload fuel t req = Some r) ∧
  ∀ fuel r, round_workload fuel t req = Some r →
    match r with
    | Ok w => ¬ lacks_first t req ∧ carries t req w
    | Err c => c = FailedPrecondition ∧ lacks_first t req
    | Panic => False
    end.
Proof.
  intros E HL. destruct (cascade_form servers L) as (mixes & E' & Hinv). rewrite E in E'. injection E' as ->.
  set (t := mkTopo _ _).
  assert (Hgen : ∀ fuel, L ≤ fuel → ∃ r, round_workload fuel t req = Some r ∧
    match r with
    | Ok w => ¬ lacks_first t req ∧ carries t req w
    | Err c => c = FailedPrecondition ∧ lacks_first t req
    | Panic => False
    end).
  { intros fuel Hf. pose proof (round_workload_cascade servers L mixes Hinv HL fuel req Hf) as Hc. fold t in Hc.
    destruct (round_workload fuel t req) as [[w|c|]|]; try done; (eexists; split; [done|]).
    - destruct Hc as (H1 & H2 & _). split.
      + intros (i & m & (Hl & Hi & ->)%cascade_deref_Some & Hn). destruct (H1 i Hi) as [x Hx].
        cbn [mx_name final_mix] in Hn. unfold first_name in Hx. congruence.
      + intros i l m0 m (_ & Hi & ->)%cascade_deref_Some (Hl & _ & ->)%cascade_deref_Some.
        destruct (H1 i Hi) as [k Hk]. exists k. split; [done|]. cbn [mx_name final_mix].
        rewrite (H2 l i Hl Hi), Hk. done.
    - destruct Hc as (-> & i & Hi & Hn). split; [done|]. exists i, (final_mix servers L 0 i).
      split; [by apply cascade_deref|done]. }
  split.
  - intros fuel Hf. destruct (Hgen fuel Hf) as (r & ? & _). eauto.
  - intros fuel r Hr. destruct (Hgen L (le_n _)) as (r' & Hr' & Hp).
    by rewrite (round_workload_det _ _ _ _ _ _ Hr Hr').
Qed.
Print Assumptions C05_propagation.

(** Values of the request below 2^63 arrive unchanged. *)
Lemma to_int64_small k : (k < 2 ^ 63)%N → to_int64 k = Z.of_N k.
Proof. intros Hk. unfold to_int64. rewrite Z.mod_small; lia. Qed.
Lemma to_int64_neg k : (2 ^ 63 ≤ k < 2 ^ 64)%N → (to_int64 k < 0)%Z.
Proof.
  intros Hk. unfold to_int64. rewrite <-(Z.mod_unique_pos _ (2 ^ 64) 1 (Z.of_N k - 2 ^ 63)); lia.
Qed.

Section server.
Context (connected : bool) (t : topology) (host : string)
        (peel : N → onion → option (option onion)) (workers taskCap : nat).
Notation sstep := (sstep connected t host peel workers taskCap).
Notation srun := (srun connected t host peel workers taskCap).

(** C05 at the server: an unsuccessful NewRound changes nothing at all; a successful one opens the
    round with the mixes of this host and the propagated workloads. *)
Theorem C05_new_round servers L s r req res s' :
  CreateCascadeTopology servers (Z.of_nat L) = Some t → 0 < L →
  sstep s (SNew r req res) s' →
  match res with
  | Err c => c = FailedPrecondition ∧ s' = s ∧ (connected = false ∨ lacks_first t req)
  | Ok id => connected = true ∧ ¬ lacks_first t req ∧ sv_states s' = <[r := id]> (sv_states s) ∧
      ∃ o w ms, sv_objs s' = sv_objs s ++ [o] ∧ id = length (sv_objs s) ∧
        ro_round o = r ∧ ro_trace o = [] ∧ ro_state o = ro_init o ∧
        NewMixers t ms w = Some (ro_init o) ∧ hosted t host ms ∧ carries t req w
  | Panic => False
  end.
Proof.
  intros E HL Hs. pose proof (λ fuel r, proj2 (C05_propagation _ _ _ req E HL) fuel r) as HC.
  inversion Hs; subst.
  - split; [done|]. split; [done|by left].
  - match goal with Hw : round_workload _ _ _ = _ |- _ => destruct (HC _ _ Hw) as [-> ?] end. auto.
  - match goal with Hw : round_workload _ _ _ = _ |- _ => destruct (HC _ _ Hw) as [? ?] end.
    split; [done|]. split; [done|]. split; [done|]. eexists _, w, ms. done.
Qed.

(** It always answers (or crashes: see below), and which answer it gives is determined by the request. *)
Theorem C05_new_round_total servers L s r req :
  CreateCascadeTopology servers (Z.of_nat L) = Some t → 0 < L → sv_panic s = false →
  (∃ res s', sstep s (SNew r req res) s') ∨ (∃ s', sstep s (SCrash r req) s').
Proof.
  intros E HL Hp. destruct connected eqn:Ec.
  2:{ left. eexists _, _. by apply ss_new_conn. }
  destruct (proj1 (C05_propagation _ _ _ req E HL) L (le_n _)) as ([w|c|] & Hw).
  - set (ms := filter (λ m, mx_host m = host) (omap (λ e, deref t e.2) (map_to_list (tp_mixes t)))).
    assert (hosted t host ms) by (unfold hosted; reflexivity).
    destruct (NewMixers t ms w) as [m|] eqn:Em.
    + left. eexists _, _. by eapply ss_new.
    + right. eexists. by eapply ss_new_make.
  - left. eexists _, _. by eapply ss_new_err.
  - by destruct (proj2 (C05_propagation _ _ _ req E HL) _ _ Hw).
Qed.

(** A hosted mix is one of the topology's mixes on this host. *)
Lemma hosted_elem ms m : hosted t host ms → m ∈ ms →
  mx_host m = host ∧ ∃ l i, deref t (l, i) = Some m.
Proof.
  intros Hh Hm. rewrite Hh in Hm. apply elem_of_list_filter in Hm as [Hho Hm]. split; [done|].
  apply elem_of_list_omap in Hm as ([n [l i]] & _ & Hd). eauto.
Qed.
Lemma hosted_all servers L m ms :
  CreateCascadeTopology servers (Z.of_nat L) = Some t → hosted t host ms →
  mx_host m = host → (∃ l i, deref t (l, i) = Some m) → m ∈ ms.
Proof.
  intros E Hh Hho (l & i & Hd). rewrite Hh. apply elem_of_list_filter. split; [done|].
  destruct (cascade_form servers L) as (mixes & E' & Hinv). rewrite E in E'. injection E' as ->.
  apply cascade_deref_Some in Hd as (Hl & Hi & ->).
  apply elem_of_list_omap. exists (mix_name l (pos servers l i), (l, i)). split.
  - apply elem_of_map_to_list. apply Hinv. split; [by left|done].
  - simpl. by apply cascade_deref.
Qed.

(** FINDING: NewRound crashes the process iff the announced workload of some chain through this host
    is at least 2^63 (it is converted to a negative int and make panics). *)
Theorem C05_crash_iff servers L s r req :
  CreateCascadeTopology servers (Z.of_nat L) = Some t → 0 < L → sv_panic s = false →
  map_Forall (λ _ k, (k < 2 ^ 64)%N) req →
  (∃ s', sstep s (SCrash r req) s') ↔
  connected = true ∧ ¬ lacks_first t req ∧
  ∃ i l m0 m k, deref t (0, i) = Some m0 ∧ deref t (l, i) = Some m ∧ mx_host m = host ∧
     req !! mx_name m0 = Some k ∧ (2 ^ 63 ≤ k)%N.
Proof.
  intros E HL Hp Hreq. pose proof (λ fuel r, proj2 (C05_propagation _ _ _ req E HL) fuel r) as HC.
  assert (Hchain : ∀ l i m, deref t (l, i) = Some m → ∃ m0, deref t (0, i) = Some m0).
  { intros l i m Hd. clear -E Hd HL. destruct (cascade_form servers L) as (mixes & E' & Hinv).
    rewrite E in E'. injection E' as ->. apply cascade_deref_Some in Hd as (Hl & Hi & ->).
    eexists. by apply cascade_deref. }
  assert (Hstate : ∀ w m l i m0 k, deref t (l, i) = Some m → deref t (0, i) = Some m0 → carries t req w →
     req !! mx_name m0 = Some k → newMixState t w m = None ↔ (2 ^ 63 ≤ k)%N).
  { intros w m l i m0 k Hd Hd0 Hcar Hk.
    destruct (Hcar _ _ _ _ Hd0 Hd) as (k' & Hk' & Hw). rewrite Hk in Hk'. injection Hk' as <-.
    specialize (Hreq _ _ Hk). simpl in Hreq. clear HC Hcar Hchain Hd0.
    destruct (cascade_form servers L) as (mixes & E' & Hinv). rewrite E in E'. injection E' as ->.
    apply cascade_deref_Some in Hd as (Hl & Hi & ->). rewrite (newMixState_cascade servers L mixes Hinv) by done.
    unfold workload_of. cbn [mx_name final_mix] in Hw. rewrite Hw. simpl. split.
    - intros Hn. destruct (decide (k < 2 ^ 63)%N); [|lia]. rewrite to_int64_small in Hn by done. lia.
    - intros Hge. by apply to_int64_neg. }
  split.
  - intros [s' Hs]. inversion Hs; subst.
    { match goal with Hw : round_workload _ _ _ = _ |- _ => destruct (HC _ _ Hw) end. }
    match goal with Hw : round_workload _ _ _ = _ |- _ => destruct (HC _ _ Hw) as [Hl Hcar] end.
    split; [done|]. split; [done|].
    assert (∃ m, m ∈ ms ∧ newMixState t w m = None) as (m & Hm & Hnone).
    { match goal with Hn : NewMixers _ _ _ = None |- _ => clear -Hn; unfold NewMixers in Hn; revert Hn end.
      generalize (∅ : gmap string mixState). induction ms as [|m ms IH]; intros acc; simpl; [done|].
      destruct (newMixState t w m) as [st|] eqn:Em; simpl.
      - intros Hn. destruct (IH _ Hn) as (m' & ? & ?). exists m'. split; [by right|done].
      - exists m. split; [left|done]. }
    destruct (hosted_elem ms m) as (Hho & l & i & Hd); [done|done|].
    destruct (Hchain _ _ _ Hd) as [m0 Hd0]. destruct (Hcar _ _ _ _ Hd0 Hd) as (k & Hk & _).
    exists i, l, m0, m, k. split; [done|]. split; [done|]. split; [done|]. split; [done|].
    by apply (Hstate w m l i m0).
  - intros (Hc & Hnl & i & l & m0 & m & k & Hd0 & Hd & Hho & Hk & Hge).
    destruct (proj1 (C05_propagation _ _ _ req E HL) L (le_n _)) as ([w|c|] & Hw).
    2:{ by destruct (HC _ _ Hw). }
    2:{ by destruct (HC _ _ Hw). }
    destruct (HC _ _ Hw) as [_ Hcar].
    set (ms := filter (λ m, mx_host m = host) (omap (λ e, deref t e.2) (map_to_list (tp_mixes t)))).
    assert (Hh : hosted t host ms) by (unfold hosted; reflexivity).
    eexists. eapply ss_new_make; [done|done|exact Hw|exact Hh|].
    assert (Hm : m ∈ ms) by (eapply hosted_all; eauto).
    assert (Hn : newMixState t w m = None) by (by eapply Hstate).
    unfold NewMixers. clearbody ms. clear -Hm Hn. generalize (∅ : gmap string mixState).
    assert (H : ∀ acc, newStates t w ms acc = None); [|intros acc; by rewrite H].
    induction Hm as [m ms|m m' ms Hm IH]; intros acc; simpl; [by rewrite Hn|].
    destruct (newMixState t w m'); [|done]. simpl. by apply IH.
Qed.

(** C06: every answer in every history. *)
Theorem C06_answers tr1 l tr2 s :
  srun (tr1 ++ l :: tr2) s →
  match l with
  | SAdd r _ res => if round_open tr1 r then ∃ id, res = Ok id else res = Err NotFound
  | SEnd r res => if round_open tr1 r then ∃ id, res = Ok id else res = Err NotFound
  | SGet r _ res => if round_open tr1 r then res = Err NotFound ∨ ∃ id, res = Ok id else res = Err FailedPrecondition
  | _ => True
  end.
Proof.
  intros Hr. destruct (srun_split_step _ _ _ _ _ _ _ _ _ _ Hr) as (s1 & s2 & Hr1 & Hs).
  pose proof (srun_SInv _ _ _ _ _ _ _ _ Hr1) as HI. pose proof (si_cur _ _ _ _ _ _ _ HI) as Hcur.
  assert (Ho : ∀ r, round_open tr1 r = true ↔ is_Some (sv_states s1 !! r)).
  { intros r. by rewrite round_open_current, Hcur. }
  inversion Hs; subst; try done;
    match goal with Hx : sv_states _ !! ?r = _ |- _ =>
      destruct (round_open tr1 r) eqn:Er;
      [try (apply Ho in Er; rewrite Hx in Er; by destruct Er); eauto
      |try done; exfalso; rewrite <-not_true_iff_false, Ho, Hx in Er; apply Er; eauto] end.
Qed.

(** "GetMessages of an open round": unknown mix names, and only those, are NotFound. *)
Theorem C06_get_not_found tr s r mix s' :
  srun tr s → sstep s (SGet r mix (Err NotFound)) s' →
  s' = s ∧ ∀ id s2, ¬ sstep s (SGet r mix (Ok id)) s2.
Proof.
  intros _ Hs. inversion Hs; subst. split; [done|]. intros id' s2 Hs2. inversion Hs2; subst.
  assert (id' = id) by congruence. subst. assert (o0 = o) by congruence. subst.
  match goal with Hi : is_Some _ |- _ => destruct Hi end. congruence.
Qed.

(** A round is ended at most once per opening. *)
Theorem C06_end_needs_open tr1 tr2 tr3 r i j s :
  srun (tr1 ++ SEnd r (Ok i) :: tr2 ++ SEnd r (Ok j) :: tr3) s →
  ∃ req k, SNew r req (Ok k) ∈ tr2.
Proof.
  intros Hr.
  assert (Hr' : srun ((tr1 ++ SEnd r (Ok i) :: tr2) ++ SEnd r (Ok j) :: tr3) s).
  { by rewrite <-app_assoc. }
  pose proof (C06_answers _ _ _ _ Hr') as Ha. simpl in Ha.
  destruct (round_open (tr1 ++ SEnd r (Ok i) :: tr2) r) eqn:Er; [|done].
  clear -Er. induction tr2 as [|l tr2 IH] using rev_ind.
  - rewrite round_open_snoc in Er. simpl in Er. by rewrite decide_True in Er.
  - change (SEnd r (Ok i) :: tr2 ++ [l]) with ((SEnd r (Ok i) :: tr2) ++ [l]) in Er.
    rewrite app_assoc, round_open_snoc in Er.
    assert (round_open (tr1 ++ SEnd r (Ok i) :: tr2) r = true ∨ ∃ req k, l = SNew r req (Ok k)) as [Hop|(req & k & ->)].
    { destruct l as [r' ? [?|?|]|r' [?|?|]|? ? [?|?|]|? ? [?|?|]|? ? ?|? ?|? ?]; simpl in Er; auto.
      - case_decide; [subst; right; eauto|by left].
      - case_decide; [done|by left]. }
    + destruct (IH Hop) as (req & k & Hin). exists req, k. set_solver.
    + exists req, k. set_solver.
Qed.
Theorem C06_end_count tr s r :
  srun tr s →
  scnt (is_end_of r) tr + (if round_open tr r then 1 else 0) ≤ scnt (is_open_of r) tr.
Proof.
  assert (Hsn : ∀ P tr l, scnt P (tr ++ [l]) = scnt P tr + (if P l then 1 else 0)).
  { intros P tr0 l. unfold scnt. rewrite filter_app, app_length. f_equal. rewrite filter_cons.
    by destruct (P l). }
  induction 1 as [|tr l s1 s2 Hr IH Hs]; [done|].
  rewrite !Hsn, round_open_snoc.
  pose proof (C06_answers _ _ [] _ (srun_snoc _ _ _ _ _ _ _ _ _ _ Hr Hs)) as Ha.
  destruct l as [r' ? [?|?|]|r' [?|?|]|? ? [?|?|]|? ? [?|?|]|? ? ?|? ?|? ?]; simpl in *; try lia.
  - destruct (decide (r' = r)) as [->|Hne].
    + rewrite bool_decide_true by done. destruct (round_open tr r); lia.
    + rewrite bool_decide_false by done. lia.
  - destruct (decide (r' = r)) as [->|Hne].
    + rewrite bool_decide_true by done. destruct (round_open tr r); [lia|done].
    + rewrite bool_decide_false by done. lia.
Qed.

(** Two EndRound handlers never close the same object: no double close. *)
Theorem C06_never_closed_twice tr s : srun tr s → ∀ id, SObj id LCloseTwice ∉ tr.
Proof.
  induction 1 as [|tr l s1 s2 Hr IH Hs]; intros id; [apply not_elem_of_nil|].
  rewrite elem_of_app, elem_of_list_singleton. intros [Hin|Heq]; [by eapply IH|]. subst l.
  pose proof (srun_SInv _ _ _ _ _ _ _ _ Hr) as HI.
  inversion Hs; subst.
  - destruct (proj2 (si_clo _ _ _ _ _ _ _ HI) id) as (o' & Ho' & Hnc).
    { match goal with Hc : sv_closing s1 = _ |- _ => rewrite Hc end. set_solver. }
    assert (o' = o) by congruence. subst o'.
    match goal with Hst : ostep _ _ _ _ _ LCloseTwice _ |- _ => unfold ostep in Hst; inversion Hst; subst end.
    apply Hnc. apply (oo_closed _ _ _ _ _ _ _ _ _ (si_obj _ _ _ _ _ _ _ HI _ _ Ho')). done.
  - done.
Qed.

(** Calls and steps about one round leave every other round's entry and objects alone. *)
Theorem C06_isolation tr s l s' r :
  srun tr s → sstep s l s' → about s l ≠ Some r →
  sv_states s' !! r = sv_states s !! r ∧
  ∀ id o, ro_round o = r → (sv_objs s' !! id = Some o ↔ sv_objs s !! id = Some o).
Proof.
  intros _ Hs Hab. inversion Hs; subst; simpl in *; try done.
  - split; [rewrite lookup_insert_ne; congruence|]. intros id o Hro. rewrite lookup_app_Some. split.
    + intros [?|[_ Ho]]; [done|]. apply list_lookup_singleton_Some in Ho as [_ <-]. simpl in Hro. congruence.
    + by left.
  - split; [rewrite lookup_delete_ne; congruence|done].
  - split; [done|]. intros id' o' Hro. destruct (decide (id' = id)) as [->|Hne]; [|by rewrite list_lookup_insert_ne].
    match goal with Ho : sv_objs s !! id = Some ?ob |- _ => rewrite Ho in Hab |- *; simpl in Hab;
      rewrite list_lookup_insert by (by eapply lookup_lt_Some) end. split; intros [= <-]; exfalso; apply Hab; simpl in *; congruence.
  - split; [done|]. intros id' o' Hro. destruct (decide (id' = id)) as [->|Hne]; [|by rewrite list_lookup_insert_ne].
    match goal with Ho : sv_objs s !! id = Some ?ob |- _ => rewrite Ho in Hab |- *; simpl in Hab;
      rewrite list_lookup_insert by (by eapply lookup_lt_Some) end. split; intros [= <-]; exfalso; apply Hab; simpl in *; congruence.
  - split; [done|]. intros id' o' Hro. destruct (decide (id' = id)) as [->|Hne]; [|by rewrite list_lookup_insert_ne].
    match goal with Ho : sv_objs s !! id = Some ?ob |- _ => rewrite Ho in Hab |- *; simpl in Hab;
      rewrite list_lookup_insert by (by eapply lookup_lt_Some) end. split; intros [= <-]; exfalso; apply Hab; simpl in *; congruence.
Qed.

(** C08 at the server: what a GetMessages that was admitted to the round opened by a NewRound answers
    is made of onions of AddMessages calls accepted since that NewRound, each decrypted with the
    round's key, exactly as many as the workload. *)
Lemma concat_perm {A} (l k : list (list A)) : l ≡ₚ k → concat l ≡ₚ concat k.
Proof. induction 1; simpl; [done|by f_equiv|by rewrite !app_assoc, (Permutation_app_comm x)|by etrans]. Qed.
Local Instance concat_proper {A} : Proper ((≡ₚ) ==> (≡ₚ)) (@concat A).
Proof. intros l k. apply concat_perm. Qed.
Local Instance to_mix_proper n : Proper ((≡ₚ) ==> (≡ₚ)) (to_mix n).
Proof. intros bs bs' Hp. unfold to_mix. by rewrite Hp. Qed.

(** Calls accepted for the object the reader waits for. *)
Theorem C08_server tr s id mix v s' :
  srun tr s → sstep s (SGot id mix v) s' →
  ∃ r req tr1 tr2 w ms fuel m0 xs rs,
    tr = tr1 ++ SNew r req (Ok id) :: tr2 ∧
    round_workload fuel t req = Some (Ok w) ∧ hosted t host ms ∧ NewMixers t ms w = Some m0 ∧
    xs ⊆+ concat (msg_onions <$> to_mix mix (concat (sent_to id tr2))) ∧
    Z.of_nat (length xs) = workload_of w mix ∧
    Forall2 (λ x y, peel r x = Some y) xs rs ∧ v ≡ₚ rs.
Proof.
  intros Hr Hs. destruct (sgot_spec _ _ _ _ _ _ _ _ _ _ _ _ Hr Hs) as (o & Ho & Hcan & Hok).
  destruct Hok as [A1 A2 (fuel & req & w & ms & H1 & H2 & H3 & H4 & H5) A4 A5].
  apply elem_of_list_split in H5 as (tr1 & tr2 & ->).
  destruct (C08_outputs_are_decryptions _ _ _ _ _ _ _ _ _ _ _ _ H3 A1 Hcan) as (k & rs & Hk & Hle & Hpre & Hf & Hp).
  (* nothing was sent to the object before it existed *)
  assert (Hbefore : sent_to id tr1 = []).
  { destruct (srun_split_step _ _ _ _ _ _ _ _ _ _ Hr) as (s1 & s2 & Hr1 & Hs1).
    pose proof (si_sent _ _ _ _ _ _ _ (srun_SInv _ _ _ _ _ _ _ _ Hr1) id) as Hse.
    destruct (sent_to id tr1) eqn:Ese; [done|]. exfalso.
    destruct Hse as [o1 Ho1]; [done|]. inversion Hs1; subst. apply lookup_lt_Some in Ho1. lia. }
  exists (ro_round o), req, tr1, tr2, w, ms, fuel, (ro_init o), (take k (handed mix (ro_trace o))), rs.
  split; [done|]. split; [done|]. split; [done|]. split; [done|].
  split; [|split; [rewrite take_length; lia|done]].
  assert (Hperm : concat (msg_onions <$> to_mix mix (concat (entered (ro_trace o)))) ⊆+
                  concat (msg_onions <$> to_mix mix (concat (sent_to id tr2)))).
  { replace (sent_to id tr2) with (sent_to id (tr1 ++ SNew (ro_round o) req (Ok id) :: tr2)).
    2:{ rewrite sent_to_app, Hbefore. done. }
    assert (concat (sent_to id (tr1 ++ SNew (ro_round o) req (Ok id) :: tr2)) ≡ₚ
       concat (entered (ro_trace o)) ++ concat (calls_to id (sv_calls s))) as ->.
    { rewrite <-concat_app. by apply concat_perm. }
    rewrite to_mix_app, fmap_app, concat_app. by apply submseteq_inserts_r. }
  etrans; [|exact Hperm]. rewrite <-added_entered.
  destruct Hpre as [rest ->]. etrans; [|by apply submseteq_inserts_r]. by apply sublist_submseteq, sublist_take.
Qed.

(** C07: NewRound of an open round. *)
Lemma sent_to_accepted tr0 r req id tr2 s :
  srun (tr0 ++ SNew r req (Ok id) :: tr2) s →
  (∀ req' id', SNew r req' (Ok id') ∉ tr2) → (∀ id', SEnd r (Ok id') ∉ tr2) →
  current (tr0 ++ SNew r req (Ok id) :: tr2) r = Some id ∧ concat (sent_to id tr2) = accepted r tr2.
Proof.
  revert s. induction tr2 as [|l tr2 IH] using rev_ind; intros s Hr Hn He.
  - rewrite current_snoc. simpl. rewrite decide_True by done. done.
  - assert (Hr' : srun ((tr0 ++ SNew r req (Ok id) :: tr2) ++ [l]) s) by (by rewrite <-app_assoc).
    destruct (srun_split_step _ _ _ _ _ _ _ _ _ _ Hr') as (s1 & s2 & Hr1 & Hs).
    destruct (IH _ Hr1) as [Hc Hacc]; [intros q j Hin; apply (Hn q j); set_solver|intros j Hin; apply (He j); set_solver|].
    pose proof (srun_SInv _ _ _ _ _ _ _ _ Hr1) as HI.
    change (SNew r req (Ok id) :: tr2 ++ [l]) with ((SNew r req (Ok id) :: tr2) ++ [l]).
    rewrite app_assoc, current_snoc. split.
    + destruct l as [r' q [j|?|]|r' [j|?|]|? ? [?|?|]|? ? [?|?|]|? ? ?|? ?|? ?]; simpl; try done.
      * case_decide; [|done]. subst. destruct (Hn q j). set_solver.
      * case_decide; [|done]. subst. destruct (He j). set_solver.
    + rewrite sent_to_app, concat_app, Hacc. unfold accepted. rewrite omap_app, concat_app. f_equal.
      destruct l as [r' q [j|?|]|r' [j|?|]|r' ms [j|?|]|? ? [?|?|]|? ? ?|? ?|? ?]; simpl; try done.
      assert (Hj : sv_states s1 !! r' = Some j) by (by inversion Hs; subst).
      destruct (decide (r' = r)) as [->|Hne].
      * rewrite (si_cur _ _ _ _ _ _ _ HI), Hc in Hj. injection Hj as <-. by rewrite decide_True.
      * rewrite decide_False; [done|]. intros ->.
        destruct (si_tab _ _ _ _ _ _ _ HI _ _ Hj) as (o1 & Ho1 & Hro1 & _).
        destruct (si_tab _ _ _ _ _ _ _ HI r id) as (o2 & Ho2 & Hro2 & _).
        { by rewrite (si_cur _ _ _ _ _ _ _ HI). }
        congruence.
Qed.

Theorem C07_reopen_discards tr0 r req id tr2 s mix v s' :
  srun (tr0 ++ SNew r req (Ok id) :: tr2) s →
  (∀ req' id', SNew r req' (Ok id') ∉ tr2) → (∀ id', SEnd r (Ok id') ∉ tr2) →
  sstep s (SGot id mix v) s' →
  ∃ w xs rs,
    (∃ fuel, round_workload fuel t req = Some (Ok w)) ∧
    xs ⊆+ concat (msg_onions <$> to_mix mix (accepted r tr2)) ∧
    Z.of_nat (length xs) = workload_of w mix ∧
    Forall2 (λ x y, peel r x = Some y) xs rs ∧ v ≡ₚ rs.
Proof.
  intros Hr Hn He Hs.
  destruct (C08_server _ _ _ _ _ _ Hr Hs) as (r' & req' & tr1 & tr2' & w & ms & fuel & m0 & xs & rs & Heq & H1 & H2 & H3 & H4 & H5 & H6 & H7).
  destruct (sent_to_accepted _ _ _ _ _ _ Hr Hn He) as [_ Hacc].
  (* the object is created only once *)
  assert (Huniq : ∀ tra trb r1 q1 r2 q2 s, srun (tra ++ SNew r1 q1 (Ok id) :: trb) s → SNew r2 q2 (Ok id) ∉ trb).
  { intros tra trb r1 q1 r2 q2 sx Hrx Hin. apply elem_of_list_split in Hin as (tb1 & tb2 & ->).
    assert (Hry : srun ((tra ++ SNew r1 q1 (Ok id) :: tb1) ++ SNew r2 q2 (Ok id) :: tb2) sx) by (by rewrite <-app_assoc).
    destruct (srun_split_step _ _ _ _ _ _ _ _ _ _ Hry) as (s1 & s2 & Hr1 & Hs1).
    assert (Hlt : ∀ s1, srun (tra ++ SNew r1 q1 (Ok id) :: tb1) s1 → id < length (sv_objs s1)).
    { clear. induction tb1 as [|l tb1 IH] using rev_ind; intros s1 Hr1.
      - inversion Hr1 as [Hn|tr' l' s0 s2 Hr' Hs Heq]; [by destruct tra|].
        apply app_inj_tail in Heq as [-> ->]. inversion Hs; subst. simpl. rewrite app_length. simpl. lia.
      - change (SNew r1 q1 (Ok id) :: tb1 ++ [l]) with ((SNew r1 q1 (Ok id) :: tb1) ++ [l]) in Hr1.
        rewrite app_assoc in Hr1.
        inversion Hr1 as [Hn|tr' l' s0 s2 Hr' Hs Heq]; [by destruct (tra ++ SNew r1 q1 (Ok id) :: tb1)|].
        apply app_inj_tail in Heq as [-> ->]. specialize (IH _ Hr').
        inversion Hs; subst; simpl; rewrite ?app_length, ?insert_length; simpl; lia. }
    specialize (Hlt _ Hr1). inversion Hs1; subst. lia. }
  assert (tr2 = tr2' ∧ r' = r ∧ req' = req) as (<- & -> & ->).
  { pose proof (Huniq _ _ _ _ r' req' _ Hr) as U1. rewrite Heq in Hr. pose proof (Huniq _ _ _ _ r req _ Hr) as U2.
    apply app_eq_inv in Heq as [(k & E1 & E2)|(k & E1 & E2)].
    - destruct k as [|x k]; [simpl in E2; by simplify_eq|]. simpl in E2. simplify_eq. destruct U2. set_solver.
    - destruct k as [|x k]; [simpl in E2; by simplify_eq|]. simpl in E2. simplify_eq. destruct U1. set_solver. }
  exists w, xs, rs. rewrite <-Hacc. eauto 10.
Qed.

(** The replaced object is never closed (its decryption workers never end) and no later call reaches
    it. *)
Theorem C07_replaced_object_leaks tr0 s0 r old req id tr2 s :
  srun tr0 s0 → sv_states s0 !! r = Some old →
  srun (tr0 ++ SNew r req (Ok id) :: tr2) s →
  SObj old LClose ∉ tr0 ++ SNew r req (Ok id) :: tr2 ∧
  (∀ r' ms, SAdd r' ms (Ok old) ∉ tr2) ∧ (∀ r' mix, SGet r' mix (Ok old) ∉ tr2).
Proof.
  intros Hr0 Hst Hr.
  assert (Hcur : current tr0 r = Some old) by (by rewrite <-(si_cur _ _ _ _ _ _ _ (srun_SInv _ _ _ _ _ _ _ _ Hr0))).
  assert (Horph : ∀ s1, srun (tr0 ++ [SNew r req (Ok id)]) s1 → orphan s1 old).
  { intros s1 Hr1. inversion Hr1 as [Hn|tr' l' sa sb Hr' Hs Heq]; [by destruct tr0|].
    apply app_inj_tail in Heq as [-> ->]. pose proof (srun_SInv _ _ _ _ _ _ _ _ Hr') as HI.
    assert (Ha : sv_states sa !! r = Some old) by (by rewrite (si_cur _ _ _ _ _ _ _ HI)).
    destruct (si_tab _ _ _ _ _ _ _ HI _ _ Ha) as (o & Ho & Hro & Hnc & Hncl).
    inversion Hs; subst. split; [|split]; simpl; [|done|apply lookup_lt_Some in Ho; rewrite app_length; lia].
    intros r'. rewrite lookup_insert_Some. intros [[_ Hid]|[Hne Hr'']].
    - apply lookup_lt_Some in Ho. lia.
    - destruct (si_tab _ _ _ _ _ _ _ HI _ _ Hr'') as (o' & Ho' & Hro' & _). congruence. }
  change (SNew r req (Ok id) :: tr2) with ([SNew r req (Ok id)] ++ tr2) in Hr. rewrite app_assoc in Hr.
  destruct (orphan_future _ _ _ _ _ _ _ _ _ _ _ Horph Hr eq_refl) as (_ & A & B & C).
  split; [|done]. rewrite elem_of_app. intros [Hin|[?|?]%elem_of_cons]; [|done|done].
  (* it was not closed before either *)
  pose proof (srun_SInv _ _ _ _ _ _ _ _ Hr0) as HI.
  destruct (si_tab _ _ _ _ _ _ _ HI _ _ Hst) as (o & Ho & Hro & Hnc & Hncl). apply Hnc.
  clear -Hr0 Hin Ho. revert o Ho. induction Hr0 as [|tr l sa sb Hr IH Hs]; intros o Ho; [by apply elem_of_nil in Hin|].
  assert (Hlk : ∀ id' l' o1 s', sv_objs sa !! id' = Some o1 → <[id' := obj_step o1 l' s']> (sv_objs sa) !! old = Some o →
     ∃ o0, sv_objs sa !! old = Some o0 ∧ (∀ x, x ∈ ro_trace o0 → x ∈ ro_trace o) ∧ (id' = old → l' ∈ ro_trace o)).
  { intros id' l' o1 s' E1 E2. destruct (decide (old = id')) as [->|Hne].
    - rewrite list_lookup_insert in E2 by (by eapply lookup_lt_Some). injection E2 as <-. exists o1.
      split; [done|]. simpl. split; [set_solver|]. intros _. set_solver.
    - rewrite list_lookup_insert_ne in E2 by done. exists o. split; [done|]. split; [done|]. by intros ->. }
  apply elem_of_app in Hin as [Hin|Hin].
  - inversion Hs; subst; simpl in Ho; try (by eapply IH);
      try (match goal with E1 : sv_objs sa !! ?i = Some ?ob, E2 : <[?i := _]> _ !! _ = Some _ |- _ =>
             destruct (Hlk _ _ _ _ E1 E2) as (ox & Hox & Hsub & _); apply Hsub; by eapply IH end).
    apply lookup_app_Some in Ho as [Ho|[Hge Ho]]; [by eapply IH|].
    apply list_lookup_singleton_Some in Ho as [Hz <-]. exfalso.
    assert (Hex : old < length (sv_objs sa)); [|lia]. clear -Hr Hin.
    induction Hr as [|tr l sa sb Hr IH Hs]; [by apply elem_of_nil in Hin|].
    apply elem_of_app in Hin as [Hin|Hin%elem_of_list_singleton].
    + specialize (IH Hin). inversion Hs; subst; simpl; rewrite ?app_length, ?insert_length; simpl; lia.
    + subst l. inversion Hs; subst; simpl; rewrite ?insert_length; by eapply lookup_lt_Some.
  - apply elem_of_list_singleton in Hin. subst l. inversion Hs; subst; simpl in Ho;
      match goal with E1 : sv_objs sa !! ?i = Some ?ob, E2 : <[?i := _]> _ !! _ = Some _ |- _ =>
        destruct (Hlk _ _ _ _ E1 E2) as (ox & Hox & Hsub & Hl); by apply Hl end.
Qed.
End server.
Print Assumptions C05_new_round.
Print Assumptions C05_crash_iff.
Print Assumptions C06_answers.
Print Assumptions C06_end_count.
Print Assumptions C06_never_closed_twice.
Print Assumptions C06_isolation.
Print Assumptions C08_server.
Print Assumptions C07_reopen_discards.
Print Assumptions C07_replaced_object_leaks.

(** ** A concrete history: server "a" of two, two layers; round 7 is opened, fed, opened again while
    open, fed again and read: hypotheses of C05-C08 hold together and are not vacuous. *)
Definition ex5_req : gmap string N := <["m(0,0)" := 1%N]> (<["m(0,1)" := 0%N]> ∅).
Definition ex5_ms : list LogicalMix :=
  filter (λ m, mx_host m = "a") (omap (λ e, deref ex_topo e.2) (map_to_list (tp_mixes ex_topo))).
Definition okb {A B} (r : option (outcome A B)) : bool := match r with Some (Ok _) => true | _ => false end.
Definition ex5_w : gmap string Z := match round_workload 2 ex_topo ex5_req with Some (Ok w) => w | _ => ∅ end.
Lemma ex5_workload : round_workload 2 ex_topo ex5_req = Some (Ok ex5_w).
Proof.
  assert (okb (round_workload 2 ex_topo ex5_req) = true) as H by (vm_compute; reflexivity).
  unfold ex5_w. revert H. generalize (round_workload 2 ex_topo ex5_req) as r. by intros [[| |]|].
Qed.
Definition ex5_m : mixers := default (mkMixers ∅ [] true [] None [] [] true) (NewMixers ex_topo ex5_ms ex5_w).
Lemma ex5_new : NewMixers ex_topo ex5_ms ex5_w = Some ex5_m.
Proof. unfold ex5_m. apply someb_default. vm_compute. reflexivity. Qed.
Definition ex5_first := ex_client [Byte.x01] "m(0,0)".
Definition ex5_second := ex_client [Byte.x02] "m(0,0)".
Definition ex5_sched : list choice := [CHold; CHold; CHold; CHold; CHold; CTake; CDecrypt 0; CPend 0; CPend 0; CPend 0; CRecv].
Definition ex5_start : mixers := with_holder ex5_m (Some (HMsgs [ex5_second])).
Definition ex5_exec := exec ex_peel 2 2 (2 * length ex5_ms) ex5_sched ex5_start.
Definition ex5_ltr : list label := default [] (fst <$> ex5_exec).
Definition ex5_fin : mixers := default ex5_m (snd <$> ex5_exec).
Lemma ex5_run : run ex_peel 2 2 (2 * length ex5_ms) ex5_start ex5_ltr ex5_fin.
Proof.
  assert (someb ex5_exec = true) as H by (vm_compute; reflexivity).
  apply (exec_sound _ _ _ _ ex5_sched). fold ex5_exec. unfold ex5_ltr, ex5_fin.
  revert H. generalize ex5_exec. by intros [[tr s]|].
Qed.
Notation ex5_srun := (srun true ex_topo "a" (λ _, ex_peel) 2 2).
Notation ex5_sstep := (sstep true ex_topo "a" (λ _, ex_peel) 2 2).

Local Ltac sapply H := let Hq := fresh "Hq" in pose proof H as Hq;
  cbn [sv_states sv_objs sv_calls sv_closing sv_reads sv_panic app insert list_insert length with_obj] in Hq;
  eapply Hq; try done.

Example C07_example : ∃ tr2 s s',
  let tr0 := [SNew 7 ex5_req (Ok 0); SAdd 7 [ex5_first] (Ok 0)] in
  ex5_srun (tr0 ++ SNew 7 ex5_req (Ok 1) :: tr2) s ∧
  round_open tr0 7 = true ∧ accepted 7 tr2 = [ex5_second] ∧
  (∀ req' id', SNew 7 req' (Ok id') ∉ tr2) ∧ (∀ id', SEnd 7 (Ok id') ∉ tr2) ∧
  ex5_sstep s (SGot 1 "m(0,0)" [Some [Byte.x02]]) s'.
Proof.
  assert (Hh : hosted ex_topo "a" ex5_ms) by (unfold hosted, ex5_ms; reflexivity).
  assert (Hpan : mm_panic ex5_m = false) by (vm_compute; reflexivity).
  assert (Hhold : mm_holder ex5_m = None) by (vm_compute; reflexivity).
  assert (Hdom : is_Some (mm_states ex5_m !! "m(0,0)")).
  { assert (someb (mm_states ex5_m !! "m(0,0)") = true) as H by (vm_compute; reflexivity).
    revert H. generalize (mm_states ex5_m !! "m(0,0)"). intros [?|]; [by eexists|done]. }
  assert (Hpf : mm_panic ex5_fin = false) by (vm_compute; reflexivity).
  assert (Hint : Forall (λ l, internal l = true) ex5_ltr) by (vm_compute; repeat constructor).
  assert (Hret : can_return ex5_fin "m(0,0)" [Some [Byte.x02]]) by (apply can_return_b_ok; vm_compute; reflexivity).
  pose proof ex5_workload as Hw. pose proof ex5_new as Hn. pose proof ex5_run as Hrun.
  set (o := mkRobject 7 ex5_m (2 * length ex5_ms) [] ex5_m).
  assert (R1 : ex5_srun [SNew 7 ex5_req (Ok 0)] (mkServer {[7%N := 0]} [o] [] [] [] false)).
  { change [SNew 7 ex5_req (Ok 0)] with ([] ++ [SNew 7 ex5_req (Ok 0)]). econstructor; [constructor|].
    sapply (ss_new true ex_topo "a" (λ _, ex_peel) 2 2 NewMixServer 7 ex5_req 2 ex5_w ex5_ms ex5_m). }
  assert (R2 : ex5_srun [SNew 7 ex5_req (Ok 0); SAdd 7 [ex5_first] (Ok 0)]
                 (mkServer {[7%N := 0]} [o] [(0, [ex5_first])] [] [] false)).
  { change [SNew 7 ex5_req (Ok 0); SAdd 7 [ex5_first] (Ok 0)]
      with ([SNew 7 ex5_req (Ok 0)] ++ [SAdd 7 [ex5_first] (Ok 0)]). econstructor; [exact R1|].
    sapply (ss_add true ex_topo "a" (λ _, ex_peel) 2 2 (mkServer {[7%N := 0]} [o] [] [] [] false) 7 [ex5_first] 0). }
  set (tr0 := [SNew 7 ex5_req (Ok 0); SAdd 7 [ex5_first] (Ok 0)]) in *.
  assert (R3 : ex5_srun (tr0 ++ [SNew 7 ex5_req (Ok 1)])
     (mkServer (<[7%N := 1]> {[7%N := 0]}) [o; o] [(0, [ex5_first])] [] [] false)).
  { econstructor; [exact R2|]. sapply (ss_new true ex_topo "a" (λ _, ex_peel) 2 2 (mkServer {[7%N := 0]} [o] [(0, [ex5_first])] [] [] false) 7 ex5_req 2 ex5_w ex5_ms ex5_m). }
  set (sts := <[7%N := 1]> {[7%N := 0]} : gmap N nat) in *.
  assert (Hsts : sts !! 7%N = Some 1) by (unfold sts; by rewrite lookup_insert).
  assert (R4 : ex5_srun ((tr0 ++ [SNew 7 ex5_req (Ok 1)]) ++ [SAdd 7 [ex5_second] (Ok 1)])
     (mkServer sts [o; o] [(0, [ex5_first]); (1, [ex5_second])] [] [] false)).
  { econstructor; [exact R3|]. sapply (ss_add true ex_topo "a" (λ _, ex_peel) 2 2 (mkServer sts [o; o] [(0, [ex5_first])] [] [] false) 7 [ex5_second] 1). }
  assert (R5 : ex5_srun (((tr0 ++ [SNew 7 ex5_req (Ok 1)]) ++ [SAdd 7 [ex5_second] (Ok 1)]) ++ [SGet 7 "m(0,0)" (Ok 1)])
     (mkServer sts [o; o] [(0, [ex5_first]); (1, [ex5_second])] [] [(1, "m(0,0)")] false)).
  { econstructor; [exact R4|].
    sapply (ss_get true ex_topo "a" (λ _, ex_peel) 2 2 (mkServer sts [o; o] [(0, [ex5_first]); (1, [ex5_second])] [] [] false) 7 "m(0,0)" 1 o). }
  set (s5 := mkServer sts [o; o] [(0, [ex5_first]); (1, [ex5_second])] [] [(1, "m(0,0)")] false) in *.
  set (o6 := obj_step o (LAdd [ex5_second]) ex5_start).
  assert (S6 : ostep (λ _, ex_peel) 2 2 o (ro_state o) (LAdd [ex5_second]) ex5_start).
  { unfold ostep. unfold ex5_start. apply step_add; [exact Hpan|exact Hhold]. }
  pose proof (ss_enter true ex_topo "a" (λ _, ex_peel) 2 2 s5 [(0, [ex5_first])] 1 [ex5_second] [] o ex5_start
    eq_refl eq_refl eq_refl S6) as T6.
  fold o6 in T6.
  set (s6 := with_obj _ 1 o6) in T6.
  pose proof (srun_snoc _ _ _ _ _ _ _ _ _ _ R5 T6) as R6.
  assert (Hpan6 : sv_panic s6 = false) by (unfold s6; cbn [with_obj sv_panic orb]; exact Hpan).
  destruct (lift_run _ _ _ _ _ _ _ _ 1 o6 _ _ R6 Hpan6 eq_refl Hrun Hint Hpf) as
    (s' & o' & Hr & Hps & Ho' & E1 & E2 & E3 & E4 & E5 & E6 & E7 & _).
  clear E5 Hrun Hint. generalize dependent ex5_ltr. intros ltr Hr.
  exists ([SAdd 7 [ex5_second] (Ok 1); SGet 7 "m(0,0)" (Ok 1); SObj 1 (LAdd [ex5_second])] ++ (SObj 1 <$> ltr)), s',
    (mkServer (sv_states s') (sv_objs s') (sv_calls s') (sv_closing s') [] false).
  cbv zeta. split; [|split; [|split; [|split; [|split]]]].
  - revert Hr. rewrite <-!app_assoc. done.
  - done.
  - assert (Ha : ∀ a b, accepted 7 (a ++ b) = accepted 7 a ++ accepted 7 b).
    { intros a b. unfold accepted. by rewrite omap_app, concat_app. }
    rewrite Ha. assert (accepted 7 (SObj 1 <$> ltr) = []) as ->; [|done].
    clear. induction ltr; [done|]. unfold accepted in *. simpl. done.
  - intros q j. cbn [app]. rewrite !elem_of_cons, elem_of_list_fmap. intros [?|[?|[?|(? & ? & _)]]]; done.
  - intros j. cbn [app]. rewrite !elem_of_cons, elem_of_list_fmap. intros [?|[?|[?|(? & ? & _)]]]; done.
  - eapply (ss_got true ex_topo "a" (λ _, ex_peel) 2 2 s' [] 1 "m(0,0)" []); [done|by rewrite E7|exact Ho'|]. by rewrite E1.
Qed.

(** The workload finding: 2^63 for the chain through this host. *)
Example C05_crash_example : ∃ s',
  ex5_sstep NewMixServer (SCrash 1 (<["m(0,0)" := (2 ^ 63)%N]> (<["m(0,1)" := 0%N]> ∅))) s'.
Proof.
  eapply (C05_crash_iff true ex_topo "a" _ 2 2 ["a"; "b"] 2).
  - vm_compute. reflexivity.
  - lia.
  - done.
  - intros k v. rewrite !lookup_insert_Some. intros [[_ <-]|[_ [[_ <-]|[_ ?]]]]; done.
  - split; [done|]. split.
    + intros (i & m & Hd & Hn). destruct i as [|[|i]].
      * vm_compute in Hd. injection Hd as <-. by vm_compute in Hn.
      * vm_compute in Hd. injection Hd as <-. by vm_compute in Hn.
      * by vm_compute in Hd.
    + exists 0, 0. eexists _, _, _. split; [vm_compute; reflexivity|]. split; [vm_compute; reflexivity|].
      split; [vm_compute; reflexivity|]. split; [vm_compute; reflexivity|]. vm_compute. discriminate.
Qed.

(** C21. *)
Theorem C21_equal_length_hosts (h h' : string) (r r' : Z) :
  String.length h = String.length h' → id_string h r = id_string h' r' → h = h' ∧ r = r'.
Proof.
  intros Hl [-> Hp]%str_app_inj_len; [|done]. split; [done|]. by apply (inj pretty).
Qed.
Print Assumptions C21_equal_length_hosts.
(** For one host the round is determined. *)
Theorem C21_same_host (h : string) (r r' : Z) : id_string h r = id_string h r' → r = r'.
Proof. intros H. by apply C21_equal_length_hosts in H as [_ ?]. Qed.
(** In general two different pairs can only collide if one host name extends the other by a non-empty
    prefix of the decimal of its round; for the (non-negative) rounds of the protocol: by digits. *)
Theorem C21_collision_shape (h h' : string) (r r' : N) :
  id_string h (Z.of_N r) = id_string h' (Z.of_N r') → (h, r) ≠ (h', r') →
  ∃ d, d ≠ "" ∧ str_all is_digit d = true ∧
    ((h' = h +:+ d ∧ pretty (Z.of_N r) = d +:+ pretty (Z.of_N r')) ∨
     (h = h' +:+ d ∧ pretty (Z.of_N r') = d +:+ pretty (Z.of_N r))).
Proof.
  assert (Hdig : ∀ n : N, str_all is_digit (pretty (Z.of_N n)) = true).
  { intros [|p]; [done|]. exact (pretty_N_digits (N.pos p)). }
  assert (Hmain : ∀ (h h' : string) (r r' : N), String.length h ≤ String.length h' →
    id_string h (Z.of_N r) = id_string h' (Z.of_N r') → (h, r) ≠ (h', r') →
    ∃ d, d ≠ "" ∧ str_all is_digit d = true ∧ h' = h +:+ d ∧ pretty (Z.of_N r) = d +:+ pretty (Z.of_N r')).
  { clear h h' r r'. intros h h' r r' Hle Heq Hne.
    assert (Hsplit : ∀ (a a' b b' : string), String.length a ≤ String.length a' → a +:+ b = a' +:+ b' →
      ∃ d, a' = a +:+ d ∧ b = d +:+ b').
    { clear. induction a as [|x a IH]; intros a' b b' Hle H; [by exists a'|].
      destruct a' as [|y a']; [simpl in Hle; lia|]. simpl in Hle. rewrite !str_cons_app in H. injection H as -> H.
      destruct (IH a' b b' ltac:(lia) H) as (d & -> & ->). by exists d. }
    destruct (Hsplit _ _ _ _ Hle Heq) as (d & -> & Hp). exists d.
    split; [|split; [|done]].
    - intros ->. apply Hne. rewrite str_app_nil_r. f_equal.
      rewrite str_nil_app in Hp. apply (inj pretty) in Hp. lia.
    - pose proof (Hdig r) as Hr. rewrite Hp, str_all_app in Hr. by apply andb_prop in Hr as [? _]. }
  intros Heq Hne. destruct (decide (String.length h ≤ String.length h')).
  - destruct (Hmain h h' r r') as (d & ? & ? & ? & ?); [done..|]. exists d. auto.
  - destruct (Hmain h' h r' r) as (d & ? & ? & ? & ?); [lia|done|congruence|]. exists d. auto.
Qed.
Print Assumptions C21_collision_shape.
(** FINDING: it does happen, also for plausible addresses and for every hash function. *)
Theorem C21_ambiguous_refuted {D} (sha3 : string → D) :
  computeId sha3 "localhost:5050" 11 = computeId sha3 "localhost:50501" 1.
Proof. done. Qed.
Print Assumptions C21_ambiguous_refuted.
Example C21_example : id_string "10.0.0.1:80" 12 = "10.0.0.1:8012" ∧ String.length "10.0.0.1:80" = String.length "10.0.0.2:80".
Proof. done. Qed.
