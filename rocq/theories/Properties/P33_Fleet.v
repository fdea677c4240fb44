(** C88: a network that works on several rounds at the same time (server.go:41-53, sender.go, mixer.go,
    rrpc/client.go:226-242).  The topology is a cascade; servers have dialed their peers. *)
From stdpp Require Import gmap.
From Verif.Base Require Import Base.
From Verif.Model Require Import Topology Shuffle Onion Mixer Rounds Messages System Fleet.
From Verif.Spec Require Import MixerSpec MessagesSpec RoundsSpec SystemSpec FleetSpec.
From Verif.Proofs Require Import TopologyProofs MixerInv MixerLive MixerExec RoundsProofs SystemProofs FleetProofs FleetSim FleetLive FleetMain FleetExec.
From Verif.Properties Require Import P04_Mixer P05_Rounds P08_Messages P27_System.

(** ** What GetMessages of a round answers does not depend on the other rounds *)

(** Round r is opened at most once by every server, its clients follow the protocol and keep to what was
    announced.  Nothing at all is assumed of the other rounds: they may be opened again and again, ended,
    be fed invalid onions or too many of them; calls may be lost; servers may crash.  If GetMessages of
    round r for mix (l, i) answers, then with exactly the messages sent into chain i in round r, peeled up
    to layer l: none of another round, none missing, none twice. *)
Theorem C88_exact t peel workers taskCap servers L w fuel req r tr f f' l i x id v :
  CreateCascadeTopology servers (Z.of_nat L) = Some t → 0 < L → (Z.of_nat L ≤ 2 ^ 31)%Z →
  round_workload fuel t req = Some (Ok w) →
  frun t peel workers taskCap (fleet_start servers) tr f →
  opened_once r req tr → honest_clients t (λ h, peel h r) (round_view r tr) → within_announced t w (round_view r tr) →
  deref t (l, i) = Some x →
  FServer (mx_host x) (SGet r (mx_name x) (Ok id)) ∈ tr →
  fstep t peel workers taskCap f (FServer (mx_host x) (SGot id (mx_name x) v)) f' →
  ∃ outs, Forall2 (delivers t (opens (λ h, peel h r)) (take (S l) (chain_mixes t i)))
                  (sent_into t i (round_view r tr)) outs ∧ v ≡ₚ Some <$> outs.
Proof. intros H1 H2 H3 H4. intros. by eapply (exact t peel workers taskCap servers L w fuel req r H1 H2 H3 H4). Qed.
Print Assumptions C88_exact.

(** ** No server crashes if all rounds are honest *)

(** Every round that is opened is opened once by every server, is not ended, and its clients follow the
    protocol. *)
Definition rounds_honest (t : topology) (peel : string → N → onion → option (option onion)) (tr : list flabel) : Prop :=
  ∀ h r req id, FServer h (SNew r req (Ok id)) ∈ tr →
    opened_once r req tr ∧ not_ended r tr ∧ honest_clients t (λ h, peel h r) (round_view r tr) ∧
    ∀ fuel w, round_workload fuel t req = Some (Ok w) → within_announced t w (round_view r tr).
(** No NewRound call that made a server crash had a workload of 2^63 or more. *)
Definition sizes_sane (tr : list flabel) : Prop :=
  ∀ h r req, FServer h (SCrash r req) ∈ tr → map_Forall (λ _ k, (k < 2 ^ 63)%N) req.

Theorem C88_no_crash t peel workers taskCap servers L tr f :
  CreateCascadeTopology servers (Z.of_nat L) = Some t → 0 < L → (Z.of_nat L ≤ 2 ^ 31)%Z →
  frun t peel workers taskCap (fleet_start servers) tr f →
  rounds_honest t peel tr → sizes_sane tr → ¬ some_crash f.
Proof.
  intros Ht HL HL31 Hr Hh Hs (h & sv & Hsv & Hp).
  assert (∀ id ob, sv_objs sv !! id = Some ob → mm_panic (ro_state ob) = false ∧ ∀ o, FCrash h id o ∉ tr) as Hsafe.
  { intros id ob Ho. destruct (frun_objs _ _ _ _ _ _ _ _ _ _ _ Hr Hsv Ho) as (req & fuel & w & ms & Hin & Hw & _).
    destruct (opening_label _ _ _ _ Hin) as [id' Hnew]. destruct (Hh _ _ _ _ Hnew) as (H1 & H2 & H3 & H4).
    eapply (round_safe t peel workers taskCap servers L w fuel req (ro_round ob) Ht HL HL31 Hw); try done. by eapply H4. }
  destruct (panic_cause _ _ _ _ _ _ _ _ _ Hr Hsv Hp) as [(r & req & Hin)|[(id & o & Hin)|(id & ob & Ho & Hpo)]].
  - specialize (Hs _ _ _ Hin).
    apply elem_of_list_split in Hin as (tr1 & tr2 & ->). rewrite cons_middle, app_assoc in Hr.
    destruct (frun_app_inv _ _ _ _ _ _ _ _ Hr) as (f1 & Hr1 & _).
    remember (tr1 ++ [FServer h (SCrash r req)]) as tr1' eqn:E. destruct Hr1 as [|tr0 l f0 f1 Hr0 Hst]; [by destruct tr1|].
    apply app_inj_tail in E as [_ ->]. inversion Hst as [|? ? ? sv1 sv2 Hsv1 Hl Hss| | | | | | | | |]; subst.
    destruct (C05_crash_iff true t h (peel h) (workers h) (taskCap h) servers L sv1 r req Ht HL) as [Hc _].
    { by eapply sstep_up. }
    { eapply map_Forall_impl; [exact Hs|]. intros ? k Hk. cbn beta in Hk |- *. lia. }
    destruct Hc as (_ & _ & i & l & m0 & m & k & _ & _ & _ & Hk & Hk2); [by exists sv2|]. specialize (Hs _ _ Hk). cbn in Hs. lia.
  - assert (∃ r, has_obj f h id r) as (r & sv' & ob & E1 & E2 & E3).
    { clear -Hr Hin. induction Hr as [|tr l f f' Hr IH Hst]; [by apply elem_of_nil in Hin|].
      apply elem_of_app in Hin as [Hin|Hin%elem_of_list_singleton].
      - destruct (IH Hin) as [r Hr']. exists r. by eapply has_obj_step.
      - subst l. inversion Hst; subst. exists (ro_round ob). eapply has_obj_step; [exact Hst|]. by eexists _, _. }
    rewrite Hsv in E1. injection E1 as <-. destruct (Hsafe _ _ E2) as [_ Hno]. by eapply Hno.
  - destruct (Hsafe _ _ Ho). congruence.
Qed.
Print Assumptions C88_no_crash.

(** ** Every round completes, whatever happens in the others *)

(** [round_ok]: nothing has gone wrong with round r.  If the servers have nothing left to do for round r
    (other rounds may be in any state), and everything announced for chain i was sent, then GetMessages
    answers for every mix of the chain. *)
Theorem C88_completes t peel workers taskCap servers L w fuel req r tr f i l x :
  CreateCascadeTopology servers (Z.of_nat L) = Some t → 0 < L → (Z.of_nat L ≤ 2 ^ 31)%Z →
  round_workload fuel t req = Some (Ok w) →
  (∀ h, h ∈ servers → 0 < workers h ∧ 0 < taskCap h) →
  frun t peel workers taskCap (fleet_start servers) tr f → round_ok t peel servers r req w tr f →
  round_settled t peel workers taskCap r f →
  sent_into t i (round_view r tr) ≠ [] → Z.of_nat (length (sent_into t i (round_view r tr))) = announced t w i →
  deref t (l, i) = Some x →
  ∃ id v f1 f2, fstep t peel workers taskCap f (FServer (mx_host x) (SGet r (mx_name x) (Ok id))) f1 ∧
    fstep t peel workers taskCap f1 (FServer (mx_host x) (SGot id (mx_name x) v)) f2 ∧
    ∃ outs, Forall2 (delivers t (opens (λ h, peel h r)) (take (S l) (chain_mixes t i)))
                    (sent_into t i (round_view r tr)) outs ∧ v ≡ₚ Some <$> outs.
Proof.
  intros Ht HL HL31 Hw Hcap Hr Hk Hset Hne Hlen Hd.
  destruct (complete_round t peel workers taskCap servers L w fuel req r Ht HL HL31 Hw Hcap tr f i l x Hr Hk Hset Hne Hlen Hd) as (id & v & f1 & f2 & H1 & H2).
  exists id, v, f1, f2. split; [done|]. split; [done|].
  set (lb := FServer (mx_host x) (SGet r (mx_name x) (Ok id))) in *.
  assert (round_view r (tr ++ [lb]) = round_view r tr) as Ev by (rewrite round_view_app; cbn; by rewrite app_nil_r).
  assert (∀ h, openings r h (tr ++ [lb]) = openings r h tr) as Eo by (intros h; unfold openings; rewrite omap_app; cbn; by rewrite app_nil_r).
  rewrite <-Ev. eapply (C88_exact t peel workers taskCap servers L w fuel req r (tr ++ [lb]) f1 f2 l i x id v); try done.
  - by econstructor.
  - intros h. rewrite Eo. eapply opened_everywhere; [exact Hr|apply Hk].
  - rewrite Ev. apply Hk.
  - rewrite Ev. apply Hk.
  - apply elem_of_app. right. by apply elem_of_list_singleton.
Qed.
Print Assumptions C88_completes.

(** From every state in which nothing has gone wrong with round r, finitely many steps of the servers for
    round r alone finish it: no other round has to move, and after them GetMessages answers. *)
Theorem C88_can_finish t peel workers taskCap servers L w fuel req r tr f :
  CreateCascadeTopology servers (Z.of_nat L) = Some t → 0 < L → (Z.of_nat L ≤ 2 ^ 31)%Z →
  round_workload fuel t req = Some (Ok w) →
  (∀ h, h ∈ servers → 0 < workers h ∧ 0 < taskCap h) →
  frun t peel workers taskCap (fleet_start servers) tr f → round_ok t peel servers r req w tr f →
  ∃ f2, rtc (own_round_step t peel workers taskCap r) f f2 ∧ round_settled t peel workers taskCap r f2 ∧
    ∀ i l x, sent_into t i (round_view r tr) ≠ [] →
      Z.of_nat (length (sent_into t i (round_view r tr))) = announced t w i → deref t (l, i) = Some x →
      ∃ id v f3 f4, fstep t peel workers taskCap f2 (FServer (mx_host x) (SGet r (mx_name x) (Ok id))) f3 ∧
        fstep t peel workers taskCap f3 (FServer (mx_host x) (SGot id (mx_name x) v)) f4 ∧
        ∃ outs, Forall2 (delivers t (opens (λ h, peel h r)) (take (S l) (chain_mixes t i)))
                        (sent_into t i (round_view r tr)) outs ∧ v ≡ₚ Some <$> outs.
Proof.
  intros Ht HL HL31 Hw Hcap Hr Hk.
  destruct (finish t peel workers taskCap servers L w fuel req r Ht HL HL31 Hw Hcap tr f Hr Hk) as (tr2 & f2 & H1 & H2 & H3 & H4 & H5).
  exists f2. split; [done|]. split; [done|]. intros i l x Hne Hlen Hd. rewrite <-H4 in *.
  by eapply (C88_completes t peel workers taskCap servers L w fuel req r (tr ++ tr2) f2 i l x Ht HL HL31 Hw Hcap H1 H2 H5).
Qed.
Print Assumptions C88_can_finish.

(** ** What one round can do to another *)

(** A sender one of whose calls was replaced by a call of another round with the same uuid never sends
    again: it takes no further output of its round and makes no further call, whatever happens. *)
Theorem C88_stuck t peel workers taskCap f tr f' c h id :
  frun t peel workers taskCap f tr f' → c ∈ fl_void f → fc_from c = Some (h, id) →
  (∀ o cs, FTake h id o cs ∉ tr) ∧ (∀ c', fc_from c' = Some (h, id) → FSend c' ∉ tr).
Proof. intros H1 H2 H3. destruct (void_stuck t peel workers taskCap f tr f' c h id H1 H2 H3) as (_ & ? & _ & ?). done. Qed.
Print Assumptions C88_stuck.

(** It happens when two rounds work on the outputs of the same mix for the same host at the same time. *)
Theorem C88_replaced t peel workers taskCap f c f' c' h id id' :
  fstep t peel workers taskCap f (FSend c) f' → fc_from c = Some (h, id) →
  c' ∈ fl_wait f → fc_from c' = Some (h, id') → fc_to c' = fc_to c → rq_uuid (fc_rq c') = rq_uuid (fc_rq c) →
  c' ∈ fl_void f'.
Proof.
  intros Hst Hf Hw Hf' Ht Hu. inversion Hst; subst. cbn [fl_void]. apply elem_of_app. right. apply elem_of_list_filter.
  split; [|done]. unfold entry. by rewrite Hf, Hf', Ht, Hu.
Qed.

(** ** Example: two servers, three layers, two honest rounds at the same time *)
Definition ex33_topo : topology := default (mkTopo [] ∅) (CreateCascadeTopology ["a"; "b"] 3).
Definition ex33_req : gmap string N := <["m(0,0)" := 1%N]> (<["m(0,1)" := 1%N]> ∅).
Definition ex33_w : gmap string Z := match round_workload 3 ex33_topo ex33_req with Some (Ok w) => w | _ => ∅ end.
Definition ex33_peel (h : string) (r : N) : onion → option (option onion) := toy_peel h.
Definition ex33_onion (i : nat) (msg : bytes) : onion :=
  match wrapLayers id toy_encrypt ex33_topo toy_mpks 7 i (λ _, ()) 3 msg with Ok o => o | _ => [] end.
Definition ex33_batch (r : N) (name : string) (os : list onion) : AddRequest :=
  mkAddRequest r [mkMessages os GenesisName GenesisName name] "client".
Definition msg4 : bytes := [Byte.x04].
Definition ex33_clients : list (string * AddRequest) :=
  [("a", ex33_batch 7 "m(0,0)" [ex33_onion 0 msg1]); ("b", ex33_batch 7 "m(0,1)" [ex33_onion 1 msg2]);
   ("a", ex33_batch 8 "m(0,0)" [ex33_onion 0 msg3]); ("b", ex33_batch 8 "m(0,1)" [ex33_onion 1 msg4])].
(** The steps of an object. *)
Definition work (h : string) (id : nat) : list xchoice :=
  [XObj h id CHold; XObj h id CTake; XObj h id (CDecrypt 0); XObj h id (CPend 0); XObj h id (CPend 1)].
(** Server a works on its first mix, first for round 7, then for round 8, and sends both outputs to b
    before an answer to the first call arrives; then everybody does what can be done. *)
Definition ex33_phases : list (nat * list xchoice) :=
  [(1, [XNew "a" 7 ex33_req]); (1, [XNew "b" 7 ex33_req]); (1, [XNew "a" 8 ex33_req]); (1, [XNew "b" 8 ex33_req])] ++
  ((λ e, (1, [XClient e.1 e.2])) <$> ex33_clients) ++
  [(1, [XAccept 0]); (1, [XEnter 0 0]); (30, work "a" 0); (1, [XTake "a" 0]); (1, [XSend 0]);
   (1, [XAccept 1]); (1, [XEnter 0 0]); (30, work "a" 1); (1, [XTake "a" 1]); (1, [XSend 0]);
   (300, work "a" 0 ++ work "a" 1 ++ work "b" 0 ++ work "b" 1 ++
         [XTake "a" 0; XTake "b" 0; XTake "a" 1; XTake "b" 1; XSend 0; XSend 1; XEnter 0 0; XEnter 0 1; XAccept 0] ++
         ((λ p, XReturn p.1 p.2) <$> [(0, 0); (1, 0); (0, 1); (1, 1); (0, 2); (1, 2); (0, 3); (1, 3)]))].
Definition ex33_out := fphases 3 ex33_topo ex33_peel (λ _, 2) (λ _, 1) ex33_phases (fleet_start ["a"; "b"]).
Definition ex33_tr : list flabel := ex33_out.1.
Definition ex33_fin : fleet := ex33_out.2.

Notation ex33_frun := (frun ex33_topo ex33_peel (λ _, 2) (λ _, 1)).
Lemma ex33_topo_ok : CreateCascadeTopology ["a"; "b"] (Z.of_nat 3) = Some ex33_topo.
Proof. unfold ex33_topo. apply someb_default. vm_compute. reflexivity. Qed.
Lemma ex33_w_ok : round_workload 3 ex33_topo ex33_req = Some (Ok ex33_w).
Proof.
  assert (match round_workload 3 ex33_topo ex33_req with Some (Ok _) => true | _ => false end = true) as H by (vm_compute; reflexivity).
  unfold ex33_w. revert H. generalize (round_workload 3 ex33_topo ex33_req) as r. by intros [[| |]|].
Qed.
Lemma ex33_run : ex33_frun (fleet_start ["a"; "b"]) ex33_tr ex33_fin.
Proof. unfold ex33_tr, ex33_fin, ex33_out. apply fphases_sound. Qed.
(** Where the last mixes are, and that those of round 7 are not done. *)
Definition ex33_undone (h : string) (id : nat) (sts : gmap string mixState) : bool :=
  forallb (λ n, match sts !! n with Some st => negb (st_shuffled st) | None => true end) ["m(2,0)"; "m(2,1)"].

Definition ex33_sent (r : N) : list (string * AddRequest) := filter (λ e, rq_round e.2 = r) ex33_clients.
Lemma ex33_calls r : r = 7%N ∨ r = 8%N → client_calls (round_view r ex33_tr) = ex33_sent r.
Proof. intros [->| ->]; vm_compute; reflexivity. Qed.
Lemma ex33_openings r h : r = 7%N ∨ r = 8%N → h ∈ ["a"; "b"] → openings r h ex33_tr = [ex33_req].
Proof.
  intros Hr Hh. assert (h = "a" ∨ h = "b") as Hh' by (rewrite !elem_of_cons, elem_of_nil in Hh; tauto). clear Hh.
  destruct Hr as [->| ->], Hh' as [->| ->]; vm_compute; reflexivity.
Qed.
Lemma ex33_honest r : r = 7%N ∨ r = 8%N → honest_clients ex33_topo (λ h, ex33_peel h r) (round_view r ex33_tr).
Proof.
  intros Hr. change (λ h, ex33_peel h r) with toy_peel.
  assert (∀ (i : nat) (o : onion) msg, follow ex33_topo (opens toy_peel) (chain_mixes ex33_topo i) o = Some msg →
    ∃ msg, delivers ex33_topo (opens toy_peel) (chain_mixes ex33_topo i) o msg) as Hd
    by (intros i o msg Hf; exists msg; by apply follow_sound).
  intros h rq m. rewrite (ex33_calls r Hr). intros Hin Hm.
  assert (∀ i name (msg : bytes), (h, rq) = (if decide (i = 0) then "a" else "b", ex33_batch r name [ex33_onion i msg]) →
    mx_name <$> deref ex33_topo (0, i) = Some name → mx_host <$> deref ex33_topo (0, i) = Some (if decide (i = 0) then "a" else "b") →
    follow ex33_topo (opens toy_peel) (chain_mixes ex33_topo i) (ex33_onion i msg) = Some msg →
    msg_phys m = GenesisName ∧ msg_lsender m = GenesisName ∧ msg_onions m ≠ [] ∧
    ∃ i first, deref ex33_topo (0, i) = Some first ∧ mx_name first = msg_recv m ∧ mx_host first = h ∧
      ∀ o, o ∈ msg_onions m → ∃ msg, delivers ex33_topo (opens toy_peel) (chain_mixes ex33_topo i) o msg) as Hone.
  { intros i name msg [= -> ->] Hn Hh Hf. apply elem_of_list_singleton in Hm. subst m.
    revert Hn Hh. destruct (deref ex33_topo (0, i)) as [first|] eqn:E; [|intros [=]]. intros [= Hn] [= Hh].
    split; [done|]. split; [done|]. split; [done|]. exists i, first. split; [done|]. split; [done|]. split; [done|].
    intros o Ho. apply elem_of_list_singleton in Ho as ->. by eapply Hd. }
  apply elem_of_list_filter in Hin as [Hr' Hin]. cbn [snd] in Hr'.
  unfold ex33_clients in Hin. rewrite !elem_of_cons, elem_of_nil in Hin.
  destruct Hin as [E|[E|[E|[E|[]]]]]; pose proof E as [= _ E2]; rewrite E2 in Hr'; cbn [ex33_batch rq_round] in Hr'; rewrite Hr' in E.
  - eapply (Hone 0 "m(0,0)" msg1); [exact E|vm_compute; reflexivity..].
  - eapply (Hone 1 "m(0,1)" msg2); [exact E|vm_compute; reflexivity..].
  - eapply (Hone 0 "m(0,0)" msg3); [exact E|vm_compute; reflexivity..].
  - eapply (Hone 1 "m(0,1)" msg4); [exact E|vm_compute; reflexivity..].
Qed.
(** Everything that was announced is sent. *)
Lemma ex33_all r i : r = 7%N ∨ r = 8%N → i < 2 →
  Z.of_nat (length (sent_into ex33_topo i (round_view r ex33_tr))) = announced ex33_topo ex33_w i ∧
  sent_into ex33_topo i (round_view r ex33_tr) ≠ [].
Proof.
  intros Hr Hi. unfold sent_into. rewrite (ex33_calls r Hr).
  destruct Hr as [->| ->], i as [|[|i]]; try lia; (split; [vm_compute; reflexivity|vm_compute; discriminate]).
Qed.
Lemma ex33_within r : r = 7%N ∨ r = 8%N → within_announced ex33_topo ex33_w (round_view r ex33_tr).
Proof.
  intros Hr i m Hm. destruct (deref_bound ex33_topo ["a"; "b"] 3 ex33_topo_ok _ _ _ Hm) as [_ Hi]. clear Hm.
  destruct (ex33_all r i Hr Hi) as [-> _]. reflexivity.
Qed.
Lemma not_existsb {A} (p : A → bool) tr : existsb p tr = false → ∀ l, p l = true → l ∉ tr.
Proof. intros H l Hp Hin. apply not_true_iff_false in H. apply H, existsb_exists. exists l. split; [by apply elem_of_list_In|done]. Qed.
Lemma all_forallb {A} (p : A → bool) tr : forallb p tr = true → ∀ l, l ∈ tr → p l = true.
Proof. rewrite forallb_forall. intros H l Hl. by apply H, elem_of_list_In. Qed.
Lemma workload_det fuel fuel' t req w w' : round_workload fuel t req = Some (Ok w) → round_workload fuel' t req = Some (Ok w') → w = w'.
Proof. intros H1 H2. pose proof (round_workload_det _ _ _ _ _ _ H1 H2) as E. by injection E. Qed.
Lemma delivers_follow t peel ms o msg msg' : delivers t peel ms o msg → follow t peel ms o = Some msg' → msg = msg'.
Proof.
  revert o. induction ms as [|m ms IH]; intros o; cbn; [by intros -> [= ->]|]. intros (H1 & o' & H2 & H3).
  case_bool_decide; [|done]. rewrite H2. by apply IH.
Qed.
Lemma single_out t peel ms o msg os outs v : Forall2 (delivers t peel ms) os outs → os = [o] → follow t peel ms o = Some msg →
  v ≡ₚ Some <$> outs → v = [Some msg].
Proof.
  intros HF -> Hf Hv. apply Forall2_cons_inv_l in HF as (m & outs' & Hd & HF & ->). apply Forall2_nil_inv_l in HF as ->.
  rewrite (delivers_follow _ _ _ _ _ _ Hd Hf) in Hv. cbn in Hv. symmetry in Hv. by apply Permutation_singleton_l in Hv.
Qed.
Lemma ex33_no (p : flabel → bool) : existsb p ex33_tr = false → ∀ l, p l = true → l ∉ ex33_tr.
Proof. exact (not_existsb p ex33_tr). Qed.
Opaque ex33_tr ex33_fin ex33_topo ex33_w.
Lemma ex33_not_ended r : not_ended r ex33_tr.
Proof. intros h id. refine (ex33_no (λ l, match l with FServer _ (SEnd _ _) => true | _ => false end) _ _ _); [vm_compute; reflexivity|reflexivity]. Qed.
Lemma ex33_not_lost r : nothing_lost r ex33_tr.
Proof.
  intros c _. split.
  - refine (ex33_no (λ l, match l with FLose _ => true | _ => false end) _ _ _); [vm_compute; reflexivity|reflexivity].
  - refine (ex33_no (λ l, match l with FRefuse _ => true | _ => false end) _ _ _); [vm_compute; reflexivity|reflexivity].
Qed.
Lemma ex33_up : ¬ some_crash ex33_fin.
Proof. apply up_b_ok. vm_compute. reflexivity. Qed.
Lemma ex33_void : none_void 8 ex33_fin.
Proof.
  assert (forallb (λ c, negb (N.eqb (rq_round (fc_rq c)) 8)) (fl_void ex33_fin) = true) as H by (vm_compute; reflexivity).
  intros c Hc Hr. pose proof (all_forallb _ _ H c Hc) as H'. cbn beta in H'. by rewrite Hr in H'.
Qed.
Lemma ex33_rest7 : resting (λ h id sts, ex33_undone h id sts = true) 7 ex33_fin.
Proof. apply resting_b_ok. vm_compute. reflexivity. Qed.
Lemma ex33_rest8 : resting (λ h id sts, true = true) 8 ex33_fin.
Proof. apply (resting_b_ok (λ _ _ _, true)). vm_compute. reflexivity. Qed.

(** Round 8 of this run meets the hypotheses of C88_exact, C88_completes and C88_can_finish, and the whole
    run those of C88_no_crash: GetMessages of round 8 answers. *)
Example C88_example :
  CreateCascadeTopology ["a"; "b"] (Z.of_nat 3) = Some ex33_topo ∧ round_workload 3 ex33_topo ex33_req = Some (Ok ex33_w) ∧
  ex33_frun (fleet_start ["a"; "b"]) ex33_tr ex33_fin ∧
  round_ok ex33_topo ex33_peel ["a"; "b"] 8 ex33_req ex33_w ex33_tr ex33_fin ∧
  round_settled ex33_topo ex33_peel (λ _, 2) (λ _, 1) 8 ex33_fin ∧
  (∀ i, i < 2 → sent_into ex33_topo i (round_view 8 ex33_tr) ≠ [] ∧
    Z.of_nat (length (sent_into ex33_topo i (round_view 8 ex33_tr))) = announced ex33_topo ex33_w i) ∧
  rounds_honest ex33_topo ex33_peel ex33_tr ∧ sizes_sane ex33_tr ∧
  ∃ x id f1 f2, deref ex33_topo (2, 0) = Some x ∧
    fstep ex33_topo ex33_peel (λ _, 2) (λ _, 1) ex33_fin (FServer (mx_host x) (SGet 8 (mx_name x) (Ok id))) f1 ∧
    fstep ex33_topo ex33_peel (λ _, 2) (λ _, 1) f1 (FServer (mx_host x) (SGot id (mx_name x) [Some msg3])) f2.
Proof.
  assert (round_ok ex33_topo ex33_peel ["a"; "b"] 8 ex33_req ex33_w ex33_tr ex33_fin) as Hok.
  { split.
    - intros h Hh. apply ex33_openings; [by right|done].
    - apply ex33_honest. by right.
    - apply ex33_within. by right.
    - apply ex33_not_ended.
    - apply ex33_not_lost.
    - apply ex33_void.
    - apply ex33_up. }
  assert (round_settled ex33_topo ex33_peel (λ _, 2) (λ _, 1) 8 ex33_fin) as Hset by (eapply resting_settled, ex33_rest8).
  split; [exact ex33_topo_ok|]. split; [exact ex33_w_ok|]. split; [exact ex33_run|]. split; [exact Hok|]. split; [exact Hset|].
  split; [intros i Hi; destruct (ex33_all 8 i) as [H1 H2]; [by right|done|]; by split|]. split.
  { intros h r req id Hin.
    assert (r = 7%N ∨ r = 8%N) as Hr.
    { destruct (decide (r = 7%N)) as [|H7]; [by left|]. destruct (decide (r = 8%N)) as [|H8]; [by right|]. exfalso.
      refine (ex33_no (λ l, match l with FServer _ (SNew r _ _) => negb (N.eqb r 7) && negb (N.eqb r 8) | _ => false end) _ _ _ Hin); [vm_compute; reflexivity|].
      apply andb_true_iff. split; apply negb_true_iff; by apply N.eqb_neq. }
    assert (req = ex33_req) as ->.
    { assert (forallb (λ l, match l with FServer _ (SNew _ q _) => bool_decide (q = ex33_req) | _ => true end) ex33_tr = true) as H by (vm_compute; reflexivity).
      
      pose proof (all_forallb _ _ H _ Hin) as H'. cbn beta iota in H'. by apply bool_decide_eq_true in H'. }
    split; [|split; [apply ex33_not_ended|split; [by apply ex33_honest|]]].
    - intros h'. eapply (opened_everywhere ex33_topo ex33_peel (λ _, 2) (λ _, 1) ["a"; "b"]); [apply ex33_run|]. intros h0 Hh0. by apply ex33_openings.
    - intros fuel w Hw. assert (w = ex33_w) as ->; [|by apply ex33_within].
      exact (workload_det _ _ _ _ _ _ Hw ex33_w_ok). }
  split.
  { intros h r req Hin. exfalso.
    refine (ex33_no (λ l, match l with FServer _ (SCrash _ _) => true | _ => false end) _ _ _ Hin); [vm_compute; reflexivity|reflexivity]. }
  destruct (ex33_all 8 0) as [Hn Hne]; [by right|lia|].
  destruct (deref ex33_topo (2, 0)) as [x|] eqn:Ex.
  2:{ exfalso. assert (someb (deref ex33_topo (2, 0)) = true) as H by (vm_compute; reflexivity). by rewrite Ex in H. }
  destruct (C88_completes ex33_topo ex33_peel (λ _, 2) (λ _, 1) ["a"; "b"] 3 ex33_w 3 ex33_req 8 ex33_tr ex33_fin 0 2 x ex33_topo_ok)
    as (id & v & f1 & f2 & H1 & H2 & outs & H3 & H4); [lia|lia|apply ex33_w_ok|intros; lia|apply ex33_run|done..|].
  exists x, id, f1, f2. split; [done|]. split; [exact H1|].
  assert (v = [Some msg3]) as <-; [|exact H2].
  refine (single_out _ _ _ (ex33_onion 0 msg3) _ _ _ _ H3 _ _ H4).
  - unfold sent_into. rewrite ex33_calls by (by right). vm_compute. reflexivity.
  - vm_compute. reflexivity.
Qed.
Print Assumptions C88_example.


(** ** One of two honest rounds stops for good *)

Lemma got_shuffled t peel workers taskCap servers P r tr f tr' f' h name id v :
  frun t peel workers taskCap (fleet_start servers) tr f → resting P r f → frun t peel workers taskCap f tr' f' →
  (∀ h rq, FClient h rq ∈ tr' → rq_round rq ≠ r) → (∀ h req res, FServer h (SNew r req res) ∉ tr') →
  FServer h (SGet r name (Ok id)) ∈ tr ++ tr' → FServer h (SGot id name v) ∈ tr' →
  ∃ sts st, P h id sts ∧ sts !! name = Some st ∧ st_shuffled st = true.
Proof.
  intros Hr HP Hr' Hcl Hnew Hget Hgot.
  assert (frun t peel workers taskCap (fleet_start servers) (tr ++ tr') f') as Hall by (by eapply frun_app).
  destruct (sget_obj _ _ _ _ _ _ _ _ _ _ _ Hall Hget) as (sv' & ob' & Hsv' & Ho' & Hro').
  apply elem_of_list_split in Hgot as (t1 & t2 & ->). rewrite cons_middle, app_assoc in Hr'.
  destruct (frun_app_inv _ _ _ _ _ _ _ _ Hr') as (f1 & Hr1 & Hr2).
  remember (t1 ++ [FServer h (SGot id name v)]) as t1' eqn:E. destruct Hr1 as [|t0 l f0 f1 Hr0 Hst]; [by destruct t1|].
  apply app_inj_tail in E as [-> ->].
  assert (resting P r f0) as HP0.
  { refine (resting_run _ _ _ _ _ _ _ _ _ _ _ Hr HP Hr0 _ _).
    - intros h0 rq0 Hin. eapply Hcl. apply elem_of_app. left. exact Hin.
    - intros h0 rq0 res0 Hin. eapply Hnew. apply elem_of_app. left. exact Hin. }
  inversion Hst as [|f2 h1 l1 sv1 sv2 Hsv1 Hl Hs E1 E2 E3| | | | | | | | |]; subst f2 h1 l1. unfold hsstep in Hs. inversion Hs; subst.
  match goal with Ha : sv_objs sv1 !! id = Some ?y, Hb : can_return (ro_state ?y) _ _ |- _ => rename Ha into Ho1; rename Hb into Hcan; rename y into ob1 end.
  assert (has_obj f0 h id (ro_round ob1)) as Hh by (by exists sv1, ob1).
  pose proof (has_obj_step _ _ _ _ _ _ _ _ _ _ Hst Hh) as Hh1.
  assert (has_obj f' h id (ro_round ob1)) as (sv3 & ob3 & F1 & F2 & F3).
  { clear -Hr2 Hh1. induction Hr2 as [|tr l f f' Hr2 IH Hst]; [done|]. eapply has_obj_step; [exact Hst|]. by apply IH. }
  rewrite Hsv' in F1. injection F1 as <-. rewrite Ho' in F2. injection F2 as <-.
  destruct (re_objs _ _ _ HP0 _ _ _ _ Hsv1 Ho1 (eq_sym F3)) as [_ HP1]. destruct Hcan as (st & G1 & _ & G2 & _).
  by exists (mm_states (ro_state ob1)), st.
Qed.

(** The servers have dialed each other, both rounds are opened by every server with the same workloads, all
    clients follow the protocol and send everything that was announced; nothing is lost, nothing times
    out, no round is ended and no server crashes.  Yet round 7 has stopped: the servers have nothing left to
    do for it, and whatever happens later (short of opening round 7 anew and sending its messages again),
    GetMessages of round 7 never answers for the last mix of a chain.  The cause: the uuid under which a
    DirectCall waits for its answer does not contain the round (sender.go:83, rrpc/client.go:236). *)
Theorem C88_stall : ∃ t peel workers taskCap servers req w tr f,
  CreateCascadeTopology servers 3 = Some t ∧ round_workload 3 t req = Some (Ok w) ∧
  (∀ h, 0 < workers h ∧ 0 < taskCap h) ∧
  frun t peel workers taskCap (fleet_start servers) tr f ∧
  (∀ r, r = 7%N ∨ r = 8%N →
    (∀ h, h ∈ servers → openings r h tr = [req]) ∧
    honest_clients t (λ h, peel h r) (round_view r tr) ∧
    not_ended r tr ∧ nothing_lost r tr ∧
    (∀ i m, deref t (0, i) = Some m → sent_into t i (round_view r tr) ≠ [] ∧
      Z.of_nat (length (sent_into t i (round_view r tr))) = announced t w i)) ∧
  (∀ c, FTimeout c ∉ tr) ∧ ¬ some_crash f ∧
  round_settled t peel workers taskCap 7 f ∧
  ∃ x, deref t (2, 0) = Some x ∧
  ∀ tr' f', frun t peel workers taskCap f tr' f' →
    (∀ h rq, FClient h rq ∈ tr' → rq_round rq ≠ 7%N) → (∀ h req res, FServer h (SNew 7 req res) ∉ tr') →
    ∀ id v, FServer (mx_host x) (SGet 7 (mx_name x) (Ok id)) ∈ tr ++ tr' →
      FServer (mx_host x) (SGot id (mx_name x) v) ∉ tr ++ tr'.
Proof.
  exists ex33_topo, ex33_peel, (λ _, 2), (λ _, 1), ["a"; "b"], ex33_req, ex33_w, ex33_tr, ex33_fin.
  split; [exact ex33_topo_ok|]. split; [exact ex33_w_ok|]. split; [intros; lia|]. split; [exact ex33_run|]. split.
  { intros r Hr. split; [intros h Hh; by apply ex33_openings|]. split; [by apply ex33_honest|]. split; [apply ex33_not_ended|].
    split; [apply ex33_not_lost|]. intros i m Hm. destruct (deref_bound ex33_topo ["a"; "b"] 3 ex33_topo_ok _ _ _ Hm) as [_ Hi].
    destruct (ex33_all r i Hr Hi). by split. }
  split.
  { intros c. refine (ex33_no (λ l, match l with FTimeout _ => true | _ => false end) _ _ _); [vm_compute; reflexivity|reflexivity]. }
  split; [exact ex33_up|]. split; [eapply resting_settled, ex33_rest7|].
  assert (∃ x, deref ex33_topo (2, 0) = Some x ∧ mx_name x ∈ ["m(2,0)"; "m(2,1)"]) as (x & Hx & Hn).
  { assert (match deref ex33_topo (2, 0) with Some x => bool_decide (mx_name x ∈ ["m(2,0)"; "m(2,1)"]) | None => false end = true) as H by (vm_compute; reflexivity).
    revert H. generalize (deref ex33_topo (2, 0)) as o. intros [x|]; [|done]. intros H%bool_decide_eq_true. by exists x. }
  exists x. split; [exact Hx|]. clear Hx. intros tr' f' Hr' Hcl Hnew id v Hget Hgot. apply elem_of_app in Hgot as [Hgot|Hgot].
  - revert Hgot. refine (ex33_no (λ l, match l with FServer _ (SGot _ _ _) => true | _ => false end) _ _ _); [vm_compute; reflexivity|reflexivity].
  - destruct (got_shuffled _ _ _ _ _ _ _ _ _ _ _ _ _ _ _ ex33_run ex33_rest7 Hr' Hcl Hnew Hget Hgot) as (sts & st & H1 & H2 & H3).
    pose proof (all_forallb _ _ H1 _ Hn) as H4. cbn beta in H4. rewrite H2, H3 in H4. done.
Qed.
Print Assumptions C88_stall.
