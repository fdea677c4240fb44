(** C116: a generated deployment that works on several rounds at the same time: the key set-up, the onions, the
    mixing and the tables of rounds together. *)
From stdpp Require Import gmap.
From Verif.Base Require Import Base.
From Verif.Model Require Import Topology Shuffle Onion Mixer Rounds Messages System Fleet.
From Verif.Model Require Tibe TibeCodec KeyConfig Deployment.
From Verif.Spec Require Import MixerSpec MessagesSpec RoundsSpec SystemSpec DeploymentSpec FleetSpec.
From Verif.Proofs Require Import TopologyProofs MixerExec SystemProofs FleetProofs FleetExec.
From Verif.Proofs Require FpSetting.
From Verif.Properties Require Import P08_Messages P27_System P28_Deployment P33_Fleet.

Section C116.
Context {St : Tibe.setting} (cd : TibeCodec.element_codecs (ssralg.GRing.Field.sort (Tibe.sF St)) (ssralg.GRing.Lmodule.sort (Tibe.sG1 St))).

(** What a worker of server h does with an onion of round r: NewRound made the decrypter of the round's identity
    (server.go:141-144). *)
Definition deployed_peel (sha3 : string → bytes) (nodes : string → Tibe.node St) (h : string) (r : N) (o : onion) : option (option onion) :=
  server_peel cd sha3 nodes (Z.of_N r) h o.

(** The clients of round r follow the protocol: onions generated for this round, to the first mix of their chain. *)
Definition round_clients sha3 t mpks (r : N) (tr : list flabel) : Prop :=
  protocol_clients cd sha3 t mpks (Z.of_N r) (round_view r tr).

(** Nothing has gone wrong with round r so far. *)
Definition round_in_order sha3 t mpks (servers : list string) (r : N) (req : gmap string N) (w : gmap string Z) (tr : list flabel) (f : fleet) : Prop :=
  (∀ h, h ∈ servers → openings r h tr = [req]) ∧ round_clients sha3 t mpks r tr ∧ within_announced t w (round_view r tr) ∧
  not_ended r tr ∧ nothing_lost r tr ∧ none_void r f ∧ ¬ some_crash f.

(** All opened rounds are opened once, not ended, and their clients follow the protocol. *)
Definition rounds_in_order sha3 t mpks (tr : list flabel) : Prop :=
  ∀ h r req id, FServer h (SNew r req (Ok id)) ∈ tr →
    opened_once r req tr ∧ not_ended r tr ∧ round_clients sha3 t mpks r tr ∧
    ∀ fuel w, round_workload fuel t req = Some (Ok w) → within_announced t w (round_view r tr).

Hypotheses (laws : Tibe.pairing_laws St) (claws : TibeCodec.element_laws cd)
  (mac_len : ∀ data key, length (Tibe.hmac St data key) = 32).
Context addrs d L dkg polys t nodes mpks (Hg : generated_system cd addrs d L dkg polys t nodes mpks)
  (HL : 0 < L) (HL31 : (Z.of_nat L ≤ 2 ^ 31)%Z).
Context (sha3 : string → bytes) (workers taskCap : string → nat).
Local Notation peel := (deployed_peel sha3 nodes).

Lemma honest_round r tr : round_clients sha3 t mpks r tr → honest_clients t (λ h, peel h r) (round_view r tr).
Proof using Hg HL31 laws claws mac_len. intros Hp. exact (honest_of_protocol cd laws claws mac_len _ _ _ _ _ _ _ _ _ _ _ Hg HL31 Hp). Qed.

Lemma cascade_of_system : CreateCascadeTopology addrs (Z.of_nat L) = Some t.
Proof using Hg. apply Hg. Qed.

(** A generated onion is opened by the servers of its chain, in its round, down to its message. *)
Lemma generated_opens r i o msg : i < length addrs → generated_onion cd sha3 t mpks (Z.of_N r) i o msg →
  delivers t (opens (λ h, peel h r)) (take (S (L - 1)) (chain_mixes t i)) o msg.
Proof using Hg HL HL31 laws claws mac_len.
  intros Hi (rnd & Hw). destruct (gs_facts cd laws claws mac_len _ _ _ _ _ _ _ _ Hg) as [Hs _].
  pose proof (tp_len t addrs L cascade_of_system) as HtL.
  assert (Z.of_nat (length addrs) < 2 ^ 32)%Z as Hn by apply Hg.
  assert (∀ n, (Z.of_nat n < 2 ^ 32)%Z → (N.of_nat n < 2 ^ 32)%N) as HN.
  { intros n Hn'. assert (Z.of_N (N.of_nat n) < Z.of_N (2 ^ 32))%Z; [|lia]. change (Z.of_N (2 ^ 32)) with (2 ^ 32)%Z. lia. }
  assert (2 ^ 31 < 2 ^ 32)%Z by done.
  destruct (C18_onion_peels sha3 (Deployment.EncryptBytes cd) t mpks
    (λ h id c, mjoin (Deployment.DecryptBytes cd (nodes h) id c))) with (round := Z.of_N r) (chain := i) (rnd := rnd) (msg := msg) (o := o)
    as [Hcl Hd].
  - intros h' p id m' x c Hp' Hc. by rewrite (Hs _ _ Hp' _ _ _ _ Hc).
  - apply N.lt_le_incl, HN. lia.
  - apply HN. lia.
  - exact Hw.
  - rewrite take_ge by lia. clear -Hd. revert o Hd. induction (chain_mixes t i) as [|x ms IH]; intros o; simpl; [done|].
    intros (E1 & o' & E2 & E3). split; [done|]. exists o'. split; [|by apply IH].
    unfold opens, deployed_peel, server_peel. destruct (cipher_part o); [exact E2|done].
Qed.

Lemma outs_are_msgs r i os outs msgs : i < length addrs →
  Forall2 (delivers t (opens (λ h, peel h r)) (take (S (L - 1)) (chain_mixes t i))) os outs →
  Forall2 (generated_onion cd sha3 t mpks (Z.of_N r) i) os msgs → outs = msgs.
Proof using Hg HL HL31 laws claws mac_len.
  intros Hi H1. revert msgs. induction H1 as [|o x os outs Hx _ IH]; intros msgs H2; inversion H2; subst; [done|].
  f_equal; [|by apply IH]. eapply delivers_fun; [exact Hx|]. by apply generated_opens.
Qed.

(** Round r is opened at most once by every server and its clients follow the protocol; nothing at all is assumed of
    the other rounds, and calls may be lost and servers crash.  If GetMessages of round r answers for the last mix of
    chain i, then with exactly the messages whose onions were sent into the chain in round r. *)
Theorem C116_exact w fuel req r tr f f' i x id v msgs :
  round_workload fuel t req = Some (Ok w) →
  frun t peel workers taskCap (fleet_start addrs) tr f →
  opened_once r req tr → round_clients sha3 t mpks r tr → within_announced t w (round_view r tr) →
  deref t (L - 1, i) = Some x →
  FServer (mx_host x) (SGet r (mx_name x) (Ok id)) ∈ tr →
  fstep t peel workers taskCap f (FServer (mx_host x) (SGot id (mx_name x) v)) f' →
  Forall2 (generated_onion cd sha3 t mpks (Z.of_N r) i) (sent_into t i (round_view r tr)) msgs →
  v ≡ₚ Some <$> msgs.
Proof using Hg HL HL31 laws claws mac_len.
  intros Hw Hr Ho Hp Hwi Hx Hget Hst HF.
  destruct (C88_exact t peel workers taskCap addrs L w fuel req r tr f f' (L - 1) i x id v cascade_of_system HL HL31 Hw Hr Ho (honest_round _ _ Hp) Hwi Hx Hget Hst)
    as (outs & HF' & Hv).
  destruct (deref_bound t addrs L cascade_of_system _ _ _ Hx) as [_ Hi].
  by rewrite <-(outs_are_msgs r i _ _ _ Hi HF' HF).
Qed.

(** No server crashes if the clients of all rounds follow the protocol. *)
Theorem C116_no_crash tr f :
  frun t peel workers taskCap (fleet_start addrs) tr f →
  rounds_in_order sha3 t mpks tr → sizes_sane tr → ¬ some_crash f.
Proof using Hg HL HL31 laws claws mac_len.
  intros Hr Hh Hs. eapply (C88_no_crash t peel workers taskCap addrs L tr f cascade_of_system HL HL31 Hr); [|done].
  intros h r req id Hin. destruct (Hh _ _ _ _ Hin) as (H1 & H2 & H3 & H4). split; [done|]. split; [done|].
  split; [by apply honest_round|done].
Qed.

Lemma in_order_ok r req w tr f : round_in_order sha3 t mpks addrs r req w tr f → round_ok t peel addrs r req w tr f.
Proof using Hg HL31 laws claws mac_len. intros (H1 & H2 & H3 & H4 & H5 & H6 & H7). constructor; try done. by apply honest_round. Qed.

(** A round with which nothing went wrong: once the servers have nothing left to do for it, GetMessages gives for every
    chain into which everything announced was sent exactly the messages, whatever state the other rounds are in; ... *)
Theorem C116_completes w fuel req r tr f i x msgs :
  round_workload fuel t req = Some (Ok w) →
  (∀ h, h ∈ addrs → 0 < workers h ∧ 0 < taskCap h) →
  frun t peel workers taskCap (fleet_start addrs) tr f → round_in_order sha3 t mpks addrs r req w tr f →
  round_settled t peel workers taskCap r f →
  Forall2 (generated_onion cd sha3 t mpks (Z.of_N r) i) (sent_into t i (round_view r tr)) msgs →
  msgs ≠ [] → Z.of_nat (length msgs) = announced t w i →
  deref t (L - 1, i) = Some x →
  ∃ id v f1 f2, fstep t peel workers taskCap f (FServer (mx_host x) (SGet r (mx_name x) (Ok id))) f1 ∧
    fstep t peel workers taskCap f1 (FServer (mx_host x) (SGot id (mx_name x) v)) f2 ∧ v ≡ₚ Some <$> msgs.
Proof using Hg HL HL31 laws claws mac_len.
  intros Hw Hcap Hr Hk Hset HF Hne Hlen Hx. pose proof (Forall2_length _ _ _ HF) as Hl.
  destruct (C88_completes t peel workers taskCap addrs L w fuel req r tr f i (L - 1) x cascade_of_system HL HL31 Hw Hcap Hr (in_order_ok _ _ _ _ _ Hk) Hset)
    as (id & v & f1 & f2 & H1 & H2 & outs & HF' & Hv); [intros E; rewrite E in Hl; by destruct msgs|lia|done|].
  destruct (deref_bound t addrs L cascade_of_system _ _ _ Hx) as [_ Hi].
  exists id, v, f1, f2. split; [done|]. split; [done|]. by rewrite <-(outs_are_msgs r i _ _ _ Hi HF' HF).
Qed.

(** ... and it gets there by its own steps alone. *)
Theorem C116_can_finish w fuel req r tr f :
  round_workload fuel t req = Some (Ok w) →
  (∀ h, h ∈ addrs → 0 < workers h ∧ 0 < taskCap h) →
  frun t peel workers taskCap (fleet_start addrs) tr f → round_in_order sha3 t mpks addrs r req w tr f →
  ∃ f2, rtc (own_round_step t peel workers taskCap r) f f2 ∧ round_settled t peel workers taskCap r f2 ∧
    ∀ i x msgs, Forall2 (generated_onion cd sha3 t mpks (Z.of_N r) i) (sent_into t i (round_view r tr)) msgs →
      msgs ≠ [] → Z.of_nat (length msgs) = announced t w i → deref t (L - 1, i) = Some x →
      ∃ id v f3 f4, fstep t peel workers taskCap f2 (FServer (mx_host x) (SGet r (mx_name x) (Ok id))) f3 ∧
        fstep t peel workers taskCap f3 (FServer (mx_host x) (SGot id (mx_name x) v)) f4 ∧ v ≡ₚ Some <$> msgs.
Proof using Hg HL HL31 laws claws mac_len.
  intros Hw Hcap Hr Hk.
  destruct (C88_can_finish t peel workers taskCap addrs L w fuel req r tr f cascade_of_system HL HL31 Hw Hcap Hr (in_order_ok _ _ _ _ _ Hk))
    as (f2 & H1 & H2 & H3).
  exists f2. split; [done|]. split; [done|]. intros i x msgs HF Hne Hlen Hx. pose proof (Forall2_length _ _ _ HF) as Hl.
  destruct (H3 i (L - 1) x) as (id & v & f3 & f4 & E1 & E2 & outs & HF' & Hv); [intros E; rewrite E in Hl; by destruct msgs|lia|done|].
  destruct (deref_bound t addrs L cascade_of_system _ _ _ Hx) as [_ Hi].
  exists id, v, f3, f4. split; [done|]. split; [done|]. by rewrite <-(outs_are_msgs r i _ _ _ Hi HF' HF).
Qed.
End C116.

(** ** Example: two servers, three layers, rounds 7 and 8 at the same time *)
Section example.
Context (peel : string → N → onion → option (option onion)) (oa7 ob7 oa8 ob8 : onion).
Definition ex59_phases : list (nat * list xchoice) :=
  [(1, [XNew "a" 7 ex33_req]); (1, [XNew "b" 7 ex33_req]); (1, [XNew "a" 8 ex33_req]); (1, [XNew "b" 8 ex33_req]);
   (1, [XClient "a" (ex33_batch 7 "m(0,0)" [oa7])]); (1, [XClient "b" (ex33_batch 8 "m(0,1)" [ob8])]);
   (1, [XClient "a" (ex33_batch 8 "m(0,0)" [oa8])]); (1, [XClient "b" (ex33_batch 7 "m(0,1)" [ob7])])].
Definition ex59_out := fphases 3 ex33_topo peel (λ _, 2) (λ _, 1) ex59_phases (fleet_start ["a"; "b"]).
Lemma ex59_run : frun ex33_topo peel (λ _, 2) (λ _, 1) (fleet_start ["a"; "b"]) ex59_out.1 ex59_out.2.
Proof using Type. unfold ex59_out. apply fphases_sound. Qed.
Lemma ex59_tr : ex59_out.1 =
  [FServer "a" (SNew 7 ex33_req (Ok 0)); FServer "b" (SNew 7 ex33_req (Ok 0)); FServer "a" (SNew 8 ex33_req (Ok 1)); FServer "b" (SNew 8 ex33_req (Ok 1));
   FClient "a" (ex33_batch 7 "m(0,0)" [oa7]); FClient "b" (ex33_batch 8 "m(0,1)" [ob8]);
   FClient "a" (ex33_batch 8 "m(0,0)" [oa8]); FClient "b" (ex33_batch 7 "m(0,1)" [ob7])].
Proof using Type. vm_compute. reflexivity. Qed.
Lemma ex59_up : ¬ some_crash ex59_out.2.
Proof using Type. apply up_b_ok. vm_compute. reflexivity. Qed.
Lemma ex59_void : fl_void ex59_out.2 = [].
Proof using Type. vm_compute. reflexivity. Qed.
(** Round 7's onion into chain i, and round 8's. *)
Definition ex59_onion (r : N) (i : nat) : onion :=
  if decide (r = 7%N) then if decide (i = 0) then oa7 else ob7 else if decide (i = 0) then oa8 else ob8.
Lemma ex59_calls r : r = 7%N ∨ r = 8%N → client_calls (round_view r ex59_out.1) ≡ₚ
  [("a", ex33_batch r "m(0,0)" [ex59_onion r 0]); ("b", ex33_batch r "m(0,1)" [ex59_onion r 1])].
Proof using Type. intros [->| ->]; rewrite ex59_tr; [reflexivity|apply perm_swap]. Qed.
Lemma ex59_sent r i : r = 7%N ∨ r = 8%N → i < 2 → sent_into ex33_topo i (round_view r ex59_out.1) = [ex59_onion r i].
Proof using Type. intros [->| ->] Hi; rewrite ex59_tr; destruct i as [|[|i]]; try lia; vm_compute; reflexivity. Qed.
Lemma ex59_openings r h : r = 7%N ∨ r = 8%N → h ∈ ["a"; "b"] → openings r h ex59_out.1 = [ex33_req].
Proof using Type.
  intros Hr Hh. rewrite ex59_tr. apply elem_of_cons in Hh as [->|Hh]; [|apply elem_of_list_singleton in Hh as ->];
  destruct Hr as [->| ->]; reflexivity.
Qed.
End example.

Lemma ex59_announced i : i < 2 → announced ex33_topo ex33_w i = 1%Z.
Proof. intros Hi. destruct i as [|[|i]]; try lia; vm_compute; reflexivity. Qed.
Lemma ex59_deref i : i < 2 → ∃ first, deref ex33_topo (0, i) = Some first ∧ mx_name first = (if decide (i = 0) then "m(0,0)" else "m(0,1)") ∧
  mx_host first = (if decide (i = 0) then "a" else "b").
Proof.
  intros Hi. destruct i as [|[|i]]; try lia.
  - assert (option_map mx_name (deref ex33_topo (0, 0)) = Some "m(0,0)" ∧ option_map mx_host (deref ex33_topo (0, 0)) = Some "a") as [H1 H2] by (split; vm_compute; reflexivity).
    destruct (deref ex33_topo (0, 0)) as [m|]; [|done]. exists m. injection H1 as ->. injection H2 as ->. done.
  - assert (option_map mx_name (deref ex33_topo (0, 1)) = Some "m(0,1)" ∧ option_map mx_host (deref ex33_topo (0, 1)) = Some "b") as [H1 H2] by (split; vm_compute; reflexivity).
    destruct (deref ex33_topo (0, 1)) as [m|]; [|done]. exists m. injection H1 as ->. injection H2 as ->. done.
Qed.

(** Over the scalar field of BLS12-381: two servers, three layers; four messages, two of each round, are sent while both
    rounds are open; from there each of the two rounds finishes by its own steps and delivers its own two messages. *)
Example C116_example : ∃ (St : Tibe.setting) (cd : TibeCodec.element_codecs (ssralg.GRing.Field.sort (Tibe.sF St)) (ssralg.GRing.Lmodule.sort (Tibe.sG1 St))),
  Tibe.pairing_laws St ∧ TibeCodec.element_laws cd ∧ (∀ data key, length (Tibe.hmac St data key) = 32) ∧
  ∃ dkg polys t nodes mpks, generated_system cd ["a"; "b"] 1 3 dkg polys t nodes mpks ∧
  ∀ sha3 (msg : N → nat → bytes), ∃ tr f req w, round_workload 3 t req = Some (Ok w) ∧
  frun t (deployed_peel cd sha3 nodes) (λ _, 2) (λ _, 1) (fleet_start ["a"; "b"]) tr f ∧
  ∀ r, r = 7%N ∨ r = 8%N → round_in_order cd sha3 t mpks ["a"; "b"] r req w tr f ∧
    ∃ f2, rtc (own_round_step t (deployed_peel cd sha3 nodes) (λ _, 2) (λ _, 1) r) f f2 ∧
    ∀ i, i < 2 → ∃ x id f3 f4, deref t (2, i) = Some x ∧
      fstep t (deployed_peel cd sha3 nodes) (λ _, 2) (λ _, 1) f2 (FServer (mx_host x) (SGet r (mx_name x) (Ok id))) f3 ∧
      fstep t (deployed_peel cd sha3 nodes) (λ _, 2) (λ _, 1) f3 (FServer (mx_host x) (SGot id (mx_name x) [Some (msg r i)])) f4.
Proof.
  destruct FpSetting.setting32_exists as (St & cd & laws & claws & Hmac). exists St, cd.
  do 3 (split; [done|]).
  set (one := ssralg.GRing.one (ssralg.GRing.Field.ringType (Tibe.sF St)) : ssralg.GRing.Field.sort (Tibe.sF St)).
  set (z := ssralg.GRing.zero (ssralg.GRing.Field.zmodType (Tibe.sF St)) : ssralg.GRing.Field.sort (Tibe.sF St)).
  exists [one; z], [[one; z]; [one; one]].
  destruct (C84_systems_exist cd ["a"; "b"] 1 3 [one; z] [[one; z]; [one; one]]) as (t & nodes & mpks & Hg); try done.
  { by repeat constructor; set_solver. }
  { intros p Hp. apply elem_of_list_In in Hp. by destruct Hp as [<-|[<-|[]]]. }
  exists t, nodes, mpks. split; [done|].
  assert (t = ex33_topo) as ->.
  { assert (CreateCascadeTopology ["a"; "b"] (Z.of_nat 3) = Some t) as Ht by apply Hg. rewrite ex33_topo_ok in Ht. by injection Ht. }
  intros sha3 msg.
  assert (∀ r i, ∃ o, i < 2 → generated_onion cd sha3 ex33_topo mpks (Z.of_N r) i o (msg r i)) as Hmk.
  { intros r i. destruct (decide (i < 2)) as [Hi|Hi]; [|exists []; done].
    destruct (C84_onions_exist cd laws claws Hmac _ _ _ _ _ _ _ _ sha3 (Z.of_N r) i (λ _, (z, replicate 16 Byte.x00)) (msg r i) Hg) as [o Ho];
      [done|exact Hi|done|]. exists o. intros _. by eexists. }
  destruct (Hmk 7%N 0) as [oa7 Ha7], (Hmk 7%N 1) as [ob7 Hb7], (Hmk 8%N 0) as [oa8 Ha8], (Hmk 8%N 1) as [ob8 Hb8].
  assert (∀ r i, r = 7%N ∨ r = 8%N → i < 2 → generated_onion cd sha3 ex33_topo mpks (Z.of_N r) i (ex59_onion oa7 ob7 oa8 ob8 r i) (msg r i)) as Hon.
  { intros r i Hr Hi. destruct Hr as [->| ->], i as [|[|i]]; try lia; cbn; auto. }
  set (out := ex59_out (deployed_peel cd sha3 nodes) oa7 ob7 oa8 ob8).
  exists out.1, out.2, ex33_req, ex33_w. split; [exact ex33_w_ok|].
  assert (frun ex33_topo (deployed_peel cd sha3 nodes) (λ _, 2) (λ _, 1) (fleet_start ["a"; "b"]) out.1 out.2) as Hrun by apply ex59_run.
  split; [exact Hrun|]. intros r Hr.
  assert (round_in_order cd sha3 ex33_topo mpks ["a"; "b"] r ex33_req ex33_w out.1 out.2) as Hord.
  { split_and!.
    - intros h Hh. by apply ex59_openings.
    - intros h rq m Hin Hm. unfold out in Hin. rewrite (ex59_calls _ _ _ _ _ r Hr) in Hin.
      assert (∀ i, i < 2 → (h, rq) = (if decide (i = 0) then "a" else "b", ex33_batch r (if decide (i = 0) then "m(0,0)" else "m(0,1)") [ex59_onion oa7 ob7 oa8 ob8 r i]) →
        msg_phys m = GenesisName ∧ msg_lsender m = GenesisName ∧ msg_onions m ≠ [] ∧
        ∃ i first, deref ex33_topo (0, i) = Some first ∧ mx_name first = msg_recv m ∧ mx_host first = h ∧
          ∀ o, o ∈ msg_onions m → ∃ msg, generated_onion cd sha3 ex33_topo mpks (Z.of_N r) i o msg) as Hone.
      { intros i Hi [= -> ->]. apply elem_of_list_singleton in Hm. subst m. cbn [msg_phys msg_lsender msg_onions msg_recv].
        split; [done|]. split; [done|]. split; [done|]. destruct (ex59_deref i Hi) as (first & H1 & H2 & H3).
        exists i, first. split; [done|]. split; [done|]. split; [done|]. intros o ->%elem_of_list_singleton. exists (msg r i). by apply Hon. }
      apply elem_of_cons in Hin as [E|Hin]; [apply (Hone 0); [lia|exact E]|apply elem_of_list_singleton in Hin].
      apply (Hone 1); [lia|exact Hin].
    - intros i m Hm. destruct (deref_bound ex33_topo ["a"; "b"] 3 ex33_topo_ok _ _ _ Hm) as [_ Hi]. cbn [length] in Hi.
      unfold out. rewrite ex59_sent, ex59_announced by done. done.
    - intros h id. unfold out. rewrite ex59_tr.
      apply (not_existsb (λ l, match l with FServer _ (SEnd _ _) => true | _ => false end)); reflexivity.
    - intros c _. unfold out. rewrite ex59_tr. split.
      + apply (not_existsb (λ l, match l with FLose _ => true | _ => false end)); reflexivity.
      + apply (not_existsb (λ l, match l with FRefuse _ => true | _ => false end)); reflexivity.
    - intros c. unfold out. rewrite ex59_void. by intros ?%elem_of_nil.
    - apply ex59_up. }
  split; [exact Hord|].
  assert (∀ h : string, h ∈ ["a"; "b"] → 0 < (λ _ : string, 2) h ∧ 0 < (λ _ : string, 1) h) as Hcap by (intros h _; split; repeat constructor).
  destruct (C116_can_finish cd laws claws Hmac ["a"; "b"] 1 3 _ _ ex33_topo nodes mpks Hg ltac:(lia) ltac:(done) sha3 (λ _, 2) (λ _, 1)
    ex33_w 3 ex33_req r out.1 out.2 ex33_w_ok Hcap Hrun Hord) as (f2 & H1 & _ & H2).
  exists f2. split; [exact H1|]. intros i Hi.
  destruct (deref_ex ex33_topo ["a"; "b"] 3 ex33_topo_ok 2 i ltac:(lia) Hi) as [x Hx].
  destruct (H2 i x [msg r i]) as (id & v & f3 & f4 & E1 & E2 & Hv).
  - unfold out. rewrite ex59_sent by done. constructor; [by apply Hon|constructor].
  - done.
  - by rewrite ex59_announced.
  - exact Hx.
  - assert (v = [Some (msg r i)]) as -> by (symmetry in Hv; by apply Permutation_singleton_l in Hv).
    by exists x, id, f3, f4.
Qed.
Print Assumptions C116_exact.
Print Assumptions C116_no_crash.
Print Assumptions C116_completes.
Print Assumptions C116_can_finish.
Print Assumptions C116_example.
