(** C16, C17, C22: onion headers, grouping, and the sender's requests. *)
From stdpp Require Import gmap.
From Verif.Base Require Import Base Strs.
From Verif.Model Require Import Topology Onion.
From Verif.Proofs Require Import OnionProofs TopologyProofs.

(** C16. *)
Theorem C16_header_roundtrip (t : topology) (cipher : bytes) (layer pos : N) :
  (layer < 2 ^ 32)%N → (pos < 2 ^ 32)%N →
  ExtractMixConfig t (attach_header cipher layer pos) =
    (row ← tp_layers t !! N.to_nat layer; row !! N.to_nat pos) ∧
  (∀ C (parse : bytes → option C), ExtractCipher parse (attach_header cipher layer pos) = parse cipher).
Proof.
  intros Hl Hp. destruct (onion_header_attach cipher layer pos Hl Hp) as [H1 H2]. split.
  - unfold ExtractMixConfig. by rewrite H1.
  - intros C parse. unfold ExtractCipher. by rewrite H2.
Qed.
Print Assumptions C16_header_roundtrip.

(** Conversely: extraction fails (panics) exactly on short onions and on indices outside the
    topology, and every onion that does not fail is a cipher with such a header. *)
Theorem C16_panics_exactly (t : topology) (o : onion) :
  (length o < 8 → ExtractMixConfig t o = None ∧
     ∀ C (parse : bytes → option C), ExtractCipher parse o = None) ∧
  (8 ≤ length o → ∃ cipher layer pos, o = attach_header cipher layer pos ∧
     (layer < 2 ^ 32)%N ∧ (pos < 2 ^ 32)%N ∧
     (ExtractMixConfig t o = None ↔
        ∀ row, tp_layers t !! N.to_nat layer = Some row → length row ≤ N.to_nat pos)).
Proof.
  split.
  - intros H. destruct (onion_header_short o H) as [H1 H2].
    unfold ExtractMixConfig, ExtractCipher. by rewrite H1, H2.
  - intros H. destruct (onion_header o) as [[l p]|] eqn:E.
    2:{ unfold onion_header in E. rewrite decide_False in E by lia. done. }
    destruct (onion_header_inv o l p E) as (b & -> & _ & Hl & Hp).
    exists b, l, p. split; [done|]. split; [done|]. split; [done|].
    unfold ExtractMixConfig. rewrite E. simpl.
    destruct (tp_layers t !! N.to_nat l) as [row|]; simpl.
    + rewrite lookup_ge_None. split; [by intros ? ? [= <-]|]. auto.
    + done.
Qed.
Print Assumptions C16_panics_exactly.

Example C16_example : ∃ t, CreateCascadeTopology ["a"; "b"] 2 = Some t ∧
  (mx_name <$> ExtractMixConfig t (attach_header [Byte.x61; Byte.x62] 1 0)) = Some "m(1,1)" ∧
  ExtractMixConfig t (attach_header [] 2 0) = None.
Proof. eexists. vm_compute. done. Qed.

(** C17, for both grouping functions ([key] is the mix's name or its host). *)
Theorem C17_grouping_partitions (key : LogicalMix → string) (t : topology) (onions : list onion) :
  key = mx_name ∨ key = mx_host →
  let group := λ os, group_by key os t in
  (* succeeds exactly when layer 0 exists (non-empty unless there is nothing to group) and every
     onion names a mix *)
  (is_Some (group onions) ↔
     (∃ l0, tp_layers t !! 0 = Some l0 ∧ (l0 = [] → onions = [])) ∧
     Forall (λ o, is_Some (ExtractMixConfig t o)) onions) ∧
  (∀ g, group onions = Some g →
     (* every group is, in order, exactly the onions that name its key; no group is empty *)
     (∀ k grp, g !! k = Some grp →
        grp = filter (λ o, key <$> ExtractMixConfig t o = Some k) onions ∧ grp ≠ []) ∧
     (* an onion's key has a group *)
     (∀ o mix, o ∈ onions → ExtractMixConfig t o = Some mix → is_Some (g !! key mix)) ∧
     (* nothing lost or duplicated, whatever the iteration order over the groups *)
     (∀ order, order ≡ₚ map_to_list g → concat order.*2 ≡ₚ onions)).
Proof.
  intros _ group. split; [apply group_by_success|]. intros g Hg.
  pose proof (group_by_spec _ _ _ _ Hg) as [_ Hsp]. split; [|split].
  - intros k grp. apply (Hsp k).
  - intros o mix Ho Hm. destruct (g !! key mix) eqn:G; [by eexists|].
    apply (Hsp (key mix)) in G.
    assert (o ∈ filter (λ o, key_of key t o = Some (key mix)) onions) as Hf.
    { apply elem_of_list_filter. split; [|done]. unfold key_of. by rewrite Hm. }
    rewrite G in Hf. by apply elem_of_nil in Hf.
  - intros order Ho. by eapply group_by_concat.
Qed.
Print Assumptions C17_grouping_partitions.

Example C17_example : ∃ t g, CreateCascadeTopology ["a"; "b"] 2 = Some t ∧
  GroupOnionsByMixName [attach_header [Byte.x01] 1 0; attach_header [Byte.x02] 0 0; attach_header [Byte.x03] 1 0] t = Some g ∧
  g !! "m(1,1)" = Some [attach_header [Byte.x01] 1 0; attach_header [Byte.x03] 1 0] ∧
  g !! "m(0,1)" = None.
Proof. eexists _, _. split; [by vm_compute|]. split; [by vm_compute|]. by vm_compute. Qed.

(** C22: the calls made for one mix output. *)
Theorem C22_requests_carry_output round t address (out : list onion) lsender calls :
  sender_iteration round t address out lsender (Some calls) →
  NoDup calls.*1 ∧
  concat ((λ rq, concat (msg_onions <$> rq_msgs rq)) <$> calls.*2) ≡ₚ out ∧
  (∀ h rq, (h, rq) ∈ calls →
     rq_round rq = Z.to_N (round mod 2 ^ 32) ∧
     NoDup (msg_recv <$> rq_msgs rq) ∧ rq_msgs rq ≠ [] ∧
     ∀ m, m ∈ rq_msgs rq → msg_phys m = address ∧ msg_lsender m = lsender ∧ msg_onions m ≠ [] ∧
       ∀ o, o ∈ msg_onions m →
         ∃ mix, ExtractMixConfig t o = Some mix ∧ mx_name mix = msg_recv m ∧ mx_host mix = h).
Proof.
  intros H. apply sender_iteration_spec in H as (H1 & H2 & H3). split; [done|]. split; [done|].
  intros h rq Hin. destruct (H3 h rq Hin) as (? & _ & ? & ? & ?). done.
Qed.
Print Assumptions C22_requests_carry_output.

(** The sender goroutine crashes exactly when some onion (e.g. the nil left by a failed decryption)
    does not name a mix of the topology. *)
Theorem C22_sender_crashes_iff round t address (out : list onion) lsender calls :
  sender_iteration round t address out lsender calls →
  (∃ m ms, tp_layers t !! 0 = Some (m :: ms)) →
  (calls = None ↔ ∃ o, o ∈ out ∧ ExtractMixConfig t o = None).
Proof.
  intros H (m & ms & H0). rewrite (sender_iteration_panics_iff _ _ _ _ _ _ H). split.
  - intros Hn. destruct (decide (Forall (λ o, is_Some (ExtractMixConfig t o)) out)) as [HF|HF].
    + destruct Hn. split; [|done]. eexists. split; [done|]. done.
    + apply not_Forall_Exists in HF; [|intros x; apply _].
      apply Exists_exists in HF as (o & Ho & Hno). exists o. split; [done|].
      by apply eq_None_not_Some.
  - intros (o & Ho & Hno) [_ HF]. rewrite Forall_forall in HF. destruct (HF o Ho). congruence.
Qed.
Print Assumptions C22_sender_crashes_iff.

(** Request ids: for logical senders without a colon (mix names have none) they differ for
    different (host, logical sender) ... *)
Theorem C22_uuid_distinct address l1 p1 l2 p2 h1 h2 :
  request_uuid address h1 (mix_name l1 p1) = request_uuid address h2 (mix_name l2 p2) →
  h1 = h2 ∧ l1 = l2 ∧ p1 = p2.
Proof.
  intros H. apply request_uuid_inj in H as [-> H]; [|apply mix_name_no_colon..].
  apply mix_name_inj in H as [-> ->]. done.
Qed.
Print Assumptions C22_uuid_distinct.

(** ... but they do not depend on the round: the requests of two different rounds for the same
    (host, logical sender) carry the same id. *)
Theorem C22_uuid_ignores_round r1 r2 t address out1 out2 lsender calls1 calls2 h rq1 rq2 :
  sender_iteration r1 t address out1 lsender (Some calls1) →
  sender_iteration r2 t address out2 lsender (Some calls2) →
  (h, rq1) ∈ calls1 → (h, rq2) ∈ calls2 → rq_uuid rq1 = rq_uuid rq2.
Proof.
  intros H1 H2 I1 I2.
  apply sender_iteration_spec in H1 as (_ & _ & H1). apply sender_iteration_spec in H2 as (_ & _ & H2).
  destruct (H1 _ _ I1) as (_ & -> & _). destruct (H2 _ _ I2) as (_ & -> & _). done.
Qed.
Print Assumptions C22_uuid_ignores_round.

Example C22_example : ∃ t calls, CreateCascadeTopology ["a"; "b"] 2 = Some t ∧
  sender_iteration 7 t "a" [attach_header [Byte.x01] 1 0; attach_header [Byte.x02] 1 1; attach_header [Byte.x03] 1 0]
     "m(0,0)" (Some calls) ∧ calls.*1 = ["a"; "b"] ∧
  (rq_uuid <$> calls.*2) = ["[97]-to-a:from-m(0,0)"; "[97]-to-b:from-m(0,0)"].
Proof.
  eexists _, _. split; [by vm_compute|]. split.
  - unfold sender_iteration.
    match goal with |- match ?x with _ => _ end =>
      let y := eval vm_compute in x in change x with y end.
    cbv iota beta.
    eexists [("a", _); ("b", _)], [Some _; Some _]. split; [|split; [|reflexivity]].
    + match goal with |- _ ≡ₚ ?x => let y := eval vm_compute in x in change x with y end.
      apply perm_swap.
    + repeat apply Forall2_cons_2; try apply Forall2_nil_2.
      all: unfold createRRPCRequest; cbn [fst snd].
      all: match goal with |- match ?x with _ => _ end =>
             let y := eval vm_compute in x in change x with y end; cbv iota beta.
      all: eexists; split; [reflexivity|reflexivity].
  - split; vm_compute; reflexivity.
Qed.
