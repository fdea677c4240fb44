(** C111 and C112: onions in another round or at another server, and onions sent again. *)
From stdpp Require Import gmap.
From Verif.Base Require Import Base.
From Verif.Model Require Import Topology Shuffle Onion Mixer Rounds Messages System.
From Verif.Model Require Tibe TibeCodec KeyConfig Deployment Cfb.
From Verif.Spec Require Import MixerSpec MessagesSpec SystemSpec DeploymentSpec.
From Verif.Proofs Require Import SystemProofs.
From Verif.Proofs Require DeploymentProofs FpSetting MixerExec.
From Verif.Properties Require P03_Onion P04_Mixer P05_Rounds P08_Messages P28_Deployment P13_KeyConfig.
From Verif.Properties Require Import P54_RightKey.

(** Counting under a relation. *)
Lemma Forall2_count {A B} (R : A → B → Prop) (P : A → Prop) (Q : B → Prop) `{∀ x, Decision (P x)} `{∀ y, Decision (Q y)} xs ys :
  Forall2 R xs ys → (∀ x y, x ∈ xs → R x y → P x ↔ Q y) → length (filter P xs) = length (filter Q ys).
Proof.
  induction 1 as [|x y xs ys Hxy HF IH]; intros Hpq; [done|].
  pose proof (Hpq x y ltac:(constructor) Hxy) as Hd. specialize (IH (λ x y Hx, Hpq x y (elem_of_list_further _ _ _ Hx))).
  rewrite !filter_cons. repeat case_decide; simpl; tauto || lia.
Qed.

(** ** One mix *)
Section mix.
Context (peel : onion → option (option onion)) (workers taskCap outCap : nat).

(** C112: whatever a mix returns, it returns as often as it was handed onions that decrypt to it: an onion that was
    handed k times has its decryption k times among the results. *)
Theorem C112_mix t ms w s0 tr s n v r :
  NewMixers t ms w = Some s0 → run peel workers taskCap outCap s0 tr s → can_return s n v →
  ∃ k, Z.of_nat k = workload_of w n ∧ k ≤ length (handed n tr) ∧
    length (filter (λ x, x = r) v) = length (filter (λ o, peel o = Some r) (take k (handed n tr))).
Proof.
  intros H0 Hr Hc.
  destruct (P04_Mixer.C08_outputs_are_decryptions peel workers taskCap outCap t ms w s0 tr s n v H0 Hr Hc) as (k & rs & Hk & Hle & _ & HF & Hp).
  exists k. split; [done|]. split; [done|]. rewrite Hp. symmetry. eapply Forall2_count; [exact HF|].
  intros x y _ Hxy. cbn in Hxy. rewrite Hxy. split; congruence.
Qed.

(** C111: an onion that does not decrypt (one of an earlier round, say) is not dropped: it becomes an empty output,
    and the goroutine that forwards the outputs of the mix crashes the server. *)
Theorem C111_rejected_crashes t ms w s0 tr s n v k o round address lsender calls :
  NewMixers t ms w = Some s0 → run peel workers taskCap outCap s0 tr s → can_return s n v →
  Z.of_nat k = workload_of w n → o ∈ take k (handed n tr) → peel o = Some None →
  (∃ m ms, tp_layers t !! 0 = Some (m :: ms)) →
  sender_iteration round t address (default [] <$> v) lsender calls → calls = None.
Proof.
  intros H0 Hr Hc Hk Ho Hpo Hl Hs.
  destruct (P04_Mixer.C08_outputs_are_decryptions peel workers taskCap outCap t ms w s0 tr s n v H0 Hr Hc) as (k' & rs & Hk' & Hle & _ & HF & Hp).
  assert (k' = k) as -> by lia. apply elem_of_list_lookup in Ho as [i Hi].
  destruct (Forall2_lookup_l _ _ _ _ _ HF Hi) as (r & Hri & Hr').
  cbn in Hr'. rewrite Hpo in Hr'. injection Hr' as <-.
  apply (P03_Onion.C22_sender_crashes_iff _ _ _ _ _ _ Hs Hl). exists []. split; [|done].
  apply elem_of_list_fmap. exists None. split; [done|]. rewrite Hp. by eapply elem_of_list_lookup_2.
Qed.
End mix.

(** ** A deployment *)
Section replay.
Context {St : Tibe.setting} (cd : TibeCodec.element_codecs (ssralg.GRing.Field.sort (Tibe.sF St)) (ssralg.GRing.Lmodule.sort (Tibe.sG1 St))).
(** The libraries: a pairing, codecs of fixed size that round-trip, and a MAC of 32 bytes. *)
Hypotheses (laws : Tibe.pairing_laws St) (claws : TibeCodec.element_laws cd)
  (mac_len : ∀ data key, length (Tibe.hmac St data key) = 32).

(** C111: bytes encrypted with the generator's key of server h for a round, given to any server in any round (with
    any header): the server rejects them, unless it holds the very key of server h for that round, or the hash of
    the pairing or the MAC collides. *)
Theorem C111_other_server addrs d L dkg polys t nodes mpks sha3 h round p msg r c h' round' a b :
  generated_system cd addrs d L dkg polys t nodes mpks → h' ∈ addrs →
  mpks !! h = Some p → proper_scalar r → Deployment.EncryptBytes cd p (computeId sha3 h round) msg r = Ok c →
  server_peel cd sha3 nodes round' h' (attach_header c a b) = Some None ∨
  same_key (nodes h) (computeId sha3 h round) (nodes h') (computeId sha3 h' round') ∨
  library_collision (nodes h) (computeId sha3 h round) msg r (nodes h') (computeId sha3 h' round').
Proof using laws claws mac_len.
  intros Hg Hh' Hp Hr Hc.
  assert (Hkey : p = master_key (nodes h)).
  { destruct Hg as (Hnd & Hn & Hd & Hdkg & Hpl & Hps & Ht & Hnodes & order & sc0 & ks & Ho & Hsc & Hks & ->).
    apply NoDup_ListNoDup in Hnd.
    assert (∀ p, In p polys → seq.size p = S d) as Hps' by (intros p' Hp'; apply Hps; by apply elem_of_list_In).
    assert (∀ m, Permutation (order m) m) as Ho' by exact Ho.
    apply elem_of_list_to_map_2, elem_of_list_In in Hp.
    destruct (DeploymentProofs.generator_keys_spec claws Hpl Hps' Hdkg Hn Hd Ho' Hsc) as (ks' & E & Hk1 & Hk2).
    rewrite Hks in E. injection E as <-. destruct (Hk2 h p Hp) as (j & own & Hj & Hown & _).
    assert (addrs !! j = Some h) as Hj' by (by rewrite <-P28_Deployment.nth_error_lookup_eq).
    destruct (Hnodes _ _ Hj') as (order' & sc & Ho2 & Hsc2 & Hnd2).
    eapply (generator_key_of_node claws Hnd Hpl Hps' Hdkg Hn Hd Ho' Hsc Hks Hp Hj). exists order', sc. done. }
  rewrite Hkey in Hc.
  destruct (other_identity laws claws mac_len (nd := nodes h) (nodes h') (computeId sha3 h' round') Hr Hc) as [H1|H1]; [left|by right].
  unfold server_peel. assert (cipher_part (attach_header c a b) = Some c) as ->; [|exact H1].
  unfold cipher_part, attach_header. rewrite decide_False by (rewrite !app_length, !be_enc_length; lia).
  f_equal. rewrite !app_length, !be_enc_length. apply take_app_alt. lia.
Qed.

(** The same server, another round: it rejects the bytes, unless its master secret is 0 or one of the hashes (of the
    round's name, of the identity, of the pairing) or the MAC collides. *)
Theorem C111_other_round addrs d L dkg polys t nodes mpks sha3 h round p msg r c round' a b :
  generated_system cd addrs d L dkg polys t nodes mpks → h ∈ addrs →
  mpks !! h = Some p → proper_scalar r → Deployment.EncryptBytes cd p (computeId sha3 h round) msg r = Ok c →
  round ≠ round' → proper_secret (nodes h) →
  server_peel cd sha3 nodes round' h (attach_header c a b) = Some None ∨
  (id_string h round ≠ id_string h round' ∧ sha3 (id_string h round) = sha3 (id_string h round')) ∨
  g2_collision St (computeId sha3 h round') (computeId sha3 h round) ∨
  library_collision (nodes h) (computeId sha3 h round) msg r (nodes h) (computeId sha3 h round').
Proof using laws claws mac_len.
  intros Hg Hh Hp Hr Hc Hne Hs.
  destruct (C111_other_server _ _ _ _ _ _ _ _ _ _ _ _ _ _ _ h round' a b Hg Hh Hp Hr Hc) as [H1|[H1|H1]]; [by left| |by do 3 right].
  right. apply (same_node Hs) in H1.
  destruct (decide (computeId sha3 h round = computeId sha3 h round')) as [He|He].
  - left. split; [|exact He]. intros Hid%P05_Rounds.C21_same_host. done.
  - right. left. split; [congruence|exact H1].
Qed.

Lemma gen_fun addrs d L dkg polys t nodes mpks sha3 round i o msg msg' :
  generated_system cd addrs d L dkg polys t nodes mpks → (Z.of_nat L ≤ 2 ^ 31)%Z → i < length addrs →
  generated_onion cd sha3 t mpks round i o msg → generated_onion cd sha3 t mpks round i o msg' → msg = msg'.
Proof using laws claws mac_len.
  intros Hg HL Hi H1 H2. destruct (P28_Deployment.gs_facts cd laws claws mac_len _ _ _ _ _ _ _ _ Hg) as [Hs _].
  assert (length (tp_layers t) = L) as HtL by (eapply tp_len; apply Hg).
  destruct Hg as (_ & Hn & _).
  assert (∀ n, (Z.of_nat n < 2 ^ 32)%Z → (N.of_nat n < 2 ^ 32)%N) as HN.
  { intros n Hn'. assert (Z.of_N (N.of_nat n) < Z.of_N (2 ^ 32))%Z; [|lia]. change (Z.of_N (2 ^ 32)) with (2 ^ 32)%Z. lia. }
  assert (2 ^ 31 < 2 ^ 32)%Z by done.
  assert (∀ msg, generated_onion cd sha3 t mpks round i o msg →
    delivers t (λ h o, c ← cipher_part o; mjoin (Deployment.DecryptBytes cd (nodes h) (computeId sha3 h round) c)) (chain_mixes t i) o msg) as Hd.
  { intros m [rnd Hw]. eapply (P08_Messages.C18_onion_peels sha3 (Deployment.EncryptBytes cd) t mpks
      (λ h id c, mjoin (Deployment.DecryptBytes cd (nodes h) id c))); [| | |exact Hw].
    - intros h p id m' r c Hp Hc. by rewrite (Hs _ _ Hp _ _ _ _ Hc).
    - apply N.lt_le_incl, HN. lia.
    - apply HN. lia. }
  apply Hd in H1, H2. clear -H1 H2. revert o H1 H2. induction (chain_mixes t i) as [|x ms IH]; intros o; cbn [delivers]; [congruence|].
  intros (_ & o1 & E1 & D1) (_ & o2 & E2 & D2). rewrite E1 in E2. injection E2 as <-. by apply (IH o1).
Qed.

(** C112: through the whole deployment, for every schedule and every shuffle: a message comes out as often as its
    onion was sent into the chain.  Nothing recognises an onion that was sent again. *)
Theorem C112_delivered_as_often addrs d L dkg polys t nodes mpks sha3 round req fuel w workers taskCap outCap s0 tr s i x v msgs o msg :
  generated_system cd addrs d L dkg polys t nodes mpks → 0 < L → (Z.of_nat L ≤ 2 ^ 31)%Z →
  round_workload fuel t req = Some (Ok w) → round_opened t addrs w s0 →
  yrun t round (server_peel cd sha3 nodes round) workers taskCap outCap s0 tr s →
  protocol_clients cd sha3 t mpks round tr → within_announced t w tr →
  deref t (L - 1, i) = Some x → GetMessages s (mx_host x) (mx_name x) v →
  Forall2 (generated_onion cd sha3 t mpks round i) (sent_into t i tr) msgs →
  generated_onion cd sha3 t mpks round i o msg →
  (∀ o', o' ∈ sent_into t i tr → generated_onion cd sha3 t mpks round i o' msg → o' = o) →
  length (filter (λ r, r = Some msg) v) = length (filter (λ o', o' = o) (sent_into t i tr)).
Proof using laws claws mac_len.
  intros Hg HL HL31 Hw Hop Hr Hp Hwi Hx Hget HF Ho Hu.
  pose proof (P28_Deployment.C84_delivers_exactly cd laws claws mac_len _ _ _ _ _ _ _ _ _ _ _ _ _ _ _ _ _ _ _ _ _ _ _
    Hg HL HL31 Hw Hop Hr Hp Hwi Hx Hget HF) as Hv.
  assert (i < length addrs) as Hi.
  { eapply (deref_bound t addrs L); [apply Hg|exact Hx]. }
  rewrite Hv. symmetry. eapply (Forall2_count (λ o r, ∃ m, r = Some m ∧ generated_onion cd sha3 t mpks round i o m)).
  - rewrite Forall2_fmap_r. eapply Forall2_impl; [exact HF|]. intros o' m Hm. by exists m.
  - intros o' r Hin (m & -> & Hm). split.
    + intros ->. f_equal. by eapply gen_fun.
    + intros [= ->]. by apply Hu.
Qed.
End replay.
Print Assumptions C112_mix.
Print Assumptions C111_rejected_crashes.
Print Assumptions C111_other_server.
Print Assumptions C111_other_round.
Print Assumptions C112_delivered_as_often.

(** A mix of workload 2 that is handed one onion twice, and one that is handed a good onion and one it cannot
    decrypt. *)
Definition rp_sched (bs : list byte) : list MixerExec.choice :=
  [MixerExec.CAdd [P04_Mixer.ex_client bs "m(0,0)"]; MixerExec.CHold; MixerExec.CHold; MixerExec.CHold; MixerExec.CHold; MixerExec.CHold; MixerExec.CHold; MixerExec.CTake; MixerExec.CTake; MixerExec.CDecrypt 1; MixerExec.CDecrypt 0; MixerExec.CPend 0; MixerExec.CPend 0; MixerExec.CPend 0; MixerExec.CRecv].
Definition rp_peel (o : onion) : option (option onion) :=
  if decide (8 ≤ length o) then Some (if decide (drop 8 o = [Byte.x02]) then None else Some (drop 8 o)) else None.
Definition rp_exec (bs : list byte) := MixerExec.exec rp_peel 2 2 4 (rp_sched bs) P04_Mixer.ex_init.
Lemma rp_runs bs : P04_Mixer.someb (rp_exec bs) = true →
  run rp_peel 2 2 4 P04_Mixer.ex_init (default [] (fst <$> rp_exec bs)) (default P04_Mixer.ex_init (snd <$> rp_exec bs)).
Proof.
  intros H. apply (MixerExec.exec_sound _ _ _ _ (rp_sched bs)). fold (rp_exec bs).
  by destruct (rp_exec bs) as [[tr s]|].
Qed.
Example C112_example :
  NewMixers P04_Mixer.ex_topo P04_Mixer.ex_mixes P04_Mixer.ex_work = Some P04_Mixer.ex_init ∧
  ∃ tr s, run rp_peel 2 2 4 P04_Mixer.ex_init tr s ∧
    handed "m(0,0)" tr = [P04_Mixer.ex_on Byte.x01; P04_Mixer.ex_on Byte.x01] ∧
    can_return s "m(0,0)" [Some [Byte.x01]; Some [Byte.x01]].
Proof.
  split; [apply P04_Mixer.ex_new|]. eexists _, _. split; [apply (rp_runs [Byte.x01; Byte.x01]); vm_compute; reflexivity|].
  split; [vm_compute; reflexivity|]. apply P04_Mixer.can_return_b_ok. vm_compute. reflexivity.
Qed.
Example C111_crash_example :
  ∃ tr s, run rp_peel 2 2 4 P04_Mixer.ex_init tr s ∧
    handed "m(0,0)" tr = [P04_Mixer.ex_on Byte.x01; P04_Mixer.ex_on Byte.x02] ∧
    rp_peel (P04_Mixer.ex_on Byte.x02) = Some None ∧
    can_return s "m(0,0)" [Some [Byte.x01]; None] ∧
    sender_iteration 7 P04_Mixer.ex_topo "a" (default [] <$> [Some [Byte.x01]; None]) "m(0,0)" None.
Proof.
  eexists _, _. split; [apply (rp_runs [Byte.x01; Byte.x02]); vm_compute; reflexivity|].
  split; [vm_compute; reflexivity|]. split; [vm_compute; reflexivity|].
  split; [apply P04_Mixer.can_return_b_ok; vm_compute; reflexivity|]. vm_compute. reflexivity.
Qed.
