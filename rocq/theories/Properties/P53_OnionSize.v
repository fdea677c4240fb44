(** C110: what the lengths of onions reveal. *)
From stdpp Require Import gmap.
From Verif.Base Require Import Base.
From Verif.Model Require Import Topology Shuffle Onion Mixer Rounds Messages System.
From Verif.Model Require Tibe TibeCodec KeyConfig Deployment Cfb.
From Verif.Spec Require Import MixerSpec MessagesSpec SystemSpec DeploymentSpec.
From Verif.Proofs Require Import SystemProofs.
From Verif.Proofs Require CfbProofs FpSetting.
From Verif.Properties Require P04_Mixer P08_Messages P28_Deployment P13_KeyConfig.

(** One layer adds a point (96 bytes), a MAC (32), an IV (16), a layer number and a position (4 each). *)
Definition layer_bytes : nat := 96 + 32 + 16 + 4 + 4.
(** messages.go:18 *)
Definition messageSize : nat := 258.

Lemma cfb_decrypt_loop_length E fuel prev c : (∀ b, length (E b) = Cfb.blockSize) →
  length c ≤ fuel → length (Cfb.cfb_decrypt_loop E fuel prev c) = length c.
Proof.
  intros HE. revert prev c. induction fuel as [|fuel IH]; intros prev c Hf; cbn [Cfb.cfb_decrypt_loop]; [simpl; lia|].
  rewrite app_length, CfbProofs.xor_bytes_length, IH.
  - rewrite take_length, drop_length. lia.
  - rewrite drop_length. unfold Cfb.blockSize. destruct c; simpl in *; lia.
  - rewrite HE, take_length. lia.
Qed.

Section size.
Context {St : Tibe.setting} (cd : TibeCodec.element_codecs (ssralg.GRing.Field.sort (Tibe.sF St)) (ssralg.GRing.Lmodule.sort (Tibe.sG1 St))).
(** The libraries: a pairing, codecs of fixed size that round-trip, and a MAC of 32 bytes. *)
Hypotheses (laws : Tibe.pairing_laws St) (claws : TibeCodec.element_laws cd)
  (mac_len : ∀ data key, length (Tibe.hmac St data key) = 32).

Lemma encrypt_length p id m r c : Deployment.EncryptBytes cd p id m r = Ok c → length c = length m + 144.
Proof using laws claws mac_len.
  unfold Deployment.EncryptBytes. destruct (Nat.eqb_spec (length r.2) Cfb.blockSize) as [Hr|]; [|done].
  intros [= <-]. unfold TibeCodec.CipherToBuffer. cbn [fst snd Tibe.c_Gr Tibe.c_Mac Tibe.c_Encrypted].
  unfold Tibe.Encrypt. cbn [Tibe.c_Gr Tibe.c_Mac Tibe.c_Encrypted].
  rewrite !app_length, mac_len. rewrite (TibeCodec.encG_len _ claws). unfold Cfb.aesEncrypt, Cfb.cfb_encrypt.
  rewrite app_length, CfbProofs.cfb_encrypt_loop_length, Hr by (done || apply (Tibe.law_aes laws)).
  unfold TibeCodec.G1Size, Cfb.blockSize. lia.
Qed.
Lemma header_length c a b : length (attach_header c a b) = length c + 8.
Proof. unfold attach_header. rewrite !app_length, !be_enc_length. lia. Qed.

Lemma wrap_length t mpks sha3 round i rnd k msg o :
  wrapLayers sha3 (Deployment.EncryptBytes cd) t mpks round i rnd k msg = Ok o → length o = length msg + k * layer_bytes.
Proof using laws claws mac_len.
  revert msg. induction k as [|k IH]; intros msg; cbn [wrapLayers]; [intros [= ->]; lia|].
  destruct (_ ≫= _) as [mix|]; [|done]. unfold onionWrap. destruct (_ ≫= _) as [mix'|]; [|done].
  destruct (mpks !! mx_host mix) as [p|]; [|done].
  destruct (Deployment.EncryptBytes cd p _ msg (rnd k)) as [c| |] eqn:E; cbn [obind]; [|done..].
  intros Hw%IH. rewrite header_length, (encrypt_length _ _ _ _ _ E) in Hw. unfold layer_bytes in *. lia.
Qed.

(** The generator: an onion's length depends only on the length of its message and the number of layers. *)
Theorem C110_generated t mpks sha3 round i o msg :
  generated_onion cd sha3 t mpks round i o msg → length o = length msg + length (tp_layers t) * layer_bytes.
Proof using laws claws mac_len. intros [rnd Hw]. by eapply wrap_length. Qed.

(** A server: whatever bytes it is given, decrypting them takes off exactly one layer's bytes. *)
Theorem C110_peel sha3 nodes round h (o m : bytes) :
  server_peel cd sha3 nodes round h o = Some (Some m) → length o = length m + layer_bytes.
Proof using laws claws mac_len.
  unfold server_peel, cipher_part. case_decide as Hn; [done|]. cbn [mbind option_bind].
  unfold Deployment.DecryptBytes, TibeCodec.CipherSetBytes.
  set (c := take _ o). assert (length c = length o - 8) as Hc by (unfold c; rewrite take_length; lia).
  case_decide; [done|]. destruct (TibeCodec.setG cd _) as [g|]; [|done]. case_decide; [done|].
  unfold Tibe.Decrypt. cbn [Tibe.c_Gr Tibe.c_Mac Tibe.c_Encrypted].
  destruct (Cfb.bytes_eqb _ _); [|done]. unfold Cfb.aesDecrypt.
  set (e := drop (TibeCodec.G1Size + TibeCodec.macSize) c). case_decide as He; [done|].
  cbn [fst]. intros [= Hm]. assert (length m = length e - 16) as Hl.
  { rewrite <-Hm. unfold Cfb.cfb_decrypt. rewrite cfb_decrypt_loop_length by (done || apply (Tibe.law_aes laws)).
    rewrite drop_length. done. }
  unfold e in Hl, He. rewrite drop_length in Hl, He. unfold layer_bytes, TibeCodec.G1Size, TibeCodec.macSize, Cfb.blockSize in *. lia.
Qed.

(** The result is a byte string that, with [k] layers more, would have length [l]. *)
Definition of_length (k l : nat) (r : option bytes) : Prop := match r with Some m => length m + k * layer_bytes = l | None => False end.
Local Instance of_length_dec k l r : Decision (of_length k l r).
Proof. unfold of_length. destruct r; apply _. Defined.

Lemma Forall2_filter_one {A B} (P : B → Prop) `{∀ y, Decision (P y)} (R : A → B → Prop) pre x post ys :
  Forall2 R (pre ++ x :: post) ys → (∀ x', x' ∈ pre ++ post → ∀ y, R x' y → ¬ P y) →
  ∃ y, R x y ∧ y ∈ ys ∧ filter P ys = filter P [y].
Proof.
  intros HF Hn. apply Forall2_app_inv_l in HF as (ys1 & ys' & H1 & HF & ->).
  apply Forall2_cons_inv_l in HF as (y & ys2 & Hy & H2 & ->). exists y. split; [done|]. split; [set_solver|].
  assert (∀ xs zs, Forall2 R xs zs → (∀ x', x' ∈ xs → x' ∈ pre ++ post) → filter P zs = []) as Hnil.
  { intros xs zs Hxz. induction Hxz as [|x' z xs zs Hr Hxz IH]; intros Hin; [done|].
    rewrite filter_cons_False; [apply IH; set_solver|]. apply (Hn x'); [apply Hin; by constructor|done]. }
  rewrite filter_app, (Hnil pre ys1), app_nil_l; [|done|set_solver].
  change (y :: ys2) with ([y] ++ ys2). rewrite filter_app, (Hnil post ys2), app_nil_r; [done|done|set_solver].
Qed.

(** A mix, in every execution: the lengths of what it returns are the lengths of what it was handed, less a
    layer.  So, whatever its shuffle does: if the onions it was handed have one length, so have the ones it
    returns; and if one of them has a length of its own, then the only returned onion of the corresponding
    length is the decryption of that one. *)
Theorem C110_mix sha3 nodes round h workers taskCap outCap t ms w s0 tr s n v :
  let peel := server_peel cd sha3 nodes round h in
  NewMixers t ms w = Some s0 → run peel workers taskCap outCap s0 tr s → can_return s n v →
  ∃ k, Z.of_nat k = workload_of w n ∧ let inputs := take k (handed n tr) in length inputs = k ∧ length v = k ∧
    ((∀ r, r ∈ v → r ≠ None) → length <$> inputs ≡ₚ (λ r, length (default [] r) + layer_bytes) <$> v) ∧
    (∀ l, (∀ o, o ∈ inputs → length o = l) → ∀ m, Some m ∈ v → length m + layer_bytes = l) ∧
    (∀ pre o post m, inputs = pre ++ o :: post → (∀ o', o' ∈ pre ++ post → length o' ≠ length o) →
       peel o = Some (Some m) → filter (of_length 1 (length o)) v = [Some m]).
Proof using laws claws mac_len.
  intros peel H0 Hr Hc.
  destruct (P04_Mixer.C08_outputs_are_decryptions peel workers taskCap outCap t ms w s0 tr s n v H0 Hr Hc) as (k & rs & Hk & Hle & _ & HF & Hp).
  exists k. split; [done|]. cbv zeta. assert (length (take k (handed n tr)) = k) as Hlk by (rewrite take_length; lia).
  split; [done|]. split; [rewrite Hp; rewrite <-(Forall2_length _ _ _ HF); done|].
  revert HF. generalize (take k (handed n tr)). intros xs HF. split; [|split].
  - intros Hs. rewrite Hp. assert (∀ r, r ∈ rs → r ≠ None) as Hs' by (intros r; rewrite <-Hp; apply Hs).
    clear -HF Hs' laws claws mac_len. match goal with |- ?a ≡ₚ ?b => enough (a = b) as -> by done end. induction HF as [|x r xs rs Hx HF IH]; [done|]. rewrite !fmap_cons. f_equal.
    + destruct r as [m|]; [|exfalso; apply (Hs' None); [constructor|done]]. by apply (C110_peel _ _ _ _ _ _ Hx).
    + apply IH. intros r' Hr'. apply Hs'. by constructor.
  - intros l Hl m Hm. rewrite Hp in Hm. apply elem_of_list_lookup in Hm as [i Hi].
    destruct (Forall2_lookup_r _ _ _ _ _ HF Hi) as (x & Hx & Hpx).
    rewrite <-(Hl x) by (by eapply elem_of_list_lookup_2). symmetry. by apply (C110_peel _ _ _ _ _ _ Hpx).
  - intros pre o post m -> Hu Hpo.
    destruct (Forall2_filter_one (of_length 1 (length o)) _ _ _ _ _ HF) as (y & Hy & Hin & Hf).
    { intros o' Ho' [m'|] Hpe; [|auto]. apply C110_peel in Hpe. cbn [of_length]. specialize (Hu _ Ho'). lia. }
    rewrite Hpo in Hy. injection Hy as <-. rewrite filter_cons_True in Hf by (apply C110_peel in Hpo; cbn [of_length]; lia).
    apply Permutation_singleton_r. etrans; [by rewrite Hp|].
    match type of Hf with ?a = ?b => enough (a ≡ₚ b) by done end. by rewrite Hf.
Qed.

(** Through a whole deployment, for every schedule and every choice of all servers' shuffles: a message whose
    onion has a length of its own among those sent into its chain is recognised in what the last mix returns. *)
Theorem C110_traced addrs d L dkg polys t nodes mpks sha3 round req fuel w workers taskCap outCap s0 tr s i x v msgs pre o post :
  generated_system cd addrs d L dkg polys t nodes mpks → 0 < L → (Z.of_nat L ≤ 2 ^ 31)%Z →
  round_workload fuel t req = Some (Ok w) → round_opened t addrs w s0 →
  yrun t round (server_peel cd sha3 nodes round) workers taskCap outCap s0 tr s →
  protocol_clients cd sha3 t mpks round tr → within_announced t w tr →
  deref t (L - 1, i) = Some x → GetMessages s (mx_host x) (mx_name x) v →
  Forall2 (generated_onion cd sha3 t mpks round i) (sent_into t i tr) msgs →
  sent_into t i tr = pre ++ o :: post → (∀ o', o' ∈ pre ++ post → length o' ≠ length o) →
  ∃ msg, generated_onion cd sha3 t mpks round i o msg ∧ filter (of_length L (length o)) v = [Some msg].
Proof using laws claws mac_len.
  intros Hg HL HL31 Hw Hop Hr Hp Hwi Hx Hget HF Hs Hu.
  pose proof (P28_Deployment.C84_delivers_exactly cd laws claws mac_len _ _ _ _ _ _ _ _ _ _ _ _ _ _ _ _ _ _ _ _ _ _ _
    Hg HL HL31 Hw Hop Hr Hp Hwi Hx Hget HF) as Hv.
  assert (length (tp_layers t) = L) as HtL by (eapply tp_len; apply Hg).
  rewrite Hs in HF. destruct (Forall2_filter_one (λ m, of_length L (length o) (Some m)) _ _ _ _ _ HF) as (m & Hm & Hin & Hf).
  { intros o' Ho' m Hgm%C110_generated. cbn [of_length]. specialize (Hu _ Ho'). rewrite HtL in Hgm. lia. }
  exists m. split; [done|]. rewrite filter_cons_True in Hf by (apply C110_generated in Hm; cbn [of_length]; rewrite HtL in Hm; lia).
  apply Permutation_singleton_r. rewrite Hv. 
  assert (∀ l : list bytes, filter (of_length L (length o)) (Some <$> l) = Some <$> filter (λ m, of_length L (length o) (Some m)) l) as ->.
  { induction l as [|y l IH]; [done|]. rewrite fmap_cons, !filter_cons. case_decide; [|done]. by rewrite fmap_cons, IH. }
  by rewrite Hf.
Qed.
End size.
Print Assumptions C110_generated.
Print Assumptions C110_peel.
Print Assumptions C110_mix.
Print Assumptions C110_traced.

(** Three servers, four layers: onions of 258-byte messages exist and have 866 bytes, those of 10-byte messages 618;
    a server decrypts such an onion and gets 152 bytes less. *)
Example C110_example : ∃ (St : Tibe.setting) (cd : TibeCodec.element_codecs (ssralg.GRing.Field.sort (Tibe.sF St)) (ssralg.GRing.Lmodule.sort (Tibe.sG1 St))),
  Tibe.pairing_laws St ∧ TibeCodec.element_laws cd ∧ (∀ data key, length (Tibe.hmac St data key) = 32) ∧
  ∃ dkg polys t nodes mpks, generated_system cd ["a"; "b"; "c"]%string 1 4 dkg polys t nodes mpks ∧
  ∀ sha3 round,
    (∃ o, generated_onion cd sha3 t mpks round 2 o (replicate messageSize Byte.x07) ∧ length o = 866) ∧
    (∃ o, generated_onion cd sha3 t mpks round 2 o (replicate 10 Byte.x07) ∧ length o = 618 ∧
       ∃ h m, server_peel cd sha3 nodes round h o = Some (Some m) ∧ length m = 466).
Proof.
  destruct FpSetting.setting32_exists as (St & cd & laws & claws & Hmac). exists St, cd.
  do 3 (split; [done|]). exists (P13_KeyConfig.ex_dkg (Tibe.sF St)), (P13_KeyConfig.ex_polys (Tibe.sF St)).
  destruct (P28_Deployment.C84_systems_exist cd ["a"; "b"; "c"]%string 1 4 (P13_KeyConfig.ex_dkg (Tibe.sF St)) (P13_KeyConfig.ex_polys (Tibe.sF St)))
    as (t & nodes & mpks & Hg); try done.
  { repeat constructor; set_solver. }
  { intros p Hp. apply elem_of_list_In in Hp. by destruct Hp as [<-|[<-|[<-|[]]]]. }
  exists t, nodes, mpks. split; [done|]. intros sha3 round.
  assert (length (tp_layers t) = 4) as HtL by (eapply tp_len; apply Hg).
  assert (∀ msg, ∃ o, wrapLayers sha3 (Deployment.EncryptBytes cd) t mpks round 2
     (λ _, (ssralg.GRing.zero (ssralg.GRing.Field.zmodType (Tibe.sF St)) : ssralg.GRing.Field.sort (Tibe.sF St), replicate 16 Byte.x00)) (length (tp_layers t)) msg = Ok o) as Hex.
  { intros msg. apply (P28_Deployment.C84_onions_exist cd laws claws Hmac _ _ _ _ _ _ _ _ sha3 round 2 _ msg Hg); [done|cbn; lia|done]. }
  split.
  - destruct (Hex (replicate messageSize Byte.x07)) as [o Ho]. exists o. split; [by eexists|].
    rewrite (C110_generated cd laws claws Hmac t mpks sha3 round 2 o (replicate messageSize Byte.x07)) by (by eexists).
    by rewrite replicate_length, HtL.
  - destruct (Hex (replicate 10 Byte.x07)) as [o Ho]. exists o. split; [by eexists|].
    assert (length o = 618) as Hlen.
    { rewrite (C110_generated cd laws claws Hmac t mpks sha3 round 2 o (replicate 10 Byte.x07)) by (by eexists).
      by rewrite replicate_length, HtL. }
    split; [done|].
    destruct (P28_Deployment.gs_facts cd laws claws Hmac _ _ _ _ _ _ _ _ Hg) as [Hs _].
    destruct (P08_Messages.C18_onion_peels sha3 (Deployment.EncryptBytes cd) t mpks
      (λ h id c, mjoin (Deployment.DecryptBytes cd (nodes h) id c))) with (4 := Ho) as [Hlc Hd].
    { intros h p id m r c Hp Hc. by rewrite (Hs _ _ Hp _ _ _ _ Hc). }
    { rewrite HtL. done. }
    { done. }
    destruct (chain_mixes t 2) as [|x ms]; [rewrite HtL in Hlc; done|]. destruct Hd as (_ & m & Hm & _).
    assert (server_peel cd sha3 nodes round (mx_host x) o = Some (Some m)) as Hpe.
    { unfold server_peel. destruct (cipher_part o) as [c|]; [|done]. cbn [mbind option_bind] in *.
      by destruct (Deployment.DecryptBytes cd _ _ c) as [[?|]|]; [simpl in Hm; congruence|..]. }
    exists (mx_host x), m. split; [done|]. apply (C110_peel cd laws claws Hmac) in Hpe. unfold layer_bytes in Hpe. lia.
Qed.
