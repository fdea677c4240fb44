(** C111: only the key of the identity encrypted to opens a cipher. *)
From Coq Require Import ZArith List String Lia.
From mathcomp Require Import all_ssreflect all_algebra.
From Verif.Base Require Base.
From Verif.Model Require Import Tibe KeyConfig Deployment.
From Verif.Model Require TibeCodec Cfb.
From Verif.Proofs Require CfbProofs FpSetting.
From Verif.Proofs Require Import TibeProofs DeploymentProofs.
From Verif.Properties Require Import P09_Tibe P13_KeyConfig.
From Verif.Properties Require P11_TibeCodec.
Set Implicit Arguments.
Unset Strict Implicit.
Unset Printing Implicit Defensive.
Import GRing.Theory.
Local Open Scope ring_scope.

(** Two different elements of the target group with the same hash; two different byte strings hashed to one point. *)
Definition gt_collision (S : setting) (x y : sGT S) : Prop := x <> y /\ hashGt x = hashGt y.
Definition g2_collision (S : setting) (a b : bytes) : Prop := a <> b /\ g2Hash S a = g2Hash S b.

(** A cipher made with the master public key of secret [s] for [id] and a scalar that is not 0, tried with any
    key [sk] whatever: if it is accepted, [sk] is the identity's key and the result is the message, unless the two
    pairings hash to one key or the two MACs collide. *)
Theorem C111_only_key (S : setting) (s : sF S) id msg (r : sF S) iv (sk : sG2 S) m :
  pairing_laws S -> r <> 0 -> List.length iv = 16%N ->
  let c := Encrypt (s *: gen1 S) id msg r iv in
  let mine := pair (r *: (s *: gen1 S)) (g2Hash S id) in
  let theirs := pair (r *: gen1 S) sk in
  let data := app (g1Bytes (c_Gr c)) (c_Encrypted c) in
  (Decrypt sk c).1 = Some m ->
  (sk = s *: g2Hash S id /\ m = msg) \/ gt_collision mine theirs \/
  mac_collision S (hashGt mine) data (hashGt theirs) data.
Proof.
move=> laws r0 hiv c mine theirs data.
case hd: (Decrypt sk c) => [[d|] c1] //= -[ed].
have hm := C26_authenticated hd.
case: (@stdpp.base.decide (hashGt mine = hashGt theirs) _) => [ek|nk]; last first.
  by right; right; split=> [[]|] //; rewrite -hm.
case: (eqVneq mine theirs) => [et|/eqP nt]; last by right; left.
left.
have esk : sk = s *: g2Hash S id.
  have : pair (gen1 S) (r *: (s *: g2Hash S id - sk)) = 0.
    have -> : s *: g2Hash S id - sk = s *: g2Hash S id + (-1) *: sk by rewrite scaleN1r.
    rewrite (law_scaler laws) (law_addr laws) !(law_scaler laws) scalerDr.
    move: et; rewrite /mine /theirs !(law_scalel laws) => ->.
    by rewrite scalerA mulrN1 scaleNr subrr.
  by move/(law_nondeg laws)/eqP; rewrite scaler_eq0 subr_eq0 => /orP[/eqP//|/eqP ->].
split=> //; move: hd; rewrite esk /c (Decrypt_Encrypt laws) // => -[hd' _]; by rewrite -ed hd'.
Qed.
Print Assumptions C111_only_key.

Section deployment.
Variables (S : setting) (cd : TibeCodec.element_codecs (sF S) (sG1 S)).
Hypotheses (laws : pairing_laws S) (claws : TibeCodec.element_laws cd)
  (mac_len : forall d k, List.length (hmac S d k) = TibeCodec.macSize).
Variables (addrs : seq string) (d : nat) (dkg : seq (sF S)) (polys : seq (seq (sF S))).
Hypotheses (hosts_distinct : List.NoDup addrs) (one_poly_each : List.length polys = List.length addrs)
  (poly_size : forall p, List.In p polys -> size p = d.+1) (dkg_size : size dkg = d.+1)
  (n_small : (Z.of_nat (List.length addrs) < 2 ^ 32)%BZ) (d_small : (Z.of_nat d.+1 < 2 ^ 32)%BZ).

(** The master public key of a node's secret. *)
Definition master_key (nd : node S) : mpk S := n_secret nd *: gen1 S.

(** A generated deployment: the generator's key of a host is that of the host's node. *)
Lemma generator_key_of_node order sc0 ks j h p nd :
  (forall m, Permutation.Permutation (order m) m) -> server_config_of cd addrs d dkg polys 0 = Some sc0 ->
  generator_keys cd order sc0 = Some ks -> List.In (h, p) ks ->
  List.nth_error addrs j = Some h -> generated_node cd addrs d dkg polys j nd ->
  p = master_key nd.
Proof using claws hosts_distinct one_poly_each poly_size dkg_size n_small d_small.
move=> ho hsc hks hin hj hnd.
have [ks' [e1 [_ e2]]] := generator_keys_spec claws one_poly_each poly_size dkg_size n_small d_small ho hsc; move: e1; rewrite hks => -[e]; rewrite -e in e2.
have [j' [own [a1 [a2 ->]]]] := e2 _ _ hin.
have ej : j' = j.
  apply: (proj1 (List.NoDup_nth_error addrs) hosts_distinct); last by rewrite hj a1.
  by apply/List.nth_error_Some; rewrite a1.
rewrite ej in a2.
have [h' [own' [b1 [b2 [b3 [b4 _]]]]]] :=
  generated_nodeE claws hosts_distinct one_poly_each poly_size dkg_size n_small d_small hnd.
have eo : own' = own by move: b2; rewrite a2 => -[].
by rewrite /master_key b4 eo.
Qed.

(** The random scalar of an encryption, and a node's master secret, are not 0. *)
Definition proper_scalar (r : enc_rand S) : Prop := r.1 <> 0.
Definition proper_secret (nd : node S) : Prop := n_secret nd <> 0.
(** The key of [nd'] for [id'] is the key of [nd] for [id]. *)
Definition same_key (nd : node S) (id : bytes) (nd' : node S) (id' : bytes) : Prop :=
  MasterDecrypter nd' id' = MasterDecrypter nd id.
(** What the two servers compute for the cipher made with [r] for [nd] and [id]: two pairings, hashed to AES keys,
    with which the same data is authenticated.  The hash of the pairing or the MAC collides. *)
Definition library_collision (nd : node S) (id msg : bytes) (r : enc_rand S) (nd' : node S) (id' : bytes) : Prop :=
  let e := Encrypt (n_secret nd *: gen1 S) id msg r.1 r.2 in
  let data := app (g1Bytes (c_Gr e)) (c_Encrypted e) in
  let mine := pair (r.1 *: (n_secret nd *: gen1 S)) (g2Hash S id) in
  let theirs := pair (r.1 *: gen1 S) (MasterDecrypter nd' id') in
  gt_collision mine theirs \/ mac_collision S (hashGt mine) data (hashGt theirs) data.

(** What DecryptBytes of any node does with the bytes encrypted for a node's key and an identity: it always
    decodes them, and it accepts them only if the keys are equal, or by collision. *)
Lemma other_identity (nd nd' : node S) id id' msg r c :
  proper_scalar r -> EncryptBytes cd (master_key nd) id msg r = Base.Ok c ->
  DecryptBytes cd nd' id' c = Some None \/ same_key nd id nd' id' \/ library_collision nd id msg r nd' id'.
Proof using laws claws mac_len.
move=> r0; rewrite /EncryptBytes; case: Nat.eqb_spec => // hiv [<-].
pose c0 := Encrypt (n_secret nd *: gen1 S) id msg r.1 r.2.
rewrite -[TibeCodec.CipherToBuffer _ _]/(TibeCodec.CipherToBuffer cd (c_Gr c0, c_Mac c0, c_Encrypted c0)).
have [|hc _] := @P11_TibeCodec.C35_cipher _ _ cd claws (c_Gr c0) (c_Mac c0) (c_Encrypted c0); first exact: mac_len.
rewrite /DecryptBytes hc.
have -> : Cipher (c_Gr c0) (c_Mac c0) (c_Encrypted c0) = c0 by [].
case hd: (Decrypt (MasterDecrypter nd' id') c0).1 => [m|]; last by left.
by right; have [[h _]|h] := C111_only_key laws r0 hiv hd; [left|right].
Qed.
(** One node, two identities. *)
Lemma same_node (nd : node S) id id' : proper_secret nd -> same_key nd id nd id' -> g2Hash S id' = g2Hash S id.
Proof using Type.
by move=> s0 /(congr1 (fun x => (n_secret nd)^-1 *: x)); rewrite /MasterDecrypter !scalerA mulVf ?scale1r //; apply/eqP.
Qed.
End deployment.

(** In the setting over the scalar field of BLS12-381 nothing collides: the right key opens, another does not. *)
Example C111_example : exists (S : setting) (s r : sF S) (id id' msg iv : bytes),
  pairing_laws S /\ r <> 0 /\ s <> 0 /\ List.length iv = 16%N /\
  (Decrypt (s *: g2Hash S id) (Encrypt (s *: gen1 S) id msg r iv)).1 = Some msg /\
  (Decrypt (s *: g2Hash S id') (Encrypt (s *: gen1 S) id msg r iv)).1 = None.
Proof.
have [p [hp [pp [laws claws]]]] := FpSetting.setting_exists.
exists (FpSetting.fp_setting p), 1, 1, [:: Byte.x00], [:: Byte.x01], [:: Byte.x07; Byte.x08], (List.repeat Byte.x00 16).
have o1 : (1 : sF (FpSetting.fp_setting p)) <> 0 by apply/eqP; rewrite oner_eq0.
have hiv : List.length (List.repeat Byte.x00 16) = 16%N by [].
split=> //; split=> //; split=> //; split=> //; split; first by rewrite (Decrypt_Encrypt laws).
case hd: (Decrypt _ _).1 => [m|] //; exfalso.
have [[h _]|[[h1 h2]|[h1 h2]]] := C111_only_key laws o1 hiv hd.
- move: h; rewrite !scale1r /g2Hash /=.
  rewrite -[(N.to_nat (Base.be_dec [:: Byte.x01])).+1]/2%N => /eqP.
  by rewrite mulrS -subr_eq0 addrC addKr => /eqP.
- have ps : (N.of_nat p < 2 ^ 256)%num by rewrite hp.
  have pl : (2 ^ 64 < N.of_nat p)%num by rewrite hp.
  apply: h1; have de x := @FpSetting.dec_enc p pp pl ps 32 x (leqnn _).
  move: h2; rewrite /hashGt /= => /(congr1 (@FpSetting.dec p)); by rewrite !de.
- by have [_ h3] := @FpSetting.fp_mac p _ _ _ _ h2; apply: h1; rewrite h3.
Qed.
Print Assumptions C111_example.
