(** A pairing setting over a prime field of cryptographic size, with fixed-size encodings: the scalar
    field of BLS12-381, G1 = G2 = GT = the field itself, multiplication as pairing.  It satisfies both
    [pairing_laws] and [element_laws], so theorems assuming them are not vacuous.  (It is of course not
    secure: discrete logarithms are trivial in it.) *)
From Coq Require Import ZArith NArith Lia List String.
From mathcomp Require Import all_ssreflect all_algebra all_field.
From Verif.Base Require Base.
From Verif.Model Require Import Tibe.
From Verif.Model Require TibeCodec Cfb.
From Verif.Proofs Require Import BlsOrder.
From stdpp Require list.
Set Implicit Arguments.
Unset Strict Implicit.
Unset Printing Implicit Defensive.
Import GRing.Theory.
Local Open Scope ring_scope.
Delimit Scope N_scope with BN.

Section fp.
Variable p : nat.
Notation F := (Fp_fieldType p).
Definition enc (k : nat) (x : F) : bytes := Verif.Base.Base.be_enc k (N.of_nat (x : 'F_p)).
Definition dec (b : bytes) : F := (N.to_nat (Verif.Base.Base.be_dec b))%:R.
Definition fp_setting : setting :=
  @Setting F (GRing.regular_lmodType F) (GRing.regular_lmodType F) (GRing.regular_lmodType F) (1 : F)
    (fun a b : F => a * b)
    (fun id => (N.to_nat (Verif.Base.Base.be_dec id)).+1%:R : F)
    (fun x : F => enc 32 x) (fun x : F => enc 96 x)
    (fun data key => app key data)
    (fun k b => List.firstn 16%N (app k (List.repeat Byte.x00 16%N))).
Definition fp_codecs : TibeCodec.element_codecs (sF fp_setting) (sG1 fp_setting) :=
  @TibeCodec.ElementCodecs F F (enc 32) dec (fun b => Some (dec b)) (enc 96) (fun b => Some (dec b)).

Hypotheses (pp : prime p) (p_large : (2 ^ 64 < N.of_nat p)%BN) (p_small : (N.of_nat p < 2 ^ 256)%BN).

Lemma fp_laws : pairing_laws fp_setting.
Proof.
split.
- move=> n hn /eqP; rewrite -(dvdn_charf (char_Fp pp)) => h.
  case: n hn h => // n hn h; have /leP le := dvdn_leq (isT : (0 < n.+1)%N) h; lia.
- by move/eqP; rewrite oner_eq0.
- by move=> a b y; exact: mulrDl.
- by move=> c a y; rewrite /pair /= /GRing.scale /= mulrA.
- by move=> a b y; exact: mulrDr.
- by move=> c a y; rewrite /pair /= /GRing.scale /= mulrCA.
- by move=> y; rewrite /pair /= mul1r.
- move=> k b; rewrite /aes /fp_setting List.firstn_length List.app_length List.repeat_length.
  by rewrite /Cfb.blockSize; lia.
Qed.

Lemma dec_enc k (x : F) : (32 <= k)%N -> dec (enc k x) = x.
Proof.
move=> hk; rewrite /dec /enc Verif.Base.Base.be_dec_enc_small.
  by rewrite Nat2N.id natr_Zp.
have hx : (N.of_nat (x : 'F_p) < N.of_nat p)%BN.
  have := ltn_ord (x : 'F_p); rewrite -[X in (_ < X)%N](card_ord) (card_Fp pp) => /ltP h; lia.
apply: N.lt_trans hx _; apply: N.lt_le_trans p_small _.
have -> : (2 ^ 256)%BN = (256 ^ 32)%BN by [].
apply: N.pow_le_mono_r => //; move/leP: hk; lia.
Qed.
Lemma fp_codec_laws : TibeCodec.element_laws fp_codecs.
Proof.
split.
- by move=> x; exact: Verif.Base.Base.be_enc_length.
- by move=> x; exact: dec_enc.
- by move=> x; congr Some; exact: dec_enc.
- by move=> x; exact: Verif.Base.Base.be_enc_length.
- by move=> x; congr Some; exact: dec_enc.
Qed.

(** Its MAC and encodings meet the hypotheses of C83_same_mac. *)
Lemma fp_mac d d' (x x' : sGT fp_setting) :
  hmac fp_setting d (hashGt x) = hmac fp_setting d' (hashGt x') -> d = d' /\ hashGt x = hashGt x'.
Proof.
move=> h.
have hl : List.length (hashGt x) = List.length (hashGt x')
  by exact: (etrans (Verif.Base.Base.be_enc_length 32 _) (esym (Verif.Base.Base.be_enc_length 32 _))).
by have [-> ->] := stdpp.list.app_inj_1 (hashGt x) (hashGt x') d d' hl h.
Qed.
Lemma fp_len (x y : sG1 fp_setting) : List.length (g1Bytes x) = List.length (g1Bytes y).
Proof. exact: (etrans (Verif.Base.Base.be_enc_length 96 _) (esym (Verif.Base.Base.be_enc_length 96 _))). Qed.
Lemma fp_inj (x y : sG1 fp_setting) : g1Bytes x = g1Bytes y -> x = y.
Proof. by move=> h; rewrite -(@dec_enc 96 x) // -(@dec_enc 96 y) //; congr dec. Qed.
End fp.

(** The instance exists over the scalar field of BLS12-381. *)
Theorem setting_exists : exists p : nat, N.of_nat p = bls_order /\ prime p /\
  pairing_laws (fp_setting p) /\ TibeCodec.element_laws (fp_codecs p).
Proof.
exists (N.to_nat bls_order); split; first by rewrite N2Nat.id.
move: bls_order_prime; move: (N2Nat.id bls_order); move: (N.to_nat _) => p hp pp.
have h1 : (2 ^ 64 < N.of_nat p)%BN by rewrite hp.
have h2 : (N.of_nat p < 2 ^ 256)%BN by rewrite hp.
split; first by []. by split; [exact: fp_laws|exact: fp_codec_laws].
Qed.
Print Assumptions setting_exists.

(** The same groups with a MAC of 32 bytes, as HMAC-SHA256 has. *)
Definition with_mac (S : setting) (h : bytes -> bytes -> bytes) : setting :=
  @Setting (sF S) (sG1 S) (sG2 S) (sGT S) (gen1 S) (@pair S) (@g2Hash S) (@hashGt S) (@g1Bytes S) h (aes S).
Theorem setting32_exists : exists (S : setting) (cd : TibeCodec.element_codecs (sF S) (sG1 S)),
  pairing_laws S /\ TibeCodec.element_laws cd /\ forall d k, List.length (hmac S d k) = 32%N.
Proof.
have [p [_ [_ [laws claws]]]] := setting_exists.
pose h (d k : bytes) : bytes := List.firstn 32%N (app k (List.repeat Byte.x00 32%N)).
exists (with_mac (fp_setting p) h), (fp_codecs p); split; last split=> //.
  by case: laws => *; split.
move=> d k; rewrite /= /h List.firstn_length List.app_length List.repeat_length; lia.
Qed.
Print Assumptions setting32_exists.
