(** C102 for the pairing setting: shares of polynomials, in terms of the values of the polynomials. *)
From Coq Require Import ZArith NArith Lia List.
From mathcomp Require Import all_ssreflect all_algebra.
From Verif.Model Require Import Tibe.
From Verif.Model Require TibeCodec KeyMem.
From Verif.Spec Require Import TibeSpec.
From Verif.Proofs Require Import TibeProofs.
From Verif.Proofs Require FpSetting.
From Verif.Properties Require P46_KeyMem.
Set Implicit Arguments.
Unset Strict Implicit.
Unset Printing Implicit Defensive.
Import GRing.Theory.
Local Open Scope ring_scope.

Section Inst.
Variables (S : setting) (c : TibeCodec.element_codecs (sF S) (sG1 S)).
(** The operations of Model/KeyMem.v with Model/Tibe.v's functions. *)
Definition tibe_ops : KeyMem.keyops (sF S) (sG1 S) (sG2 S) :=
  @KeyMem.KeyOps _ _ _ (fun x => x *: gen1 S) (fun cs i => computePublicShare cs (Z.of_N i)) (@Eval (sF S))
    (fun x id => x *: g2Hash S id) (fun pk id sg => isValidSignature id sg pk) c.
Definition eqdec (T : eqType) : stdpp.base.EqDecision T := fun x y => decP (@eqP T x y).
#[local] Instance dF : stdpp.base.EqDecision (sF S) := @eqdec (sF S).
#[local] Instance dG : stdpp.base.EqDecision (sG1 S) := @eqdec (sG1 S).

(** An exponent polynomial holding g^P was asked for index i > 0; then it is given g^P' with SetBytes.
    VerifyShare(i, x) still accepts exactly x = P(i). *)
Theorem C102_stale_share h s e (i : N) s1 r (P P' : seq (sF S)) junk :
  pairing_laws S -> TibeCodec.element_laws c -> P <> [::] ->
  (0 < i < 2 ^ 64)%num -> (N.of_nat (List.length P') < 2 ^ 32)%num ->
  P46_KeyMem.history tibe_ops h s -> List.Forall (fun l => ~ P46_KeyMem.asks e i l) h ->
  KeyMem.expValue s e = Some (GetExponentPoly P) ->
  KeyMem.step tibe_ops (KeyMem.LGetPublicShare e i) s = Some (s1, r) ->
  exists s2, KeyMem.step tibe_ops (KeyMem.LExpSetBytes e (TibeCodec.ExpMarshal c (GetExponentPoly P')) junk) s1 =
      Some (s2, KeyMem.RBool true) /\
    KeyMem.expValue s2 e = Some (GetExponentPoly P') /\
    forall y x, stdpp.base.elem_of y (KeyMem.held s2) -> stdpp.base.lookup y (KeyMem.sc s2) = Some x ->
      exists b, KeyMem.step tibe_ops (KeyMem.LVerifyShare e i y) s2 = Some (s2, KeyMem.RBool b) /\
        (b = true <-> x = poly_at P (N.to_nat i)%:R).
Proof.
move=> laws cl ne [hi0 hi] hlen hh hna hv hs.
have hg : computePublicShare (GetExponentPoly P) (Z.of_N i) = Some (poly_at P (N.to_nat i)%:R *: gen1 S).
  rewrite computePublicShareE //; last by apply/eqP.
  congr (Some (_ *: _)); rewrite Eval_sum /scal /uint64 Z.mod_small; last by lia.
  by have -> : Z.to_nat (Z.of_N i) = N.to_nat i by lia.
have hi' : i <> 0%num by lia.
have hlen' : (N.of_nat (List.length (GetExponentPoly P')) < 2 ^ 32)%num by rewrite /GetExponentPoly List.map_length.
have [s2 [h1 [h2 h3]]] := @P46_KeyMem.C102_stale_after_set_bytes _ _ _ _ _ tibe_ops h s e i s1 r _ _ _ junk hi' cl hlen' hh hna hv hg hs.
exists s2; split; first exact: h1. split; first exact: h2.
move=> y x hy hx; eexists; split; first exact: (h3 y x hy hx).
rewrite stdpp.decidable.bool_decide_eq_true /=; split=> [|->] //; exact: scale_gen_inj.
Qed.
End Inst.
Print Assumptions C102_stale_share.
