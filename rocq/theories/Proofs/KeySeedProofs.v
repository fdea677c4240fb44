(** The draws of the key set-up. *)
From Coq Require Import ZArith NArith Lia List String Permutation.
From mathcomp Require Import all_ssreflect all_algebra.
From Verif.Base Require Base.
From Verif.Model Require Import Tibe KeyConfig KeySeed Deployment.
From Verif.Model Require TibeCodec Cfb.
From Verif.Spec Require Import TibeSpec KeySeedSpec.
From Verif.Proofs Require Import TibeProofs DeploymentProofs.
From Verif.Properties Require P11_TibeCodec.
Set Implicit Arguments.
Unset Strict Implicit.
Unset Printing Implicit Defensive.
Import GRing.Theory.
Local Open Scope ring_scope.

Section draws.
Variables (F : fieldType) (R : Type) (Random : R -> F * R).
Local Notation next := (fun r => (Random r).2).
Local Notation draw := (draw Random).

Lemma draw_shift r k i : draw (iter k next r) i = draw r (k + i).
Proof. by rewrite /draw -iterD addnC. Qed.
Lemma draws_shift r k n : [seq draw (iter k next r) i | i <- iota 0 n] = [seq draw r i | i <- iota k n].
Proof.
rewrite -[in RHS](addn0 k) iotaDl -map_comp; apply: eq_map => i /=; exact: draw_shift.
Qed.
Lemma NewRandomPolyE k r : NewRandomPoly Random k r = ([seq draw r i | i <- iota 0 k], iter k next r).
Proof.
elim: k r => [|k IH] r //.
rewrite [NewRandomPoly _ _ _]/= iterSr.
have e1 : draw r 0 = (Random r).1 by [].
have e2 : [seq draw r i | i <- iota 0 k.+1] = draw r 0 :: [seq draw r i | i <- iota 1 k] by [].
rewrite e2 -(draws_shift r 1) e1 -[iter 1 _ r]/((Random r).2).
move: (IH (Random r).2); case: (Random r) => a r1.
by cbn [fst snd] => ->.
Qed.
Lemma iotaS_app a b : iota 0 (a + b) = iota 0 a ++ iota a b.
Proof. by rewrite iotaD. Qed.
Lemma vssE n d r : exists polys, vsspolynomialsSetup Random n d r = (polys, iter (n * d.+1) next r) /\
  List.length polys = n /\ (forall p, List.In p polys -> size p = d.+1) /\
  flatten polys = [seq draw r i | i <- iota 0 (n * d.+1)].
Proof.
elim: n r => [|n IH] r; first by exists [::].
rewrite [vsspolynomialsSetup _ _ _ _]/= -/(NewRandomPoly Random d.+1 r) NewRandomPolyE.
have [ps [-> [h1 [h2 h3]]]] := IH (iter d.+1 next r).
exists ([seq draw r i | i <- iota 0 d.+1] :: ps); split.
  by rewrite -iterD mulSn addnC.
split; first by rewrite /= h1.
split; first by move=> p [<-|/h2 //]; rewrite size_map size_iota.
by rewrite [flatten _]/= -/(flatten ps) h3 draws_shift -map_cat mulSn iotaS_app.
Qed.
Lemma createE n d r : exists dkg polys, createConfigs_polys Random n d r = (dkg, polys, iter (n.+1 * d.+1) next r) /\
  size dkg = d.+1 /\ List.length polys = n /\ (forall p, List.In p polys -> size p = d.+1) /\
  coefs_of (dkg, polys) = [seq draw r i | i <- iota 0 (n.+1 * d.+1)].
Proof.
rewrite /createConfigs_polys NewRandomPolyE.
have [ps [-> [h1 [h2 h3]]]] := vssE n d (iter d.+1 next r).
exists [seq draw r i | i <- iota 0 d.+1], ps; split; first by rewrite -iterD mulSn addnC.
split; first by rewrite size_map size_iota.
do 2 (split; first by []).
by rewrite /coefs_of; cbn [fst snd]; rewrite h3 draws_shift -map_cat mulSn iotaS_app.
Qed.
Lemma key_stepE c r : exists dkg polys, key_step Random c r = (dkg, polys, iter (call_coefs c) next r) /\
  coefs_of (dkg, polys) = [seq draw r i | i <- iota 0 (call_coefs c)].
Proof.
case: c => addrs d.
  by have [dkg [polys [h1 [_ [_ [_ h2]]]]]] := createE (List.length addrs) d r; exists dkg, polys.
exists [seq draw r i | i <- iota 0 d.+1], [::].
rewrite [key_step _ _ _]/= -/(NewRandomPoly Random d.+1 r) NewRandomPolyE; split=> //.
by rewrite /coefs_of cats0.
Qed.
Lemma key_step_alike c c' r : alike c c' -> key_step Random c r = key_step Random c' r.
Proof. by case: c => a d; case: c' => a' d' //= [h ->] //; rewrite h. Qed.
End draws.

(** The master public key of a polynomial. *)
Definition mpk_of (S : setting) (own : seq (sF S)) : mpk S := poly_at own 0 *: gen1 S.
(** A reader for examples. *)
Definition counter (S : setting) (k : nat) : sF S * nat := (k%:R, k.+1).
