(** C107: what a dealer can do to the receivers of its shares. *)
From Coq Require Import ZArith Lia List String.
From mathcomp Require Import all_ssreflect all_algebra.
From Verif.Model Require Import Tibe.
From Verif.Spec Require Import TibeSpec.
From Verif.Proofs Require Import TibeProofs FpSetting BlsOrder.
From Verif.Proofs Require CfbProofs.
From Verif.Properties Require Import P09_Tibe.
Set Implicit Arguments.
Unset Strict Implicit.
Unset Printing Implicit Defensive.
Import GRing.Theory.
Local Open Scope ring_scope.

(** Every point of G1 is a multiple of the generator (the group has prime order). *)
Definition cyclic (S : setting) : Prop := forall x : sG1 S, exists c : sF S, x = c *: gen1 S.

(** The checks a receiver could make: VerifyShare, and that the master key is the constant term. *)
Definition verified (S : setting) (shr : vss_share S) : Prop :=
  VerifyShare (vs_expoly shr) (ps_index (vs_share shr)) (ps_value (vs_share shr)) = Some true.
Definition mpk_matches (S : setting) (shr : vss_share S) : Prop := ohead (vs_expoly shr) = Some (vs_mpk shr).

(** [n] received the share [shr] under [name]. *)
Definition received (S : setting) (n : node S) (name : string) (shr : vss_share S) : Prop := n_shares n name = Some shr.

Lemma expoly_of (S : setting) (ep : seq (sG1 S)) : cyclic S -> exists cs, ep = GetExponentPoly cs.
Proof.
move=> cyc; elim: ep => [|x ep [cs ->]]; first by exists [::].
by have [c ->] := cyc x; exists (c :: cs).
Qed.

(** Whatever the dealer did: if the receivers hold one public polynomial, and each share passes VerifyShare,
    then there is one key for the identity, which every large enough set of their votes reconstructs at every
    one of them, and which decrypts everything encrypted to the identity under the constant term. *)
Theorem C107_binding (S : setting) (ep : seq (sG1 S)) (p0 : sG1 S) (name : string) (id : bytes) :
  pairing_laws S -> cyclic S -> ohead ep = Some p0 ->
  exists sk : sG2 S,
    (forall msg r iv, List.length iv = 16%N -> (Decrypt sk (Encrypt p0 id msg r iv)).1 = Some msg) /\
    forall (n : node S) (shr : vss_share S) (voters : seq (node S * vss_share S)),
      received n name shr -> vs_expoly shr = ep ->
      (forall w, List.In w voters -> received w.1 name w.2 /\ vs_expoly w.2 = ep /\ verified w.2 /\
         int64 (ps_index (vs_share w.2))) ->
      uniq [seq ps_index (vs_share w.2) | w <- voters] -> (size ep < size voters)%N ->
      ReconstructDecrypter n name (pmap (fun w => NodeVote w.1 name id) voters) = RKey sk.
Proof.
move=> laws cyc; have [cs ->] := expoly_of ep cyc.
case: cs => // c0 cs0; set cs := c0 :: cs0 => -[<-].
have ne : cs <> [::] by [].
have [owner [ho [hpk [_ hsk]]]] := @C26_NewNode S cs ne.
exists (poly_at cs 0 *: g2Hash S id); split.
  move=> msg r iv hiv; have -> : c0 *: gen1 S = n_pk owner by rewrite hpk poly_at_0.
  by rewrite -hsk; exact: C26_roundtrip laws ho hiv.
move=> n shr voters hn he hv u sz.
have hold : holds_expoly n name cs by exists shr.
have E : pmap (fun w => NodeVote w.1 name id) voters =
  [seq Vote_ (ps_index (vs_share w.2)) id (ps_value (vs_share w.2) *: g2Hash S id) | w <- voters].
  elim: (voters) hv => //= w ws IH h; have [h1 _] := h w (or_introl erefl).
  by rewrite /NodeVote h1 /= IH // => w' hw; apply: h; right.
rewrite -hsk; apply: (C28_reconstruct laws ho hold).
- rewrite E => v /List.in_map_iff[w [<- hw]] /=; have [_ [e1 [e2 e3]]] := hv w hw.
  split=> //; split=> //; rewrite /correct_vote /=; congr (_ *: _).
  move: e2; rewrite /verified e1 /VerifyShare computePublicShareE // -Eval_poly_at // => e2.
  by apply: (scale_gen_inj laws); apply/eqP; case: e2.
- by rewrite E size_map /Threshold; move: sz; rewrite size_map.
- rewrite E -map_take -map_comp.
  have -> : [seq ((v_index (S:=S)) \o (fun w : node S * vss_share S =>
      Vote_ (ps_index (vs_share w.2)) id (ps_value (vs_share w.2) *: g2Hash S id))) i | i <- take (Threshold cs) voters] =
    take (Threshold cs) [seq ps_index (vs_share w.2) | w <- voters] by rewrite map_take.
  exact: take_uniq.
Qed.
Print Assumptions C107_binding.

(** No receiver makes these checks: a share that fails VerifyShare is received like any other. Its holder's vote
    on every identity is then rejected by everyone, and no set of votes with it reconstructs anything. *)
Theorem C107_wrong_share (S : setting) (n : node S) (name : string) (shr : vss_share S) (id : bytes) :
  pairing_laws S -> cyclic S -> vs_expoly shr <> [::] -> int64 (ps_index (vs_share shr)) ->
  ~ verified shr -> g2Hash S id <> 0 ->
  exists v, NodeVote (ReceiveShare n name shr) name id = Some v /\
    forall (n' : node S) (shr' : vss_share S), received n' name shr' -> vs_expoly shr' = vs_expoly shr ->
      ValidateVote n' name v = Some false /\
      forall votes, List.In v votes -> ReconstructDecrypter n' name votes = RError S.
Proof.
move=> laws cyc; have [cs E] := expoly_of (vs_expoly shr) cyc; rewrite E => ne hi nv h0.
have ne' : cs != [::] by apply/eqP => e; apply: ne; rewrite e.
rewrite /NodeVote /ReceiveShare /= String.eqb_refl /=; eexists; split; first reflexivity.
set v := Vote_ _ _ _ => n' shr' hr he.
have hc : checkVote (vs_expoly shr') v = Some false.
  rewrite he checkVoteE //; congr Some; apply/eqP => /= e; apply: nv.
  rewrite /verified E /VerifyShare computePublicShareE //=; congr Some; apply/eqP; congr (_ *: _).
  apply/eqP; move/eqP: e; rewrite -subr_eq0 -scalerBl scaler_eq0 subr_eq0 => /orP[//|/eqP e].
  by case: h0.
rewrite /ValidateVote hr; split=> // votes vin.
rewrite /ReconstructDecrypter hr; case EV: votes => [//|v0 vs0]; rewrite -EV.
have -> : has (fun v => checkVote (vs_expoly shr') v == None) votes = false.
  by elim: (votes) => //= w ws ->; rewrite he checkVoteE.
have -> : all (fun v => checkVote (vs_expoly shr') v == Some true) votes = false; last by [].
elim: (votes) vin => //= w ws IH [->|/IH ->]; first by rewrite hc.
by rewrite andbF.
Qed.
Print Assumptions C107_wrong_share.

(** A master key that is not the constant term is received as well: votes are valid, the key is reconstructed,
    and what this node encrypted to the identity is not decrypted by it (unless hashes collide). *)
Theorem C107_wrong_mpk (S : setting) (n : node S) (name : string) (shr : vss_share S) (cs : seq (sF S)) (id msg : bytes) (r : sF S) iv :
  pairing_laws S -> cyclic S -> vs_expoly shr = GetExponentPoly cs -> cs <> [::] -> ~ mpk_matches shr ->
  g2Hash S id <> 0 -> r <> 0 ->
  exists c, EncryptFor (ReceiveShare n name shr) name id msg r iv = Some c /\
    let sk := poly_at cs 0 *: g2Hash S id in
    let x := pair (r *: vs_mpk shr) (g2Hash S id) in let y := pair (c_Gr c) sk in
    x <> y /\
    (Decrypt sk c = (None, c) \/ hashGt x = hashGt y \/
     mac_collision S (hashGt x) (app (g1Bytes (c_Gr c)) (c_Encrypted c)) (hashGt y) (app (g1Bytes (c_Gr c)) (c_Encrypted c))).
Proof.
move=> laws cyc he ne nm h0 r0.
rewrite /EncryptFor /ReceiveShare /= String.eqb_refl /=; eexists; split; first reflexivity.
cbv zeta; set sk := poly_at cs 0 *: _.
have hx : pair (r *: vs_mpk shr) (g2Hash S id) <> pair (c_Gr (Encrypt (vs_mpk shr) id msg r iv)) sk.
  rewrite /Encrypt /=; have [d ed] := cyc (vs_mpk shr).
  have nd : d <> poly_at cs 0.
    move=> e; apply: nm; rewrite /mpk_matches he ed e poly_at_0.
    by case: (cs) ne.
  rewrite ed (law_scaler laws) !(law_scalel laws) !scalerA => /eqP.
  rewrite -subr_eq0 -scalerBl scaler_eq0 => /orP[/eqP e|/eqP e].
    apply: nd; apply/eqP; move/eqP: e; rewrite mulrC -mulrBl mulf_eq0 subr_eq0 => /orP[//|/eqP].
    by [].
  by apply: h0; apply: (law_nondeg laws).
split=> //; rewrite /Decrypt.
case: ifP => [/CfbProofs.bytes_eqb_eq hm|_]; last by left.
right; case: (@stdpp.base.decide (hashGt (pair (r *: vs_mpk shr) (g2Hash S id)) =
  hashGt (pair (c_Gr (Encrypt (vs_mpk shr) id msg r iv)) sk)) _) => [->|nh]; first by left.
by right; split; [case=> e; apply: nh|exact: hm].
Qed.
Print Assumptions C107_wrong_mpk.

(** The laws and [cyclic] hold together: the rational toy setting, and the one over the field of BLS12-381. *)
Lemma toy_cyclic : cyclic toy.
Proof. by move=> x; exists (x : rat); rewrite /GRing.scale /= mulr1. Qed.
Example C107_settings : exists p : nat, N.of_nat p = bls_order /\ pairing_laws (fp_setting p) /\ cyclic (fp_setting p).
Proof.
have [p [E [_ [laws _]]]] := setting_exists; exists p; split=> //; split=> //.
by move=> x; exists (x : Fp_fieldType p); rewrite /GRing.scale /= mulr1.
Qed.
(** A dealer with P = 1 + X: three honest shares, one wrong share, one wrong master key. *)
Definition deal (i : Z) (y : rat) (m : rat) : vss_share toy := @VssShare toy (GetExponentPoly toy_cs) (PolyShare i y) (m : rat).
Example C107_example :
  verified (deal 4 5 1) /\ verified (deal 2 3 1) /\ verified (deal 9 10 1) /\ mpk_matches (deal 4 5 1) /\
  ~ verified (deal 4 6 1) /\ verified (deal 4 5 7) /\ ~ mpk_matches (deal 4 5 7) /\ g2Hash toy [::] <> 0.
Proof. by do ?split; (try by vm_compute). Qed.
