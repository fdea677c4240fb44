(** Lagrange interpolation, the scheme's algebra. *)
From Coq Require Import ZArith Lia.
From mathcomp Require Import all_ssreflect all_algebra.
From Verif.Model Require Import Tibe.
From Verif.Spec Require Import TibeSpec.
From Verif.Model Require Cfb.
From Verif.Proofs Require CfbProofs.
Set Implicit Arguments.
Unset Strict Implicit.
Unset Printing Implicit Defensive.
Import GRing.Theory.
Local Open Scope ring_scope.

Lemma uint64_range i : (0 <= uint64 i < 2 ^ 64)%BZ.
Proof. by apply: Z.mod_pos_bound. Qed.

Lemma uint64_inj i j : int64 i -> int64 j -> uint64 i = uint64 j -> i = j.
Proof.
rewrite /int64 /uint64 => Hi Hj.
have E k : int64 k -> (k mod 2 ^ 64 = if Z.ltb k 0 then k + 2 ^ 64 else k)%BZ.
  rewrite /int64 => Hk; case: (Z.ltb_spec k 0) => ?.
    by rewrite -(Z_mod_plus_full k 1) Z.mod_small; lia.
  by rewrite Z.mod_small; lia.
by rewrite !E //; case: (Z.ltb_spec i 0); case: (Z.ltb_spec j 0); lia.
Qed.

Lemma uint64_0 i : int64 i -> uint64 i = 0%BZ -> i = 0%BZ.
Proof. by move=> Hi H; apply: uint64_inj => //; rewrite /int64; lia. Qed.

Section scalars.
Variable F : fieldType.

Lemma nat_inj_char (n m : nat) : big_char F ->
  (Z.of_nat n < 2 ^ 64)%BZ -> (Z.of_nat m < 2 ^ 64)%BZ -> n%:R = m%:R :> F -> n = m.
Proof.
move=> hc; wlog le : n m / (n <= m)%N.
  by move=> W; case: (leqP n m) => [|/ltnW] h hn hm E; [exact: W|apply/esym/W].
move=> hn hm E; have : (m - n)%:R = 0 :> F by rewrite natrB // E subrr.
move/hc => d; apply/eqP; rewrite eqn_leq le /= -subn_eq0; apply/eqP/d.
rewrite -minusE Nat2Z.inj_sub; [lia|by apply/leP].
Qed.

Lemma scal_uint64 i j : big_char F -> scal F i = scal F j -> uint64 i = uint64 j.
Proof.
move=> hc; have [h1 h2] := uint64_range i; have [h3 h4] := uint64_range j.
by rewrite /scal => /nat_inj_char E; apply: Z2Nat.inj => //; apply: E => //; rewrite Z2Nat.id.
Qed.
Lemma scal_inj i j : big_char F -> int64 i -> int64 j -> scal F i = scal F j -> i = j.
Proof. by move=> hc hi hj /(scal_uint64 hc); exact: uint64_inj. Qed.

Lemma scal_of_nat j : (Z.of_nat j < 2 ^ 64)%BZ -> scal F (Z.of_nat j) = j%:R.
Proof. by move=> h; rewrite /scal /uint64 Z.mod_small ?Nat2Z.id //; lia. Qed.

Lemma Eval_horner (cs : seq F) i : Eval cs i = (Poly cs).[scal F i].
Proof. by rewrite /Eval horner_Poly; elim: cs => //= c cs ->. Qed.

Lemma Eval_sum (cs : seq F) i : Eval cs i = \sum_(j < size cs) cs`_j * scal F i ^+ j.
Proof.
rewrite /Eval; elim: cs => [|c cs IH] /=; first by rewrite big_ord0.
rewrite IH big_ord_recl /= expr0 mulr1 mulr_suml addrC; congr (_ + _).
by apply: eq_bigr => j _; rewrite -mulrA -exprSr.
Qed.

Lemma Eval_0 (c : F) cs : Eval (c :: cs) 0 = c.
Proof. by rewrite /Eval /= /scal /= mulr0 add0r. Qed.

(** The multiplier as a product. *)
Definition lag (xs : seq Z) (x : Z) : F :=
  \prod_(y <- xs | y != x) (scal F y * (scal F y - scal F x)^-1).

Lemma lagrange_loopE xs x (n d : F) : lagrange_loop xs x n d =
  (n * \prod_(y <- xs | y != x) scal F y, d * \prod_(y <- xs | y != x) (scal F y - scal F x)).
Proof.
elim: xs n d => [|y ys IH] n d /=; first by rewrite !big_nil !mulr1.
by rewrite !big_cons; case: eqP => /= _; rewrite IH ?mulrA.
Qed.
Lemma rs_innerE xs x (n d : F) : rs_inner xs x n d =
  (n * \prod_(y <- xs | y != x) scal F y, d * \prod_(y <- xs | y != x) (scal F y - scal F x)).
Proof.
elim: xs n d => [|y ys IH] n d /=; first by rewrite !big_nil !mulr1.
by rewrite !big_cons; case: eqP => /= _; rewrite IH ?mulrA.
Qed.

Lemma lag_split xs x : lag xs x =
  (\prod_(y <- xs | y != x) scal F y) * (\prod_(y <- xs | y != x) (scal F y - scal F x))^-1.
Proof. by rewrite /lag big_split /= prodfV. Qed.

Lemma computeLagrangeE xs x : computeLagrangeIndexMultiplier F xs x = lag xs x.
Proof. by rewrite /computeLagrangeIndexMultiplier lagrange_loopE !mul1r lag_split. Qed.

Lemma lag_perm xs ys x : perm_eq xs ys -> lag xs x = lag ys x.
Proof. by move=> p; rewrite /lag (perm_big _ p). Qed.

Lemma size_prod_linear (P : pred Z) (f : Z -> {poly F}) (xs : seq Z) :
  (forall y, (size (f y) <= 2)%N) -> (size (\prod_(y <- xs | P y) f y)%R <= (count P xs).+1)%N.
Proof.
move=> hf; elim: xs => [|y ys IH] /=; first by rewrite big_nil size_poly1.
rewrite big_cons; case: (P y) => //=; apply: leq_trans (size_mul_leq _ _) _.
rewrite add1n -subn1 leq_subLR; apply: leq_trans (leq_add (hf y) IH) _.
by rewrite !add1n add2n.
Qed.

(** Interpolation at 0. *)
Lemma lagrange (p : {poly F}) (xs : seq Z) :
  {in xs &, injective (scal F)} -> uniq xs -> (size p <= size xs)%N ->
  p.[0] = \sum_(x <- xs) lag xs x * p.[scal F x].
Proof.
move=> inj u sz.
pose L x := \prod_(y <- xs | y != x) (((scal F y)%:P - 'X) * ((scal F y - scal F x)^-1)%:P).
pose q := \sum_(x <- xs) p.[scal F x] *: L x.
have szL x : x \in xs -> (size (L x) <= size xs)%N.
  move=> xin; apply: leq_trans (size_prod_linear _ _ _) _.
    move=> y; apply: leq_trans (size_mul_leq _ _) _.
    have h1 : (size ((scal F y)%:P - 'X)%R <= 2)%N.
      by rewrite -opprB size_opp size_XsubC.
    have h2 := size_polyC_leq1 ((scal F y - scal F x)^-1).
    rewrite -subn1 leq_subLR; exact: leq_trans (leq_add h1 h2) _.
  rewrite -(count_predC (pred1 x) xs) addnC -addn1 leq_add2l.
  by rewrite count_uniq_mem // xin.
have Lz x z : x \in xs -> z \in xs -> (L x).[scal F z] = (x == z)%:R.
  move=> xin zin; rewrite horner_prod; case: (altP (x =P z)) => [<-|ne] /=.
    rewrite big_seq_cond big1 // => y /andP[yin yx].
    rewrite !hornerE mulfV // subr_eq0; apply: contra yx => /eqP h.
    by rewrite (inj _ _ yin xin h).
  rewrite (big_rem z) //= eq_sym ne !hornerE subrr mul0r mul0r //.
have pq : p - q = 0.
  apply: (@roots_geq_poly_eq0 _ _ [seq scal F x | x <- xs]).
  - apply/allP => _ /mapP[z zin ->]; rewrite rootE !hornerE horner_sum subr_eq0 eq_sym.
    rewrite (big_rem z) //= hornerZ Lz // eqxx mulr1 big_seq big1 ?addr0 // => x.
    rewrite mem_rem_uniq // inE => /andP[xz xin].
    by rewrite hornerZ Lz // (negbTE xz) mulr0.
  - by rewrite map_inj_in_uniq.
  - rewrite size_map; apply: leq_trans (size_add _ _) _; rewrite size_opp geq_max sz /=.
    rewrite /q big_seq; elim/big_ind: _ => [|a b ha hb|x xin].
    + by rewrite size_poly0.
    + by apply: leq_trans (size_add _ _) _; rewrite geq_max ha.
    + by apply: leq_trans (size_scale_leq _ _) _; exact: szL.
have -> : p.[0] = q.[0] by rewrite -[p](subrK q) pq add0r.
rewrite /q horner_sum; apply: eq_bigr => x _; rewrite hornerZ mulrC; congr (_ * _).
by rewrite horner_prod /lag; apply: eq_bigr => y _; rewrite !hornerE subr0.
Qed.

Lemma newLagrangeE t x indices : size indices = t ->
  newLagrangeIndexMultiplier F t x indices = if uniq indices then Some (lag indices x) else None.
Proof.
move=> st; rewrite /newLagrangeIndexMultiplier /=; case: (boolP (uniq indices)) => u.
  rewrite undup_id // st ltnn computeLagrangeE take_oversize ?size_sort ?st //.
  by congr Some; apply: lag_perm; rewrite perm_sort.
by rewrite -st ltn_size_undup (negbTE u).
Qed.

Lemma reconstructSecretE (xy : seq (Z * F)) inner :
  (forall x, perm_eq (inner x) (map fst xy)) ->
  reconstructSecret xy inner = \sum_(p <- xy) lag (map fst xy) p.1 * p.2.
Proof.
move=> hin; rewrite /reconstructSecret.
suff E ys acc : foldl (fun acc p => let: (nom, denom) := rs_inner (inner p.1) p.1 p.2 1 in acc + nom * denom^-1) acc ys
  = acc + \sum_(p <- ys) lag (map fst xy) p.1 * p.2 :> F by rewrite E add0r.
elim: ys acc => [|p ys IH] acc; first by rewrite big_nil addr0.
rewrite [foldl _ _ _]/=; rewrite rs_innerE IH big_cons addrA; congr (_ + _ + _).
rewrite mul1r -(lag_perm _ (hin p.1)) lag_split.
by rewrite [RHS]mulrC mulrA.
Qed.
End scalars.

Section points.
Variable F : fieldType.
Lemma scal_point i : int64 i -> scal F i = point F i.
Proof.
rewrite /int64 /scal /point /uint64 => h; congr (_%:R); congr Z.to_nat.
case: (Z.leb_spec 0 i) => ?; first by rewrite Z.mod_small; lia.
by rewrite -(Z_mod_plus_full i 1) Z.mod_small; lia.
Qed.
Lemma Eval_poly_at (cs : seq F) i : int64 i -> Eval cs i = poly_at cs (point F i).
Proof. by move=> h; rewrite Eval_sum scal_point. Qed.
Lemma poly_at_0 (cs : seq F) : poly_at cs 0 = cs`_0.
Proof.
rewrite /poly_at; case: cs => [|c cs]; first by rewrite big_ord0.
by rewrite big_ord_recl /= expr0 mulr1 big1 ?addr0 // => j _; rewrite exprS mul0r mulr0.
Qed.
End points.

Section scheme.
Variable S : setting.
Hypothesis laws : pairing_laws S.
Notation F := (sF S).
Notation G1 := (sG1 S).
Notation G2 := (sG2 S).
Local Notation g := (gen1 S).
Local Notation e := (@pair S).
Local Notation H := (@g2Hash S).

Lemma big : big_char F.
Proof. exact: (law_char laws). Qed.

Lemma scale_gen_inj (a b : F) : a *: g = b *: g -> a = b.
Proof.
move/eqP; rewrite -subr_eq0 -scalerBl scaler_eq0 subr_eq0 => /orP[/eqP //|/eqP h].
by case: (law_gen laws).
Qed.

Lemma pair0l y : e 0 y = 0.
Proof. by rewrite -(scale0r (0 : G1)) (law_scalel laws) scale0r. Qed.

Lemma pair_inj_r (x : G1) a b : x <> 0 -> (exists c, x = c *: g) -> e x a = e x b -> a = b.
Proof.
move=> x0 [c xE]; rewrite xE !(law_scalel laws) => h.
have c0 : c != 0 by apply/eqP => c0; apply: x0; rewrite xE c0 scale0r.
have hab : e g a = e g b by move/(congr1 (fun z => c^-1 *: z)): h; rewrite !scalerA mulVf // !scale1r.
apply/eqP; rewrite -subr_eq0; apply/eqP/(law_nondeg laws).
rewrite (law_addr laws) hab -scaleN1r (law_scaler laws) scaleN1r subrr //.
Qed.

(** Public shares. *)
Lemma share_loopE (cs : seq F) (v x : F) res :
  share_loop [seq c *: g | c <- cs] v x res = res + (v * \sum_(j < size cs) cs`_j * x ^+ j) *: g.
Proof.
elim: cs v res => [|c cs IH] v res /=; first by rewrite big_ord0 mulr0 scale0r addr0.
rewrite IH big_ord_recl /= expr0 mulr1 mulrDr scalerDl addrA scalerA; congr (_ + _ *: _).
rewrite -mulrA; congr (_ * _); rewrite mulr_sumr; apply: eq_bigr => j _.
by rewrite exprS mulrCA.
Qed.

Lemma computePublicShareE (cs : seq F) i : cs != [::] ->
  computePublicShare (@GetExponentPoly S cs) i = Some (Eval cs i *: g).
Proof.
case: cs => // c cs _; rewrite /computePublicShare /GetExponentPoly [map _ _]/=.
have [u|u] := altP (uint64 i =P 0%BZ).
  by rewrite Eval_sum big_ord_recl /= /scal u /= expr0 mulr1 big1 ?addr0 // => j _; rewrite exprS mul0r mulr0.
congr Some; rewrite share_loopE add0r Eval_sum big_ord_recl /= expr0 mulr1 scalerDl; congr (_ + _ *: _).
by rewrite mulr_sumr; apply: eq_bigr => j _; rewrite exprS mulrCA.
Qed.

(** Signatures. *)
Lemma isValidSignatureE id sig (s : F) : isValidSignature id sig (s *: g) = (sig == s *: H id).
Proof.
rewrite /isValidSignature (law_scalel laws) -(law_scaler laws) eq_sym.
apply/eqP/eqP => [h|-> //]; apply: (@pair_inj_r g) => //; first exact: (law_gen laws).
by exists 1; rewrite scale1r.
Qed.

Lemma checkVoteE (cs : seq F) v : cs != [::] ->
  checkVote (@GetExponentPoly S cs) v = Some (v_sig v == Eval cs (v_index v) *: H (v_id v)).
Proof. by move=> ne; rewrite /checkVote computePublicShareE //= isValidSignatureE. Qed.

(** Combining votes. *)
Lemma combine_uniq t (indices : seq Z) (vs : seq (vote S)) (s : G2) :
  size indices = t -> uniq indices ->
  foldl (combine_votes t indices) (Some s) vs =
    Some (s + \sum_(v <- vs) lag F indices (v_index v) *: v_sig v).
Proof.
move=> st u; elim: vs s => [|v vs IH] s /=; first by rewrite big_nil addr0.
by rewrite newLagrangeE // u IH big_cons addrA.
Qed.
Lemma combine_None t indices (vs : seq (vote S)) : foldl (combine_votes t indices) None vs = None.
Proof. by elim: vs. Qed.
Lemma combine_dup t (indices : seq Z) (vs : seq (vote S)) (s : G2) :
  size indices = t -> uniq indices = false -> vs <> [::] ->
  foldl (combine_votes t indices) (Some s) vs = None.
Proof. by move=> st u; case: vs => // v vs _ /=; rewrite newLagrangeE // u combine_None. Qed.

Lemma reconstructE (votes : seq (vote S)) t :
  reconstructSecretIbeKey votes t =
    if (t <= size votes)%N && uniq (map (@v_index S) (take t votes)) then
      Some (\sum_(v <- take t votes) lag F (map (@v_index S) (take t votes)) (v_index v) *: v_sig v)
    else None.
Proof.
rewrite /reconstructSecretIbeKey ltnNge; case: leqP => //= st.
have ss : size (map (@v_index S) (take t votes)) = t by rewrite size_map size_takel.
case: ifP => u; first by rewrite combine_uniq // add0r.
apply: combine_dup => // h; move: u; by rewrite h.
Qed.

(** Interpolation in a module. *)
Lemma lagrange_scale (V : lmodType F) (cs : seq F) (xs : seq Z) (h : V) :
  {in xs, forall x, int64 x} -> uniq xs -> (size cs <= size xs)%N ->
  \sum_(x <- xs) lag F xs x *: (Eval cs x *: h) = Eval cs 0 *: h.
Proof.
move=> hx u sz.
have inj : {in xs &, injective (scal F)}.
  by move=> x y xin yin; apply: scal_inj; [exact: big|exact: hx|exact: hx].
have := @lagrange F (Poly cs) xs inj u (leq_trans (size_Poly _) sz).
have -> : (Poly cs).[0] = Eval cs 0 by rewrite Eval_horner /scal.
move=> ->; rewrite scaler_suml; apply: eq_bigr => x _; by rewrite scalerA -Eval_horner.
Qed.

(** Encryption. *)
Lemma Decrypt_Encrypt (s : F) id msg r iv : List.length iv = Cfb.blockSize ->
  Decrypt (s *: H id) (Encrypt (s *: g) id msg r iv) =
    (Some msg, Cipher (r *: g) (c_Mac (Encrypt (s *: g) id msg r iv)) (app iv msg)).
Proof.
move=> hiv; rewrite /Decrypt /Encrypt /=.
have -> : e (r *: g) (s *: H id) = e (r *: (s *: g)) (H id).
  by rewrite (law_scaler laws) !(law_scalel laws) !scalerA mulrC.
by rewrite CfbProofs.bytes_eqb_refl (CfbProofs.aesDecrypt_aesEncrypt _ (law_aes laws)).
Qed.
End scheme.
