(** C105: what the shares of a random polynomial tell about its secret. *)
From Coq Require Import ZArith NArith Lia List String.
From mathcomp Require Import all_ssreflect all_algebra all_field.
From Verif.Model Require Import Tibe KeySeed.
From Verif.Spec Require Import TibeSpec.
From Verif.Proofs Require Import TibeProofs BlsOrder FpSetting.
Set Implicit Arguments.
Unset Strict Implicit.
Unset Printing Implicit Defensive.
Import GRing.Theory.
Local Open Scope ring_scope.

(** ** Interpolation *)
Lemma interpolate (F : fieldType) (xs : seq F) (f : F -> F) : uniq xs ->
  exists q : {poly F}, (size q <= size xs)%N /\ {in xs, forall x, q.[x] = f x}.
Proof.
elim: xs => [|x xs IH] /=; first by exists 0; rewrite size_poly0.
case/andP=> nx u; have [q [sq hq]] := IH u.
pose P : {poly F} := \prod_(z <- xs) ('X - z%:P).
have Px : P.[x] != 0 by rewrite -rootE root_prod_XsubC.
exists (q + ((f x - q.[x]) / P.[x]) *: P); split.
- apply: leq_trans (size_add _ _) _; rewrite geq_max (leq_trans sq) //=.
  by apply: leq_trans (size_scale_leq _ _) _; rewrite size_prod_XsubC.
- move=> z; rewrite inE !hornerE => /orP[/eqP ->|zin].
    by rewrite mulfVK // addrC subrK.
  have -> : P.[z] = 0 by apply/eqP; rewrite -rootE root_prod_XsubC.
  by rewrite mulr0 addr0 hq.
Qed.

Section secrecy.
Variable F : finFieldType.
Hypothesis big : big_char F.

(** The reader of NewRandomPoly as the list of the scalars it will hand out. *)
Definition draw (r : seq F) : F * seq F := (head 0 r, behead r).
(** NewRandomPoly(d), of the d+1 scalars it draws.  Scalar.Random is uniform when the reader is, so
    counting the tuples of drawn scalars measures probabilities. *)
Definition polyOf (d : nat) (t : d.+1.-tuple F) : seq F := (NewRandomPoly draw d.+1 t).1.
(** The values of the shares with the indices [idx]. *)
Definition sharesOf (cs : seq F) (idx : seq Z) : seq F := [seq Eval cs i | i <- idx].

Lemma NewRandomPolyE k (r : seq F) : size r = k -> NewRandomPoly draw k r = (r, [::]).
Proof. by elim: k r => [|k IH] [|a r] //= [sr]; rewrite IH. Qed.
Lemma polyOfE d (t : d.+1.-tuple F) : polyOf t = t.
Proof. by rewrite /polyOf NewRandomPolyE ?size_tuple. Qed.
Lemma SecretE d (t : d.+1.-tuple F) : Secret (polyOf t) = Some (Poly t).[0].
Proof.
rewrite polyOfE; case: t => -[|a t] //= _; rewrite /Secret /=; congr Some.
by rewrite horner_cons mulr0 add0r.
Qed.
Lemma sharesE d (t : d.+1.-tuple F) idx : sharesOf (polyOf t) idx = [seq (Poly t).[scal F i] | i <- idx].
Proof. by rewrite polyOfE; apply: eq_map => i; exact: Eval_horner. Qed.

(** Adding a polynomial to a tuple of coefficients. *)
Definition shift (d : nat) (q : {poly F}) (t : d.+1.-tuple F) : d.+1.-tuple F :=
  [tuple tnth t i + q`_i | i < d.+1].
Lemma shift_inj d q : injective (@shift d q).
Proof.
move=> t u /(congr1 (fun v => tnth v)) h; apply: eq_from_tnth => i.
by have := congr1 (fun g => g i) h; rewrite !tnth_mktuple => /addIr.
Qed.
Lemma shift_horner d (q : {poly F}) (t : d.+1.-tuple F) x : (size q <= d.+1)%N ->
  (Poly (shift q t)).[x] = (Poly t).[x] + q.[x].
Proof.
move=> sq; rewrite -hornerD; congr horner; apply/polyP=> i; rewrite coefD !coef_Poly.
case: (ltnP i d.+1) => hi.
  rewrite -[i]/(val (Ordinal hi)) -tnth_nth tnth_mktuple (tnth_nth 0) //.
by rewrite !nth_default ?addr0 ?size_tuple // (leq_trans sq).
Qed.

Lemma indices_uniq (idx : seq Z) : uniq idx -> {in idx, forall i, int64 i /\ i <> 0%BZ} ->
  uniq (0 :: [seq scal F i | i <- idx]).
Proof.
move=> u hi; have s0 : scal F 0 = 0 by [].
rewrite /= map_inj_in_uniq ?u ?andbT.
- apply/mapP=> -[i iin h]; have [h1 h2] := hi _ iin; apply: h2.
  by symmetry; apply: scal_inj big _ h1 _; rewrite /int64 ?s0 //; lia.
- by move=> i j iin jin; apply: scal_inj => //; [case: (hi _ iin) | case: (hi _ jin)].
Qed.

(** Between any two tables of values there is a shift. *)
Lemma shift_exists d (idx : seq Z) (f : F -> F) :
  uniq idx -> {in idx, forall i, int64 i /\ i <> 0%BZ} -> (size idx <= d)%N ->
  exists q : {poly F}, (size q <= d.+1)%N /\ q.[0] = f 0 /\ {in idx, forall i, q.[scal F i] = f (scal F i)}.
Proof.
move=> u hi sz; have [q [sq hq]] := interpolate f (indices_uniq u hi).
exists q; split; first by apply: leq_trans sq _; rewrite /= size_map.
split; first by apply: hq; rewrite inE eqxx.
by move=> i iin; apply: hq; rewrite inE map_f ?orbT.
Qed.

(** C105: take any [d] or fewer shares of a polynomial of degree [d], and anything computed from them (for
    example the votes of their holders): for every outcome, all secrets are equally likely. *)
Theorem C105_secrecy (V : eqType) (d : nat) (idx : seq Z) (view : seq F -> V) (v : V) (s s' : F) :
  uniq idx -> {in idx, forall i, int64 i /\ i <> 0%BZ} -> (size idx <= d)%N ->
  #|[set t : d.+1.-tuple F | (Secret (polyOf t) == Some s) && (view (sharesOf (polyOf t) idx) == v)]| =
  #|[set t : d.+1.-tuple F | (Secret (polyOf t) == Some s') && (view (sharesOf (polyOf t) idx) == v)]|.
Proof.
move=> u hi sz.
suff le a b : (#|[set t : d.+1.-tuple F | (Secret (polyOf t) == Some a) && (view (sharesOf (polyOf t) idx) == v)]| <=
  #|[set t : d.+1.-tuple F | (Secret (polyOf t) == Some b) && (view (sharesOf (polyOf t) idx) == v)]|)%N.
  by apply/eqP; rewrite eqn_leq !le.
have [q [sq [q0 qi]]] := shift_exists (fun x => if x == 0 then b - a else 0) u hi sz.
rewrite -(card_imset _ (@shift_inj d q)); apply: subset_leq_card; apply/subsetP=> _ /imsetP[t ht ->].
move: ht; rewrite !inE !SecretE !sharesE !shift_horner // q0 eqxx => /andP[/eqP[<-] /eqP <-].
rewrite addrC subrK eqxx; apply/eqP; congr view; apply/eq_in_map=> i iin.
rewrite shift_horner // qi //; have /= /andP[h _] := indices_uniq u hi.
case: eqP => [h0|_]; last by rewrite addr0.
by move/mapP: h; case; exists i.
Qed.

(** ... and every list of values of those shares goes with every secret, in the same number of ways:
    of all #|F|^(d+1) polynomials, #|F|^(d - k) have the given secret and the given k shares. *)
Theorem C105_count (d : nat) (idx : seq Z) (ys : seq F) (s : F) :
  uniq idx -> {in idx, forall i, int64 i /\ i <> 0%BZ} -> (size idx <= d)%N -> size ys = size idx ->
  #|[set t : d.+1.-tuple F | (Secret (polyOf t) == Some s) && (sharesOf (polyOf t) idx == ys)]| =
  (#|F| ^ (d - size idx))%N.
Proof.
move=> u hi sz sy; set k := size idx in sz sy *.
pose A (w : F * k.-tuple F) := [set t : d.+1.-tuple F | (Secret (polyOf t) == Some w.1) && (sharesOf (polyOf t) idx == w.2)].
have le w w' : (#|A w| <= #|A w'|)%N.
  pose f x := if x == 0 then w'.1 - w.1 else
    (nth 0 w'.2 (index x [seq scal F i | i <- idx]) - nth 0 w.2 (index x [seq scal F i | i <- idx])).
  have [q [sq [q0 qi]]] := shift_exists f u hi sz.
  rewrite -(card_imset _ (@shift_inj d q)); apply: subset_leq_card; apply/subsetP=> _ /imsetP[t ht ->].
  move: ht; rewrite !inE !SecretE !sharesE !shift_horner // q0 /f eqxx => /andP[/eqP[E1] /eqP E2].
  rewrite E1 addrC subrK eqxx /=; apply/eqP; apply: (@eq_from_nth _ 0); rewrite size_map ?size_tuple // => j hj.
  have iin : nth 0%BZ idx j \in idx by rewrite mem_nth.
  rewrite (nth_map 0%BZ) // shift_horner // qi // /f.
  have /= /andP[h us] := indices_uniq u hi.
  case: eqP => [h0|_]; first by move/mapP: h; case; exists (nth 0%BZ idx j).
  have -> : index (scal F (nth 0%BZ idx j)) [seq scal F i | i <- idx] = j.
    by rewrite -(nth_map 0%BZ 0) // index_uniq // size_map.
  have <- : (Poly t).[scal F (nth 0%BZ idx j)] = nth 0 w.2 j by rewrite -E2 (nth_map 0%BZ).
  by rewrite addrC subrK.
have same w w' : #|A w| = #|A w'| by apply/eqP; rewrite eqn_leq !le.
have tot : (\sum_(w : F * k.-tuple F) #|A w| = #|F| ^ d.+1)%N.
  rewrite -card_tuple -sum1_card.
  pose key (t : d.+1.-tuple F) : F * k.-tuple F :=
    ((Poly t).[0], [tuple of [seq (Poly t).[scal F i] | i <- in_tuple idx]]).
  rewrite (partition_big key xpredT) //=; apply: eq_bigr => w _.
  rewrite -sum1_card; apply: eq_bigl => t; rewrite inE SecretE sharesE.
  case: w => a b; rewrite xpair_eqE -val_eqE /=.
  by congr (_ && _); apply/eqP/eqP => [[]|->].
have E : A (s, Tuple (introT eqP sy)) = [set t : d.+1.-tuple F | (Secret (polyOf t) == Some s) && (sharesOf (polyOf t) idx == ys)] by [].
rewrite -E; set w0 := (s, _).
have : (\sum_(w : F * k.-tuple F) #|A w0| = #|F| ^ d.+1)%N by rewrite -tot; apply: eq_bigr => w _; exact: same.
have F0 : (0 < #|F|)%N by apply/card_gt0P; exists 0.
rewrite sum_nat_const card_prod card_tuple -expnS => h.
apply/eqP; rewrite -(eqn_pmul2l (m := #|F| ^ k.+1)) ?expn_gt0 ?F0 //.
by rewrite h -expnD addSn subnKC.
Qed.

(** One share more leaves exactly one secret: C24_reconstruct computes it.  Here: two polynomials of
    degree [d] that agree on d+1 shares have the same secret. *)
Theorem C105_threshold (d : nat) (idx : seq Z) (t t' : d.+1.-tuple F) :
  uniq idx -> {in idx, forall i, int64 i} -> (d < size idx)%N ->
  sharesOf (polyOf t) idx = sharesOf (polyOf t') idx -> Secret (polyOf t) = Secret (polyOf t').
Proof.
move=> u hi sz; rewrite !SecretE !sharesE => h; congr Some.
have inj : {in idx &, injective (scal F)} by move=> i j iin jin; apply: scal_inj => //; exact: hi.
have sp (w : d.+1.-tuple F) : (size (Poly w) <= size idx)%N.
  by apply: leq_trans (size_Poly _) _; rewrite size_tuple.
rewrite !(@lagrange F _ idx) //.
have {}h i : i \in idx -> (Poly t).[scal F i] = (Poly t').[scal F i].
  by move=> iin; have /eq_in_map := h; apply.
by rewrite !big_seq; apply: eq_bigr => i iin; rewrite h.
Qed.
End secrecy.
Print Assumptions C105_secrecy.
Print Assumptions C105_count.
Print Assumptions C105_threshold.

(** The public polynomial determines every coefficient, so what it hides it hides only as long as the
    discrete logarithm in G1 is hard. *)
Theorem C105_public (S : setting) (laws : pairing_laws S) (cs cs' : seq (sF S)) :
  GetExponentPoly cs = GetExponentPoly cs' -> cs = cs'.
Proof. by apply: inj_map => a b; exact: scale_gen_inj laws a b. Qed.
Print Assumptions C105_public.

(** The scalar field of BLS12-381 qualifies: with 4 of the shares of a polynomial of degree 4, every secret
    has exactly one polynomial that fits. *)
Example C105_example : exists F : finFieldType, big_char F /\ N.of_nat #|F| = bls_order /\
  forall (ys : seq F) (s : F), size ys = 4%N ->
  #|[set t : 5.-tuple F | (Secret (polyOf t) == Some s) && (sharesOf (polyOf t) [:: 2; 9; 5; 10]%BZ == ys)]| = 1%N.
Proof.
have [p [E [pp [laws _]]]] := setting_exists.
have B : big_char (Fp_finFieldType p) by exact: (law_char laws).
exists (Fp_finFieldType p); split; first by [].
split; first by rewrite card_Fp.
move=> ys s sy; rewrite (C105_count (d := 4) B s (idx := [:: 2; 9; 5; 10]%BZ)) //.
by move=> i; rewrite !inE => /or4P[] /eqP ->; split=> //; rewrite /int64; lia.
Qed.
