(** The order of the BLS12-381 groups (bls12381.Order, the modulus of Scalar) is prime: Pocklington's
    criterion with witness 7 and a fully factored divisor of r - 1 above the square root of r. *)
From Coq Require Import NArith PArith Lia List.
From mathcomp Require Import all_ssreflect all_algebra all_field.
Set Implicit Arguments.
Unset Strict Implicit.
Unset Printing Implicit Defensive.
Import GRing.Theory.
Local Open Scope ring_scope.
Delimit Scope N_scope with BN.

Definition bls_order : N := 0x73eda753299d7d483339d80809a1d80553bda402fffe5bfeffffffff00000001%BN.

(** Trial division. *)
Fixpoint no_divisor (fuel : nat) (d n : N) : bool :=
  match fuel with
  | O => false
  | fuel.+1 => if N.ltb n (d * d) then true
               else if N.eqb (N.modulo n d) 0 then false else no_divisor fuel (N.succ d) n
  end.
Lemma no_divisorP fuel d n e : no_divisor fuel d n -> (d <= e)%BN -> (e * e <= n)%BN -> N.modulo n e <> 0%BN.
Proof.
elim: fuel d => //= fuel IH d; case: N.ltb_spec => h1.
  move=> _ h2 h3; nia.
case: N.eqb_spec => // h2 h3 h4 h5.
have [->|ne] := N.eq_dec e d; first by [].
apply: (IH (N.succ d)) => //; lia.
Qed.
Lemma dvdN (d n : N) : (N.to_nat d %| N.to_nat n)%N -> N.modulo n d = 0%BN \/ d = 0%BN.
Proof.
move=> /dvdnP[k e]; case: (N.eq_dec d 0) => [|d0]; [by right|left].
have -> : n = (N.of_nat k * d)%BN.
  by apply: N2Nat.inj; rewrite N2Nat.inj_mul Nat2N.id.
exact: N.mod_mul.
Qed.
Lemma to_nat_gt1 (n : N) : (1 < n)%BN -> (1 < N.to_nat n)%N.
Proof. by move=> h; apply/ltP; lia. Qed.
Lemma prime_of (fuel : nat) (n : N) : (1 < n)%BN -> no_divisor fuel 2 n -> prime (N.to_nat n).
Proof.
move=> h1 h2; have n1 := to_nat_gt1 h1.
apply: ltn_pdiv2_prime; first exact: ltnW.
rewrite ltnNge; apply/negP => le.
have p1 := prime_gt1 (pdiv_prime n1).
set d := pdiv _ in le p1; have hd : (d %| N.to_nat n)%N by apply: pdiv_dvd.
have e : d = N.to_nat (N.of_nat d) by rewrite Nat2N.id.
rewrite e in hd; move/ltP: p1 => p1.
case: (dvdN hd) => [|h]; last by lia.
apply: (no_divisorP h2); first by lia.
move: le; rewrite -mulnn -multE => /leP le; lia.
Qed.

(** Powers modulo m. *)
Fixpoint powmod (m a : N) (e : positive) : N :=
  match e with
  | xH => N.modulo a m
  | xO e => let b := powmod m a e in N.modulo (b * b) m
  | xI e => let b := powmod m a e in N.modulo (N.modulo (b * b) m * a) m
  end.

Section field.
Variables (p : nat) (pp : prime p) (m : N) (pm : (p %| N.to_nat m)%N).
Definition phi (n : N) : 'F_p := (N.to_nat n)%:R.
Lemma phiD a b : phi (a + b) = phi a + phi b.
Proof. by rewrite /phi N2Nat.inj_add plusE natrD. Qed.
Lemma phiM a b : phi (a * b) = phi a * phi b.
Proof. by rewrite /phi N2Nat.inj_mul multE natrM. Qed.
Lemma phi_m : phi m = 0.
Proof. by apply/eqP; rewrite /phi -(dvdn_charf (char_Fp pp)). Qed.
Lemma phi_mod a : phi (N.modulo a m) = phi a.
Proof. by rewrite {2}(N.div_mod' a m) phiD phiM phi_m mul0r add0r. Qed.
Lemma phi_pow a e : phi (powmod m a e) = phi a ^+ Pos.to_nat e.
Proof.
elim: e => [e IH|e IH|] /=.
- by rewrite Pos2Nat.inj_xI phi_mod phiM phi_mod phiM IH exprSr multE mul2n -addnn exprD.
- by rewrite Pos2Nat.inj_xO phi_mod phiM IH multE mul2n -addnn exprD.
- by rewrite phi_mod expr1.
Qed.
(** u is an inverse of c - 1 modulo m, so c is not 1. *)
Lemma phi_neq1 c u : (0 < c)%BN -> N.modulo (u * (c - 1)) m = N.modulo 1 m -> phi c <> 1.
Proof.
move=> c0 h e.
have h1 : phi (u * (c - 1)) = 1 by rewrite -phi_mod h phi_mod /phi.
have h2 : phi (c - 1) = 0.
  apply: (addIr (phi 1)); rewrite -phiD N.sub_add; last by lia.
  by rewrite e /phi add0r.
move: h1; rewrite phiM h2 mulr0 => /eqP; rewrite eq_sym oner_eq0 //.
Qed.
End field.

(** A divisor of q^k*s that does not divide q^(k-1)*s is divisible by q^k. *)
Lemma full_power (q k s d : nat) : prime q -> ~~ (q %| s)%N -> (0 < s)%N ->
  (d %| q ^ k.+1 * s)%N -> ~~ (d %| q ^ k * s)%N -> (q ^ k.+1 %| d)%N.
Proof.
move=> pq qs s0 dn; apply: contraR => nq.
have q0 := prime_gt0 pq.
have n0 : (0 < q ^ k.+1 * s)%N by rewrite muln_gt0 expn_gt0 q0 s0.
have d0 : (0 < d)%N by apply: dvdn_gt0 dn.
rewrite pfactor_dvdn // -ltnNge ltnS in nq.
rewrite -(partnC q d0) Gauss_dvd ?coprime_partC //; apply/andP; split.
  by rewrite dvdn_mulr // p_part; apply: dvdn_exp2l.
apply: dvdn_mull.
have h : (d`_q^' %| q ^ k.+1 * s)%N by apply: dvdn_trans dn; apply: dvdn_part.
rewrite Gauss_dvdr // in h.
rewrite coprime_sym coprime_pexpl // prime_coprime //.
apply/negP => h2; have := part_pnat q^' d; rewrite /pnat => /andP[_ /allP] /(_ q).
by rewrite mem_primes pq part_gt0 h2 => /(_ isT); rewrite !inE eqxx.
Qed.

Lemma order_dvd (p : nat) (x : 'F_p) (n : nat) : prime p -> (0 < n)%N -> x ^+ n = 1 ->
  exists d, (d %| p.-1)%N /\ (d %| n)%N /\ forall e, (d %| e)%N -> x ^+ e = 1.
Proof.
move=> pp n0 xn; have [d hd dn] := prim_order_exists n0 xn.
have x0 : x != 0.
  by apply/eqP => h; move: xn; rewrite h expr0n (gtn_eqF n0) => /eqP; rewrite eq_sym oner_eq0.
exists d; split; last by split=> // e; rewrite (prim_order_dvd hd) => /eqP.
have := expf_card x; rewrite card_Fp // => h.
rewrite (prim_order_dvd hd); apply/eqP; apply: (mulfI x0).
by rewrite -exprS prednK ?prime_gt0 // mulr1.
Qed.

(** One prime q: n = q^(k+1) * s. *)
Record pocklington_check := PCheck { pk_q : N; pk_k : nat; pk_s : N; pk_inv : N; pk_fuel : nat }.
Definition check_ok (r a : N) (c : pocklington_check) : bool :=
  let e := (pk_q c ^ N.of_nat (pk_k c) * pk_s c)%BN in
  let v := powmod r a (N.succ_pos (N.pred e)) in
  [&& N.ltb 1 (pk_q c), no_divisor (pk_fuel c) 2 (pk_q c), N.ltb 0 (pk_s c),
      ~~ N.eqb (N.modulo (pk_s c) (pk_q c)) 0, N.eqb (pk_q c * e) (N.pred r), N.ltb 0 e, N.ltb 0 v &
      N.eqb (N.modulo (pk_inv c * (v - 1)) r) (N.modulo 1 r)].
Definition factor (c : pocklington_check) : N := (pk_q c ^ N.of_nat (pk_k c).+1)%BN.

Lemma to_nat_pow (q : N) (k : nat) : N.to_nat (q ^ N.of_nat k) = (N.to_nat q ^ k)%N.
Proof.
elim: k => [//|k IH]; rewrite Nat2N.inj_succ N.pow_succ_r' N2Nat.inj_mul IH multE; by rewrite expnS.
Qed.
Lemma check_factor (r a : N) c (p : nat) : (1 < r)%BN -> powmod r a (N.succ_pos (N.pred (N.pred r))) = 1%BN ->
  check_ok r a c -> prime p -> (p %| N.to_nat r)%N -> (N.to_nat (factor c) %| p.-1)%N.
Proof.
move=> r1 hr hc pp pr.
move: hc => /and5P[/N.ltb_lt q1 /(prime_of q1) pq /N.ltb_lt s0 qs /and4P[/N.eqb_eq ee /N.ltb_lt e0 /N.ltb_lt v0 /N.eqb_eq hv]].
set e := (pk_q c ^ _ * _)%BN in ee e0 v0 hv; set v := powmod _ _ _ in v0 hv.
have pos_nat x : (0 < x)%BN -> Pos.to_nat (N.succ_pos (N.pred x)) = N.to_nat x.
  by move=> h; rewrite -[Pos.to_nat _]/(N.to_nat (N.pos _)) N.succ_pos_spec; congr N.to_nat; lia.
have x1 : phi p a ^+ N.to_nat (N.pred r) = 1.
  rewrite -pos_nat; last by lia.
  by rewrite -(phi_pow pp pr) hr.
have x2 : phi p a ^+ N.to_nat e <> 1.
  rewrite -(pos_nat _ e0) -(phi_pow pp pr); exact: (phi_neq1 pp pr v0 hv).
have n0 : (0 < N.to_nat (N.pred r))%N by apply/ltP; lia.
have [d [d1 [d2 d3]]] := order_dvd pp n0 x1.
apply: dvdn_trans d1; rewrite /factor to_nat_pow.
have en : N.to_nat e = (N.to_nat (pk_q c) ^ pk_k c * N.to_nat (pk_s c))%N.
  by rewrite /e N2Nat.inj_mul to_nat_pow multE.
apply: (@full_power _ _ (N.to_nat (pk_s c))) => //.
- apply/negP => /dvdN[h|h]; last by lia.
  by move: qs; rewrite h.
- by apply/ltP; lia.
- by move: d2; rewrite -ee N2Nat.inj_mul en multE mulnA -expnS.
- by apply/negP; rewrite -en => /d3.
Qed.

Definition bls_checks : seq pocklington_check :=
  [:: PCheck 2 31 12208678567578594777604504606729831043093128246378069236549469339647%BN
        26217937587563095239723870254092982918845276250263818911301829349969290592256%BN 5;
      PCheck 906349 1 63831874928265641722739442819312836421123199169656733959729446912%BN
        29151262252276627170863686650079642517799996839957025940997617530301678876505%BN 2000;
      PCheck 52437899 0 999961405302035279473110478895921551656570994587857873989262207090688%BN
        16886755245871592402150520133323802684375871656657805845969397140992207962765%BN 10000;
      PCheck 254760293 1 807913828202290508598677772776006232357759729707044766220288%BN
        24675323886831622127612097416448099851529718468688737594381699456767149257066%BN 20000].
Lemma bls_checks_ok : all (check_ok bls_order 7) bls_checks.
Proof. by vm_cast_no_check (erefl true). Qed.
Lemma bls_witness : powmod bls_order 7 (N.succ_pos (N.pred (N.pred bls_order))) = 1%BN.
Proof. by vm_cast_no_check (erefl 1%BN). Qed.
(** The four prime powers are pairwise coprime, and their product is above the square root. *)
Definition known_part : N := foldr (fun c acc => factor c * acc)%BN 1%BN bls_checks.
Definition coprime_chain : bool :=
  (fix go (l : seq pocklington_check) : bool :=
     if l is c :: l then
       ~~ N.eqb (N.modulo (foldr (fun c acc => factor c * acc)%BN 1%BN l) (pk_q c)) 0 && go l
     else true) bls_checks.
Lemma coprime_chain_ok : coprime_chain.
Proof. by vm_cast_no_check (erefl true). Qed.
Lemma known_part_big : N.ltb bls_order (known_part * known_part) = true.
Proof. by vm_cast_no_check (erefl true). Qed.

Lemma known_part_dvd p : prime p -> (p %| N.to_nat bls_order)%N -> (N.to_nat known_part %| p.-1)%N.
Proof.
move=> pp pr.
have := bls_checks_ok; have := coprime_chain_ok; rewrite /coprime_chain /known_part.
elim: bls_checks => [|c l IH]; first by move=> _ _; rewrite dvd1n.
move=> /andP[h1 h2] /andP[h3 h4].
have h5 := check_factor (erefl : (1 < bls_order)%BN) bls_witness h3 pp pr.
have h6 := IH h2 h4.
rewrite [foldr _ _ _]/= N2Nat.inj_mul multE Gauss_dvd ?h5 ?h6 //.
move: h3 => /and5P[/N.ltb_lt q1 /(prime_of q1) pq _ _ _].
rewrite /factor to_nat_pow coprime_pexpl // prime_coprime //.
by apply/negP => /dvdN[h|h]; [move: h1; rewrite h|lia].
Qed.

Lemma bls_order_gt1 : (1 < N.to_nat bls_order)%N.
Proof. exact: (@to_nat_gt1 bls_order erefl). Qed.
Theorem bls_order_prime : prime (N.to_nat bls_order).
Proof.
have r1 := bls_order_gt1.
apply: ltn_pdiv2_prime; first exact: ltnW.
have pp := pdiv_prime r1; have := known_part_dvd pp (pdiv_dvd _).
move: known_part_big => /N.ltb_lt big.
move: pp big => {r1}; move: (pdiv _) => p; move: known_part bls_order => kp r pp big.
have p1 : (0 < p.-1)%N by case: (p) pp => [|[|q]].
move=> /(dvdn_leq p1) /leP le.
rewrite -mulnn -multE; apply/ltP.
have hp : p = p.-1.+1 by rewrite prednK // prime_gt0.
move: le hp; move: (p.-1) => a le ->; nia.
Qed.
Print Assumptions bls_order_prime.
