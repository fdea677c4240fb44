(** The floating-point chain count is the exact ceiling of the square root up to 2^51. *)
From Coq Require Import ZArith Reals Lia Lra Psatz.
From Flocq Require Import Core.Core IEEE754.BinarySingleNaN.
From Verif.Model Require Import ChainCount.
Local Open Scope Z_scope.

Local Notation fexp := (SpecFloat.fexp 53 1024).
Local Notation rnd := (round radix2 fexp (round_mode mode_NE)).

Lemma format_scaled (m e : Z) : Z.abs m < 2 ^ 53 -> -1074 <= e -> generic_format radix2 fexp (F2R (Float radix2 m e)).
Proof.
  intros Hm He. change fexp with (FLT_exp (-1074) 53).
  apply generic_format_FLT. exists (Float radix2 m e); simpl; auto.
Qed.

Lemma format_IZR (m : Z) : Z.abs m < 2 ^ 53 -> generic_format radix2 fexp (IZR m).
Proof.
  intros Hm. replace (IZR m) with (F2R (Float radix2 m 0)).
  - apply format_scaled; lia.
  - unfold F2R; simpl. lra.
Qed.

Lemma big_enough (m : Z) : Z.abs m < 2 ^ 53 -> (Rabs (IZR m) < bpow radix2 1024)%R.
Proof.
  intros Hm. rewrite <- abs_IZR. apply Rlt_trans with (bpow radix2 53).
  - change (bpow radix2 53) with (IZR (2 ^ 53)). apply IZR_lt. exact Hm.
  - apply bpow_lt. lia.
Qed.

Lemma f64_of_Z_exact n : 0 <= n < 2 ^ 53 ->
  B2R (f64_of_Z n) = IZR n /\ is_finite (f64_of_Z n) = true /\ Bsign (f64_of_Z n) = false.
Proof.
  intros Hn. unfold f64_of_Z.
  generalize (binary_normalize_correct 53 1024 _ _ mode_NE n 0 false). cbv zeta.
  replace (F2R (Float radix2 n 0)) with (IZR n) by (unfold F2R; simpl; lra).
  rewrite round_generic; [|apply valid_rnd_round_mode|apply format_IZR; lia].
  rewrite Rlt_bool_true by (apply big_enough; lia).
  intros (H1 & H2 & H3). split; [exact H1|]. split; [exact H2|].
  rewrite H3. destruct (Z.eq_dec n 0) as [->|].
  - now rewrite Rcompare_Eq.
  - rewrite Rcompare_Gt; auto. apply IZR_lt. lia.
Qed.

Lemma f64_mul_exact x y a b :
  B2R x = IZR a -> B2R y = IZR b -> is_finite x = true -> is_finite y = true ->
  Bsign x = false -> Bsign y = false ->
  Z.abs (a * b) < 2 ^ 53 ->
  B2R (f64_mul x y) = IZR (a * b) /\ is_finite (f64_mul x y) = true /\ Bsign (f64_mul x y) = false.
Proof.
  intros Hx Hy Fx Fy Sx Sy Hab. unfold f64_mul.
  generalize (Bmult_correct 53 1024 _ _ mode_NE x y). rewrite Hx, Hy, <- mult_IZR.
  rewrite round_generic; [|apply valid_rnd_round_mode|apply format_IZR; lia].
  rewrite Rlt_bool_true by (apply big_enough; lia).
  intros (H1 & H2 & H3). rewrite Fx, Fy in H2. split; [exact H1|]. split; [exact H2|].
  rewrite H3, Sx, Sy; auto. destruct (Bmult mode_NE x y); simpl in *; congruence.
Qed.

Lemma int_ceil_correct (x : f64) : is_finite x = true -> int_ceil x = Zceil (B2R x).
Proof.
  destruct x as [s| s| |s m e H]; simpl; try discriminate; intros _.
  - symmetry. apply (Zceil_IZR 0).
  - set (z := if s then Z.neg m else Z.pos m).
    replace (cond_Zopp s (Z.pos m)) with z by (destruct s; reflexivity).
    destruct (Z.leb_spec 0 e) as [He|He].
    + unfold F2R; simpl. rewrite <- (IZR_Zpower radix2) by exact He. rewrite <- mult_IZR.
      symmetry. apply Zceil_IZR.
    + unfold Zceil. f_equal. unfold F2R; simpl.
      replace (- (IZR z * bpow radix2 e))%R with (IZR (- z) / IZR (radix2 ^ (- e)))%R.
      * symmetry. apply Zfloor_div. pose proof (Zpower_gt_0 radix2 (- e)). simpl in *. lia.
      * rewrite IZR_Zpower by lia. rewrite opp_IZR. unfold Rdiv. rewrite <- bpow_opp.
        rewrite Z.opp_involutive. lra.
Qed.

Theorem numberOfRepetitions_exact (n k : Z) :
  1 <= n <= 2 ^ 51 -> 1 <= k -> (k - 1) * (k - 1) < 2 * n <= k * k ->
  numberOfRepetitions n = k.
Proof.
  intros Hn Hk [Hlo Hhi]. unfold numberOfRepetitions.
  destruct (f64_of_Z_exact 2) as (T1 & T2 & T3); [lia|].
  destruct (f64_of_Z_exact n) as (N1 & N2 & N3); [lia|].
  destruct (f64_mul_exact _ _ _ _ T1 N1 T2 N2 T3 N3) as (M1 & M2 & M3); [lia|].
  set (p := f64_mul (f64_of_Z 2) (f64_of_Z n)) in *.
  destruct (Bsqrt_correct 53 1024 _ _ mode_NE p) as (S1 & S2 & _).
  assert (is_finite (f64_sqrt p) = true) as Fs.
  { unfold f64_sqrt. rewrite S2. clear - M1 M2 M3 Hn. destruct p as [?|?| |[] ? ?]; simpl in *; auto; discriminate. }
  rewrite int_ceil_correct by exact Fs.
  unfold f64_sqrt. rewrite S1, M1.
  assert (k <= 2 ^ 26) as Hk26 by nia.
  apply Zceil_imp. split.
  - (* k - 1 < rnd (sqrt 2n) *)
    apply Rlt_le_trans with (F2R (Float radix2 ((k - 1) * 2 ^ 27 + 1) (-27))).
    + unfold F2R; cbn [Fnum Fexp]. rewrite plus_IZR, mult_IZR.
      change (bpow radix2 (-27)) with (/ IZR (2 ^ 27))%R.
      assert (0 < IZR (2 ^ 27))%R as Hp by (apply IZR_lt; lia).
      rewrite Rmult_plus_distr_r, Rmult_assoc, Rinv_r by lra.
      pose proof (Rinv_0_lt_compat _ Hp). lra.
    + apply round_ge_generic; [apply FLT_exp_valid; reflexivity|apply valid_rnd_round_mode| |].
      * apply format_scaled; lia.
      * rewrite <- (sqrt_square (F2R _)).
        -- apply sqrt_le_1_alt. unfold F2R; cbn [Fnum Fexp].
           change (bpow radix2 (-27)) with (/ IZR (2 ^ 27))%R.
           assert (0 < IZR (2 ^ 27))%R as Hp by (apply IZR_lt; lia).
           set (A := (k - 1) * 2 ^ 27 + 1).
           apply Rmult_le_reg_r with (IZR (2 ^ 27) * IZR (2 ^ 27))%R; [nra|].
           replace (IZR A * / IZR (2 ^ 27) * (IZR A * / IZR (2 ^ 27)) * (IZR (2 ^ 27) * IZR (2 ^ 27)))%R
             with (IZR A * IZR A)%R by (field; lra).
           rewrite <- !mult_IZR. apply IZR_le. unfold A. nia.
        -- unfold F2R; cbn [Fnum Fexp]. apply Rmult_le_pos; [apply IZR_le; lia|apply bpow_ge_0].
  - apply round_le_generic; [apply FLT_exp_valid; reflexivity|apply valid_rnd_round_mode| |].
    + apply format_IZR; lia.
    + rewrite <- (sqrt_square (IZR k)) by (apply IZR_le; lia).
      apply sqrt_le_1_alt. rewrite <- mult_IZR. apply IZR_le. lia.
Qed.

(** The bound 2^51 cannot be moved past the next perfect square plus one. *)
Theorem numberOfRepetitions_2_51_refuted :
  let n := 2 ^ 51 + 2 ^ 26 + 1 in
  numberOfRepetitions n * numberOfRepetitions n < 2 * n.
Proof. vm_compute. reflexivity. Qed.
