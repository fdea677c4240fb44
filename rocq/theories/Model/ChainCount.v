(** The number of repetitions of calculateChain (messages.go:260),
    int(math.Ceil(math.Sqrt(2 * float64(numberOfChains)))), in IEEE-754 binary64 arithmetic with
    round-to-nearest-even, using Flocq's executable formalisation. *)
From Coq Require Import ZArith.
From Flocq Require Import Core.Core IEEE754.BinarySingleNaN.
Local Open Scope Z_scope.

Definition f64 := binary_float 53 1024.

Global Instance prec53 : Prec_gt_0 53 := eq_refl.
Global Instance emax1024 : Prec_lt_emax 53 1024 := eq_refl.

(** The Go conversion float64(n) of an int: the nearest binary64. *)
Definition f64_of_Z (n : Z) : f64 := binary_normalize 53 1024 _ _ mode_NE n 0 false.

(** Go's float64 product and math.Sqrt (correctly rounded, an instruction on amd64/arm64). *)
Definition f64_mul (x y : f64) : f64 := Bmult mode_NE x y.
Definition f64_sqrt (x : f64) : f64 := Bsqrt mode_NE x.

(** int(math.Ceil(x)) of a finite x, exact as long as it fits an int64 (it does for square roots).
    NaN and the infinities (which cannot arise from a non-negative int) are mapped to 0. *)
Definition int_ceil (x : f64) : Z :=
  match x with
  | B754_finite s m e _ =>
      let z := if s then Z.neg m else Z.pos m in
      if 0 <=? e then z * 2 ^ e else - ((- z) / 2 ^ (- e))
  | _ => 0
  end.

(** messages.go:260 *)
Definition numberOfRepetitions (numberOfChains : Z) : Z :=
  int_ceil (f64_sqrt (f64_mul (f64_of_Z 2) (f64_of_Z numberOfChains))).
