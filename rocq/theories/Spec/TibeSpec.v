(** Specification vocabulary for the threshold identity based encryption: polynomials as sums,
    points, correct votes. *)
From Coq Require Import ZArith.
From mathcomp Require Import all_ssreflect all_algebra.
From Verif.Model Require Import Tibe.
Set Implicit Arguments.
Unset Strict Implicit.
Unset Printing Implicit Defensive.
Import GRing.Theory.
Local Open Scope ring_scope.

(** The range of a Go int on a 64-bit machine. *)
Definition int64 (i : Z) : Prop := (- 2 ^ 63 <= i < 2 ^ 63)%BZ.

(** The characteristic is 0 or at least 2^64: different 64-bit integers are different scalars.  (The
    scalar field of BLS12-381 has prime order of 255 bits.) *)
Definition big_char (F : fieldType) : Prop :=
  forall n : nat, (Z.of_nat n < 2 ^ 64)%BZ -> n%:R = 0 :> F -> n = 0%N.

(** The evaluation point of an index: a negative int is read as the uint64 with the same bits. *)
Definition point (F : fieldType) (i : Z) : F :=
  (Z.to_nat (if Z.leb 0 i then i else i + 2 ^ 64)%BZ)%:R.

(** The polynomial a_0 + a_1 x + a_2 x^2 + ... *)
Definition poly_at (F : fieldType) (coefs : seq F) (x : F) : F := \sum_(j < size coefs) coefs`_j * x ^+ j.

(** The vote that the holder of the share of index [v_index v] of [coefs] gives for the identity
    [v_id v] is H(id)^P(index). *)
Definition correct_vote (S : setting) (coefs : seq (sF S)) (v : vote S) : Prop :=
  v_sig v = poly_at coefs (point (sF S) (v_index v)) *: g2Hash S (v_id v).

(** The Lagrange coefficient at 0 of the point x among the points xs. *)
Definition lagrange_coef (F : fieldType) (xs : seq Z) (x : Z) : F :=
  \prod_(y <- xs | y != x) (point F y / (point F y - point F x)).
