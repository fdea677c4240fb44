(** Where the polynomials of a deployment come from (config/config.go:12-24, 126-154, tibe/poly.go:57-74):
    one package-level reader, seeded in init with a constant, read by every key set-up of the process. *)
From Coq Require Import ZArith List String.
From mathcomp Require Import all_ssreflect all_algebra.
From Verif.Base Require Base.
From Verif.Model Require Import Tibe.
Set Implicit Arguments.
Unset Strict Implicit.
Unset Printing Implicit Defensive.

(** config.go:12 *)
Definition seed : string := "there is nothing up my sleeve".

Section keyseed.
Variable (F : fieldType).
(** The states of a sha3.ShakeHash; [absorb s]: NewShake128 followed by Write(s).  [Random r]:
    bls12381.Scalar.Random reads from r and returns a scalar, a function of the bytes read (crypto/rand.Int);
    reading from a ShakeHash does not fail. *)
Variables (R : Type) (absorb : string -> R) (Random : R -> F * R).

(** config.go:14-24 *)
Definition randomReader0 : R := absorb seed.

(** poly.go:57-74 NewRandomPoly, for [k] = degree + 1 coefficients. *)
Fixpoint NewRandomPoly (k : nat) (r : R) : seq F * R :=
  match k with
  | O => ([::], r)
  | k.+1 => let: (a, r1) := Random r in let: (p, r2) := NewRandomPoly k r1 in (a :: p, r2)
  end.
(** config.go:126-141 vsspolynomialsSetup *)
Fixpoint vsspolynomialsSetup (n d : nat) (r : R) : seq (seq F) * R :=
  match n with
  | O => ([::], r)
  | n.+1 => let: (p, r1) := NewRandomPoly d.+1 r in let: (ps, r2) := vsspolynomialsSetup n d r1 in (p :: ps, r2)
  end.
(** config.go:62-63, 98-99: the polynomials of one createConfigs, in the order they are drawn.  (The rrpc
    keys are drawn from crypto/rand.) *)
Definition createConfigs_polys (n d : nat) (r : R) : seq F * seq (seq F) * R :=
  let: (dkg, r1) := NewRandomPoly d.+1 r in
  let: (polys, r2) := vsspolynomialsSetup n d r1 in (dkg, polys, r2).

(** A process makes calls one after the other (calls at the same time would race on the reader): the
    exported CreateSystemConfigs (addresses, polyDegree; 28-51) and DKGSetup (143-154). *)
Inductive key_call := CallSystem (addrs : seq string) (d : nat) | CallDKG (addrs : seq string) (d : nat).
Definition key_step (c : key_call) (r : R) : seq F * seq (seq F) * R :=
  match c with
  | CallSystem addrs d => createConfigs_polys (List.length addrs) d r
  | CallDKG _ d => let: (dkg, r1) := NewRandomPoly d.+1 r in (dkg, [::], r1)
  end.
(** The polynomials of every call of a process that starts with reader state [r]. *)
Fixpoint key_history (h : seq key_call) (r : R) : seq (seq F * seq (seq F)) :=
  match h with
  | [::] => [::]
  | c :: h => let: (dkg, polys, r1) := key_step c r in (dkg, polys) :: key_history h r1
  end.
Definition process_keys (h : seq key_call) : seq (seq F * seq (seq F)) := key_history h randomReader0.
End keyseed.
