(** Vocabulary for the properties of the key set-up's randomness. *)
From Coq Require Import ZArith List String.
From mathcomp Require Import all_ssreflect all_algebra.
From Verif.Base Require Base.
From Verif.Model Require Import Tibe KeySeed Deployment.
From Verif.Model Require TibeCodec.
Set Implicit Arguments.
Unset Strict Implicit.
Unset Printing Implicit Defensive.
Local Open Scope ring_scope.

(** The i-th scalar drawn from a reader. *)
Section draws.
Variables (F : fieldType) (R : Type) (Random : R -> F * R).
Definition draw (r : R) (i : nat) : F := (Random (iter i (fun r => (Random r).2) r)).1.
End draws.
(** How many coefficients a call needs. *)
Definition call_coefs (c : key_call) : nat :=
  match c with CallSystem addrs d => (List.length addrs).+1 * d.+1 | CallDKG _ d => d.+1 end.
(** All coefficients of a list of polynomials, in order. *)
Definition coefs_of F (x : seq F * seq (seq F)) : seq F := x.1 ++ flatten x.2.
(** Two histories that look alike: the same calls with the same number of addresses and degree. *)
Definition alike (c c' : key_call) : Prop :=
  match c, c' with
  | CallSystem a d, CallSystem a' d' | CallDKG a d, CallDKG a' d' => List.length a = List.length a' /\ d = d'
  | _, _ => False
  end.

(** What anybody can do who knows only the seed (it is in the source), how many addresses a system has and
    its degree: repeat the key generation of a process that makes that system first, take server j's
    polynomial, and use its constant coefficient as decryption key. *)
Section outsider.
Variables (S : setting) (cd : TibeCodec.element_codecs (sF S) (sG1 S)).
Variables (R : Type) (absorb : string -> R) (Random : R -> sF S * R).
Definition outsider_secret (n d j : nat) : option (sF S) :=
  let: (_, polys, _) := createConfigs_polys Random n d (absorb "there is nothing up my sleeve"%string) in
  if List.nth_error polys j is Some (s :: _) then Some s else None.
Definition outsider_decrypt (n d j : nat) (id c : bytes) : option bytes :=
  if outsider_secret n d j is Some s then
    if TibeCodec.CipherSetBytes cd c is Base.Ok (g, m, e) then (Decrypt (s *: g2Hash S id) (Cipher g m e)).1 else None
  else None.
End outsider.
