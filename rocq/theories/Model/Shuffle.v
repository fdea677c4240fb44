(** Model of shuffle.go. *)
From Verif.Base Require Import Base.

(** An io.Reader (shuffle.go:12): an arbitrary state machine.  One Read(tmp) call with a 4-byte
    buffer writes some bytes into it; errors are ignored by the code (shuffle.go:62), so a short,
    failing or over-long answer is just what it wrote. *)
Record reader (S : Type) := Reader { rd_read : S → bytes * S }.
Arguments Reader {S} _.
Arguments rd_read {S} _ _.

(** [tmp := make([]byte,4); _, _ = rand.Read(tmp)] (shuffle.go:61-62): the buffer afterwards is
    what was written (at most 4 bytes) over zeros. *)
Definition fill4 (w : bytes) : bytes := take 4 (w ++ replicate 4 Byte.x00).

(** shuffle.go:60-65 randInt. [int(uint32)] is non-negative, [%] the usual remainder; the caller
    always passes mod >= 1. *)
Definition randInt {S} (r : reader S) (s : S) (m : nat) : nat * S :=
  let '(w, s') := rd_read r s in
  (N.to_nat (be_dec (fill4 w) mod N.of_nat m), s').

(** [arr[i], arr[j] = arr[j], arr[i]]; [None] = index out of range panic. *)
Definition swap {A} (l : list A) (i j : nat) : option (list A) :=
  a ← l !! i; b ← l !! j; Some (<[j := a]> (<[i := b]> l)).

(** shuffle.go:51-54, the loop body for i = n-1 .. 0; [perm_loop r s n arr] runs i = n-1 .. 0. *)
Fixpoint perm_loop {S A} (r : reader S) (s : S) (n : nat) (arr : list A) : option (list A * S) :=
  match n with
  | O => Some (arr, s)
  | Datatypes.S i =>
      let '(j, s') := randInt r s (Datatypes.S i) in
      arr' ← swap arr i j;
      perm_loop r s' i arr'
  end.

(** shuffle.go:45-57 permutation: arr[i] = i, then the loop. *)
Definition permutation {S} (r : reader S) (s : S) (n : nat) : option (list nat * S) :=
  perm_loop r s n (seq 0 n).

(** shuffle.go:11-14: perm == nil is [None]. *)
Record shuffler (S : Type) := Shuffler { sh_perm : option (list nat); sh_rand : S }.
Arguments Shuffler {S} _ _.
Arguments sh_perm {S} _.
Arguments sh_rand {S} _.

(** shuffle.go:18-26 NewShuffler *)
Definition NewShuffler {S} (s : S) : shuffler S := Shuffler None s.

(** shuffle.go:39-41: [for i := 0; i < len(in); i++ { in[i] = orig[p[i]] }]; here from index i with
    [k] iterations left. *)
Fixpoint assign_loop {A} (p : list nat) (orig : list A) (k i : nat) (inn : list A) : option (list A) :=
  match k with
  | O => Some inn
  | Datatypes.S k =>
      pi ← p !! i;
      x ← orig !! pi;
      _ ← inn !! i;
      assign_loop p orig k (Datatypes.S i) (<[i := x]> inn)
  end.

(** shuffle.go:29-42 ShuffleOnions: [None] = panic. *)
Definition ShuffleOnions {S A} (r : reader S) (sh : shuffler S) (inn : list A)
  : option (list A * shuffler S) :=
  sh' ← match sh_perm sh with
        | Some p => if decide (length p = length inn) then Some sh
                    else '(p', s') ← permutation r (sh_rand sh) (length inn);
                         Some (Shuffler (Some p') s')
        | None => '(p', s') ← permutation r (sh_rand sh) (length inn);
                  Some (Shuffler (Some p') s')
        end;
  p ← sh_perm sh';
  out ← assign_loop p inn (length inn) 0 inn;
  Some (out, sh').

(** Any history of ShuffleOnions calls on one Shuffler. *)
Fixpoint shuffle_calls {S A} (r : reader S) (sh : shuffler S) (ins : list (list A))
  : option (list (list A) * shuffler S) :=
  match ins with
  | [] => Some ([], sh)
  | i :: ins =>
      '(o, sh') ← ShuffleOnions r sh i;
      '(os, sh'') ← shuffle_calls r sh' ins;
      Some (o :: os, sh'')
  end.
