(** Model of internal/crypto/rand.go:46-68: numbers and bytes from the system's random source.

    Described, not verified: crypto/rand.Read fills its argument or returns an error; logging Fatal ends the process. *)
From Verif.Base Require Import Base.

(** What one rand.Read on a buffer of n bytes does: the bytes it writes, or an error (None). *)
Definition answers_read (n : nat) (a : option bytes) : Prop := from_option (λ bs, length bs = n) True a.
(** What a caller sees: a result, or nothing because the process has ended (49-52, 65-67). *)
Inductive rand_result (A : Type) := Returns (x : A) | ProcessEnds.
Arguments Returns {A} x.
Arguments ProcessEnds {A}.

(** rand.go:47-54 RandUint64 *)
Definition RandUint64 (a : option bytes) : rand_result N :=
  match a with
  | Some eightbytes => Returns (le_dec eightbytes)
  | None => ProcessEnds
  end.
(** rand.go:58-61 RandUint63 *)
Definition RandUint63 (a : option bytes) : rand_result N :=
  match RandUint64 a with
  | Returns x => Returns (N.land x (N.shiftl 1 63 - 1))
  | ProcessEnds => ProcessEnds
  end.
(** rand.go:64-68, 92-94 RandBytes: what is in the buffer when it returns. *)
Definition RandBytes (buf : bytes) (a : option bytes) : rand_result bytes :=
  match a with
  | Some bs => Returns (take (length buf) bs)
  | None => ProcessEnds
  end.
