(** Model of what AuthEncode and AuthReconstruct (internal/ecc/reedsolomon.go) do to the memory of their arguments.

    AuthEncode begins with [data = append(data, zeros...)]: if the array behind the argument goes on for 36 bytes,
    append writes there.  AuthReconstruct hands the caller's shards to Reconstruct, which fills in the missing ones
    where they are.  Simplification: one call at a time (concurrent calls: Model/EccPool.v). *)
From stdpp Require Import gmap.
From Verif.Base Require Import Base.
From Verif.Model Require Import Ecc.

(** Byte arrays by address. *)
Notation heap := (gmap nat (list byte)) (only parsing).
(** A slice: its array, where it begins, its length; its capacity is the rest of the array, [sl_cap] of it. *)
Record slice := Slice { sl_arr : nat; sl_off : nat; sl_len : nat; sl_cap : nat }.
Definition content (h : heap) (s : slice) : bytes := take (sl_len s) (drop (sl_off s) (default [] (h !! sl_arr s))).
Definition valid (h : heap) (s : slice) : Prop :=
  ∃ a, h !! sl_arr s = Some a ∧ sl_len s ≤ sl_cap s ∧ sl_off s + sl_cap s ≤ length a.
(** buf[lo:hi] (the capacity goes to the end of buf's). *)
Definition subslice (s : slice) (lo hi : nat) : slice := Slice (sl_arr s) (sl_off s + lo) (hi - lo) (sl_cap s - lo).
(** buf[lo:hi:hi] *)
Definition subslice_cap (s : slice) (lo hi : nat) : slice := Slice (sl_arr s) (sl_off s + lo) (hi - lo) (hi - lo).

(** The bytes of an array from [off] on are replaced. *)
Definition write_at (a : list byte) (off : nat) (bs : list byte) : list byte :=
  take off a ++ bs ++ drop (off + length bs) a.

(** Go's append(s, bs...): in place if the capacity allows, in a new array otherwise. *)
Definition append (h : heap) (s : slice) (bs : list byte) : heap * slice :=
  if decide (sl_len s + length bs ≤ sl_cap s) then
    (<[sl_arr s := write_at (default [] (h !! sl_arr s)) (sl_off s + sl_len s) bs]> h,
     Slice (sl_arr s) (sl_off s) (sl_len s + length bs) (sl_cap s))
  else
    let l := fresh (dom h) in
    (<[l := content h s ++ bs]> h, Slice l 0 (sl_len s + length bs) (sl_len s + length bs)).

Section mem.
Context (c : rs_code).

(** 40-81: the workers copy their chunk before they split it (84-86), so the result shares nothing with the
    argument. *)
Definition AuthEncodeMem (h : heap) (data : slice) (arr : list (option nat)) :
    heap * outcome ecc_error (list (option (list shard))) :=
  let '(h, data) := append h data zeros in
  (h, encode_loop c (content h data) arr NumChunks (replicate NumChunks None)).

(** The table of shards after the workers ran the tasks [ran] (155: Reconstruct fills the missing shards in place,
    or reports an error and leaves them). *)
Definition fill (shards : list (list shard)) (ran : list nat) : list (list shard) :=
  imap (λ i sh, if decide (i ∈ ran) then default sh (recon c sh) else sh) shards.
(** 102-150, with the answers [arr] received before it returns, and the tasks [ran] run by then. *)
Definition AuthReconstructMem (shards : list (list shard)) (dataSize : Z) (arr : list (option nat)) (ran : list nat) :
    list (list shard) * outcome ecc_error bytes :=
  (fill shards ran, AuthReconstruct c shards dataSize arr).
End mem.
