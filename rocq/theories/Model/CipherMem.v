(** Model of the memory behind a Cipher (internal/crypto/tibe/vss_ibe.go:49-91, 152-163): its Mac and
    Encrypted fields are Go slices, views of byte arrays that other slices may share. *)
From Coq Require Import ZArith List.
From mathcomp Require Import all_ssreflect all_algebra.
From Verif.Model Require Import Tibe.
From Verif.Model Require Cfb.
Set Implicit Arguments.
Unset Strict Implicit.
Unset Printing Implicit Defensive.

(** Arrays by address; addresses from [h_next] on are not in use. *)
Record heap := Heap { h_arr : nat -> bytes; h_next : nat }.
Record slice := Slice { sl_arr : nat; sl_off : nat; sl_len : nat }.
Definition read (h : heap) (s : slice) : bytes := List.firstn (sl_len s) (List.skipn (sl_off s) (h_arr h (sl_arr s))).
(** Overwrite the content of a slice by as many bytes. *)
Definition write (h : heap) (s : slice) (bs : bytes) : heap :=
  let a := h_arr h (sl_arr s) in
  let a' := app (List.firstn (sl_off s) a) (app bs (List.skipn (sl_off s + sl_len s) a)) in
  Heap (fun x => if x == sl_arr s then a' else h_arr h x) (h_next h).
(** append([]byte{}, s...) *)
Definition alloc (h : heap) (bs : bytes) : heap * slice :=
  (Heap (fun x => if x == h_next h then bs else h_arr h x) (h_next h).+1, Slice (h_next h) 0 (List.length bs)).

Section mem.
Variable S : setting.
Record mcipher := MCipher { m_Gr : sG1 S; m_Mac : slice; m_Enc : slice }.
Definition load (h : heap) (m : mcipher) : cipher S := Cipher (m_Gr m) (read h (m_Mac m)) (read h (m_Enc m)).

(** vss_ibe.go:55-66 Copy *)
Definition CopyMem (h : heap) (m : mcipher) : heap * mcipher :=
  let: (h1, mac) := alloc h (read h (m_Mac m)) in
  let: (h2, enc) := alloc h1 (read h1 (m_Enc m)) in
  (h2, MCipher (m_Gr m) mac enc).

(** vss_ibe.go:152-163 Decrypt: the result is the slice Encrypted[16:], decrypted where it lies
    (aes.go:45-51). *)
Definition DecryptMem (h : heap) (sk : sG2 S) (m : mcipher) : option slice * heap :=
  let: (r, c') := Decrypt sk (load h m) in
  if r is Some _ then
    (Some (Slice (sl_arr (m_Enc m)) (sl_off (m_Enc m) + 16) (sl_len (m_Enc m) - 16)),
     write h (m_Enc m) (c_Encrypted c'))
  else (None, h).

(** vss_ibe.go:78-91 SetBytes once the group element is decoded: Mac and Encrypted are views of [bts]. *)
Definition SetBytesMem (g : sG1 S) (bts : slice) : mcipher :=
  MCipher g (Slice (sl_arr bts) (sl_off bts + 96) 32)
            (Slice (sl_arr bts) (sl_off bts + 128) (sl_len bts - 128)).

(** A slice lies inside its array, and the array is in use. *)
Definition valid (h : heap) (s : slice) : Prop :=
  (sl_off s + sl_len s <= List.length (h_arr h (sl_arr s)))%N /\ (sl_arr s < h_next h)%N.
End mem.
