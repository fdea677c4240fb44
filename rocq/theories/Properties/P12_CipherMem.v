(** C27: decrypting works in place; Copy protects, SetBytes does not. *)
From Coq Require Import ZArith Lia List.
From mathcomp Require Import all_ssreflect all_algebra.
From Verif.Model Require Import Tibe CipherMem.
From Verif.Model Require Cfb.
From Verif.Proofs Require CfbProofs.
From Verif.Properties Require Import P09_Tibe.
Set Implicit Arguments.
Unset Strict Implicit.
Unset Printing Implicit Defensive.

Lemma read_length h s : valid h s -> List.length (read h s) = sl_len s.
Proof.
case=> /leP; rewrite -plusE => hl _; rewrite /read List.firstn_length List.skipn_length; lia.
Qed.

(** A decryption keeps the length of Encrypted, and its result is what Encrypted holds from 16 on. *)
Lemma Decrypt_length (S : setting) (sk : sG2 S) c m c' : pairing_laws S -> Decrypt sk c = (Some m, c') ->
  List.length (c_Encrypted c') = List.length (c_Encrypted c) /\ List.skipn 16 (c_Encrypted c') = m /\
  (16 <= List.length (c_Encrypted c))%coq_nat.
Proof.
move=> laws hd; have [_ [_ ->]] := C27_in_place hd.
move: hd; rewrite /Decrypt; case: ifP => // _; rewrite /Cfb.aesDecrypt.
case: stdpp.base.decide => // hl [<- _]; rewrite /Cfb.blockSize in hl.
set e := c_Encrypted c in hl *.
have ld : List.length (Cfb.cfb_decrypt (aes S (hashGt (pair (c_Gr c) sk))) (stdpp.list.take Cfb.blockSize e)
     (stdpp.list.drop Cfb.blockSize e)) = (List.length e - 16)%coq_nat.
  rewrite (CfbProofs.cfb_decrypt_length _ (law_aes laws _)) List.skipn_length //.
have lf : List.length (List.firstn 16 e) = 16%N by rewrite List.firstn_length; lia.
split; first by rewrite List.app_length lf; move: ld => ->; lia.
split; last lia.
by rewrite List.skipn_app lf List.skipn_all2 ?lf.
Qed.

Lemma read_write_same h s bs : valid h s -> List.length bs = sl_len s -> read (write h s bs) s = bs.
Proof.
case=> /leP; rewrite -plusE => hl _ hb; rewrite /read /write /= eqxx.
have l1 : List.length (List.firstn (sl_off s) (h_arr h (sl_arr s))) = sl_off s by rewrite List.firstn_length; lia.
by rewrite List.skipn_app l1 minusE subnn List.skipn_all2 ?l1 //= List.firstn_app -hb List.firstn_all minusE subnn /= List.app_nil_r.
Qed.

(** What the returned slice shows, and what the cipher holds, after a successful Decrypt. *)
Theorem C27_result_is_a_view (S : setting) h (sk : sG2 S) (m : mcipher S) r h' :
  pairing_laws S -> valid h (m_Enc m) -> DecryptMem h sk m = (Some r, h') ->
  exists msg, (Decrypt sk (load h m)).1 = Some msg /\ read h' r = msg /\
    read h' (m_Enc m) = app (List.firstn 16 (read h (m_Enc m))) msg.
Proof.
move=> laws hv; rewrite /DecryptMem; case E: (Decrypt sk (load h m)) => [[msg|] c'] // [<- <-].
have [l1 [l2 l3]] := Decrypt_length laws E; have [_ [_ l4]] := C27_in_place E.
rewrite /= (read_length hv) in l1 l3.
exists msg; split=> //; have rw := @read_write_same h (m_Enc m) (c_Encrypted c') hv l1.
split; last by rewrite rw l4.
rewrite -l2 -[in RHS]rw /read [sl_off _]/= [sl_len _]/= [sl_arr _]/=.
by rewrite List.skipn_firstn_comm stdpp.list.drop_drop.
Qed.
Print Assumptions C27_result_is_a_view.

(** Copy protects: decrypting the copy gives the same result and changes no array that existed before. *)
Theorem C27_copy_protects (S : setting) h (sk : sG2 S) (m : mcipher S) :
  valid h (m_Mac m) -> valid h (m_Enc m) ->
  let: (h1, m1) := CopyMem h m in
  let: (r, h2) := DecryptMem h1 sk m1 in
  (r = None <-> (Decrypt sk (load h m)).1 = None) /\ load h1 m1 = load h m /\ forall a, (a < h_next h)%N -> h_arr h2 a = h_arr h a.
Proof.
move=> vm ve; rewrite /CopyMem /alloc /=.
set h1 := Heap _ _; set m1 := MCipher _ _ _.
have e1 : read (Heap (fun x => if x == h_next h then read h (m_Mac m) else h_arr h x) (h_next h).+1) (m_Enc m)
          = read h (m_Enc m).
  by rewrite /read /= (ltn_eqF ve.2).
have hl : load h1 m1 = load h m.
  rewrite /load /h1 /m1 /read /= eqxx -/(read _ (m_Mac m)) (ltn_eqF (ltnSn _)) eqxx.
  rewrite -/(read _ (m_Enc m)) !List.skipn_O || idtac.
  by rewrite !List.firstn_all -[in RHS]e1.
have old a : (a < h_next h)%N -> h_arr h1 a = h_arr h a.
  move=> ha; rewrite /h1 /= (ltn_eqF (ltnW ha : (a < (h_next h).+1)%N)) (ltn_eqF ha) //.
rewrite /DecryptMem hl; case: (Decrypt _ _) => [[x|] c'] /=.
- split; first by []. split=> // a ha; have ha1 : (a < (h_next h).+1)%N by rewrite ltnS; exact: ltnW.
  by rewrite (ltn_eqF ha1) (ltn_eqF ha).
- by split.
Qed.
Print Assumptions C27_copy_protects.

Lemma ar (o n : nat) : (144 <= n)%coq_nat -> Nat.add (Nat.add o 128) (Nat.sub n 128) = Nat.add o n.
Proof. lia. Qed.

(** SetBytes does not copy: decrypting a cipher read from a buffer overwrites the buffer's tail with the
    plaintext. *)
Theorem C27_buffer_overwritten (S : setting) h g (sk : sG2 S) bts r h' :
  pairing_laws S -> valid h bts -> (144 <= sl_len bts)%N ->
  DecryptMem h sk (SetBytesMem g bts) = (Some r, h') ->
  exists msg, (Decrypt sk (load h (SetBytesMem g bts))).1 = Some msg /\ read h' bts = app (List.firstn 144 (read h bts)) msg.
Proof.
move=> laws [hv1 hv2] hl; rewrite /DecryptMem; case E: (Decrypt _ _) => [[msg|] c'] // [_ <-].
exists msg; split=> //.
have [l1 [_ _]] := Decrypt_length laws E; have [_ [_ l4]] := C27_in_place E.
move: l1 l4; rewrite /= /read /=; set a := h_arr h (sl_arr bts) in hv1 *; set o := sl_off bts in hv1 *.
set n := sl_len bts in hv1 hl *; move: (c_Encrypted c') => e'.
move/leP: hv1; rewrite -plusE => hv1; move/leP: hl => hl; rewrite -!minusE eqxx => l1 l4.
have en : Nat.add (Nat.add o 128) (Nat.sub n 128) = Nat.add o n.
  exact: ar.
pose A := List.firstn o a; pose B1 := List.firstn 128 (List.skipn o a).
pose B2 := List.firstn (n - 128)%coq_nat (List.skipn (o + 128)%coq_nat a); pose C := List.skipn (o + n)%coq_nat a.
have lA : List.length A = o by rewrite List.firstn_length; lia.
have lB1 : List.length B1 = 128%N by rewrite List.firstn_length List.skipn_length; lia.
have lB2 : List.length B2 = (n - 128)%coq_nat by rewrite List.firstn_length List.skipn_length; lia.
rewrite -/B2 in l1 l4.
have ea : a = app A (app B1 (app B2 C)).
  rewrite -{1}(List.firstn_skipn o a); congr (app _ _).
  rewrite -{1}(List.firstn_skipn 128 (List.skipn o a)); congr (app _ _).
  rewrite stdpp.list.drop_drop.
  rewrite -{1}(List.firstn_skipn (n - 128)%coq_nat (List.skipn (o + 128)%coq_nat a)); congr (app _ _).
  by rewrite stdpp.list.drop_drop en.
have -> : List.firstn (o + 128)%coq_nat a = app A B1.
  rewrite ea List.app_assoc List.firstn_app List.app_length lA lB1.
  have -> : Nat.sub (Nat.add o 128) (Nat.add o 128) = 0%N by lia.
  by rewrite List.firstn_O List.app_nil_r List.firstn_all2 // List.app_length lA lB1.
rewrite en -/C.
have -> : List.firstn n (List.skipn o a) = app B1 B2.
  rewrite ea List.skipn_app lA List.skipn_all2 ?lA // Nat.sub_diag List.skipn_O /=.
  rewrite List.app_assoc List.firstn_app List.app_length lB1 lB2.
  have -> : Nat.sub n (Nat.add 128 (Nat.sub n 128)) = 0%N by lia.
  by rewrite List.firstn_O List.app_nil_r List.firstn_all2 // List.app_length lB1 lB2; lia.
rewrite -List.app_assoc List.skipn_app lA List.skipn_all2 ?lA // Nat.sub_diag List.skipn_O.
rewrite [app [::] _]/=.
have -> : List.firstn n (app B1 (app e' C)) = app B1 e'.
  rewrite List.app_assoc List.firstn_app List.app_length lB1 l1 lB2.
  have -> : Nat.sub n (Nat.add 128 (Nat.sub n 128)) = 0%N by lia.
  by rewrite List.firstn_O List.app_nil_r List.firstn_all2 // List.app_length lB1 l1 lB2; lia.
rewrite l4 List.firstn_app lB1 (List.firstn_all2 B1) ?lB1; last lia.
have -> : (144 - 128)%coq_nat = 16%N by [].
by rewrite List.app_assoc.
Qed.
Print Assumptions C27_buffer_overwritten.

(** An example: the cipher toy_c of P09 in a buffer. *)
Definition ex_heap : heap :=
  Heap (fun x => if x == 0%N then app (List.repeat (bt 0) 128) (c_Encrypted toy_c) else if x == 1%N then c_Mac toy_c else [::]) 2.
Example C27_mem_example :
  let m := MCipher (c_Gr toy_c : sG1 toy) (Slice 1 0 (List.length (c_Mac toy_c))) (Slice 0 128 18) in
  let: (r, h') := DecryptMem ex_heap (1%R : sG2 toy) m in
  r = Some (Slice 0 144 2) /\ read h' (Slice 0 144 2) = [:: bt 65; bt 66] /\
  (DecryptMem h' (1%R : sG2 toy) m).1 = None /\
  (let: (h1, m1) := CopyMem ex_heap m in
   let: (r1, h2) := DecryptMem h1 (1%R : sG2 toy) m1 in
   isSome r1 /\ isSome (DecryptMem h2 (1%R : sG2 toy) m).1).
Proof. by vm_compute. Qed.
