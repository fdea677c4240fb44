(** C37-C40: Merkle arrays and Merkle signatures. *)
From stdpp Require Import gmap sorting vector.
From Verif.Base Require Import Base.
From Verif.Model Require Import Merkle.
From Verif.Spec Require Import MerkleSpec.
From Verif.Proofs Require Import MerkleProofs.

(** A toy hash function for the examples: 32 copies of a checksum byte. *)
Definition toyH (b : bytes) : digest := vreplicate 32 (N2b (foldl (λ a c, (a * 31 + b2N c + 7) `mod` 251) 1 b)%N).
Definition ex_arr : list bytes := [[Byte.x61]; [Byte.x62; Byte.x63]; [Byte.x64]; []; [Byte.x66; Byte.x66; Byte.x67]].

(** ** C37: for every hash function, every array of 1..2^64 elements and every non-empty list of in-range
    positions (in any order, with repetitions), Prove succeeds and Verify accepts the elements at exactly
    those positions; a position outside the array makes Prove fail. *)
Theorem C37_complete (H : bytes → digest) (arr : list bytes) (idxs : list N) (elems : gmap N bytes) :
  (N.of_nat (length arr) ≤ 2 ^ 64)%N → idxs ≠ [] →
  (∀ p, elems !! p = if decide (p ∈ idxs) then arr !! N.to_nat p else None) →
  (∀ p, p ∈ idxs → N.to_nat p < length arr) →
  ∃ proof, Prove (Build H arr) idxs = Some proof ∧ Verify H (Root (Build H arr)) elems proof = true.
Proof.
  intros Hlen Hne Hel Hin.
  assert (Hsome : ∀ p, p ∈ idxs ↔ is_Some (elems !! p)).
  { intros p. rewrite Hel. split.
    - intros Hp. rewrite decide_True by done. by apply lookup_lt_is_Some, Hin.
    - case_decide; [done|]. by intros [? ?]. }
  apply prove_verify; [| |done|done].
  - destruct idxs as [|i idxs]; [done|]. intros ->. destruct (proj1 (Hsome i) ltac:(left)) as [e He]. by rewrite lookup_empty in He.
  - intros p e He. rewrite Hel in He. case_decide; done.
Qed.
Theorem C37_out_of_range (H : bytes → digest) (arr : list bytes) (idxs : list N) (p : N) :
  p ∈ idxs → length arr ≤ N.to_nat p → Prove (Build H arr) idxs = None.
Proof. apply prove_out_of_range. Qed.
(** Five leaves, positions 4,1,4,0. *)
Example C37_ex :
  let elems : gmap N bytes := {[4%N := [Byte.x66; Byte.x66; Byte.x67]; 1%N := [Byte.x62; Byte.x63]; 0%N := [Byte.x61]]} in
  match Prove (Build toyH ex_arr) [4; 1; 4; 0]%N with
  | Some proof => (length proof, Verify toyH (Root (Build toyH ex_arr)) elems proof) = (3, true)
  | None => False
  end.
Proof. vm_compute. done. Qed.

(** ** C38: whatever the proof and the claimed position, an accepted element is the one committed to,
    unless the hash function failed on strings that were really hashed (by Build or by this Verify), or
    an encoding of exactly 64 bytes, which could be confused with an inner node, is involved. *)
Theorem C38_sound (H : bytes → digest) (arr : list bytes) (p : N) (e : bytes) (proof : list digest) :
  Verify H (Root (Build H arr)) {[p := e]} proof = true →
  arr !! N.to_nat p = Some e ∨
  clash H (verify_strings H p e proof) (build_strings H arr) ∨
  length e = 64 ∨ (∃ a, a ∈ arr ∧ length a = 64).
Proof. apply verify_sound. Qed.
(** The same for any number of elements verified together with one proof: every single one of them is the
    committed one. *)
Theorem C38_sound_many (H : bytes → digest) (arr : list bytes) (elems : gmap N bytes) (proof : list digest) :
  Verify H (Root (Build H arr)) elems proof = true →
  (∀ p e, elems !! p = Some e → arr !! N.to_nat p = Some e) ∨
  clash H (verify_all_strings H elems proof) (build_strings H arr) ∨
  (∃ p e, elems !! p = Some e ∧ length e = 64) ∨ (∃ a, a ∈ arr ∧ length a = 64).
Proof.
  intros Hv.
  destruct (decide (map_Forall (λ p e, arr !! N.to_nat p = Some e) elems)) as [Ha|Hn]; [by left|].
  right. apply map_not_Forall in Hn as (p & e & He & Hne); [|apply _].
  destruct (verify_sound_many _ _ _ _ _ _ Hv He) as [?|[?|[?|?]]]; [done|by left|right; left; eauto|by do 2 right].
Qed.
(** The exceptions are not there by accident: when no string hashed by this Verify collides with one hashed by
    Build or gives the zero digest, and there are no 64-byte strings, the conclusion is exactly membership. *)
Corollary C38_sound_no_clash (H : bytes → digest) (arr : list bytes) (elems : gmap N bytes) (proof : list digest) :
  (∀ u v, u ∈ verify_all_strings H elems proof → v ∈ build_strings H arr → H u = H v → u = v) →
  (∀ u, u ∈ verify_all_strings H elems proof → H u ≠ zero_digest) →
  (∀ p e, elems !! p = Some e → length e ≠ 64) → (∀ a, a ∈ arr → length a ≠ 64) →
  Verify H (Root (Build H arr)) elems proof = true →
  ∀ p e, elems !! p = Some e → arr !! N.to_nat p = Some e.
Proof.
  intros Hinj Hz He Ha [?|[[(u & v & ? & ? & Hne & E)|(u & ? & E)]|[(p & e & ? & ?)|(a & Hin & Hl)]]]%C38_sound_many; try done.
  - by destruct Hne; apply Hinj.
  - by destruct (Hz u).
  - by destruct (He p e).
  - by destruct (Ha a).
Qed.
Example C38_ex :
  match Prove (Build toyH ex_arr) [1]%N with
  | Some proof =>
      Verify toyH (Root (Build toyH ex_arr)) {[1%N := [Byte.x62; Byte.x63]]} proof = true ∧
      Verify toyH (Root (Build toyH ex_arr)) {[1%N := [Byte.x62; Byte.x64]]} proof = false ∧
      Verify toyH (Root (Build toyH ex_arr)) {[3%N := [Byte.x62; Byte.x63]]} proof = false
  | None => False
  end.
Proof. vm_compute. done. Qed.

(** Three elements of the five at once: accepted, no clash, no 64-byte string; one of them altered: rejected. *)
Fixpoint digits (n : nat) (x : N) : vec byte n :=
  match n with O => [#] | S n => N2b (x `mod` 256)%N ::: digits n (x / 256)%N end.
Definition wideH (b : bytes) : digest := digits 32 (foldl (λ a c, (a * 65599 + b2N c + 7) `mod` (2 ^ 255 - 19)) 1 b)%N.
Definition ex_elems (b : byte) : gmap N bytes :=
  {[4%N := [Byte.x66; Byte.x66; Byte.x67]; 1%N := [Byte.x62; b]; 0%N := [Byte.x61]]}.
Example C38_many_ex :
  match Prove (Build wideH ex_arr) [4; 1; 0]%N with
  | Some proof =>
      Verify wideH (Root (Build wideH ex_arr)) (ex_elems Byte.x63) proof = true ∧
      Verify wideH (Root (Build wideH ex_arr)) (ex_elems Byte.x64) proof = false ∧
      let us := verify_all_strings wideH (ex_elems Byte.x63) proof in
      length us = 8 ∧
      forallb (λ u, negb (bool_decide (wideH u = zero_digest)) &&
                    forallb (λ v, negb (bool_decide (wideH u = wideH v)) || bool_decide (u = v))
                            (build_strings wideH ex_arr)) us = true ∧
      forallb (λ a, negb (bool_decide (length a = 64))) ex_arr = true
  | None => False
  end.
Proof. vm_compute. done. Qed.

(** With no elements to verify, only the empty proof is accepted. *)
Theorem C38_no_elements (H : bytes → digest) (root : digest) (proof : list digest) :
  Verify H root ∅ proof = true ↔ proof = [].
Proof. unfold Verify. rewrite decide_True by done. apply bool_decide_eq_true. Qed.
Print Assumptions C38_no_elements.

(** ** C39 (finding): no domain separation.  For every hash function the string hashed for the root of an
    array of at least two elements is accepted as the element at position 0, with no proof at all. *)
Theorem C39_inner_node_as_leaf (H : bytes → digest) (arr : list bytes) :
  2 ≤ length arr → (∀ a, a ∈ arr → length a ≠ 64) →
  ∃ x, length x = 64 ∧ x ∉ arr ∧ Verify H (Root (Build H arr)) {[0%N := x]} [] = true.
Proof.
  intros Hl Ha. destruct (inner_as_leaf H arr Hl) as (l & r & Hv). exists (pair_bytes l r).
  split; [apply pair_bytes_length|]. split; [|done]. intros Hin. apply (Ha _ Hin). apply pair_bytes_length.
Qed.
(** For two elements the forged one is the concatenation of the two digests, right one first. *)
Theorem C39_two_elements (H : bytes → digest) (a b : bytes) :
  Verify H (Root (Build H [a; b])) {[0%N := vec_to_list (H b) ++ vec_to_list (H a)]} [] = true.
Proof.
  unfold Verify. rewrite decide_False by apply map_non_empty_singleton.
  rewrite map_to_list_singleton. cbn [fmap list_fmap fst snd].
  change (merge_sort pos_le [(0%N, ?h)]) with [(0%N, h)].
  cbn [verify_loop]. rewrite decide_False; [|simpl; intros [?|?]; [done|lia]].
  by apply bool_decide_eq_true.
Qed.
Example C39_ex : 2 ≤ length ex_arr ∧ (∀ a, a ∈ ex_arr → length a ≠ 64).
Proof. split; [simpl; lia|]. apply Forall_forall. repeat (constructor; [done|]). constructor. Qed.

(** ** C40: merkleSign on items that carry no certificate yet. *)
Section C40.
Context (H : bytes → digest) {B SK PK : Type} (enc : B → option cert → bytes).
Context (sign : SK → digest → bytes) (sigok : PK → digest → bytes → bool).

Theorem C40_every_item_verifies (arr : list (signable (B:=B))) (sk : SK) (pk : PK) :
  (∀ d, sigok pk d (sign sk d) = true) →
  (N.of_nat (length arr) ≤ 2 ^ 64)%N →
  (∀ x, x ∈ arr → sg_cert x = None) →
  ∃ arr', merkleSign H enc sign arr sk = Some arr' ∧ sg_body <$> arr' = sg_body <$> arr ∧
    ∀ x, x ∈ arr' → path_ok H enc x = true ∧ signature_ok sigok pk x = true.
Proof.
  intros Hsig Hlen Hnone.
  set (strs := ToBeHashed enc <$> arr).
  assert (Hprove : ∀ j x, arr !! j = Some x →
    ∃ p, Prove (Build H strs) [N.of_nat j] = Some p ∧
      Verify H (Root (Build H strs)) {[N.of_nat j := enc (sg_body x) None]} p = true).
  { intros j x Hx.
    assert (Hs : strs !! j = Some (enc (sg_body x) None)).
    { unfold strs. rewrite list_lookup_fmap, Hx. simpl. unfold ToBeHashed. rewrite (Hnone x); [done|]. by eapply elem_of_list_lookup_2. }
    apply C37_complete.
    - unfold strs. by rewrite fmap_length.
    - done.
    - intros p. case_decide as Hp; rewrite elem_of_list_singleton in Hp.
      + subst p. by rewrite lookup_singleton, Nat2N.id, Hs.
      + by rewrite lookup_singleton_ne.
    - intros p ->%elem_of_list_singleton. rewrite Nat2N.id. by eapply lookup_lt_Some. }
  unfold merkleSign. fold strs.
  destruct (set_certs_ok (B:=B) (Build H strs) (Root (Build H strs)) (sign sk (Root (Build H strs))) arr 0) as [arr' E].
  { intros j [x Hx]%lookup_lt_is_Some. destruct (Hprove j x Hx) as (p & Hp & _). simpl. eauto. }
  exists arr'. split; [done|]. apply set_certs_spec in E as [Hl Hspec]. split.
  - apply list_eq. intros j. rewrite !list_lookup_fmap. destruct (arr !! j) as [x|] eqn:Hx.
    + destruct (Hspec j x Hx) as (p & _ & ->). done.
    + apply lookup_ge_None in Hx. by rewrite (lookup_ge_None_2 arr') by lia.
  - intros y [j Hy]%elem_of_list_lookup.
    assert (Hj : j < length arr) by (rewrite <-Hl; by eapply lookup_lt_Some).
    apply lookup_lt_is_Some in Hj as [x Hx]. destruct (Hspec j x Hx) as (p & Hp & Hy').
    rewrite Hy in Hy'. injection Hy' as ->. destruct (Hprove j x Hx) as (p' & Hp' & Hv).
    assert (Hpp : Some p = Some p') by (rewrite <-Hp; exact Hp'). injection Hpp as <-. split; [exact Hv|]. unfold signature_ok. simpl. apply Hsig.
Qed.
(** Finding: an item that already carries a certificate is hashed together with it, so the certificate it
    gets verifies only if the hash does not distinguish the item with and without the old certificate. *)
Theorem C40_resigning_refuted (b : B) (c : cert) (sk : SK) :
  ∃ y, merkleSign H enc sign [mkSignable b (Some c)] sk = Some [y] ∧ sg_body y = b ∧
    (path_ok H enc y = true ↔ H (enc b None) = H (enc b (Some c))).
Proof.
  eexists. split; [reflexivity|]. split; [done|].
  unfold path_ok. cbn [sg_cert ct_root ct_index ct_path sg_body].
  unfold Verify. rewrite decide_False by apply map_non_empty_singleton.
  rewrite map_to_list_singleton. cbn [fmap list_fmap fst snd].
  change (merge_sort pos_le [(0%N, ?h)]) with [(0%N, h)].
  cbn [verify_loop]. rewrite decide_False; [|simpl; intros [?|?]; [done|lia]].
  change (merge_sort pos_le [(N.of_nat 0, H (enc b None))]) with [(0%N, H (enc b None))]. cbv iota beta.
  rewrite bool_decide_eq_true. cbn. naive_solver.
Qed.
End C40.
(** Five items, no certificates; a toy signature scheme. *)
Example C40_ex :
  let enc (b : bytes) (c : option cert) := match c with None => b | Some c => b ++ ct_sig c ++ [Byte.x01] end in
  let sign (sk : byte) (d : digest) := sk :: vec_to_list d in
  let sigok (pk : byte) (d : digest) (s : bytes) := bool_decide (s = pk :: vec_to_list d) in
  match merkleSign toyH enc sign ((λ b, mkSignable b None) <$> ex_arr) Byte.x05 with
  | Some arr' => forallb (λ x, path_ok toyH enc x && signature_ok sigok Byte.x05 x && negb (signature_ok sigok Byte.x06 x)) arr' = true
      ∧ length arr' = 5
  | None => False
  end.
Proof. vm_compute. done. Qed.
