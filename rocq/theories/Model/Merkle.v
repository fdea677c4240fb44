(** Model of internal/crypto/merklearray, internal/crypto/util.go (HashObj) and merkleSign
    (rrpc/verifiables.go). An object is represented by the bytes its ToBeHashed returns; HashObj drops
    the HashID (util.go:47-50, 88-91). *)
From stdpp Require Import gmap sorting vector.
From Verif.Base Require Import Base.

(** util.go:56 Digest [32]byte; the zero value. *)
Definition digest : Type := vec byte 32.
Definition zero_digest : digest := vreplicate 32 Byte.x00.
Global Instance digest_eq_dec : EqDecision digest.
Proof. unfold digest. apply _. Defined.
Global Instance byte_countable : Countable byte := inj_countable' b2N N2b N2b_b2N.
Global Instance digest_countable : Countable digest.
Proof. unfold digest. apply _. Defined.

Section merkle.
(** sha512.Sum512_256 (util.go:83-85). *)
Context (H : bytes → digest).

(** layer.go:36-41 pair.ToBeHashed: right half first. *)
Definition pair_bytes (l r : digest) : bytes := vec_to_list r ++ vec_to_list l.
Definition node (l r : digest) : digest := H (pair_bytes l r).

(** layer.go:46-57 layer.up; a missing right sibling is the zero digest. *)
Fixpoint layer_up (ls : list digest) : list digest :=
  match ls with
  | [] => []
  | [l] => [node l zero_digest]
  | l :: r :: ls => node l r :: layer_up ls
  end.

(** merkle.go:56-58: while the top layer has more than one digest.  [fuel] bounds the iterations; Build
    passes the number of leaves, which Proofs/MerkleProofs.v shows to be enough. *)
Fixpoint build_levels (fuel : nat) (top : list digest) : list (list digest) :=
  if decide (1 < length top) then
    match fuel with
    | O => [top]
    | S fuel => top :: build_levels fuel (layer_up top)
    end
  else [top].

(** merkle.go:39-62 Build.  array.Get of an index below Length does not fail (verifiables.go:25-36). *)
Definition Build (arr : list bytes) : list (list digest) :=
  match arr with
  | [] => []
  | _ => build_levels (length arr) (H <$> arr)
  end.

(** merkle.go:65-73 Root *)
Definition Root (tree : list (list digest)) : digest :=
  match last tree with
  | None => zero_digest
  | Some top => default zero_digest (top !! 0)
  end.

(** partial.go:66-69 layerItem *)
Definition item : Type := N * digest.

(** partial.go:80-127 up; [get] is siblings.get for the two modes; [comb] is the hash of a pair, or
    the constant zero digest when doHash is false. *)
Fixpoint pl_up {S} (get : S → N → option (digest * S)) (comb : digest → digest → digest)
    (pl : list item) (s : S) : option (list item * S) :=
  match pl with
  | [] => Some ([], s)
  | (pos, h) :: rest =>
      let join := λ sib, if N.even pos then comb h sib else comb sib h in
      let alone :=
        '(sib, s1) ← get s (N.lxor pos 1);
        '(res, s2) ← pl_up get comb rest s1;
        Some ((pos / 2, join sib) :: res, s2)%N in
      match rest with
      | (pos', h') :: rest' =>
          if decide (pos' = N.lxor pos 1) then
            '(res, s2) ← pl_up get comb rest' s;
            Some ((pos / 2, join h') :: res, s2)%N
          else alone
      | [] => alone
      end
  end.

(** partial.go:36-59 get, with the tree (l is in range in Prove) and with the hints. *)
Definition get_tree (lvl : list digest) (hints : list digest) (i : N) : option (digest * list digest) :=
  let d := default zero_digest (lvl !! N.to_nat i) in Some (d, hints ++ [d]).
Definition get_hint (hints : list digest) (_ : N) : option (digest * list digest) :=
  match hints with [] => None | d :: hints => Some (d, hints) end.

(** merkle.go:92-106: range check, duplicates (adjacent after sorting) dropped. *)
Fixpoint prove_items (leaves : list digest) (last : option N) (idxs : list N) : option (list item) :=
  match idxs with
  | [] => Some []
  | pos :: idxs =>
      d ← leaves !! N.to_nat pos;
      if decide (last = Some pos) then prove_items leaves last idxs
      else rest ← prove_items leaves (Some pos) idxs; Some ((pos, d) :: rest)
  end.

(** merkle.go:112-118: one up per level but the last; doHash = validateProof = false. *)
Fixpoint prove_loop (levels : list (list digest)) (pl : list item) (hints : list digest)
    : option (list item * list digest) :=
  match levels with
  | [] | [_] => Some (pl, hints)
  | lvl :: levels =>
      '(pl, hints) ← pl_up (get_tree lvl) (λ _ _, zero_digest) pl hints;
      prove_loop levels pl hints
  end.

(** merkle.go:79-133 Prove ([None]: an error).  sort.Slice on integers gives the sorted list. *)
Definition Prove (tree : list (list digest)) (idxs : list N) : option (list digest) :=
  match idxs with
  | [] => Some []
  | _ =>
      match tree with
      | [] => None
      | leaves :: _ =>
          pl ← prove_items leaves None (merge_sort N.le idxs);
          '(pl, hints) ← prove_loop tree pl [];
          if decide (length pl = 1) then Some hints else None
      end
  end.

(** merkle.go:163-173: the loop of Verify at iteration l = 65 - k. *)
Fixpoint verify_loop (k : nat) (pl : list item) (hints : list digest) : option (list item) :=
  if decide (hints ≠ [] ∨ 1 < length pl) then
    '(pl, hints) ← pl_up get_hint node pl hints;
    match k with
    | O => None                       (* l > 64 *)
    | S k => verify_loop k pl hints
    end
  else Some pl.

(** merkle.go:140-181 Verify; pl[0] exists because elems is not empty. *)
Definition pos_le (a b : item) : Prop := (a.1 ≤ b.1)%N.
Global Instance pos_le_dec a b : Decision (pos_le a b).
Proof. unfold pos_le. apply _. Defined.
Definition Verify (root : digest) (elems : gmap N bytes) (proof : list digest) : bool :=
  if decide (elems = ∅) then bool_decide (proof = []) else
  match verify_loop 65 (merge_sort pos_le ((λ e, (e.1, H e.2)) <$> map_to_list elems)) proof with
  | Some ((pos, h) :: _) => bool_decide (pos = 0%N ∧ h = root)
  | _ => false
  end.

(** ** merkleSign, rrpc/verifiables.go:38-68. *)
(** MerkleCertificate as SetMerkleCert fills it (verifiables.go:96-103 and the like). *)
Record cert := mkCert { ct_root : digest; ct_path : list digest; ct_index : N; ct_sig : bytes }.

(** Something that can be signed: its own content and its certificate field.  [enc] is the
    serialisation, certificate included (ToBeHashed marshals the whole object). *)
Context {B SK PK : Type} (enc : B → option cert → bytes).
Context (sign : SK → digest → bytes) (sigok : PK → digest → bytes → bool).
Record signable := mkSignable { sg_body : B; sg_cert : option cert }.
Definition ToBeHashed (x : signable) : bytes := enc (sg_body x) (sg_cert x).

(** verifiables.go:58-65 from index i on.  ([root], [tree], [sg] fixed before the loop.) *)
Fixpoint set_certs (tree : list (list digest)) (root : digest) (sg : bytes) (i : nat)
    (arr : list signable) : option (list signable) :=
  match arr with
  | [] => Some []
  | x :: arr =>
      p ← Prove tree [N.of_nat i];
      rest ← set_certs tree root sg (S i) arr;
      Some (mkSignable (sg_body x) (Some (mkCert root p (N.of_nat i) sg)) :: rest)
  end.
Definition merkleSign (arr : list signable) (sk : SK) : option (list signable) :=
  let tree := Build (ToBeHashed <$> arr) in
  let root := Root tree in
  set_certs tree root (sign sk root) 0 arr.

(** The two checks of MerkleCertVerifier.Verify on an object whose certificate was popped
    (merkle_verifier.go:86-101, 161-185). *)
Definition path_ok (x : signable) : bool :=
  match sg_cert x with
  | None => false
  | Some c => Verify (ct_root c) {[ct_index c := enc (sg_body x) None]} (ct_path c)
  end.
Definition signature_ok (pk : PK) (x : signable) : bool :=
  match sg_cert x with None => false | Some c => sigok pk (ct_root c) (ct_sig c) end.
End merkle.
