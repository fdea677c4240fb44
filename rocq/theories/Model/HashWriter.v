(** Hashing and signing through a shared buffer (crypto.BWriter, a bytes.Buffer): util.go:37-50, 91-94, ed25519.go:34-54,
    merklearray/layer.go, partial.go and merkle.go, rrpc/verifiables.go:38-90, rrpc/merkle_verifier.go:142-185.
    Model/Merkle.v has the same functions without the buffer. *)
From stdpp Require Import gmap sorting vector.
From Verif.Base Require Import Base.
From Verif.Model Require Import Merkle.

(** The unread bytes of a bytes.Buffer.  Write appends (and may move the bytes to a larger array), Bytes() is
    all of them, Len() their number; nobody reads from these buffers. *)
Definition buffer : Type := bytes.
(** Bytes()[start:] *)
Definition from (start : nat) (w : buffer) : bytes := drop start w.

(** What the codec does with an object: it writes its encoding, or fails after writing something. *)
Inductive encoding := EOk (b : bytes) | EFail (junk : bytes).

Section writer.
Context (H : bytes → digest).

(** verifiables.go:81-90 prepareForHashing (Parcel, CallStreamResponse, the notes): the bytes to hash, nil after a failure. *)
Definition prepareForHashing (e : encoding) (w : buffer) : bytes * buffer :=
  let start := length w in
  match e with
  | EOk b => let w := w ++ b in (from start w, w)
  | EFail junk => ([], w ++ junk)
  end.
(** util.go:46-50, 91-94 HashObj *)
Definition HashObj (toBeHashed : buffer → bytes * buffer) (w : buffer) : digest * buffer :=
  let '(data, w) := toBeHashed w in (H data, w).
(** layer.go:36-41 pair.ToBeHashed *)
Definition pairToBeHashed (l r : digest) (w : buffer) : bytes * buffer :=
  let start := length w in
  let w := w ++ vec_to_list r in
  let w := w ++ vec_to_list l in
  (from start w, w).
Definition nodeW (l r : digest) (w : buffer) : digest * buffer := HashObj (pairToBeHashed l r) w.

(** layer.go:46-57 *)
Fixpoint layer_upW (ls : list digest) (w : buffer) : list digest * buffer :=
  match ls with
  | [] => ([], w)
  | [l] => let '(d, w) := nodeW l zero_digest w in ([d], w)
  | l :: r :: ls => let '(d, w) := nodeW l r w in let '(ds, w) := layer_upW ls w in (d :: ds, w)
  end.
(** merkle.go:56-58 *)
Fixpoint build_levelsW (fuel : nat) (top : list digest) (w : buffer) : list (list digest) * buffer :=
  if decide (1 < length top) then
    match fuel with
    | O => ([top], w)
    | S fuel => let '(up, w) := layer_upW top w in let '(ls, w) := build_levelsW fuel up w in (top :: ls, w)
    end
  else ([top], w).
(** merkle.go:42-51 the leaves *)
Fixpoint leavesW (arr : list encoding) (w : buffer) : list digest * buffer :=
  match arr with
  | [] => ([], w)
  | e :: arr => let '(d, w) := HashObj (prepareForHashing e) w in let '(ds, w) := leavesW arr w in (d :: ds, w)
  end.
(** merkle.go:39-62 Build *)
Definition BuildW (arr : list encoding) (w : buffer) : list (list digest) * buffer :=
  let '(leaves, w) := leavesW arr w in
  match arr with [] => ([], w) | _ => build_levelsW (length arr) leaves w end.

(** partial.go:80-127 up with doHash (Prove passes false and never writes) *)
Fixpoint pl_upW (pl : list item) (s : list digest) (w : buffer) : option (list item * list digest) * buffer :=
  match pl with
  | [] => (Some ([], s), w)
  | (pos, h) :: rest =>
      let join := λ sib w, if N.even pos then nodeW h sib w else nodeW sib h w in
      let alone :=
        match get_hint s (N.lxor pos 1) with
        | None => (None, w)
        | Some (sib, s1) =>
            let '(d, w) := join sib w in
            let '(o, w) := pl_upW rest s1 w in
            ('(res, s2) ← o; Some ((pos / 2, d) :: res, s2)%N, w)
        end in
      match rest with
      | (pos', h') :: rest' =>
          if decide (pos' = N.lxor pos 1) then
            let '(d, w) := join h' w in
            let '(o, w) := pl_upW rest' s w in
            ('(res, s2) ← o; Some ((pos / 2, d) :: res, s2)%N, w)
          else alone
      | [] => alone
      end
  end.
(** merkle.go:163-173 *)
Fixpoint verify_loopW (k : nat) (pl : list item) (hints : list digest) (w : buffer) : option (list item) * buffer :=
  if decide (hints ≠ [] ∨ 1 < length pl) then
    let '(o, w) := pl_upW pl hints w in
    match o with
    | None => (None, w)
    | Some (pl, hints) => match k with O => (None, w) | S k => verify_loopW k pl hints w end
    end
  else (Some pl, w).
(** merkle.go:148-154: the elements are hashed in the order in which the range visits the map. *)
Fixpoint itemsW (elems : list (N * encoding)) (w : buffer) : list item * buffer :=
  match elems with
  | [] => ([], w)
  | (pos, e) :: elems =>
      let '(d, w) := HashObj (prepareForHashing e) w in
      let '(its, w) := itemsW elems w in ((pos, d) :: its, w)
  end.
(** merkle.go:140-181 Verify; [elems] lists the map in the order of the range. *)
Definition VerifyW (root : digest) (elems : list (N * encoding)) (proof : list digest) (w : buffer) : bool * buffer :=
  match elems with
  | [] => (bool_decide (proof = []), w)
  | _ =>
      let '(its, w) := itemsW elems w in
      let '(o, w) := verify_loopW 65 (merge_sort pos_le its) proof w in
      (match o with
       | Some ((pos, h) :: _) => bool_decide (pos = 0%N ∧ h = root)
       | _ => false
       end, w)
  end.

(** ed25519.go:35-41, 48-54 OWSign and OWVerify of a digest, encoded by the codec as [encD] (a byte array of fixed size
    is always encoded). *)
Context {SK PK : Type} (encD : digest → bytes) (signBytes : SK → bytes → bytes) (verifyBytes : PK → bytes → bytes → bool).
Definition OWSign (sk : SK) (d : digest) (w : buffer) : bytes * buffer :=
  let start := length w in let w := w ++ encD d in (signBytes sk (from start w), w).
Definition OWVerify (pk : PK) (d : digest) (sig : bytes) (w : buffer) : bool * buffer :=
  let start := length w in let w := w ++ encD d in (verifyBytes pk sig (from start w), w).

(** merkleSign, verifiables.go:38-68: a buffer for the tree, one for the signature, both new.  Prove (doHash false)
    does not touch the buffer it is given.  SetMerkleCert: see Model/Merkle.v. *)
Context {B : Type} (enc : B → option cert → encoding).
Definition ToBeHashedW (x : @signable B) : encoding := enc (sg_body x) (sg_cert x).
Definition merkleSignW (arr : list (@signable B)) (sk : SK) : option (list (@signable B)) :=
  let treeBuffer : buffer := [] in
  let '(tree, treeBuffer) := BuildW (ToBeHashedW <$> arr) treeBuffer in
  let root := Root tree in
  let sigBuffer : buffer := [] in
  let '(sg, sigBuffer) := OWSign sk root sigBuffer in
  set_certs tree root sg 0 arr.

(** merkle_verifier.go:142-159: a worker with one buffer, which it empties after each task. *)
Inductive wtask := TSig (pk : PK) (root : digest) (sig : bytes)             (* 171-185 verifyMerkleSig *)
                 | TPath (root : digest) (index : N) (e : encoding) (path : list digest).  (* 161-169 authenticateMerklePath *)
Definition runTask (t : wtask) (w : buffer) : bool * buffer :=
  match t with
  | TSig pk root sig => OWVerify pk root sig w
  | TPath root index e path => VerifyW root [(index, e)] path w
  end.
Fixpoint worker (ts : list wtask) (w : buffer) : list bool * buffer :=
  match ts with
  | [] => ([], w)
  | t :: ts => let '(v, w) := runTask t w in let '(vs, w) := worker ts [] in (v :: vs, w)
  end.
End writer.
