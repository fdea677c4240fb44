(** C109: hashing and signing through shared buffers. *)
From stdpp Require Import gmap sorting vector.
From Verif.Base Require Import Base.
From Verif.Model Require Import Merkle HashWriter.

(** The bytes that stand for an object in a digest: its encoding, or nothing if it cannot be encoded. *)
Definition hashed (e : encoding) : bytes := match e with EOk b => b | EFail _ => [] end.

Section writer.
Context (H : bytes → digest).
Context {SK PK B : Type} (encD : digest → bytes) (signBytes : SK → bytes → bytes) (verifyBytes : PK → bytes → bytes → bool).

Lemma hashObj_eq e w : ∃ x, HashObj H (prepareForHashing e) w = (H (hashed e), w ++ x).
Proof.
  unfold HashObj, prepareForHashing, from. destruct e as [b|j]; [|by exists j].
  exists b. by rewrite drop_app.
Qed.
Lemma nodeW_eq l r w : ∃ x, nodeW H l r w = (node H l r, w ++ x).
Proof.
  unfold nodeW, HashObj, pairToBeHashed, from. exists (vec_to_list r ++ vec_to_list l).
  rewrite <-app_assoc, drop_app. done.
Qed.
Lemma layer_upW_eq ls w : ∃ x, layer_upW H ls w = (layer_up H ls, w ++ x).
Proof.
  remember (length ls) as n eqn:Hn. revert ls w Hn. induction (lt_wf n) as [n _ IH]. intros ls w ->.
  destruct ls as [|l [|r ls]]; cbn [layer_upW layer_up].
  - exists []. by rewrite app_nil_r.
  - destruct (nodeW_eq l zero_digest w) as [x ->]. by exists x.
  - destruct (nodeW_eq l r w) as [x ->]. destruct (IH (length ls) ltac:(simpl; lia) ls (w ++ x) eq_refl) as [y ->].
    exists (x ++ y). by rewrite app_assoc.
Qed.
Lemma build_levelsW_eq fuel top w : ∃ x, build_levelsW H fuel top w = (build_levels H fuel top, w ++ x).
Proof.
  revert top w; induction fuel as [|fuel IH]; intros top w; cbn [build_levelsW build_levels]; case_decide.
  1,2,4: exists []; by rewrite app_nil_r.
  destruct (layer_upW_eq top w) as [x ->]. destruct (IH (layer_up H top) (w ++ x)) as [y ->].
  exists (x ++ y). by rewrite app_assoc.
Qed.
Lemma leavesW_eq arr w : ∃ x, leavesW H arr w = (H <$> (hashed <$> arr), w ++ x).
Proof.
  revert w; induction arr as [|e arr IH]; intros w; cbn [leavesW].
  - exists []. by rewrite app_nil_r.
  - destruct (hashObj_eq e w) as [x ->]. destruct (IH (w ++ x)) as [y ->]. exists (x ++ y). by rewrite app_assoc.
Qed.
Lemma BuildW_eq arr w : ∃ x, BuildW H arr w = (Build H (hashed <$> arr), w ++ x).
Proof.
  unfold BuildW, Build. destruct (leavesW_eq arr w) as [x ->]. destruct arr as [|e arr]; [by exists x|].
  rewrite fmap_length. destruct (build_levelsW_eq (length (e :: arr)) (H <$> (hashed <$> e :: arr)) (w ++ x)) as [y ->].
  exists (x ++ y). by rewrite app_assoc.
Qed.
Lemma pl_upW_eq pl s w : ∃ x, pl_upW H pl s w = (pl_up get_hint (node H) pl s, w ++ x).
Proof.
  remember (length pl) as n eqn:Hn. revert pl s w Hn. induction (lt_wf n) as [n _ IH]. intros pl s w ->.
  destruct pl as [|[pos h] rest]; cbn [pl_upW pl_up].
  { exists []. by rewrite app_nil_r. }
  assert (∀ sib w, ∃ x, (if N.even pos then nodeW H h sib w else nodeW H sib h w) =
    ((if N.even pos then node H h sib else node H sib h), w ++ x)) as Hj.
  { intros sib w'. destruct (N.even pos); apply nodeW_eq. }
  assert (∃ x, match get_hint s (N.lxor pos 1) with
        | None => (None, w)
        | Some (sib, s1) =>
            let '(d, w) := if N.even pos then nodeW H h sib w else nodeW H sib h w in
            let '(o, w) := pl_upW H rest s1 w in
            ('(res, s2) ← o; Some ((pos / 2, d) :: res, s2)%N, w)
        end = ('(sib, s1) ← get_hint s (N.lxor pos 1);
        '(res, s2) ← pl_up get_hint (node H) rest s1;
        Some ((pos / 2, if N.even pos then node H h sib else node H sib h) :: res, s2)%N, w ++ x)) as Halone.
  { destruct (get_hint s (N.lxor pos 1)) as [[sib s1]|]; [|exists []; by rewrite app_nil_r].
    destruct (Hj sib w) as [x ->]. destruct (IH (length rest) ltac:(simpl; lia) rest s1 (w ++ x) eq_refl) as [y ->].
    exists (x ++ y). by rewrite app_assoc. }
  destruct rest as [|[pos' h'] rest']; [exact Halone|]. case_decide; [|exact Halone].
  destruct (Hj h' w) as [x ->]. destruct (IH (length rest') ltac:(simpl; lia) rest' s (w ++ x) eq_refl) as [y ->].
  exists (x ++ y). by rewrite app_assoc.
Qed.
Lemma verify_loopW_eq k pl hints w : ∃ x, verify_loopW H k pl hints w = (verify_loop H k pl hints, w ++ x).
Proof.
  revert pl hints w; induction k as [|k IH]; intros pl hints w; cbn [verify_loopW verify_loop]; case_decide.
  2,4: exists []; by rewrite app_nil_r.
  - destruct (pl_upW_eq pl hints w) as [x ->]. exists x. destruct (pl_up _ _ _ _) as [[? ?]|]; done.
  - destruct (pl_upW_eq pl hints w) as [x ->]. destruct (pl_up _ _ _ _) as [[pl' hints']|]; [|by exists x].
    destruct (IH pl' hints' (w ++ x)) as [y ->]. exists (x ++ y). by rewrite app_assoc.
Qed.
Lemma itemsW_eq elems w : ∃ x, itemsW H elems w = ((λ e, (e.1, H (hashed e.2))) <$> elems, w ++ x).
Proof.
  revert w; induction elems as [|[pos e] elems IH]; intros w; cbn [itemsW].
  - exists []. by rewrite app_nil_r.
  - destruct (hashObj_eq e w) as [x ->]. destruct (IH (w ++ x)) as [y ->]. exists (x ++ y). by rewrite app_assoc.
Qed.

(** C109: the tree, the root and the proofs of an array do not depend on what the buffer contains, and the buffer
    is only appended to. *)
Theorem C109_build (arr : list encoding) (w : buffer) :
  (BuildW H arr w).1 = Build H (hashed <$> arr) ∧ w `prefix_of` (BuildW H arr w).2.
Proof. destruct (BuildW_eq arr w) as [x ->]. split; [done|by exists x]. Qed.

(** Sorted by position, a list whose positions differ is determined by its members. *)
Lemma sorted_unique (l l' : list item) : NoDup l.*1 → l ≡ₚ l' → Sorted pos_le l → Sorted pos_le l' → l = l'.
Proof.
  intros Hnd Hp Hs Hs'. apply Sorted_StronglySorted in Hs, Hs'; [|intros ???; unfold pos_le; lia..].
  revert l' Hp Hs'. induction Hs as [|a l Hs IH Ha]; intros l' Hp Hs'.
  { apply Permutation_nil in Hp. by subst. }
  destruct l' as [|b l']; [symmetry in Hp; by apply Permutation_nil_cons in Hp|].
  rewrite fmap_cons in Hnd. apply NoDup_cons in Hnd as [Hna Hnd].
  apply StronglySorted_inv in Hs' as [Hs' Hb].
  assert (a = b) as <-.
  { assert (a ∈ b :: l') as [->|Hin]%elem_of_cons by (rewrite <-Hp; constructor); [done|].
    assert (b ∈ a :: l) as [->|Hin']%elem_of_cons by (rewrite Hp; constructor); [done|].
    rewrite Forall_forall in Ha, Hb. specialize (Ha b Hin'). specialize (Hb a Hin). unfold pos_le in *.
    exfalso. apply Hna. apply elem_of_list_fmap. exists b. split; [lia|done]. }
  f_equal. apply IH; [done|by apply Permutation_cons_inv in Hp|done].
Qed.
Lemma items_sorted (m : gmap N encoding) (order : list (N * encoding)) : order ≡ₚ map_to_list m →
  merge_sort pos_le ((λ e, (e.1, H (hashed e.2))) <$> order) =
  merge_sort pos_le ((λ e, (e.1, H e.2)) <$> map_to_list (hashed <$> m)).
Proof.
  intros Hp.
  assert ((λ e, (e.1, H (hashed e.2))) <$> order ≡ₚ (λ e, (e.1, H e.2)) <$> map_to_list (hashed <$> m)) as Hpp.
  { rewrite Hp, map_to_list_fmap. rewrite <-list_fmap_compose. done. }
  assert (Transitive pos_le) by (intros ???; unfold pos_le; lia).
  assert (Total pos_le) by (intros ??; unfold pos_le; lia).
  apply sorted_unique.
  - rewrite (merge_sort_Permutation pos_le), <-list_fmap_compose. rewrite Hp. apply NoDup_fst_map_to_list.
  - by rewrite !merge_sort_Permutation.
  - by apply Sorted_merge_sort.
  - by apply Sorted_merge_sort.
Qed.

(** Verify: for every buffer, and every order in which the map of elements is visited. *)
Theorem C109_verify (root : digest) (m : gmap N encoding) (order : list (N * encoding)) (proof : list digest) (w : buffer) :
  order ≡ₚ map_to_list m →
  (VerifyW H root order proof w).1 = Verify H root (hashed <$> m) proof ∧ w `prefix_of` (VerifyW H root order proof w).2.
Proof.
  intros Hp. unfold VerifyW, Verify. destruct order as [|e order].
  - symmetry in Hp. apply Permutation_nil_r in Hp. apply map_to_list_empty_iff in Hp as ->.
    rewrite fmap_empty, decide_True by done. done.
  - rewrite decide_False.
    2:{ intros He%fmap_empty_iff. subst. rewrite map_to_list_empty in Hp. by apply Permutation_nil_r in Hp. }
    pose proof (itemsW_eq (e :: order) w) as [x Hx]. rewrite Hx. rewrite (items_sorted m) by done.
    set (its := merge_sort _ _). destruct (verify_loopW_eq 65 its proof (w ++ x)) as [y ->].
    split; [done|]. exists (x ++ y). by rewrite app_assoc.
Qed.

(** Signing through buffers is the signing of Model/Merkle.v. *)
Theorem C109_sign (enc : B → option cert → encoding) (arr : list signable) (sk : SK) :
  merkleSignW H encD signBytes enc arr sk = merkleSign H (λ b c, hashed (enc b c)) (λ sk d, signBytes sk (encD d)) arr sk.
Proof.
  unfold merkleSignW, merkleSign. destruct (BuildW_eq (ToBeHashedW enc <$> arr) []) as [x ->].
  unfold OWSign, from. simpl. rewrite drop_0.
  assert (hashed <$> (ToBeHashedW enc <$> arr) = ToBeHashed (λ b c, hashed (enc b c)) <$> arr) as ->; [|done].
  rewrite <-list_fmap_compose. done.
Qed.

(** A worker's verdicts, for every history of tasks, are those of the tasks alone: no task sees bytes of another. *)
Definition verdict (t : wtask) : bool :=
  match t with
  | TSig pk root sig => verifyBytes pk sig (encD root)
  | TPath root index e path => Verify H root {[index := hashed e]} path
  end.
Theorem C109_worker (ts : list wtask) (w : buffer) :
  (worker H encD verifyBytes ts w).1 = verdict <$> ts.
Proof.
  revert w; induction ts as [|t ts IH]; intros w; [done|]. cbn [worker].
  assert ((runTask H encD verifyBytes t w).1 = verdict t) as Ht.
  { destruct t as [pk root sig|root index e path]; cbn [runTask verdict].
    - unfold OWVerify, from. cbn. by rewrite drop_app.
    - destruct (C109_verify root {[index := e]} [(index, e)] path w) as [-> _]; [by rewrite map_to_list_singleton|].
      by rewrite map_fmap_singleton. }
  destruct (runTask H encD verifyBytes t w) as [v w']. simpl in Ht. subst v.
  specialize (IH []). destruct (worker H encD verifyBytes ts []) as [vs w'']. simpl in IH |- *. by rewrite IH.
Qed.

(** Objects that cannot be encoded all count as the empty string: a proof for one is a proof for every other. *)
Theorem C109_unencodable (root : digest) (index : N) (j j' : bytes) (path : list digest) (w w' : buffer) :
  (VerifyW H root [(index, EFail j)] path w).1 = (VerifyW H root [(index, EFail j')] path w').1.
Proof.
  destruct (C109_verify root {[index := EFail j]} [(index, EFail j)] path w) as [-> _]; [by rewrite map_to_list_singleton|].
  destruct (C109_verify root {[index := EFail j']} [(index, EFail j')] path w') as [-> _]; [by rewrite map_to_list_singleton|].
  by rewrite !map_fmap_singleton.
Qed.
End writer.
Print Assumptions C109_build.
Print Assumptions C109_verify.
Print Assumptions C109_sign.
Print Assumptions C109_worker.
Print Assumptions C109_unencodable.

(** A toy hash (the first byte, repeated); one worker, four tasks, starting from a buffer with rubbish in it. *)
Definition toyH (b : bytes) : digest := vreplicate 32 (default Byte.x00 (head b)).
Example C109_example :
  let H := toyH in let encD := λ d : digest, vec_to_list d in
  let ver := λ (pk sig : bytes) (m : bytes), bool_decide (sig = pk ++ m) in
  let root := Root (Build H [[Byte.x01]; [Byte.x02]]) in
  Prove (Build H [[Byte.x01]; [Byte.x02]]) [1%N] = Some [toyH [Byte.x01]] ∧
  (worker H encD ver
     [TPath root 1 (EOk [Byte.x02]) [toyH [Byte.x01]]; TPath root 1 (EOk [Byte.x04]) [toyH [Byte.x01]];
      TPath root 1 (EFail [Byte.x02]) [toyH [Byte.x01]];
      TSig [Byte.x09] root (Byte.x09 :: vec_to_list root); TSig [Byte.x08] root (Byte.x09 :: vec_to_list root)]
     [Byte.x02; Byte.x02]).1 = [true; false; false; true; false].
Proof. vm_compute. split; reflexivity. Qed.
