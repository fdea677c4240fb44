(** Vocabulary for the Merkle properties: which byte strings are hashed while building the tree of an
    array and while verifying one element. *)
From stdpp Require Import gmap sorting vector.
From Verif.Base Require Import Base.
From Verif.Model Require Import Merkle.

Section spec.
Context (H : bytes → digest).

(** Strings hashed to compute the layer above [ls]. *)
Fixpoint layer_strings (ls : list digest) : list bytes :=
  match ls with
  | [] => []
  | [l] => [pair_bytes l zero_digest]
  | l :: r :: ls => pair_bytes l r :: layer_strings ls
  end.
Fixpoint tree_strings (tree : list (list digest)) : list bytes :=
  match tree with
  | [] | [_] => []
  | ls :: tree => layer_strings ls ++ tree_strings tree
  end.
(** All strings hashed by Build arr. *)
Definition build_strings (arr : list bytes) : list bytes := arr ++ tree_strings (Build H arr).

(** The string hashed to go one level up from digest h at position p with sibling d, and all strings
    hashed on the way up. *)
Definition step_string (p : N) (h d : digest) : bytes :=
  if N.even p then pair_bytes h d else pair_bytes d h.
Fixpoint path_strings (p : N) (h : digest) (proof : list digest) : list bytes :=
  match proof with
  | [] => []
  | d :: proof => step_string p h d :: path_strings (p / 2) (H (step_string p h d)) proof
  end.
Definition verify_strings (p : N) (e : bytes) (proof : list digest) : list bytes :=
  e :: path_strings p (H e) proof.

(** The same for several elements: the strings hashed by one "up" over the sorted items (two neighbours give
    one string), by the loop, and by Verify altogether. *)
Fixpoint up_strings (pl : list item) (hints : list digest) : list bytes :=
  match pl with
  | [] => []
  | (pos, h) :: rest =>
      let alone := match hints with [] => [] | d :: hints => step_string pos h d :: up_strings rest hints end in
      match rest with
      | (pos', h') :: rest' =>
          if decide (pos' = N.lxor pos 1) then step_string pos h h' :: up_strings rest' hints else alone
      | [] => alone
      end
  end.
Fixpoint loop_strings (k : nat) (pl : list item) (hints : list digest) : list bytes :=
  match k with
  | O => []
  | S k =>
      if decide (hints ≠ [] ∨ 1 < length pl) then
        up_strings pl hints ++
        match pl_up get_hint (node H) pl hints with Some (pl, hints) => loop_strings k pl hints | None => [] end
      else []
  end.
Definition verify_all_strings (elems : gmap N bytes) (proof : list digest) : list bytes :=
  (map_to_list elems).*2 ++
  loop_strings 65 (merge_sort pos_le ((λ e, (e.1, H e.2)) <$> map_to_list elems)) proof.

(** The hash function has failed on strings that were really hashed: two different ones, [u] from the
    first list and [v] from the second, have the same digest, or one of the first has the zero digest. *)
Definition clash (us vs : list bytes) : Prop :=
  (∃ u v, u ∈ us ∧ v ∈ vs ∧ u ≠ v ∧ H u = H v) ∨ (∃ u, u ∈ us ∧ H u = zero_digest).
End spec.
