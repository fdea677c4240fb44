(** Model of config/topology.go and of setMixNames (config/config.go). *)
From stdpp Require Import gmap sorting.
From Verif.Base Require Import Base.

(** config.LogicalMix (config/config.proto:57-67). *)
Record LogicalMix := mkMix {
  mx_host : string;
  mx_name : string;
  mx_server : Z;              (* int32 *)
  mx_layer : Z;               (* int32 *)
  mx_preds : list string;
  mx_succs : list string
}.

(** Go's int32(x) conversion of an int. *)
Definition to_int32 (z : Z) : Z := ((z + 2 ^ 31) mod 2 ^ 32 - 2 ^ 31)%Z.

(** config.Topology.  Layers own the LogicalMix objects; the Mixes map holds pointers to the same
    objects (topology.go:42), modelled as the object's location (layer, position). *)
Record topology := mkTopo {
  tp_layers : list (list LogicalMix);
  tp_mixes : gmap string (nat * nat)
}.

(** topology.go:46 *)
Definition GenesisName : string := "GENESIS".

(** fmt.Sprintf("m(%d,%d)", layerNum, mixPos), topology.go:33 *)
Definition mix_name (layer pos : nat) : string :=
  "m(" +:+ pretty layer +:+ "," +:+ pretty pos +:+ ")".

(** topology.go:28-43, the loop over hostnames at index i; the hostname lookup cannot fail in Go's
    sense (mixPos < len), [None] would be the index panic. *)
Definition create_mix (hosts : list string) (layerNum i : nat) : option LogicalMix :=
  let mixPos := (i + layerNum) mod length hosts in
  h ← hosts !! mixPos;
  Some {| mx_host := h; mx_name := mix_name layerNum mixPos;
          mx_server := to_int32 (Z.of_nat mixPos); mx_layer := to_int32 (Z.of_nat layerNum);
          mx_preds := []; mx_succs := [] |}.

Fixpoint create_layer_loop (hosts : list string) (layerNum : nat) (is : list nat)
    (ms : list LogicalMix) (mixes : gmap string (nat * nat))
    : option (list LogicalMix * gmap string (nat * nat)) :=
  match is with
  | [] => Some (ms, mixes)
  | i :: is =>
      m ← create_mix hosts layerNum i;
      create_layer_loop hosts layerNum is (ms ++ [m])
        (<[mx_name m := (layerNum, length ms)]> mixes)
  end.

(** topology.go:23-44 createLayer: layerNum = len(x.Layers). *)
Definition createLayer (hosts : list string) (x : topology) : option topology :=
  let layerNum := length (tp_layers x) in
  '(ms, mixes) ← create_layer_loop hosts layerNum (seq 0 (length hosts)) [] (tp_mixes x);
  Some (mkTopo (tp_layers x ++ [ms]) mixes).

(** topology.go:13-15: the loop that calls createLayer numLayers times. *)
Fixpoint createLayers (hosts : list string) (k : nat) (x : topology) : option topology :=
  match k with
  | O => Some x
  | S k => x' ← createLayer hosts x; createLayers hosts k x'
  end.

(** Loops with an index that may panic. *)
Fixpoint imapM {A B} (f : nat → A → option B) (i : nat) (l : list A) : option (list B) :=
  match l with
  | [] => Some []
  | x :: l => y ← f i x; ys ← imapM f (S i) l; Some (y :: ys)
  end.

(** topology.go:48-60 SetPredecessors.  The loop mutates only Predecessors and reads only names,
    so it is written as a map over the layers. *)
Definition set_pred (x : topology) (l i : nat) (m : LogicalMix) : option LogicalMix :=
  match l with
  | O => Some (mkMix (mx_host m) (mx_name m) (mx_server m) (mx_layer m) [GenesisName] (mx_succs m))
  | S l' =>
      prev ← tp_layers x !! l';
      p ← prev !! i;
      Some (mkMix (mx_host m) (mx_name m) (mx_server m) (mx_layer m)
                  (mx_preds m ++ [mx_name p]) (mx_succs m))
  end.
Definition SetPredecessors (x : topology) : option topology :=
  ls ← imapM (λ l layer, imapM (set_pred x l) 0 layer) 0 (tp_layers x);
  Some (mkTopo ls (tp_mixes x)).

(** topology.go:62-74 SetSuccessors. *)
Definition set_succ (x : topology) (l i : nat) (m : LogicalMix) : option LogicalMix :=
  if decide (S l = length (tp_layers x)) then
    Some (mkMix (mx_host m) (mx_name m) (mx_server m) (mx_layer m) (mx_preds m) [GenesisName])
  else
    next ← tp_layers x !! S l;
    s ← next !! i;
    Some (mkMix (mx_host m) (mx_name m) (mx_server m) (mx_layer m)
                (mx_preds m) (mx_succs m ++ [mx_name s])).
Definition SetSuccessors (x : topology) : option topology :=
  ls ← imapM (λ l layer, imapM (set_succ x l) 0 layer) 0 (tp_layers x);
  Some (mkTopo ls (tp_mixes x)).

(** topology.go:7-21 CreateCascadeTopology; a negative numLayers makes make([]*Layer, 0, numLayers)
    panic ([None]). *)
Definition CreateCascadeTopology (servers : list string) (numLayers : Z) : option topology :=
  if decide (numLayers < 0)%Z then None else
  x ← createLayers servers (Z.to_nat numLayers) (mkTopo [] ∅);
  x ← SetPredecessors x;
  SetSuccessors x.

(** Dereferencing a location. *)
Definition deref (t : topology) (loc : nat * nat) : option LogicalMix :=
  layer ← tp_layers t !! loc.1; layer !! loc.2.

(** topology.go:75-77 GetMix: nil ([None]) for an unknown name. *)
Definition GetMix (t : topology) (name : string) : option LogicalMix :=
  loc ← tp_mixes t !! name; deref t loc.

(** config.go:208-220 setMixNames, as a relation: the range over the map visits the entries in some
    order, and sort.Slice returns some permutation that is sorted by the comparison used. *)
Definition layer_of (t : topology) (name : string) : Z :=
  match GetMix t name with Some m => mx_layer m | None => 0%Z end.
Definition setMixNames (t : topology) (host : string) (out : list string) : Prop :=
  ∃ order : list (string * (nat * nat)),
    order ≡ₚ map_to_list (tp_mixes t) ∧
    let kept := (filter (λ e, mx_host <$> deref t e.2 = Some host) order).*1 in
    out ≡ₚ kept ∧
    (∀ i j a b, i < j → out !! i = Some a → out !! j = Some b →
       ¬ (layer_of t b < layer_of t a)%Z).
