(** Model of internal/msync/map.go: the typed map all components share, on top of Go's sync.Map.

    Described, not verified: Go's sync.Map (package documentation, go 1.18).  Load, Store, Delete, LoadAndDelete and
    LoadOrStore each take effect at one instant.  Range calls its function for no key twice; it calls it for every
    key that is in the map from the start to the end of the Range, unless the function returned false; the value
    passed is one the key had at some moment during the Range.  The callback may use the map itself.

    Simplification: keys are of the map's key type (the typed methods give no other). *)
From stdpp Require Import gmap.
From Verif.Base Require Import Base.

(** Go's `any`: nil, a value of the map's type, or a value of some other type. *)
Inductive any (V O : Type) := ANil | AVal (v : V) | AOther (o : O).
Arguments ANil {V O}.
Arguments AVal {V O} v.
Arguments AOther {V O} o.

Section syncmap.
Context {K : Type} `{Countable K} {V O : Type}.
(** The zero value of the type (map.go:9, 32: the named result), and which values are a nil interface (none unless V
    is an interface type; merkle_verifier.go:37, 46 is the one instance with an interface type). *)
Context (zero : V) (is_nil : V → bool).

(** The conversion of an argument to any (map.go:19, 42), and the type assertion (map.go:12, 28, 38, 44): None is a panic. *)
Definition box (v : V) : any V O := if is_nil v then ANil else AVal v.
Definition cast (a : any V O) : option V := match a with AVal v => Some v | _ => None end.

(** The methods of Map; RawStore stands for a write through the embedded sync.Map (map.go:5-7: the field Map and its
    methods are exported and take any value). *)
Inductive mop := Load (k : K) | Store (k : K) (v : V) | Delete (k : K) | LoadAndDelete (k : K) | LoadOrStore (k : K) (v : V)
  | RawStore (k : K) (a : any V O).
(** What a caller sees. *)
Inductive mres := RVal (v : V) (ok : bool) | RDone | RPanic.

Definition asserted (a : any V O) (ok : bool) : mres := match cast a with Some v => RVal v ok | None => RPanic end.
(** map.go:9-16, 18-20, 22-24, 32-39, 41-45 *)
Definition map_do (o : mop) (m : gmap K (any V O)) : gmap K (any V O) * mres :=
  match o with
  | Load k => (m, match m !! k with Some a => asserted a true | None => RVal zero false end)
  | Store k v => (<[k := box v]> m, RDone)
  | Delete k => (delete k m, RDone)
  | LoadAndDelete k => (delete k m, match m !! k with Some a => asserted a true | None => RVal zero false end)
  | LoadOrStore k v =>
      match m !! k with
      | Some a => (m, asserted a true)
      | None => (<[k := box v]> m, asserted (box v) false)
      end
  | RawStore k a => (<[k := a]> m, RDone)
  end.

(** A Range that is running (map.go:26-30): the mappings there were since it began, the keys present all the time since
    then, the keys its function was called for, whether the function asked to stop. *)
Record ranging := mkRanging { r_seen : list (K * any V O); r_must : gset K; r_visited : gset K; r_stop : bool }.
(** The map and the Ranges running on it, by goroutine. *)
Record mstate := mkM { m_map : gmap K (any V O); m_ranges : gmap nat ranging }.
Definition empty_map : mstate := mkM ∅ ∅.

(** A running Range while another goroutine (or its own callback) changes the map to m. *)
Definition noticed (m : gmap K (any V O)) (r : ranging) : ranging :=
  mkRanging (r_seen r ++ map_to_list m) (r_must r ∩ dom m) (r_visited r) (r_stop r).

Inductive mlabel :=
| MOp (o : mop) (r : mres)                              (* a method call, at the instant it takes effect *)
| MRange (t : nat)                                      (* goroutine t begins a Range *)
| MVisit (t : nat) (k : K) (a : any V O) (more : bool)  (* its function is called with k and a and returns more *)
| MRangeEnd (t : nat).                                  (* the Range returns *)

Inductive mstep : mstate → mlabel → mstate → Prop :=
| ms_op o s m r : map_do o (m_map s) = (m, r) → mstep s (MOp o r) (mkM m (noticed m <$> m_ranges s))
| ms_range t s : m_ranges s !! t = None →
    mstep s (MRange t) (mkM (m_map s) (<[t := mkRanging (map_to_list (m_map s)) (dom (m_map s)) ∅ false]> (m_ranges s)))
| ms_visit t s r k a more : m_ranges s !! t = Some r → r_stop r = false → k ∉ r_visited r → (k, a) ∈ r_seen r →
    mstep s (MVisit t k a more)
      (mkM (m_map s) (<[t := mkRanging (r_seen r) (r_must r) ({[k]} ∪ r_visited r) (negb more)]> (m_ranges s)))
| ms_end t s r : m_ranges s !! t = Some r → (r_stop r = true ∨ r_must r ⊆ r_visited r) →
    mstep s (MRangeEnd t) (mkM (m_map s) (delete t (m_ranges s))).

Inductive mrun : list mlabel → mstate → Prop :=
| mr_nil : mrun [] empty_map
| mr_snoc tr l s s' : mrun tr s → mstep s l s' → mrun (tr ++ [l]) s'.
End syncmap.
Arguments mop : clear implicits.
Arguments mres : clear implicits.
Arguments mlabel : clear implicits.
Arguments mstate _ {_ _} _ _.
