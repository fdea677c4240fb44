(** Model of rrpc/gc.go:15-33 cleanmapAccordingToTTL running beside other users of the map (Model/SyncMap.v).
    Model/Gc.v is the same function with nobody else on the map.

    Simplification: PrepareForDeletion (gc.go:27) does not use the map (client.go:54-57, net_conns.go:42-47,
    relay.go:28-33), so it is no step here.  No other Range runs on the map (there is none in the code besides gc.go:16). *)
From stdpp Require Import gmap.
From Verif.Base Require Import Base.
From Verif.Model Require Import Gc SyncMap.

Section clean.
Context {K : Type} `{Countable K} {V O : Type} (zero : V) (is_nil : V → bool).
(** gc.go:17, 23: the start time of a value that implements GCable; ttl: the argument. *)
Context (gcable : any V O → option Z) (ttl : Z).

(** The map, and the key the cleaner has found expired and is about to delete (between gc.go:17-23 and 19, 28). *)
Record clstate := mkCl { cl_map : mstate K V O; cl_pending : option K }.

Inductive cllabel :=
| CUser (o : mop K V O) (r : mres V)              (* another goroutine uses the map *)
| CBegin                                          (* gc.go:16 *)
| CVisit (k : K) (a : any V O) (now : Z)          (* gc.go:17-23: the function is called; the clock shows now *)
| CDrop (k : K)                                   (* gc.go:19, 28 *)
| CEnd.                                           (* gc.go:32 *)

Inductive clstep : clstate → cllabel → clstate → Prop :=
| cl_user s p o r s' : mstep zero is_nil s (MOp o r) s' → clstep (mkCl s p) (CUser o r) (mkCl s' p)
| cl_begin s s' : mstep zero is_nil s (MRange 0) s' → clstep (mkCl s None) CBegin (mkCl s' None)
| cl_keep s s' k a now : mstep zero is_nil s (MVisit 0 k a true) s' → keeps gcable ttl now a →
    clstep (mkCl s None) (CVisit k a now) (mkCl s' None)
| cl_expired s s' k a now : mstep zero is_nil s (MVisit 0 k a true) s' → ¬ keeps gcable ttl now a →
    clstep (mkCl s None) (CVisit k a now) (mkCl s' (Some k))
| cl_drop s s' k : mstep zero is_nil s (MOp (Delete k) RDone) s' → clstep (mkCl s (Some k)) (CDrop k) (mkCl s' None)
| cl_end s s' : mstep zero is_nil s (MRangeEnd 0) s' → clstep (mkCl s None) CEnd (mkCl s' None).

Inductive clsteps : clstate → list cllabel → clstate → Prop :=
| cls_nil s : clsteps s [] s
| cls_snoc s tr s1 l s2 : clsteps s tr s1 → clstep s1 l s2 → clsteps s (tr ++ [l]) s2.
End clean.
Arguments cllabel : clear implicits.
Arguments clstate _ {_ _} _ _.
