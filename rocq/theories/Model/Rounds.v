(** Model of server.go: the round table and its four RPC handlers. *)
From stdpp Require Import gmap.
From Verif.Base Require Import Base.
From Verif.Model Require Import Topology Shuffle Onion Mixer.

(** Go's int(x) of a uint64 on a 64-bit machine (server.go:115). *)
Definition to_int64 (x : N) : Z := ((Z.of_N x + 2 ^ 63) mod 2 ^ 64 - 2 ^ 63)%Z.

(** server.go:113-116: the request's map with its values converted. *)
Definition request_workload (req : gmap string N) : gmap string Z := to_int64 <$> req.

(** server.go:125-129: follow Successors[0] until the lookup gives nil.  Outer [None]: more than
    [fuel] iterations were needed (Go would go on; the theorems are for every sufficient fuel). *)
Fixpoint propagate (fuel : nat) (t : topology) (load : Z) (curr : option LogicalMix)
    (w : gmap string Z) : option (outcome code (gmap string Z)) :=
  match curr with
  | None => Some (Ok w)
  | Some m =>
      match fuel with
      | O => None
      | S fuel =>
          match mx_succs m with
          | [] => Some Panic                     (* curr.Successors[0] on an empty slice *)
          | s :: _ => propagate fuel t load (GetMix t s) (<[mx_name m := load]> w)
          end
      end
  end.

(** server.go:119-130: the loop over the first layer. *)
Fixpoint propagate_all (fuel : nat) (t : topology) (ms : list LogicalMix) (w : gmap string Z)
    : option (outcome code (gmap string Z)) :=
  match ms with
  | [] => Some (Ok w)
  | m :: ms =>
      match w !! mx_name m with
      | None => Some (Err FailedPrecondition)
      | Some load =>
          match propagate fuel t load (Some m) w with
          | Some (Ok w') => propagate_all fuel t ms w'
          | r => r
          end
      end
  end.

(** server.go:113-130. Layers[0] panics without layers. *)
Definition round_workload (fuel : nat) (t : topology) (req : gmap string N)
    : option (outcome code (gmap string Z)) :=
  match tp_layers t !! 0 with
  | None => Some Panic
  | Some l0 => propagate_all fuel t l0 (request_workload req)
  end.

(** server.go:103-106 computeId: the string that is hashed (strconv.Itoa prints the decimal), and the
    identity for a given hash function (sha3-256 on the bytes of the string). *)
Definition id_string (hostname : string) (round : Z) : string := hostname +:+ pretty round.
Definition computeId {D} (sha3 : string → D) (hostname : string) (round : Z) : D :=
  sha3 (id_string hostname round).

(** server.go:132-139: the mixes of this host, in some order of the map iteration. *)
Definition hosted (t : topology) (host : string) (ms : list LogicalMix) : Prop :=
  ms ≡ₚ filter (λ m, mx_host m = host) (omap (λ e, deref t e.2) (map_to_list (tp_mixes t))).

(** One Mixers object with its channel capacity (2*len(mixes), mixer.go:96), the round it was made
    for, the state it started in and (ghost) the labels of its execution so far. *)
Record robject := mkRobject {
  ro_round : N;
  ro_init : mixers;
  ro_cap : nat;
  ro_trace : list label;
  ro_state : mixers
}.

(** server.go:41-53. Objects are never forgotten by the model: handlers that loaded one keep using
    it after the table entry changed. *)
Record server := mkServer {
  sv_states : gmap N nat;                       (* States: round -> object *)
  sv_objs : list robject;
  sv_calls : list (nat * list Messages);        (* AddMessages handlers past the table lookup *)
  sv_closing : list nat;                        (* EndRound handlers past LoadAndDelete *)
  sv_reads : list (nat * string);               (* GetMessages handlers past the lookups *)
  sv_panic : bool
}.
Definition NewMixServer : server := mkServer ∅ [] [] [] [] false.

Inductive slabel :=
| SNew (r : N) (req : gmap string N) (res : outcome code nat)
| SEnd (r : N) (res : outcome code nat)
| SAdd (r : N) (msgs : list Messages) (res : outcome code nat)
| SGet (r : N) (mix : string) (res : outcome code nat)
| SGot (id : nat) (mix : string) (v : list (option onion))  (* a waiting GetMessages returns *)
| SObj (id : nat) (l : label)                               (* a step of object id *)
| SCrash (r : N) (req : gmap string N).                     (* NewRound panics *)

Definition obj_step (o : robject) (l : label) (s' : mixers) : robject :=
  mkRobject (ro_round o) (ro_init o) (ro_cap o) (ro_trace o ++ [l]) s'.

Section server.
(** Connections != nil (server.go:109), the topology, the own host name; decryption of an onion with
    the key of a round; number of workers and capacity of the task queue. *)
Context (connected : bool) (t : topology) (host : string)
        (peel : N → onion → option (option onion)) (workers taskCap : nat).

Definition ostep (o : robject) : mixers → label → mixers → Prop :=
  step (peel (ro_round o)) workers taskCap (ro_cap o).

Definition with_obj (s : server) (id : nat) (o : robject) : server :=
  mkServer (sv_states s) (<[id := o]> (sv_objs s)) (sv_calls s) (sv_closing s) (sv_reads s)
           (sv_panic s || mm_panic (ro_state o)).

(** A panic in any goroutine ends the process: no rule applies to a crashed server. *)
Inductive sstep : server → slabel → server → Prop :=
(* NewRound, server.go:108-161 *)
| ss_new_conn s r req :
    sv_panic s = false → connected = false →
    sstep s (SNew r req (Err FailedPrecondition)) s
| ss_new_err s r req fuel c :
    sv_panic s = false → connected = true → round_workload fuel t req = Some (Err c) →
    sstep s (SNew r req (Err c)) s
| ss_new_panic s r req fuel :
    sv_panic s = false → connected = true → round_workload fuel t req = Some Panic →
    sstep s (SCrash r req) (mkServer (sv_states s) (sv_objs s) (sv_calls s) (sv_closing s) (sv_reads s) true)
| ss_new_make s r req fuel w ms :
    sv_panic s = false → connected = true → round_workload fuel t req = Some (Ok w) →
    hosted t host ms → NewMixers t ms w = None →
    sstep s (SCrash r req) (mkServer (sv_states s) (sv_objs s) (sv_calls s) (sv_closing s) (sv_reads s) true)
| ss_new s r req fuel w ms m :
    sv_panic s = false → connected = true → round_workload fuel t req = Some (Ok w) →
    hosted t host ms → NewMixers t ms w = Some m →
    sstep s (SNew r req (Ok (length (sv_objs s))))
      (mkServer (<[r := length (sv_objs s)]> (sv_states s))
                (sv_objs s ++ [mkRobject r m (2 * length ms) [] m])
                (sv_calls s) (sv_closing s) (sv_reads s) false)
(* EndRound, server.go:163-172 *)
| ss_end_nf s r :
    sv_panic s = false → sv_states s !! r = None →
    sstep s (SEnd r (Err NotFound)) s
| ss_end s r id :
    sv_panic s = false → sv_states s !! r = Some id →
    sstep s (SEnd r (Ok id))
      (mkServer (delete r (sv_states s)) (sv_objs s) (sv_calls s) (sv_closing s ++ [id]) (sv_reads s) false)
| ss_close s c1 id c2 o l s' :
    sv_panic s = false → sv_closing s = c1 ++ id :: c2 → sv_objs s !! id = Some o →
    (l = LClose ∨ l = LCloseTwice) → ostep o (ro_state o) l s' →
    sstep s (SObj id l)
      (with_obj (mkServer (sv_states s) (sv_objs s) (sv_calls s) (c1 ++ c2) (sv_reads s) (sv_panic s))
                id (obj_step o l s'))
(* AddMessages, server.go:174-184 *)
| ss_add_nf s r msgs :
    sv_panic s = false → sv_states s !! r = None →
    sstep s (SAdd r msgs (Err NotFound)) s
| ss_add s r msgs id :
    sv_panic s = false → sv_states s !! r = Some id →
    sstep s (SAdd r msgs (Ok id))
      (mkServer (sv_states s) (sv_objs s) (sv_calls s ++ [(id, msgs)]) (sv_closing s) (sv_reads s) false)
| ss_enter s c1 id msgs c2 o s' :
    sv_panic s = false → sv_calls s = c1 ++ (id, msgs) :: c2 → sv_objs s !! id = Some o →
    ostep o (ro_state o) (LAdd msgs) s' →
    sstep s (SObj id (LAdd msgs))
      (with_obj (mkServer (sv_states s) (sv_objs s) (c1 ++ c2) (sv_closing s) (sv_reads s) (sv_panic s))
                id (obj_step o (LAdd msgs) s'))
(* a goroutine of object id takes a step; closing is the EndRound handler's *)
| ss_obj s id o l s' :
    sv_panic s = false → sv_objs s !! id = Some o →
    l ≠ LClose → l ≠ LCloseTwice → (∀ msgs, l ≠ LAdd msgs) →
    ostep o (ro_state o) l s' →
    sstep s (SObj id l) (with_obj s id (obj_step o l s'))
(* GetMessages, server.go:55-74 *)
| ss_get_fp s r mix :
    sv_panic s = false → sv_states s !! r = None →
    sstep s (SGet r mix (Err FailedPrecondition)) s
| ss_get_nf s r mix id o :
    sv_panic s = false → sv_states s !! r = Some id → sv_objs s !! id = Some o →
    mm_states (ro_state o) !! mix = None →
    sstep s (SGet r mix (Err NotFound)) s
| ss_get s r mix id o :
    sv_panic s = false → sv_states s !! r = Some id → sv_objs s !! id = Some o →
    is_Some (mm_states (ro_state o) !! mix) →
    sstep s (SGet r mix (Ok id))
      (mkServer (sv_states s) (sv_objs s) (sv_calls s) (sv_closing s) (sv_reads s ++ [(id, mix)]) false)
| ss_got s g1 id mix g2 o v :
    sv_panic s = false → sv_reads s = g1 ++ (id, mix) :: g2 → sv_objs s !! id = Some o →
    can_return (ro_state o) mix v →
    sstep s (SGot id mix v)
      (mkServer (sv_states s) (sv_objs s) (sv_calls s) (sv_closing s) (g1 ++ g2) false).

Inductive srun : list slabel → server → Prop :=
| srun_nil : srun [] NewMixServer
| srun_snoc tr l s s' : srun tr s → sstep s l s' → srun (tr ++ [l]) s'.

End server.
