(** Model of mixer.go: one round's Mixers object as a labelled transition system.

    Goroutines: the AddMessages caller holding the mutex, NumCPU decryption workers, and one
    shuffleAndSend goroutine per batch that found its mix complete.  A step is one synchronisation
    point of the code (lock acquisition, channel send / receive, WaitGroup operation); the code
    between two such points touches only data owned by that goroutine or protected by the mutex. *)
From stdpp Require Import gmap.
From Verif.Base Require Import Base.
From Verif.Model Require Import Topology Shuffle Onion.

(** mixer.go:65-68 physyicalMixName = (Hostname, MixName). *)
Definition physName : Type := string * string.

(** mixer.go:70-89 mixState.  An output slot is nil ([None]) or an onion.
    [st_shuffled]: Once has run and shuffleWait was signalled (they change together, lines 254-260). *)
Record mixState := mkMixState {
  st_name : string;
  st_preds : gmap physName Z;        (* predecessors: expected number per sender *)
  st_recv : gmap physName Z;         (* totalReceived *)
  st_left : Z;                       (* totalWorkload, decremented by HandleNewInputs *)
  st_outs : list (option onion);     (* outputs *)
  st_wg : Z;                         (* wg counter *)
  st_shuffled : bool;
  st_last : bool                     (* isLastLayer *)
}.

(** mixer.go:54-63 decryptionTask: the mix (standing for wg, Decrypter, Result), Idx, input. *)
Record task := mkTask { tk_mix : string; tk_idx : Z; tk_in : onion }.

(** mixer.go:39-42 mixoutput *)
Record mixoutput := mkMixoutput { mo_onions : list (option onion); mo_sender : string }.

(** Program counter of the AddMessages call that holds the mutex (mixer.go:191-210). *)
Inductive holder :=
| HMsgs (msgs : list Messages)                                   (* line 195, next message *)
| HPush (mix : string) (tasks : list task) (msgs : list Messages) (* lines 200-202 *)
| HCheck (mix : string) (msgs : list Messages).                  (* lines 204-208 *)

(** Program counter of a shuffleAndSend goroutine (mixer.go:251-271). *)
Inductive phase :=
| PWait    (* line 252: wg.Wait *)
| POnce    (* line 254: Once.Do *)
| PSend.   (* line 267: channel send *)
Global Instance phase_eq_dec : EqDecision phase.
Proof. solve_decision. Defined.

Record mixers := mkMixers {
  mm_states : gmap string mixState;
  mm_tasks : list task;                (* tasksChan's buffer *)
  mm_closed : bool;                    (* tasksChan closed *)
  mm_inflight : list task;             (* tasks taken by workers *)
  mm_holder : option holder;
  mm_pend : list (string * phase);     (* shuffleAndSend goroutines *)
  mm_out : list mixoutput;             (* output channel's buffer *)
  mm_panic : bool
}.

(** mixer.go:160-181 SetPredecessors. [None]: nil dereference, topo.Mixes[predecessor] missing. *)
Definition pred_entry (t : topology) (workload : gmap string Z) (own : Z) (p : string)
  : option (physName * Z) :=
  if decide (p = GenesisName) then Some ((GenesisName, p), own)
  else m ← GetMix t p; Some ((mx_host m, p), default 0%Z (workload !! p)).

Fixpoint pred_map (t : topology) (workload : gmap string Z) (own : Z) (ps : list string)
    (acc : gmap physName Z) : option (gmap physName Z) :=
  match ps with
  | [] => Some acc
  | p :: ps => e ← pred_entry t workload own p; pred_map t workload own ps (<[e.1 := e.2]> acc)
  end.

(** mixer.go:127-158 newMixState.  make([]Onion, w) panics for w < 0. *)
Definition newMixState (t : topology) (workload : gmap string Z) (m : LogicalMix) : option mixState :=
  let w := default 0%Z (workload !! mx_name m) in
  if decide (w < 0)%Z then None else
  preds ← pred_map t workload w (mx_preds m) ∅;
  Some {| st_name := mx_name m;
          st_preds := preds;
          st_recv := (λ _, 0%Z) <$> preds;
          st_left := w;
          st_outs := replicate (Z.to_nat w) None;
          st_wg := w;
          st_shuffled := false;
          st_last := bool_decide (mx_layer m = Z.of_nat (length (tp_layers t)) - 1)%Z |}.

(** mixer.go:91-121 NewMixers. *)
Fixpoint newStates (t : topology) (workload : gmap string Z) (ms : list LogicalMix)
    (acc : gmap string mixState) : option (gmap string mixState) :=
  match ms with
  | [] => Some acc
  | m :: ms => s ← newMixState t workload m; newStates t workload ms (<[mx_name m := s]> acc)
  end.
Definition NewMixers (t : topology) (ms : list LogicalMix) (workload : gmap string Z) : option mixers :=
  sts ← newStates t workload ms ∅;
  Some (mkMixers sts [] false [] None [] [] false).

(** mixer.go:213-235 HandleNewInputs *)
Fixpoint mkTasks (mix : string) (left : Z) (os : list onion) : list task :=
  match os with
  | [] => []
  | o :: os => mkTask mix (left - 1) o :: mkTasks mix (left - 1) os
  end%Z.
Definition HandleNewInputs (st : mixState) (msg : Messages) : mixState * list task :=
  let key := (msg_phys msg, msg_lsender msg) in
  let k := Z.of_nat (length (msg_onions msg)) in
  (mkMixState (st_name st) (st_preds st)
     (<[key := default 0 (st_recv st !! key) + k]> (st_recv st))
     (st_left st - k) (st_outs st) (st_wg st) (st_shuffled st) (st_last st),
   mkTasks (msg_recv msg) (st_left st) (msg_onions msg))%Z.

(** mixer.go:237-245 isDone *)
Definition isDone (st : mixState) : bool :=
  bool_decide (map_Forall (λ k v, v = default 0%Z (st_recv st !! k)) (st_preds st)).

(** task.Result[task.Idx] = outOnion; task.wg.Done() (mixer.go:110-111). *)
Definition set_out (st : mixState) (idx : nat) (r : option onion) : mixState :=
  mkMixState (st_name st) (st_preds st) (st_recv st) (st_left st)
    (<[idx := r]> (st_outs st)) (st_wg st - 1)%Z (st_shuffled st) (st_last st).

(** the body of Once.Do (mixer.go:255-259). *)
Definition set_shuffled (st : mixState) (outs : list (option onion)) : mixState :=
  mkMixState (st_name st) (st_preds st) (st_recv st) (st_left st)
    outs (st_wg st) true (st_last st).

(** ShuffleOnions with a fresh Shuffler on some random source (mixer.go:142, 256). *)
Definition shuffles {A} (l l' : list A) : Prop :=
  ∃ (S : Type) (r : reader S) (s : S) sh', ShuffleOnions r (NewShuffler s) l = Some (l', sh').

Definition upd (s : mixers) (name : string) (st : mixState) : mixers :=
  mkMixers (<[name := st]> (mm_states s)) (mm_tasks s) (mm_closed s) (mm_inflight s)
           (mm_holder s) (mm_pend s) (mm_out s) (mm_panic s).
Definition with_holder (s : mixers) (h : option holder) : mixers :=
  mkMixers (mm_states s) (mm_tasks s) (mm_closed s) (mm_inflight s) h (mm_pend s) (mm_out s) (mm_panic s).
Definition with_tasks (s : mixers) (ts fl : list task) : mixers :=
  mkMixers (mm_states s) ts (mm_closed s) fl (mm_holder s) (mm_pend s) (mm_out s) (mm_panic s).
Definition with_pend (s : mixers) (p : list (string * phase)) : mixers :=
  mkMixers (mm_states s) (mm_tasks s) (mm_closed s) (mm_inflight s) (mm_holder s) p (mm_out s) (mm_panic s).
Definition with_out (s : mixers) (o : list mixoutput) : mixers :=
  mkMixers (mm_states s) (mm_tasks s) (mm_closed s) (mm_inflight s) (mm_holder s) (mm_pend s) o (mm_panic s).
Definition panicked (s : mixers) : mixers :=
  mkMixers (mm_states s) (mm_tasks s) (mm_closed s) (mm_inflight s) (mm_holder s) (mm_pend s) (mm_out s) true.
Definition close_tasks (s : mixers) : mixers :=
  mkMixers (mm_states s) (mm_tasks s) true (mm_inflight s) (mm_holder s) (mm_pend s) (mm_out s) (mm_panic s).

(** Observable labels. *)
Inductive label :=
| LAdd (msgs : list Messages)        (* AddMessages acquires the mutex *)
| LBatch (msg : Messages)            (* one batch is accepted by HandleNewInputs *)
| LPush                              (* a task enters tasksChan *)
| LCheck (mix : string) (done : bool)(* isDone evaluated after a batch *)
| LReturn                            (* AddMessages returns *)
| LTake                              (* a worker takes a task *)
| LDecrypt (mix : string)            (* a worker stored a result and called wg.Done *)
| LWaited (mix : string)             (* a shuffleAndSend goroutine passed wg.Wait *)
| LShuffle (mix : string)            (* Once ran: outputs shuffled, shuffleWait signalled *)
| LOnceAgain (mix : string)          (* Once had already run *)
| LEmit (o : mixoutput)              (* output put on the sender's channel *)
| LRecv (o : mixoutput)              (* the sender took it *)
| LClose                             (* Close *)
| LPanic                             (* a goroutine of this object crashes the process *)
| LCloseTwice.                       (* Close of a closed object crashes the process *)

Section mixer.
(** What a worker does with an onion: [None] = panic in ExtractCipher (messages.go:39), [Some None] =
    Decrypt failed and the slot becomes nil (mixer.go:104-110), [Some (Some m)] = decrypted. *)
Context (peel : onion → option (option onion)).
(** runtime.NumCPU(), cap(tasksChan) = 1000, cap(output) = 2*len(mixesConfigs) (mixer.go:95-99). *)
Context (workers taskCap outCap : nat).

Inductive step : mixers → label → mixers → Prop :=
(* mixer.go:192: the mutex is free *)
| step_add s msgs :
    mm_panic s = false → mm_holder s = None →
    step s (LAdd msgs) (with_holder s (Some (HMsgs msgs)))
(* lines 196-198; a missing mix is a nil *mixState, dereferenced by HandleNewInputs *)
| step_batch_nil s msg msgs :
    mm_panic s = false → mm_holder s = Some (HMsgs (msg :: msgs)) →
    mm_states s !! msg_recv msg = None →
    step s LPanic (panicked s)
| step_batch s msg msgs st :
    mm_panic s = false → mm_holder s = Some (HMsgs (msg :: msgs)) →
    mm_states s !! msg_recv msg = Some st →
    step s (LBatch msg)
      (with_holder (upd s (msg_recv msg) (HandleNewInputs st msg).1)
                   (Some (HPush (msg_recv msg) (HandleNewInputs st msg).2 msgs)))
(* lines 200-202: send on tasksChan; on a closed channel it panics *)
| step_push s mix t ts msgs :
    mm_panic s = false → mm_holder s = Some (HPush mix (t :: ts) msgs) →
    mm_closed s = false → length (mm_tasks s) < taskCap →
    step s LPush (with_tasks (with_holder s (Some (HPush mix ts msgs)))
                             (mm_tasks s ++ [t]) (mm_inflight s))
| step_push_closed s mix t ts msgs :
    mm_panic s = false → mm_holder s = Some (HPush mix (t :: ts) msgs) → mm_closed s = true →
    step s LPanic (panicked s)
| step_pushed s mix msgs :
    mm_panic s = false → mm_holder s = Some (HPush mix [] msgs) →
    step s LPush (with_holder s (Some (HCheck mix msgs)))
(* lines 204-208 *)
| step_check s mix msgs st :
    mm_panic s = false → mm_holder s = Some (HCheck mix msgs) →
    mm_states s !! mix = Some st →
    step s (LCheck mix (isDone st))
      (with_pend (with_holder s (Some (HMsgs msgs)))
                 (if isDone st then mm_pend s ++ [(mix, PWait)] else mm_pend s))
(* the deferred unlock *)
| step_return s :
    mm_panic s = false → mm_holder s = Some (HMsgs []) →
    step s LReturn (with_holder s None)
(* line 102: a worker receives; workers keep draining a closed channel *)
| step_take s t ts :
    mm_panic s = false → mm_tasks s = t :: ts → length (mm_inflight s) < workers →
    step s LTake (with_tasks s ts (mm_inflight s ++ [t]))
(* lines 103-111 *)
| step_decrypt s fl1 t fl2 r st :
    mm_panic s = false → mm_inflight s = fl1 ++ t :: fl2 →
    peel (tk_in t) = Some r → mm_states s !! tk_mix t = Some st →
    (0 ≤ tk_idx t)%Z → (tk_idx t < Z.of_nat (length (st_outs st)))%Z →
    step s (LDecrypt (tk_mix t))
      (with_tasks (upd s (tk_mix t) (set_out st (Z.to_nat (tk_idx t)) r)) (mm_tasks s) (fl1 ++ fl2))
| step_decrypt_bad s fl1 t fl2 :
    mm_panic s = false → mm_inflight s = fl1 ++ t :: fl2 →
    peel (tk_in t) = None →
    step s LPanic (panicked s)
| step_decrypt_idx s fl1 t fl2 st :
    mm_panic s = false → mm_inflight s = fl1 ++ t :: fl2 →
    mm_states s !! tk_mix t = Some st →
    (tk_idx t < 0 ∨ Z.of_nat (length (st_outs st)) ≤ tk_idx t)%Z →
    step s LPanic (panicked s)
(* line 252 *)
| step_waited s p1 mix p2 st :
    mm_panic s = false → mm_pend s = p1 ++ (mix, PWait) :: p2 →
    mm_states s !! mix = Some st → st_wg st = 0%Z →
    step s (LWaited mix) (with_pend s (p1 ++ (mix, POnce) :: p2))
(* lines 254-265 *)
| step_shuffle s p1 mix p2 st outs :
    mm_panic s = false → mm_pend s = p1 ++ (mix, POnce) :: p2 →
    mm_states s !! mix = Some st → st_shuffled st = false →
    shuffles (st_outs st) outs →
    step s (LShuffle mix)
      (with_pend (upd s mix (set_shuffled st outs))
                 (if st_last st then p1 ++ p2 else p1 ++ (mix, PSend) :: p2))
| step_once_again s p1 mix p2 st :
    mm_panic s = false → mm_pend s = p1 ++ (mix, POnce) :: p2 →
    mm_states s !! mix = Some st → st_shuffled st = true →
    step s (LOnceAgain mix)
      (with_pend s (if st_last st then p1 ++ p2 else p1 ++ (mix, PSend) :: p2))
(* lines 267-270; GetOutputs' two waits have been passed *)
| step_emit s p1 mix p2 st :
    mm_panic s = false → mm_pend s = p1 ++ (mix, PSend) :: p2 →
    mm_states s !! mix = Some st → st_wg st = 0%Z → st_shuffled st = true →
    length (mm_out s) < outCap →
    step s (LEmit (mkMixoutput (st_outs st) (st_name st)))
      (with_out (with_pend s (p1 ++ p2)) (mm_out s ++ [mkMixoutput (st_outs st) (st_name st)]))
(* sender.go:44 *)
| step_recv s o os :
    mm_panic s = false → mm_out s = o :: os →
    step s (LRecv o) (with_out s os)
(* mixer.go:123-125; close of a closed channel panics *)
| step_close s :
    mm_panic s = false → mm_closed s = false →
    step s LClose (close_tasks s)
| step_close_again s :
    mm_panic s = false → mm_closed s = true →
    step s LCloseTwice (panicked s).

(** Executions. *)
Inductive run (s0 : mixers) : list label → mixers → Prop :=
| run_nil : run s0 [] s0
| run_snoc tr l s s' : run s0 tr s → step s l s' → run s0 (tr ++ [l]) s'.

(** mixer.go:183-189, 273-283: GetMixOutputs. [None]: NotFound.  It can return [v] in state s iff
    both waits would pass now. *)
Definition can_return (s : mixers) (name : string) (v : list (option onion)) : Prop :=
  ∃ st, mm_states s !! name = Some st ∧ st_wg st = 0%Z ∧ st_shuffled st = true ∧ v = st_outs st.

End mixer.
