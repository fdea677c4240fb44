(** Model of the worker pool of rrpc/merkle_verifier.go on top of Model/Verifier.v: NewVerifier (52-65) with
    its bounded task channel, the workers (142-160) and Stop (190-194).

    [Verifier] says what a Verify call does and what becomes of a task a worker runs; here a task must first
    find room in the channel and then a worker that is not busy and has not returned. *)
From stdpp Require Import gmap sorting vector.
From Verif.Base Require Import Base.
From Verif.Model Require Import Merkle Verifier.

(** A merkleProofAuthTask of the call [i], or the merkleVerifyTask [t]. *)
Inductive item := IAuth (i : nat) | ISig (t : nat).

Section pool.
Context (H : bytes → digest) {PK B : Type} (enc : B → option rcert → bytes)
        (sigok : PK → digest → bytes → bool).
Context (G : vstate PK B → PK → nat → Prop).

(** [p_chan]: m.tasks.  [p_sent]: the calls waiting at line 102 for the answer to their auth task.  [p_busy]:
    tasks workers are working on.  [p_alive]: workers that have not returned.  [p_stopped]: m.done is closed. *)
Record pool := mkPool {
  p_v : vstate PK B;
  p_chan : list item;
  p_sent : gset nat;
  p_busy : list item;
  p_alive : nat;
  p_stopped : bool }.

(** 52-65; numWorkers < 0 makes the make panic and is left out. *)
Definition NewVerifier (numWorkers : nat) (objs : gmap nat (vobj B)) : pool :=
  mkPool (v_init objs) [] ∅ [] numWorkers false.
Definition chan_cap (numWorkers : nat) : nat := numWorkers * 8.

(** Steps of the calls and the cleaner that neither use the channel nor are a worker's: no call leaves the
    two places where it sends, and no task on the channel is finished. *)
Definition off_channel (s s' : vstate PK B) : Prop :=
  (∀ i x, v_thr s !! i = Some x → match th_pc x with PAuth _ | PSend _ _ => True | _ => False end → v_thr s' !! i = Some x) ∧
  (∀ t k, v_tasks s !! t = Some k → vt_st k = TQueued → v_tasks s' !! t = Some k).

Inductive pstep (numWorkers : nat) (p : pool) : pool → Prop :=
| P_other s' :
    vstep H enc sigok G (p_v p) s' → off_channel (p_v p) s' →
    pstep numWorkers p (mkPool s' (p_chan p) (p_sent p) (p_busy p) (p_alive p) (p_stopped p))
(* 101: m.tasks <- authTask.  (Without workers the channel has no room and no receiver.) *)
| P_send_auth i x c :
    v_thr (p_v p) !! i = Some x → th_pc x = PAuth c → i ∉ p_sent p → length (p_chan p) < chan_cap numWorkers →
    pstep numWorkers p (mkPool (p_v p) (p_chan p ++ [IAuth i]) ({[i]} ∪ p_sent p) (p_busy p) (p_alive p) (p_stopped p))
(* 121: m.tasks <- task *)
| P_send_sig i x c t k :
    v_thr (p_v p) !! i = Some x → th_pc x = PSend c t → v_tasks (p_v p) !! t = Some k →
    length (p_chan p) < chan_cap numWorkers →
    pstep numWorkers p (mkPool (with_thr (with_task (p_v p) t (set_st k TQueued)) i (set_pc x (PWait c t true)))
      (p_chan p ++ [ISig t]) (p_sent p) (p_busy p) (p_alive p) (p_stopped p))
(* 146: an idle worker receives; when done is closed too, select may choose either *)
| P_take it rest :
    p_chan p = it :: rest → length (p_busy p) < p_alive p →
    pstep numWorkers p (mkPool (p_v p) rest (p_sent p) (p_busy p ++ [it]) (p_alive p) (p_stopped p))
(* 150-151, 161-169, 102-105 (the response channel has room for the one answer) *)
| P_auth b1 i b2 x c v :
    p_busy p = b1 ++ IAuth i :: b2 →
    v_thr (p_v p) !! i = Some x → th_pc x = PAuth c → v_objs (p_v p) !! th_obj x = Some v →
    pstep numWorkers p (mkPool (with_thr (p_v p) i (set_pc x (if auth H enc v c then PStore c else PRet RPath)))
      (p_chan p) (p_sent p ∖ {[i]}) (b1 ++ b2) (p_alive p) (p_stopped p))
(* 148-149, 171-185 *)
| P_sig b1 t b2 k :
    p_busy p = b1 ++ ISig t :: b2 → v_tasks (p_v p) !! t = Some k → vt_st k = TQueued →
    pstep numWorkers p (mkPool (with_task (p_v p) t (set_st k (TReady (sig_valid sigok (vt_pk k) (vt_cert k)))))
      (p_chan p) (p_sent p) (b1 ++ b2) (p_alive p) (p_stopped p))
(* 190-194 (a second Stop changes nothing but the map); the deletions of cleanmapAccordingToTTL are P_other steps (V_clean) *)
| P_stop :
    p_stopped p = false →
    pstep numWorkers p (mkPool (p_v p) (p_chan p) (p_sent p) (p_busy p) (p_alive p) true)
(* 154-155 *)
| P_exit :
    p_stopped p = true → length (p_busy p) < p_alive p →
    pstep numWorkers p (mkPool (p_v p) (p_chan p) (p_sent p) (p_busy p) (p_alive p - 1) (p_stopped p)).
End pool.
Arguments pool : clear implicits.
Arguments mkPool {_ _} _ _ _ _ _ _.
