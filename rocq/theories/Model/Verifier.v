(** Model of rrpc/merkle_verifier.go: concurrent Verify calls on one MerkleCertVerifier, its workers and
    its cleaner, as a transition system.  Simplifications: the task channel is unbounded (a full channel
    only delays) and Stop is left out here: Model/VerifierPool.v has the bounded channel, the worker pool
    and Stop; OWVerify's error and "false" are one negative answer. *)
From stdpp Require Import gmap sorting vector.
From Verif.Base Require Import Base.
From Verif.Model Require Import Merkle.

(** copy(d[:], b) into a zeroed digest (merkle_verifier.go:93-94, 207-216). *)
Fixpoint copy_into (n : nat) (b : bytes) : vec byte n :=
  match n with
  | O => [#]
  | S n => match b with [] => Byte.x00 ::: copy_into n [] | c :: b => c ::: copy_into n b end
  end.
Definition to_digest (b : bytes) : digest := copy_into 32 b.

(** MerkleCertificate, as it arrives from the network: arbitrary byte strings (rrpc.proto). *)
Record rcert := mkRCert { rc_root : bytes; rc_path : list bytes; rc_index : N; rc_sig : bytes }.
Global Instance rcert_eq_dec : EqDecision rcert.
Proof. solve_decision. Defined.

Inductive vres := RNil | REmpty | RPath | RSig.

(** merkleVerifyTask (merkle_verifier.go:65-75): signatureState 0 = [TFresh]; taken but not yet sent =
    [TTaken]; on the channel = [TQueued]; ready closed, with err = nil or not = [TReady]. *)
Inductive tstate := TFresh | TTaken | TQueued | TReady (ok : bool).
Record vtask {PK} := mkVTask { vt_pk : PK; vt_cert : rcert; vt_st : tstate }.
Arguments vtask : clear implicits.
Arguments mkVTask {_} _ _ _.

(** Program points of Verify (merkle_verifier.go:86-140). *)
Inductive vpc :=
  | PPop                                        (* before v.popCert() *)
  | PAuth (c : rcert)                           (* auth task sent *)
  | PStore (c : rcert)                          (* path accepted, before LoadOrStore *)
  | PCas (c : rcert) (t : nat)                  (* before the compare-and-swap *)
  | PSend (c : rcert) (t : nat)                 (* won it, before m.tasks <- task *)
  | PWait (c : rcert) (t : nat) (should : bool) (* <-task.ready *)
  | PDel (c : rcert) (t : nat) (should : bool)  (* task.err != nil, before Delete *)
  | PRetry (c : rcert)                          (* before v.pushCert; return m.Verify *)
  | PRet (r : vres)                             (* deferred pushCerts still to run *)
  | PDone (r : vres).
(** A call: its arguments, the certificates its deferred pushCerts will restore, its program point. *)
Record vthread {PK} := mkVThr { th_pk : PK; th_obj : nat; th_defers : list (option rcert); th_pc : vpc }.
Arguments vthread : clear implicits.
Arguments mkVThr {_} _ _ _ _.
(** The object being verified: everything but the certificate, and the certificate field. *)
Record vobj {B} := mkVObj { ob_body : B; ob_cert : option rcert }.
Arguments vobj : clear implicits.
Arguments mkVObj {_} _ _.

Record vstate {PK B} := mkV {
  v_objs : gmap nat (vobj B);
  v_tasks : gmap nat (vtask PK);
  v_map : gmap digest nat;          (* taskMap, keyed by the root *)
  v_thr : gmap nat (vthread PK) }.
Arguments vstate : clear implicits.
Arguments mkV {_ _} _ _ _ _.

Section verifier.
Context (H : bytes → digest) {PK B : Type} (enc : B → option rcert → bytes)
        (sigok : PK → digest → bytes → bool).

(** authenticateMerklePath (161-169): the object is hashed as it is at that moment. *)
Definition auth (o : vobj B) (c : rcert) : bool :=
  Verify H (to_digest (rc_root c)) {[rc_index c := enc (ob_body o) (ob_cert o)]} (to_digest <$> rc_path c).
(** verifyMerkleSig (171-185) *)
Definition sig_valid (pk : PK) (c : rcert) : bool := sigok pk (to_digest (rc_root c)) (rc_sig c).

Definition set_pc (x : vthread PK) (p : vpc) : vthread PK := mkVThr (th_pk x) (th_obj x) (th_defers x) p.
Definition set_cert (o : vobj B) (c : option rcert) : vobj B := mkVObj (ob_body o) c.
Definition set_st (t : vtask PK) (st : tstate) : vtask PK := mkVTask (vt_pk t) (vt_cert t) st.

Definition with_thr (s : vstate PK B) (i : nat) (x : vthread PK) : vstate PK B :=
  mkV (v_objs s) (v_tasks s) (v_map s) (<[i:=x]> (v_thr s)).
Definition with_obj (s : vstate PK B) (o : nat) (v : vobj B) : vstate PK B :=
  mkV (<[o:=v]> (v_objs s)) (v_tasks s) (v_map s) (v_thr s).
Definition with_task (s : vstate PK B) (t : nat) (k : vtask PK) : vstate PK B :=
  mkV (v_objs s) (<[t:=k]> (v_tasks s)) (v_map s) (v_thr s).
Definition with_map (s : vstate PK B) (m : gmap digest nat) : vstate PK B :=
  mkV (v_objs s) (v_tasks s) m (v_thr s).

(** [G s pk o] restricts which calls are made in which state. *)
Context (G : vstate PK B → PK → nat → Prop).

Inductive vstep (s : vstate PK B) : vstate PK B → Prop :=
(* a new call m.Verify(pk, v) *)
| V_start i pk o :
    v_thr s !! i = None → is_Some (v_objs s !! o) → G s pk o →
    vstep s (with_thr s i (mkVThr pk o [] PPop))
(* 87-92: popCert, defer; nil certificate *)
| V_pop i x v :
    v_thr s !! i = Some x → th_pc x = PPop → v_objs s !! th_obj x = Some v →
    vstep s (with_thr (with_obj s (th_obj x) (set_cert v None)) i
      (mkVThr (th_pk x) (th_obj x) (ob_cert v :: th_defers x)
        (match ob_cert v with None => PRet REmpty | Some c => PAuth c end)))
(* 96-105 and the worker, 161-169 *)
| V_auth i x v c :
    v_thr s !! i = Some x → th_pc x = PAuth c → v_objs s !! th_obj x = Some v →
    vstep s (with_thr s i (set_pc x (if auth v c then PStore c else PRet RPath)))
(* 107-117: LoadOrStore *)
| V_load i x c t :
    v_thr s !! i = Some x → th_pc x = PStore c → v_map s !! to_digest (rc_root c) = Some t →
    vstep s (with_thr s i (set_pc x (PCas c t)))
| V_store i x c t :
    v_thr s !! i = Some x → th_pc x = PStore c → v_map s !! to_digest (rc_root c) = None →
    v_tasks s !! t = None →
    vstep s (with_thr (with_map (with_task s t (mkVTask (th_pk x) c TFresh))
      (<[to_digest (rc_root c) := t]> (v_map s))) i (set_pc x (PCas c t)))
(* 118: the compare-and-swap *)
| V_cas_won i x c t k :
    v_thr s !! i = Some x → th_pc x = PCas c t → v_tasks s !! t = Some k → vt_st k = TFresh →
    vstep s (with_thr (with_task s t (set_st k TTaken)) i (set_pc x (PSend c t)))
| V_cas_lost i x c t k :
    v_thr s !! i = Some x → th_pc x = PCas c t → v_tasks s !! t = Some k → vt_st k ≠ TFresh →
    vstep s (with_thr s i (set_pc x (PWait c t false)))
(* 119-122 *)
| V_send i x c t k :
    v_thr s !! i = Some x → th_pc x = PSend c t → v_tasks s !! t = Some k →
    vstep s (with_thr (with_task s t (set_st k TQueued)) i (set_pc x (PWait c t true)))
(* a worker runs verifyMerkleSig, 171-185 *)
| V_work t k :
    v_tasks s !! t = Some k → vt_st k = TQueued →
    vstep s (with_task s t (set_st k (TReady (sig_valid (vt_pk k) (vt_cert k)))))
(* 125-126, 139 *)
| V_ready i x c t b k ok :
    v_thr s !! i = Some x → th_pc x = PWait c t b → v_tasks s !! t = Some k → vt_st k = TReady ok →
    vstep s (with_thr s i (set_pc x (if ok : bool then PRet RNil else PDel c t b)))
(* 130-137 *)
| V_delete i x c t b k :
    v_thr s !! i = Some x → th_pc x = PDel c t b → v_tasks s !! t = Some k →
    vstep s (with_thr (with_map s (delete (to_digest (rc_root c)) (v_map s))) i
      (set_pc x (if negb b && bool_decide (rc_sig (vt_cert k) = rc_sig c) then PRetry c else PRet RSig)))
(* 134-135: push and start over, the deferred push staying on the stack *)
| V_retry i x c v :
    v_thr s !! i = Some x → th_pc x = PRetry c → v_objs s !! th_obj x = Some v →
    vstep s (with_thr (with_obj s (th_obj x) (set_cert v (Some c))) i (set_pc x PPop))
(* 88: deferred pushCert *)
| V_unwind i x r c cs v :
    v_thr s !! i = Some x → th_pc x = PRet r → th_defers x = c :: cs → v_objs s !! th_obj x = Some v →
    vstep s (with_thr (with_obj s (th_obj x) (set_cert v c)) i (mkVThr (th_pk x) (th_obj x) cs (PRet r)))
| V_return i x r :
    v_thr s !! i = Some x → th_pc x = PRet r → th_defers x = [] →
    vstep s (with_thr s i (set_pc x (PDone r)))
(* gc.go:15-32 on taskMap: tasks do not expose their age, so each is deleted at every pass *)
| V_clean d :
    vstep s (with_map s (delete d (v_map s))).
End verifier.

(** NewVerifier (51-63), with objects around. *)
Definition v_init {PK B} (objs : gmap nat (vobj B)) : vstate PK B := mkV objs ∅ ∅ ∅.
