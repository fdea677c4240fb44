(** Vocabulary for the properties of the certificate verifier. *)
From stdpp Require Import gmap vector.
From Verif.Base Require Import Base.
From Verif.Model Require Import Merkle Verifier.

(** A call has returned [r]. *)
Definition returned {PK B} (s : vstate PK B) (i : nat) (pk : PK) (o : nat) (r : vres) : Prop :=
  ∃ x, v_thr s !! i = Some x ∧ th_pk x = pk ∧ th_obj x = o ∧ th_pc x = PDone r.
(** Call i, Verify(pk, object o), has been started and has not returned. *)
Definition active {PK} (x : vthread PK) : Prop := match th_pc x with PDone _ => False | _ => True end.
Definition in_use {PK B} (s : vstate PK B) (o : nat) : Prop :=
  ∃ i x, v_thr s !! i = Some x ∧ th_obj x = o ∧ active x.
(** Some call with key pk was made for an object carrying certificate c. *)
Definition asked {PK B} (objs0 : gmap nat (vobj B)) (s : vstate PK B) (pk : PK) (c : rcert) : Prop :=
  ∃ i x v, v_thr s !! i = Some x ∧ th_pk x = pk ∧ objs0 !! th_obj x = Some v ∧ ob_cert v = Some c.
Definition root_of (c : rcert) : digest := to_digest (rc_root c).

Section spec.
Context (H : bytes → digest) {PK B : Type} (enc : B → option rcert → bytes)
        (sigok : PK → digest → bytes → bool).
(** The Merkle path of certificate c is valid for the object with this content (certificate left out). *)
Definition path_valid (b : B) (c : rcert) : Prop :=
  Verify H (root_of c) {[rc_index c := enc b None]} (to_digest <$> rc_path c) = true.
(** c carries a signature of its root valid under pk. *)
Definition signed_by (pk : PK) (c : rcert) : Prop := sigok pk (root_of c) (rc_sig c) = true.
(** Calls are made only on objects no other call is working on. *)
Definition exclusive (s : vstate PK B) (_ : PK) (o : nat) : Prop := ¬ in_use s o.
Definition anytime (s : vstate PK B) (_ : PK) (o : nat) : Prop := True.
Definition execution (G : vstate PK B → PK → nat → Prop) : vstate PK B → vstate PK B → Prop :=
  rtc (vstep H enc sigok G).

(** One step of the calls already made (or of a worker for them): no new call, no cache cleanup. *)
Definition work_step (s s' : vstate PK B) : Prop :=
  vstep H enc sigok (λ _ _ _, False) s s' ∧ ∀ d, s' ≠ with_map s (delete d (v_map s)).
(** A run without new calls, with any number of cache cleanups and n other steps. *)
Inductive work_run : nat → vstate PK B → vstate PK B → Prop :=
| run_done s : work_run 0 s s
| run_clean n s s' d : work_run n (with_map s (delete d (v_map s))) s' → work_run n s s'
| run_work n s s1 s' : work_step s s1 → work_run n s1 s' → work_run (S n) s s'.
End spec.
