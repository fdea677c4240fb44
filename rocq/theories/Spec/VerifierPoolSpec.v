(** Vocabulary for properties of the verifier's worker pool. *)
From stdpp Require Import gmap sorting vector.
From Verif.Base Require Import Base.
From Verif.Model Require Import Merkle Verifier VerifierPool.
From Verif.Spec Require Import VerifierSpec.

Section spec.
Context (H : bytes → digest) {PK B : Type} (enc : B → option rcert → bytes)
        (sigok : PK → digest → bytes → bool).
(** Executions in which calls are made as [G] allows. *)
Definition pool_execution (G : vstate PK B → PK → nat → Prop) (n : nat) : pool PK B → pool PK B → Prop :=
  rtc (pstep H enc sigok G n).
(** One step of the calls already made or of a worker: no new call, no cache cleanup, no Stop. *)
Definition pool_work (n : nat) (p p' : pool PK B) : Prop :=
  pstep H enc sigok (λ _ _ _, False) n p p' ∧ p_stopped p' = p_stopped p ∧
  ∀ d, p' ≠ mkPool (with_map (p_v p) (delete d (v_map (p_v p)))) (p_chan p) (p_sent p) (p_busy p) (p_alive p) (p_stopped p).
(** k such steps, with any number of cache cleanups between them. *)
Inductive pool_run (n : nat) : nat → pool PK B → pool PK B → Prop :=
| pr_done p : pool_run n 0 p p
| pr_clean k p p' d :
    pool_run n k (mkPool (with_map (p_v p) (delete d (v_map (p_v p)))) (p_chan p) (p_sent p) (p_busy p) (p_alive p) (p_stopped p)) p' →
    pool_run n k p p'
| pr_work k p p1 p' : pool_work n p p1 → pool_run n k p1 p' → pool_run n (S k) p p'.
End spec.
