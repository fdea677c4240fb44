(** What the theorems about stopping an rrpc server speak of. *)
From stdpp Require Import gmap.
From Verif.Base Require Import Base.
From Verif.Model Require Import ServerStop.

Section spec.
Context (n q : nat).

(** The states of a server since it was created. *)
Definition reachable (s : srv) : Prop := ∃ ls, vsteps n q (srv_init n) ls s.
(** Stop has been called. *)
Definition stopping (s : srv) : Prop := v_phase s ≠ SNone.
Definition returned (s : srv) : Prop := v_phase s = SReturned.
(** Nothing more happens. *)
Definition final (s : srv) : Prop := ∀ l s', ¬ vstep n q s l s'.

(** The goroutine that hands out responses waits for room in the channel of a client that has no goroutine left to make
    room. *)
Definition hangs (s : srv) : Prop :=
  ∃ p c, v_inc s = IFwd p ∧ v_front s !! p = Some c ∧ pipe_cap ≤ p_len c ∧ p_idle c = 0.
(** The collector is handing a relay an error in a channel that is closed, or full without a goroutine to make room. *)
Definition doomed (s : srv) : Prop :=
  ∃ i c, v_coll s = CError i ∧ v_back s !! i = Some c ∧ (p_closed c = true ∨ (pipe_cap ≤ p_len c ∧ p_idle c = 0)).

(** Requests of client stream p that are noted in the relay's table. *)
Definition pending (s : srv) (p : nat) : nat := size (filter (λ e, e.2 = p) (v_table s)).
(** The responses to client p that may come have room. *)
Definition clients_have_room (s : srv) : Prop :=
  ∀ p c, v_front s !! p = Some c →
    p_len c + pending s p + match v_inc s with IFwd p' => if decide (p' = p) then 1 else 0 | _ => 0 end ≤ pipe_cap.
(** Every parcel that was received and not collected names a known method. *)
Definition parcels_known (s : srv) : Prop :=
  (∀ p, p ∈ v_queue s → pa_known p = true) ∧
  (∀ r p, r ∈ v_readers s → r_state r = RdParcel p → pa_known p = true) ∧
  (∀ i, v_coll s ≠ CError i).
(** No call is under way and no response is on its way to a relay. *)
Definition quiet (s : srv) : Prop :=
  v_queue s = [] ∧ (∀ j, j ∈ v_jobs s → j = JGone) ∧
  (∀ r, r ∈ v_readers s → r_state r = RdRecv ∨ r_state r = RdEnd) ∧
  (∀ i, v_coll s ≠ CError i) ∧
  (∀ c, c ∈ v_back s → p_len c = 0 ∧ p_busy c = 0).

(** The calls of which the handler ran in a history. *)
Definition handled (ls : list label) : list string := omap (λ l, match l with LHandler u => Some u | _ => None end) ls.
(** The calls that were started and of which the handler did not run yet. *)
Definition waiting (s : srv) : list string := omap (λ j, match j with JRun u => Some u | _ => None end) (v_jobs s).
End spec.
