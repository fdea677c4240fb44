(** Vocabulary for properties of a network with several rounds: functions of the history only. *)
From stdpp Require Import gmap.
From Verif.Base Require Import Base.
From Verif.Model Require Import Topology Shuffle Onion Mixer Rounds System Fleet.
From Verif.Spec Require Import MixerSpec MessagesSpec SystemSpec.

(** The client calls of round r, as a history of a network that has only this round. *)
Definition round_view (r : N) (tr : list flabel) : list ylabel :=
  omap (λ l, match l with FClient h rq => if decide (rq_round rq = r) then Some (YClient h rq) else None | _ => None end) tr.

(** The workload requests with which server h opened round r. *)
Definition openings (r : N) (h : string) (tr : list flabel) : list (gmap string N) :=
  omap (λ l, match l with FServer h' (SNew r' req (Ok _)) => if decide (h' = h ∧ r' = r) then Some req else None | _ => None end) tr.

(** No server opens round r twice, and all that open it are given the same workloads. *)
Definition opened_once (r : N) (req : gmap string N) (tr : list flabel) : Prop :=
  ∀ h, openings r h tr = [] ∨ openings r h tr = [req].

(** No server ends round r. *)
Definition not_ended (r : N) (tr : list flabel) : Prop := ∀ h id, FServer h (SEnd r (Ok id)) ∉ tr.

(** No AddMessages call of round r is lost or refused. *)
Definition nothing_lost (r : N) (tr : list flabel) : Prop :=
  ∀ c, rq_round (fc_rq c) = r → FLose c ∉ tr ∧ FRefuse c ∉ tr.

(** A server has crashed. *)
Definition some_crash (f : fleet) : Prop := ∃ h sv, fl_srv f !! h = Some sv ∧ sv_panic sv = true.

(** The network's own steps: all but what clients and operators do, losses and timeouts. *)
Definition fown (l : flabel) : bool :=
  match l with
  | FClient _ _ | FLose _ | FTimeout _ => false
  | FServer _ (SObj _ l) => internal l
  | FServer _ _ => false
  | _ => true
  end.
(** Steps of round r: those of an object of the round, or about a call of the round. *)
Definition about_round (f : fleet) (r : N) (l : flabel) : Prop :=
  match l with
  | FServer h (SObj id _) | FTake h id _ _ | FCrash h id _ =>
      ∃ sv ob, fl_srv f !! h = Some sv ∧ sv_objs sv !! id = Some ob ∧ ro_round ob = r
  | FAccept c _ | FRefuse c | FEnter c _ | FSend c | FReturn c => rq_round (fc_rq c) = r
  | _ => False
  end.
(** The servers have nothing left to do for round r. *)
Definition round_settled (t : topology) (peel : string → N → onion → option (option onion))
    (workers taskCap : string → nat) (r : N) (f : fleet) : Prop :=
  ∀ l f', fstep t peel workers taskCap f l f' → fown l = true → about_round f r l → False.

(** One step of the servers for round r. *)
Definition own_round_step (t : topology) (peel : string → N → onion → option (option onion))
    (workers taskCap : string → nat) (r : N) (f f' : fleet) : Prop :=
  ∃ l, fstep t peel workers taskCap f l f' ∧ fown l = true ∧ about_round f r l.

(** No sender of round r waits for a call whose entry was replaced. *)
Definition none_void (r : N) (f : fleet) : Prop := ∀ c, c ∈ fl_void f → rq_round (fc_rq c) ≠ r.

(** Nothing has gone wrong with round r so far: every server opened it, once, with the same workloads; its
    clients are honest and send no more than announced; no server ended it; none of its calls was lost or
    refused; none of its senders waits for a call whose entry was replaced; no server has crashed. *)
Record round_ok (t : topology) (peel : string → N → onion → option (option onion)) (servers : list string)
    (r : N) (req : gmap string N) (w : gmap string Z) (tr : list flabel) (f : fleet) : Prop := {
  ok_opened : ∀ h, h ∈ servers → openings r h tr = [req];
  ok_honest : honest_clients t (λ h, peel h r) (round_view r tr);
  ok_within : within_announced t w (round_view r tr);
  ok_not_ended : not_ended r tr;
  ok_lost : nothing_lost r tr;
  ok_void : none_void r f;
  ok_up : ¬ some_crash f }.
