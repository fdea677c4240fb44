(** Vocabulary for the end-to-end properties of a round. *)
From stdpp Require Import gmap.
From Verif.Base Require Import Base.
From Verif.Model Require Import Topology Shuffle Onion Mixer System.
From Verif.Spec Require Import MixerSpec MessagesSpec.

(** The system's own steps: all but the clients' calls, losses of calls, and closing of a round. *)
Definition own_step (l : ylabel) : bool :=
  match l with YClient _ _ | YLose _ => false | YHost _ l => internal l | _ => true end.
(** Nothing is left to do: no step but those of the outside is possible. *)
Definition settledg (waits : bool) (t : topology) (round : Z) (peel : string → onion → option (option onion))
    (workers taskCap outCap : string → nat) (s : system) : Prop :=
  ∀ l s', ystepg waits t round peel workers taskCap outCap s l s' → own_step l = false.
Notation settled := (settledg true).

(** The requests made by clients, in order. *)
Definition client_calls (tr : list ylabel) : list (string * AddRequest) :=
  omap (λ l, match l with YClient h rq => Some (h, rq) | _ => None end) tr.

(** The onions clients sent into chain i: those in the batches for the first mix of the chain. *)
Definition sent_into (t : topology) (i : nat) (tr : list ylabel) : list onion :=
  concat (msg_onions <$> filter (λ m, mx_name <$> deref t (0, i) = Some (msg_recv m))
    (concat ((λ e, rq_msgs e.2) <$> client_calls tr))).

(** Decrypting, when it succeeds. *)
Definition opens (peel : string → onion → option (option onion)) (h : string) (o : onion) : option bytes :=
  mjoin (peel h o).

(** Clients that follow the protocol: batches are not empty, name GENESIS as the sender, go to the
    first mix of some chain at the server hosting it, and their onions are onions of that chain. *)
Definition honest_clients (t : topology) (peel : string → onion → option (option onion))
    (tr : list ylabel) : Prop :=
  ∀ h rq m, (h, rq) ∈ client_calls tr → m ∈ rq_msgs rq →
    msg_phys m = GenesisName ∧ msg_lsender m = GenesisName ∧ msg_onions m ≠ [] ∧
    ∃ i first, deref t (0, i) = Some first ∧ mx_name first = msg_recv m ∧ mx_host first = h ∧
      ∀ o, o ∈ msg_onions m → ∃ msg, delivers t (opens peel) (chain_mixes t i) o msg.

(** The announced number of messages of chain i. *)
Definition announced (t : topology) (w : gmap string Z) (i : nat) : Z :=
  workload_of w (default "" (mx_name <$> deref t (0, i))).

(** The clients do not send more into a chain than announced. *)
Definition within_announced (t : topology) (w : gmap string Z) (tr : list ylabel) : Prop :=
  ∀ i m, deref t (0, i) = Some m → (Z.of_nat (length (sent_into t i tr)) ≤ announced t w i)%Z.
