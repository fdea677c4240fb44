(** Vocabulary for stating the round-table properties: functions of the call history only. *)
From stdpp Require Import gmap.
From Verif.Base Require Import Base.
From Verif.Model Require Import Topology Shuffle Onion Mixer Rounds.
From Verif.Spec Require Import MixerSpec.

(** The round is open: its last successful NewRound was not followed by a successful EndRound. *)
Definition open_step (r : N) (b : bool) (l : slabel) : bool :=
  match l with
  | SNew r' _ (Ok _) => if decide (r' = r) then true else b
  | SEnd r' (Ok _) => if decide (r' = r) then false else b
  | _ => b
  end.
Definition round_open (tr : list slabel) (r : N) : bool := foldl (open_step r) false tr.

(** Successful openings and closings of round r. *)
Definition is_open_of (r : N) (l : slabel) : bool :=
  match l with SNew r' _ (Ok _) => bool_decide (r' = r) | _ => false end.
Definition is_end_of (r : N) (l : slabel) : bool :=
  match l with SEnd r' (Ok _) => bool_decide (r' = r) | _ => false end.
Definition scnt (P : slabel → bool) (tr : list slabel) : nat := length (filter P tr).

(** The messages of the accepted AddMessages calls for round r. *)
Definition accepted (r : N) (tr : list slabel) : list Messages :=
  concat (omap (λ l, match l with SAdd r' ms (Ok _) => if decide (r' = r) then Some ms else None | _ => None end) tr).

(** The round a call or object step is about. *)
Definition about (s : server) (l : slabel) : option N :=
  match l with
  | SNew r _ _ | SEnd r _ | SAdd r _ _ | SGet r _ _ => Some r
  | SGot id _ _ | SObj id _ => ro_round <$> sv_objs s !! id
  | SCrash r _ => Some r
  end.
