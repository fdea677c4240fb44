(** Vocabulary for the properties of the robust call. *)
From stdpp Require Import gmap.
From Verif.Base Require Import Base.
From Verif.Model Require Import Merkle Ecc Robust.

(** The call id of a parcel. *)
Definition uuid_of (p : Parcel) : string := n_uuid (p_note p).

Section collector.
Context {hnd : Type}.

(** The parcels of call u, with a registered method, in order of arrival. *)
Definition arrived (find : string → option hnd) (u : string) (es : list cevent) : list Parcel :=
  omap (λ e, match e with
             | CParcel _ p => if decide (uuid_of p = u) then (λ _, p) <$> find (p_method p) else None
             | CTick _ => None end) es.
(** The tasks run for call u, in order. *)
Definition runs_of (u : string) (os : list (cout hnd)) : list (task hnd) :=
  omap (λ o, match o with
             | ORun t => if decide (n_uuid (t_note t) = u) then Some t else None
             | OReject _ _ => None end) os.
(** No expiry tick comes more than ttl after the arrival of a parcel of call u. *)
Definition in_time (ttl : Z) (u : string) (es : list cevent) : Prop :=
  ∀ i j now p T, i < j → es !! i = Some (CParcel now p) → uuid_of p = u → es !! j = Some (CTick T) →
    (T - now ≤ ttl)%Z.
(** The i-th group of q consecutive elements. *)
Definition group {A} (q : nat) (l : list A) (i : nat) : list A := take q (drop (i * q) l).
End collector.

