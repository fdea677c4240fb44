(** Model of rrpc/gc.go and of the values it is used on. *)
From stdpp Require Import gmap.
From Verif.Base Require Import Base.

(** time.Time in nanoseconds since 1970; time.Duration is int64. *)
Definition maxDuration : Z := 2 ^ 63 - 1.
Definition minDuration : Z := - 2 ^ 63.
(** time.Since: the difference, saturated (documented behaviour of Time.Sub). *)
Definition Since (now t : Z) : Z := Z.max minDuration (Z.min maxDuration (now - t)).
(** The zero time.Time: January 1, year 1. *)
Definition zeroTime : Z := - 62135596800 * 10 ^ 9.

Section gc.
Context {K : Type} `{Countable K} {T : Type}.
(** Whether the stored value satisfies GCable, and if so its GetStartTime. *)
Context (gcable : T → option Z).

(** gc.go:15-33 cleanmapAccordingToTTL, no other goroutine using the map: what stays, and the values whose
    PrepareForDeletion was called.  (Range visits every entry once, in some order.) *)
Definition keeps (ttl now : Z) (v : T) : Prop :=
  match gcable v with Some t => (Since now t < ttl)%Z | None => False end.
Global Instance keeps_dec ttl now v : Decision (keeps ttl now v).
Proof. unfold keeps. destruct (gcable v); apply _. Defined.
Definition notifies (ttl now : Z) (v : T) : Prop :=
  match gcable v with Some t => ¬ (Since now t < ttl)%Z | None => False end.
Global Instance notifies_dec ttl now v : Decision (notifies ttl now v).
Proof. unfold notifies. destruct (gcable v); apply _. Defined.
Definition cleanmap (ttl now : Z) (mp : gmap K T) : gmap K T * gmap K T :=
  (filter (λ kv, keeps ttl now kv.2) mp, filter (λ kv, notifies ttl now kv.2) mp).
End gc.

(** relay.go:18-33 relaytask: the methods have pointer receivers, the map holds values (relay.go:158), so
    the dynamic type relaytask does not implement GCable. *)
Record relaytask := mkRelayTask { rt_uuid : string; rt_start : Z; rt_chan : nat }.
Definition relaytask_gcable (t : relaytask) : option Z := None.
(** net_conns.go:32-47 relayConnRequest: value receivers, so it does.  coordinator.go:181-184 never sets
    Time. *)
Record relayConnRequest := mkConnReq { cq_uuid : string; cq_call : nat; cq_time : Z }.
Definition connreq_gcable (q : relayConnRequest) : option Z := Some (cq_time q).
Definition sendRequest_value (uuid : string) (call : nat) : relayConnRequest := mkConnReq uuid call zeroTime.
(** client.go:44-57 rqstWithErr: pointer receivers, pointers are stored; StartTime is set. *)
Record rqstWithErr := mkRqst { re_uuid : string; re_start : Z }.
Definition rqst_gcable (q : rqstWithErr) : option Z := Some (re_start q).
