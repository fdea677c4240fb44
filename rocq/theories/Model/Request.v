(** Model of rrpc/requests.go and of the part of rrpc/client.go RobustCall that uses it. *)
From Verif.Base Require Import Base.

Section request.
(** Values of Args and contents of Reply; codec.MarshalIntoWriter (None: an error) and codec.Unmarshal into
    a reply (None: an error; what it may have written before is not modelled). *)
Context {A R : Type} (marshal : A → option bytes) (unmarshal : bytes → R → option R).

(** requests.go:10-21 Request; marshaledArgs nil is None. *)
Record Request := mkReq { rq_args : A; rq_reply : R; rq_margs : option bytes; rq_mreply : bytes; rq_unpacked : bool }.
(** What a user writes: Args and Reply set, the rest zero. *)
Definition new_request (a : A) (r : R) : Request := mkReq a r None [] false.

Inductive call_error := ECancelled | ECodec | ETransport (e : code).

(** requests.go:45-62 packWithBuffer (23-26 pack); [cancelled] is what IsCancelled sees. *)
Definition pack (cancelled : bool) (q : Request) : option call_error * Request :=
  match rq_margs q with
  | Some _ => (None, q)
  | None =>
      if cancelled then (Some ECancelled, q)
      else match marshal (rq_args q) with
           | None => (Some ECodec, q)
           | Some b => (None, mkReq (rq_args q) (rq_reply q) (Some b) (rq_mreply q) (rq_unpacked q))
           end
  end.
(** requests.go:28-43 unpack *)
Definition unpack (cancelled : bool) (q : Request) : option call_error * Request :=
  if rq_unpacked q then (None, q)
  else if cancelled then (Some ECancelled, q)
  else match unmarshal (rq_mreply q) (rq_reply q) with
       | None => (Some ECodec, q)
       | Some r => (None, mkReq (rq_args q) r (rq_margs q) (rq_mreply q) true)
       end.

(** client.go:242-277 RobustCall (and 216-236, 148-175 DirectCall): [transport] is everything between
    packing and unpacking, as a function of the bytes sent.  Result, bytes sent, request afterwards. *)
Definition call (c1 c2 : bool) (transport : bytes → code + bytes) (q : Request) :
    option call_error * option bytes * Request :=
  match pack c1 q with
  | (Some e, q) => (Some e, None, q)
  | (None, q) =>
      match rq_margs q with
      | None => (None, None, q)
      | Some b =>
          match transport b with
          | inl e => (Some (ETransport e), Some b, q)
          | inr reply =>
              let '(e, q) := unpack c2 (mkReq (rq_args q) (rq_reply q) (rq_margs q) reply (rq_unpacked q)) in
              (e, Some b, q)
          end
      end
  end.

(** A user's edits between calls: new arguments, a new reply variable. *)
Definition edit (a : A) (r : R) (q : Request) : Request := mkReq a r (rq_margs q) (rq_mreply q) (rq_unpacked q).
(** A sequence of edits and calls with one object: result, bytes sent and Reply after each. *)
Fixpoint calls (l : list (A * R * (bool * bool * (bytes → code + bytes)))) (q : Request) :
    list (option call_error * option bytes * R) :=
  match l with
  | [] => []
  | (a, r, (c1, c2, tr)) :: l =>
      let '(e, b, q) := call c1 c2 tr (edit a r q) in (e, b, rq_reply q) :: calls l q
  end.
End request.
Arguments Request : clear implicits.
