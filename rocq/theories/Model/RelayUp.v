(** The client's connections to its relays (Model/RelayConn.v) while all relays and connections are up: which
    sends fail is then decided by the client's own requests (rrpc/net_conns.go:157-215).

    Described, not verified: google.golang.org/grpc clientStream.SendMsg (v1.51).  A message that cannot be
    encoded - one with a string that is not UTF-8, here the method name (rrpc/client.go:309) or the call id
    (rrpc/client.go:311), which every parcel of the call has - is an error other than io.EOF and finishes the
    stream: later sends on it return io.EOF, Recv returns an error (perhaps after responses already received).
    A relay answers only requests it was sent. *)
From stdpp Require Import gmap.
From Verif.Base Require Import Base.
From Verif.Model Require Import Wire RelayConn.

(** Whether the requests of call k can be encoded. *)
Definition encodable (methods : nat → string) (s : cst) (k : nat) : bool := utf8 (methods k) && utf8 (ca_uuid (calls s k)).

(** A step of the client after the history tr: net_conns.go:171-181 (Send and its errors), 193-200 (Recv). *)
Definition conn_up (methods : nat → string) (tr : list clabel) (s : cst) (l : clabel) : Prop :=
  match l with
  | CWire i k => encodable methods s k = true ∧ ∀ k', CLost i k' ∉ tr
  | CLost i k => encodable methods s k = false ∧ ∀ k', CLost i k' ∉ tr
  | CEof i _ | CRecvEnd i => ∃ k', CLost i k' ∈ tr
  | CRecv i u => ∃ k, CWire i k ∈ tr ∧ CStart k u ∈ tr
  | _ => True
  end.
(** A run that goes on after the history tr0. *)
Inductive relays_up (n : nat) (methods : nat → string) (tr0 : list clabel) : list clabel → cst → cst → Prop :=
| ru_nil s : relays_up n methods tr0 [] s s
| ru_snoc tr l s1 s2 s3 : relays_up n methods tr0 tr s1 s2 → cstep n l s2 s3 → conn_up methods (tr0 ++ tr) s2 l →
    relays_up n methods tr0 (tr ++ [l]) s1 s3.
