(** Direct calls from end to end (Model/DirectNet.v) while the server and the connection are up: which sends fail
    is then decided by the client's own requests (rrpc/client.go:104-128).

    Described, not verified: google.golang.org/grpc clientStream.SendMsg, as in Model/RelayUp.v: a request that
    cannot be encoded - the method name (client.go:108) or the call id (client.go:115) is not UTF-8 - is an
    error and finishes the stream; every later send is an error. *)
From stdpp Require Import gmap.
From Verif.Base Require Import Base.
From Verif.Model Require Import Wire DirectClient DirectNet.

(** Whether the request of call k can be encoded. *)
Definition direct_encodable (methods : nat → string) (c : cstate nat) (k : nat) : bool :=
  utf8 (methods k) && from_option (λ x, utf8 (k_uuid x)) true (calls c !! k).

(** A step after the history tr: client.go:123 stream.Send *)
Definition direct_conn_up (methods : nat → string) (tr : list dlabel) (s : dnet) (l : dlabel) : Prop :=
  match l with
  | DClient LSendOk => DClient LSendErr ∉ tr ∧ ∀ k, head (queue (d_cl s)) = Some k → direct_encodable methods (d_cl s) k = true
  | DClient LSendErr => DClient LSendErr ∈ tr ∨ ∃ k, head (queue (d_cl s)) = Some k ∧ direct_encodable methods (d_cl s) k = false
  | _ => True
  end.
(** A run that goes on after the history tr0. *)
Inductive direct_up (ttl : Z) (wire : nat) (methods : nat → string) (tr0 : list dlabel) : list dlabel → dnet → dnet → Prop :=
| du_nil s : direct_up ttl wire methods tr0 [] s s
| du_snoc tr l s1 s2 s3 : direct_up ttl wire methods tr0 tr s1 s2 → dstep ttl wire l s2 s3 →
    direct_conn_up methods (tr0 ++ tr) s2 l → direct_up ttl wire methods tr0 (tr ++ [l]) s1 s3.
