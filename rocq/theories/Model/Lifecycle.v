(** Model of the life of a mix server (server.go): NewMixServer (79-97), the guard of NewRound (104-107), Dial
    (195-213), Close (215-223) and what its senders find when they send (sender.go:43-57), with
    rrpc.NewConnection (rrpc/interfaces.go:29-61), the plain grpc client (rrpc/grpc_wrapper.go:48-90) and the
    constructor and Close of the rrpc client (rrpc/client.go:60-63, 177-214).

    Simplification: what happens on a connection is not modelled here (Model/DirectClient.v, ClosedClient.v), only
    whether it is open. *)
From stdpp Require Import gmap strings.
From Verif.Base Require Import Base.

(** rrpc.Configs: neither a coordinator nor IsGrpc; IsGrpc; a coordinator. *)
Inductive kind := KEmpty | KGrpc | KRrpc.

(** [l_map]: Connections, from hostname to connection; [l_open]: every connection ever made, and whether it is open;
    [l_nil]: the map is nil. *)
Record life := mkLife { l_kind : kind; l_peers : list string; l_nil : bool; l_map : gmap string nat; l_open : gmap nat bool }.

(** server.go:90-96, if the publisher and the node can be created *)
Definition NewMixServer (k : kind) (peers : list string) : life := mkLife k peers false ∅ ∅.

Inductive life_error := ENoConfigs | EDial | EClosing | EFailedClose.

(** interfaces.go:29-61; [up]: the address is that of a server one can connect to.  A grpc.Dial that fails returns an
    error (grpc_wrapper.go:84-87); newClient panics (client.go:180-182, 185-187, 209-211). *)
Definition NewConnection (s : life) (up : bool) : outcome life_error (nat * life) :=
  match l_kind s with
  | KEmpty => Err ENoConfigs
  | k =>
      if up then
        let i := fresh (dom (l_open s)) in
        Ok (i, mkLife (l_kind s) (l_peers s) (l_nil s) (l_map s) (<[i := true]> (l_open s)))
      else match k with KGrpc => Err EDial | _ => Panic end
  end.
(** grpc_wrapper.go:52-54 (grpc reports the second Close of a connection as an error), client.go:60-63 *)
Definition conn_close (s : life) (i : nat) : option life_error * life :=
  match l_kind s, l_open s !! i with
  | KGrpc, Some true => (None, mkLife (l_kind s) (l_peers s) (l_nil s) (l_map s) (<[i := false]> (l_open s)))
  | KGrpc, _ => (Some EClosing, s)
  | _, _ => (None, mkLife (l_kind s) (l_peers s) (l_nil s) (l_map s) (<[i := false]> (l_open s)))
  end.
(** server.go:215-223; the map is ranged over in the order [order]. *)
Fixpoint close_loop (s : life) (order : list string) : option life_error * life :=
  match order with
  | [] => (None, s)
  | h :: order =>
      match l_map s !! h with
      | None => close_loop s order
      | Some i =>
          match conn_close s i with
          | (Some e, s) => (Some e, s)
          | (None, s) => close_loop s order
          end
      end
  end.
Definition Close (s : life) (order : list string) : option life_error * life := close_loop s order.

(** server.go:195-213 over the peers left; [up]: which of them can be reached; [order]: the order in which Close
    ranges over the map. *)
Fixpoint dial_loop (up : string → bool) (order : list string) (s : life) (peers : list string) :
    outcome life_error unit * life :=
  match peers with
  | [] => (Ok tt, s)
  | h :: peers =>
      match NewConnection s (up h) with
      | Panic => (Panic, s)
      | Err e =>
          match Close s order with
          | (Some _, s) => (Err EFailedClose, s)
          | (None, s) => (Err e, s)
          end
      | Ok (i, s) => dial_loop up order (mkLife (l_kind s) (l_peers s) (l_nil s) (<[h := i]> (l_map s)) (l_open s)) peers
      end
  end.
Definition Dial (up : string → bool) (order : list string) (s : life) := dial_loop up order s (l_peers s).

(** server.go:104-107: is the round refused for want of connections? *)
Definition refused (s : life) : bool := l_nil s.

(** sender.go:50-52: a batch for [host].  A missing connection is a nil interface, on which the call panics; a closed
    grpc connection returns an error, which is logged, and the batch is gone; a call on a closed rrpc client does not
    return (C87). *)
Inductive sent := SGone_out | SLost | SBlocked | SCrash.
Definition send (s : life) (host : string) : sent :=
  match l_map s !! host with
  | None => SCrash
  | Some i =>
      match l_open s !! i, l_kind s with
      | Some true, _ => SGone_out
      | _, KRrpc => SBlocked
      | _, _ => SLost
      end
  end.

(** A life: what the program that owns the server does. *)
Inductive op := ODial (up : string → bool) (order : list string) | OClose (order : list string).
Inductive lstep : life → op → outcome life_error unit → life → Prop :=
| L_dial s up order r s' : Permutation order (elements (dom (l_map s'))) →
    Dial up order s = (r, s') → lstep s (ODial up order) r s'
| L_close s order s' : Permutation order (elements (dom (l_map s))) → (Close s order).2 = s' →
    lstep s (OClose order) (match (Close s order).1 with None => Ok tt | Some e => Err e end) s'.
Inductive lives : life → list (op * outcome life_error unit) → life → Prop :=
| lv_nil s : lives s [] s
| lv_step s o r s1 h s2 : lstep s o r s1 → lives s1 h s2 → r ≠ Panic → lives s ((o, r) :: h) s2.
