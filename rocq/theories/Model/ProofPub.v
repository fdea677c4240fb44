(** Model of proof publishing: what a client does with the note of a direct response once it has been
    received (rrpc/client.go:77-96, 148-177), coordinator.PublishProof (rrpc/coordinator.go:240-244),
    RelayConn.SendProof and its sending goroutine (rrpc/net_conns.go:103-140).

    Any number of clients share one coordinator.  Every relevant choice (which message arrives, the order
    in which Go visits the map of relay connections, which ready case of a select is taken, whether
    stream.Send fails) is in the label, so a step is a partial function of its label.  Not modelled: the
    hand-over of the result to the caller (Model/DirectClient.v), closing a client, what the relay does
    with a proof (relay.go:43-58 reads and discards it). *)
From stdpp Require Import gmap.
From Verif.Base Require Import Base.

Section pub.
Context {N B : Type} `{EqDecision N} (uuid : N → string) (verify : string → N → bool).

(** rrpc.proto DirectCallResponse: its note, and its result (an error or a payload). *)
Record dmsg := mkDmsg { d_note : N; d_result : B }.
(** rrpc.proto Proof *)
Record proof := mkProof { p_host : string; p_note : N }.
Global Instance proof_eq_dec : EqDecision proof.
Proof. solve_decision. Defined.

(** The goroutine of net_conns.go:103-122: at its select, inside stream.Send, returned. *)
Inductive sending := SSelect | SSend (p : proof) | SExit.
(** net_conns.go:28-58 RelayConn: sendProofChan, whether its context is done, the goroutine. *)
Record conn := mkConn { c_chan : list proof; c_done : bool; c_go : sending }.
(** client.go:24-44 client: the server's hostname, the keys of waitingTasks, and, when its receiving
    goroutine is inside PublishProof, the proof and the relay connections it has not visited yet. *)
Record client := mkClient { k_host : string; k_tasks : gset string; k_pub : option (proof * list string) }.
Record state := mkState { conns : gmap string conn; clients : gmap nat client }.

(** The three cases of the select of net_conns.go:125-132. *)
Inductive visit := VEnqueue | VDone | VDefault.
Inductive label :=
| LAsk (i : nat) (u : string)                       (* waitingTasks.Store, client.go:236 *)
| LForget (i : nat) (u : string)                    (* the cleanup goroutine deletes an entry, gc.go:28 *)
| LMsg (i : nat) (m : dmsg) (known : bool) (order : list string)  (* stream.Recv and VerifyAndDispatch *)
| LVisit (i : nat) (r : string) (v : visit) (p : proof)           (* one call of conn.SendProof(p) *)
| LReturn (i : nat)                                 (* PublishProof returns *)
| LTake (r : string)                                (* prf := <-r.sendProofChan *)
| LSent (r : string) (p : proof) (ok : bool)        (* sendProofStream.Send(p) returns *)
| LCancel (r : string)                              (* the context of the connection ends *)
| LExit (r : string).                               (* its Done case is taken *)

(** client.go:148-177 VerifyAndDispatch: does it return nil?  An unknown task: nil (152); a failing
    verification: the error (162-164); anything else, including an error from the server and a reply that
    does not unpack: nil (175). *)
Definition dispatched_ok (host : string) (known : bool) (m : dmsg) : bool :=
  if known then verify host (d_note m) else true.

(** net_conns.go:124-133 SendProof: a case is taken if it is ready, the default if none is. *)
Definition send_proof (v : visit) (p : proof) (c : conn) : option conn :=
  match v with
  | VEnqueue => if bool_decide (length (c_chan c) < 100) then Some (mkConn (c_chan c ++ [p]) (c_done c) (c_go c)) else None
  | VDone => if c_done c then Some c else None
  | VDefault => if bool_decide (length (c_chan c) < 100) || c_done c then None else Some c
  end.

Definition set_conn (s : state) (r : string) (c : conn) : state := mkState (<[r := c]> (conns s)) (clients s).
Definition set_client (s : state) (i : nat) (k : client) : state := mkState (conns s) (<[i := k]> (clients s)).

Definition step (l : label) (s : state) : option state :=
  match l with
  | LAsk i u => k ← clients s !! i; Some (set_client s i (mkClient (k_host k) ({[u]} ∪ k_tasks k) (k_pub k)))
  | LForget i u => k ← clients s !! i; Some (set_client s i (mkClient (k_host k) (k_tasks k ∖ {[u]}) (k_pub k)))
  (** client.go:77-96; [order] is the order in which range visits n.relayConns (coordinator.go:241) *)
  | LMsg i m known order =>
      k ← clients s !! i;
      match k_pub k with
      | Some _ => None
      | None =>
        if bool_decide (known = bool_decide (uuid (d_note m) ∈ k_tasks k)) then
          let tasks := k_tasks k ∖ {[uuid (d_note m)]} in
          if dispatched_ok (k_host k) known m then
            if bool_decide (order ≡ₚ elements (dom (conns s))) then
              Some (set_client s i (mkClient (k_host k) tasks (Some (mkProof (k_host k) (d_note m), order))))
            else None
          else Some (set_client s i (mkClient (k_host k) tasks None))
        else None
      end
  (** coordinator.go:240-244 *)
  | LVisit i r v p =>
      k ← clients s !! i;
      match k_pub k with
      | Some (q, r' :: rest) =>
        if bool_decide (r' = r ∧ q = p) then
          c ← conns s !! r;
          match send_proof v q c with
          | Some c' => Some (set_conn (set_client s i (mkClient (k_host k) (k_tasks k) (Some (q, rest)))) r c')
          | None => None
          end
        else None
      | _ => None
      end
  | LReturn i =>
      k ← clients s !! i;
      match k_pub k with
      | Some (q, []) => Some (set_client s i (mkClient (k_host k) (k_tasks k) None))
      | _ => None
      end
  (** net_conns.go:114 *)
  | LTake r =>
      c ← conns s !! r;
      match c_go c, c_chan c with
      | SSelect, p :: ps => Some (set_conn s r (mkConn ps (c_done c) (SSend p)))
      | _, _ => None
      end
  (** net_conns.go:115-119: an error is logged and the loop goes on *)
  | LSent r p ok =>
      c ← conns s !! r;
      match c_go c with
      | SSend q => if bool_decide (q = p) then Some (set_conn s r (mkConn (c_chan c) (c_done c) SSelect)) else None
      | _ => None
      end
  (** net_conns.go:135-137 Close, or the end of the coordinator's context *)
  | LCancel r => c ← conns s !! r; Some (set_conn s r (mkConn (c_chan c) true (c_go c)))
  (** net_conns.go:108-113 *)
  | LExit r =>
      c ← conns s !! r;
      match c_go c with
      | SSelect => if c_done c then Some (set_conn s r (mkConn (c_chan c) true SExit)) else None
      | _ => None
      end
  end.

Fixpoint run (ls : list label) (s : state) : option state :=
  match ls with
  | [] => Some s
  | l :: ls => match step l s with Some s' => run ls s' | None => None end
  end.
End pub.
Arguments dmsg : clear implicits.
Arguments proof : clear implicits.
Arguments sending : clear implicits.
Arguments conn : clear implicits.
Arguments client : clear implicits.
Arguments state : clear implicits.
Arguments label : clear implicits.
