(** Model of the streams a server keeps to one network of relays, with several streams per relay address
    (rrpc/rrpc_server_stream.go:14-68): a relay that reconnects, or a process that names another's address.

    Unlike Model/ServerStreams.v the writer goroutines are told apart; who sends responses is left open.
    A step is a partial function of its label.  Not modelled: requests (validateParcel, the collector),
    stopping the server. *)
From stdpp Require Import gmap.
From Verif.Base Require Import Base.

Section rs.
Context {R : Type} `{EqDecision R} (names : list string).  (* NetworkData.Servers() *)

(** One CallStream: the index of the relay it was opened for, whether stream.Send still works, whether the
    writer goroutine (56-63) is running, and the response it has received from the channel. *)
Record stream := mkStream { st_relay : nat; st_alive : bool; st_run : bool; st_hand : option R }.
Record state := mkState { bufs : gmap nat (list R); closed : gset nat; streams : gmap nat stream; crashed : bool }.
Definition init : state := mkState ∅ ∅ ∅ false.
Definition buf (s : state) (i : nat) : list R := default [] (bufs s !! i).

Inductive label :=
| LPush (i : nat) (r : R)                     (* sendTo(i, r) completes *)
| LPushPanic (i : nat) (r : R)                (* sendTo(i, r) on the closed channel *)
| LOpen (σ : nat) (who : string) (a : string) (* process [who] opens a CallStream with caller address [a] *)
| LDie (σ : nat)                              (* the connection of the stream breaks *)
| LTake (σ i : nat) (r : R)                   (* range over the channel of relay i delivers r *)
| LSent (σ : nat) (r : R)                     (* stream.Send(r) succeeds *)
| LSendFail (σ : nat) (r : R)                 (* stream.Send(r) fails; removeAt *)
| LExit (σ : nat).                            (* the channel is closed and empty *)

Definition set_stream (s : state) (σ : nat) (x : stream) : state :=
  mkState (bufs s) (closed s) (<[σ := x]> (streams s)) (crashed s).

(** network_data.go:75-77 GetRelayIndex, a binary search in the sorted addresses: the first position of the
    address; None: the address is unknown (rrpc_server_stream.go:48-50). *)
Definition relay_index (a : string) : option nat := fst <$> list_find (λ b, b = a) names.

Definition step (l : label) (s : state) : option state :=
  if crashed s then None else
  match l with
  (** 29-31; the channel has capacity 100 *)
  | LPush i r =>
      if bool_decide (i < length names ∧ i ∉ closed s ∧ length (buf s i) < 100)
      then Some (mkState (<[i := buf s i ++ [r]]> (bufs s)) (closed s) (streams s) false) else None
  | LPushPanic i r =>
      if bool_decide (i < length names ∧ i ∈ closed s) then Some (mkState (bufs s) (closed s) (streams s) true) else None
  (** 42-57: the address is taken from the metadata of the stream *)
  | LOpen σ who a =>
      match streams s !! σ, relay_index a with
      | None, Some i => Some (set_stream s σ (mkStream i true true None))
      | _, _ => None
      end
  | LDie σ =>
      x ← streams s !! σ; Some (set_stream s σ (mkStream (st_relay x) false (st_run x) (st_hand x)))
  (** 57 *)
  | LTake σ i r =>
      x ← streams s !! σ;
      if bool_decide (st_relay x = i ∧ st_run x = true ∧ st_hand x = None ∧ head (buf s i) = Some r)
      then Some (mkState (<[i := tail (buf s i)]> (bufs s)) (closed s)
             (<[σ := mkStream i (st_alive x) true (Some r)]> (streams s)) false)
      else None
  (** 58 *)
  | LSent σ r =>
      x ← streams s !! σ;
      if bool_decide (st_alive x = true ∧ st_hand x = Some r)
      then Some (set_stream s σ (mkStream (st_relay x) true (st_run x) None)) else None
  (** 58-61 and 37-39: close panics if the channel is already closed *)
  | LSendFail σ r =>
      x ← streams s !! σ;
      if bool_decide (st_alive x = false ∧ st_hand x = Some r)
      then Some (mkState (bufs s) ({[st_relay x]} ∪ closed s)
             (<[σ := mkStream (st_relay x) false false None]> (streams s)) (bool_decide (st_relay x ∈ closed s)))
      else None
  (** 57 *)
  | LExit σ =>
      x ← streams s !! σ;
      if bool_decide (st_run x = true ∧ st_hand x = None ∧ buf s (st_relay x) = [] ∧ st_relay x ∈ closed s)
      then Some (set_stream s σ (mkStream (st_relay x) (st_alive x) false None)) else None
  end.

Fixpoint run (ls : list label) (s : state) : option state :=
  match ls with
  | [] => Some s
  | l :: ls => match step l s with Some s' => run ls s' | None => None end
  end.
End rs.
Arguments stream : clear implicits.
Arguments state : clear implicits.
Arguments label : clear implicits.
