(** Model of closing a client, and of a stream that ends, on top of Model/DirectClient.v:
    rrpc/client.go:59-62 Close, 64-144 setServerStream (how its three goroutines end), rrpc/gc.go:34-44
    foreverCleanup.

    [DirectClient] says what each goroutine does; here each goroutine may also have returned, and then its
    steps no longer happen.  Not modelled: as in DirectClient.v; the goroutine that sends also returns
    when a signature fails (115-119). *)
From stdpp Require Import gmap.
From Verif.Base Require Import Base.
From Verif.Model Require Import DirectClient.

Section closed.
Context {B : Type}.

Record xstate := mkX {
  base : cstate B;
  cancelled : bool;      (* the client's context is done *)
  broken : bool;         (* the stream to the server has ended *)
  send_gone : bool;      (* client.go:98-133 has returned *)
  recv_gone : bool;      (* client.go:71-96 has returned *)
  clean_gone : bool      (* client.go:137-141 has returned *)
}.
Definition xinit : xstate := mkX cinit false false false false false.

Inductive xlabel := XBase (l : label) | XClose | XBreak | XSendExit | XRecvExit | XCleanExit.

(** Which goroutine takes a step; callers, the clock and the one that completes a channel operation
    already begun need no check, because a goroutine at a channel operation has not returned. *)
Definition alive (x : xstate) (l : label) : Prop :=
  match l with
  | LSendOk | LSendErr => send_gone x = false     (* client.go:106 *)
  | LRecv => recv_gone x = false                  (* 77 *)
  | LExpire => clean_gone x = false               (* gc.go:38 *)
  | _ => True
  end.

Inductive xstep (ttl : Z) : xlabel → xstate → xstate → Prop :=
| xs_base x l s' : alive x l → cstep ttl l (base x) s' →
    xstep ttl (XBase l) x (mkX s' (cancelled x) (broken x) (send_gone x) (recv_gone x) (clean_gone x))
(** client.go:59-62: Close only cancels the context *)
| xs_close x : crashed (base x) = false →
    xstep ttl XClose x (mkX (base x) true (broken x) (send_gone x) (recv_gone x) (clean_gone x))
(** the server ends the stream, or the connection is lost *)
| xs_break x : crashed (base x) = false →
    xstep ttl XBreak x (mkX (base x) (cancelled x) true (send_gone x) (recv_gone x) (clean_gone x))
(** 129-131: at its select, the context is done *)
| xs_send_exit x : crashed (base x) = false → send_gone x = false → sender (base x) = None → cancelled x = true →
    xstep ttl XSendExit x (mkX (base x) (cancelled x) (broken x) true (recv_gone x) (clean_gone x))
(** 77-85: stream.Recv fails; the context of the stream is the client's (65) *)
| xs_recv_exit x : crashed (base x) = false → recv_gone x = false → receiver (base x) = None →
    (cancelled x = true ∨ broken x = true) →
    xstep ttl XRecvExit x (mkX (base x) (cancelled x) (broken x) (send_gone x) true (clean_gone x))
(** gc.go:40-41 *)
| xs_clean_exit x : crashed (base x) = false → clean_gone x = false → cln (base x) = CIdle → cancelled x = true →
    xstep ttl XCleanExit x (mkX (base x) (cancelled x) (broken x) (send_gone x) (recv_gone x) true).

Inductive xsteps (ttl : Z) : list xlabel → xstate → xstate → Prop :=
| xss_nil x : xsteps ttl [] x x
| xss_cons l ls x1 x2 x3 : xstep ttl l x1 x2 → xsteps ttl ls x2 x3 → xsteps ttl (l :: ls) x1 x3.
End closed.
Arguments xstate : clear implicits.
