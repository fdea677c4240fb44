(** Model of direct calls from end to end: the client of Model/DirectClient.v, its stream to the server, and the server's
    loop on that stream (rrpc/server.go:115-167), which takes one request at a time.

    The stream is two FIFO channels that hold [wire] messages each.  A request and its response carry the call's id; the
    other part of both is here the number of the call it belongs to: what the request contains, what the handler makes
    of it and what the client makes of the response are C68.  Simplifications: requests are genuine and methods known
    (otherwise the server ends the stream: C68), the stream does not break (C87). *)
From stdpp Require Import gmap.
From Verif.Base Require Import Base.
From Verif.Model Require Import DirectClient.

(** [d_srv]: the server has run the handler of this request and is at server.Send; [d_sent]: the calls whose requests went
    out, [d_ran]: the calls whose handlers ran, in order. *)
Record dnet := mkD {
  d_cl : cstate nat; d_up : list (msg nat); d_srv : option (msg nat); d_down : list (msg nat);
  d_sent : list nat; d_ran : list nat }.
Definition dinit : dnet := mkD cinit [] None [] [] [].

Inductive dlabel := DClient (l : label) | DRun (k : nat) | DReply (k : nat).

Section net.
Context (ttl : Z) (wire : nat).
Inductive dstep : dlabel → dnet → dnet → Prop :=
(** What the client does by itself. *)
| D_client l s c : l ≠ LSendOk → l ≠ LRecv → cstep ttl l (d_cl s) c →
    dstep (DClient l) s (mkD c (d_up s) (d_srv s) (d_down s) (d_sent s) (d_ran s))
(** client.go:106-123: the request of call k goes out. *)
| D_send s c k q x : cstep ttl LSendOk (d_cl s) c → queue (d_cl s) = k :: q → calls (d_cl s) !! k = Some x →
    length (d_up s) < wire →
    dstep (DClient LSendOk) s (mkD c (d_up s ++ [mkMsg (k_uuid x) k]) (d_srv s) (d_down s) (d_sent s ++ [k]) (d_ran s))
(** server.go:116-142: the server receives it and runs the handler *)
| D_run s m up : d_up s = m :: up → d_srv s = None →
    dstep (DRun (m_body m)) s (mkD (d_cl s) up (Some m) (d_down s) (d_sent s) (d_ran s ++ [m_body m]))
(** 144-161 *)
| D_reply s m : d_srv s = Some m → length (d_down s) < wire →
    dstep (DReply (m_body m)) s (mkD (d_cl s) (d_up s) None (d_down s ++ [m]) (d_sent s) (d_ran s))
(** client.go:78, 148-153 *)
| D_recv s c m down : d_down s = m :: down → cstep ttl LRecv (d_cl s) c → got c = got (d_cl s) ++ [m] →
    dstep (DClient LRecv) s (mkD c (d_up s) (d_srv s) down (d_sent s) (d_ran s)).

Inductive dsteps : list dlabel → dnet → dnet → Prop :=
| ds_nil s : dsteps [] s s
| ds_snoc ls l s1 s2 s3 : dsteps ls s1 s2 → dstep l s2 s3 → dsteps (ls ++ [l]) s1 s3.
End net.
