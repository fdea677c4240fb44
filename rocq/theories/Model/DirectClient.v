(** Model of direct calls: rrpc/client.go (AsyncDirectCall, DirectCall, setServerStream,
    VerifyAndDispatch) with the cleanup goroutine (rrpc/gc.go) on waitingTasks.

    Every call is a DirectCall (its caller reads its error channel once).  The channels Err are
    unbuffered: a send on them happens together with the read.  Not modelled: pack and unpack
    (Model/Request.v), verification of the response (part of what is delivered), closing the client, a
    failing signature, a response without note. *)
From stdpp Require Import gmap.
From Verif.Base Require Import Base.

Section client.
Context {B : Type}.

(** rrpc.proto DirectCallResponse: the uuid in its note, and the rest. *)
Record msg := mkMsg { m_uuid : string; m_body : B }.
(** What a DirectCall returns: the outcome of the n-th message received, an error of stream.Send, or
    "response timed out". *)
Inductive result := RResp (n : nat) (m : msg) | RSendErr | RTimeout.
(** Where the caller is: before directCallSendChannel <- reqst (client.go:237), at <-chn (222), or
    returned. *)
Inductive caller := KQueue | KWait | KDone (r : result).
(** client.go:46-50 rqstWithErr, its channel and its caller; [k_seq] messages had been received when it
    was stored. *)
Record call := mkCall { k_uuid : string; k_start : Z; k_seq : nat; k_caller : caller; k_closed : bool }.
(** The cleanup goroutine: in cleanmapAccordingToTTL it has found an expired entry (gc.go:23-27) and is
    about to notify it (PrepareForDeletion); or it is about to delete the key (28). *)
Inductive cleaner := CIdle | CHold (u : string) (k : nat) | CDel (u : string).

Record cstate := mkCS {
  now : Z;
  calls : gmap nat call;
  waiting : gmap string nat;      (* waitingTasks *)
  queue : list nat;               (* directCallSendChannel, capacity 10 *)
  sender : option nat;            (* blocked at task.Err <- err (client.go:126) *)
  receiver : option (nat * (nat * msg)); (* blocked at reqst.Err <- err (157) *)
  cln : cleaner;
  got : list msg;                 (* messages received so far *)
  crashed : bool }.
Definition cinit : cstate := mkCS 0 ∅ ∅ [] None None CIdle [] false.

Definition set_caller (c : call) (x : caller) : call := mkCall (k_uuid c) (k_start c) (k_seq c) x (k_closed c).
Definition closed_done (c : call) (r : result) : call := mkCall (k_uuid c) (k_start c) (k_seq c) (KDone r) true.

Inductive label := LCall | LPush | LSendOk | LSendErr | LSendDeliver | LRecv | LRecvDeliver
                 | LExpire | LTimeout | LClean | LPanic | LTick.

Inductive cstep (ttl : Z) : label → cstate → cstate → Prop :=
(** client.go:226-236: waitingTasks.Store(req.Uuid, reqst) *)
| st_call s u k : crashed s = false → calls s !! k = None →
    cstep ttl LCall s (mkCS (now s) (<[k := mkCall u (now s) (length (got s)) KQueue false]> (calls s))
      (<[u := k]> (waiting s)) (queue s) (sender s) (receiver s) (cln s) (got s) false)
(** 237 *)
| st_push s k c : crashed s = false → calls s !! k = Some c → k_caller c = KQueue → length (queue s) < 10 →
    cstep ttl LPush s (mkCS (now s) (<[k := set_caller c KWait]> (calls s)) (waiting s) (queue s ++ [k])
      (sender s) (receiver s) (cln s) (got s) false)
(** 106-124: the request goes out *)
| st_send_ok s k q : crashed s = false → queue s = k :: q → sender s = None →
    cstep ttl LSendOk s (mkCS (now s) (calls s) (waiting s) q None (receiver s) (cln s) (got s) false)
(** 123: stream.Send fails *)
| st_send_err s k q : crashed s = false → queue s = k :: q → sender s = None →
    cstep ttl LSendErr s (mkCS (now s) (calls s) (waiting s) q (Some k) (receiver s) (cln s) (got s) false)
(** 125-128; the entry stays in waitingTasks *)
| st_send_deliver s k c : crashed s = false → sender s = Some k → calls s !! k = Some c →
    k_caller c = KWait → k_closed c = false →
    cstep ttl LSendDeliver s (mkCS (now s) (<[k := set_caller c (KDone RSendErr)]> (calls s)) (waiting s) (queue s)
      None (receiver s) (cln s) (got s) false)
(** 148-153: no such task *)
| st_recv_unknown s m : crashed s = false → receiver s = None → waiting s !! m_uuid m = None →
    cstep ttl LRecv s (mkCS (now s) (calls s) (waiting s) (queue s) (sender s) None (cln s) (got s ++ [m]) false)
(** 149: LoadAndDelete *)
| st_recv s m k : crashed s = false → receiver s = None → waiting s !! m_uuid m = Some k →
    cstep ttl LRecv s (mkCS (now s) (calls s) (delete (m_uuid m) (waiting s)) (queue s) (sender s)
      (Some (k, (length (got s), m))) (cln s) (got s ++ [m]) false)
(** 156-159: the send completes and the channel is closed *)
| st_recv_deliver s k n m c : crashed s = false → receiver s = Some (k, (n, m)) → calls s !! k = Some c →
    k_caller c = KWait → k_closed c = false →
    cstep ttl LRecvDeliver s (mkCS (now s) (<[k := closed_done c (RResp n m)]> (calls s)) (waiting s) (queue s)
      (sender s) None (cln s) (got s) false)
(** gc.go:16-27: Range has come to an entry whose age has reached the ttl *)
| st_expire s u k c : crashed s = false → cln s = CIdle → waiting s !! u = Some k → calls s !! k = Some c →
    (ttl ≤ now s - k_start c)%Z →
    cstep ttl LExpire s (mkCS (now s) (calls s) (waiting s) (queue s) (sender s) (receiver s) (CHold u k) (got s) false)
(** client.go:56-58 PrepareForDeletion *)
| st_timeout s u k c : crashed s = false → cln s = CHold u k → calls s !! k = Some c →
    k_caller c = KWait → k_closed c = false →
    cstep ttl LTimeout s (mkCS (now s) (<[k := set_caller c (KDone RTimeout)]> (calls s)) (waiting s) (queue s)
      (sender s) (receiver s) (CDel u) (got s) false)
(** gc.go:28 *)
| st_clean s u : crashed s = false → cln s = CDel u →
    cstep ttl LClean s (mkCS (now s) (calls s) (delete u (waiting s)) (queue s) (sender s) (receiver s) CIdle (got s) false)
(** Send on a closed channel. *)
| st_panic s k c : crashed s = false → (∃ u, cln s = CHold u k) ∨ sender s = Some k ∨ (∃ x, receiver s = Some (k, x)) →
    calls s !! k = Some c → k_closed c = true →
    cstep ttl LPanic s (mkCS (now s) (calls s) (waiting s) (queue s) (sender s) (receiver s) (cln s) (got s) true)
| st_tick s t : crashed s = false → (now s ≤ t)%Z →
    cstep ttl LTick s (mkCS t (calls s) (waiting s) (queue s) (sender s) (receiver s) (cln s) (got s) false).

Inductive csteps (ttl : Z) : list label → cstate → cstate → Prop :=
| cs_nil s : csteps ttl [] s s
| cs_cons l ls s1 s2 s3 : cstep ttl l s1 s2 → csteps ttl ls s2 s3 → csteps ttl (l :: ls) s1 s3.
End client.
Arguments msg : clear implicits.
Arguments result : clear implicits.
Arguments caller : clear implicits.
Arguments call : clear implicits.
Arguments cstate : clear implicits.
