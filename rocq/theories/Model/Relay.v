(** Model of a relay: rrpc/relay.go (relaySetup, RelayStream) with the cleanup of uuidToPeer (gc.go).

    A message from a server is its call id and the rest; what happens to one without a note is in
    Model/Robust.v (relay_incoming).  Requests are their call id and whether AsyncSend accepts them
    (coordinator.go:140-153).  isValidRequest is the constant true (relay.go:166-169).  The cleanup may
    drop any entry at any time (Properties/P19, C58: entries do not expose their age).  Not modelled:
    AsyncSend blocking on a full connection, SendProof, the end of the relay. *)
From stdpp Require Import gmap.
From Verif.Base Require Import Base.

Section relay.
Context {B : Type}.

(** A CallStreamResponse; a RelayStreamResponse that carries one, or an error, for a call id. *)
Record smsg := mkSmsg { sm_uuid : string; sm_body : B }.
Inductive rmsg := RResp (m : smsg) | RError (u : string).
(** Where RelayStream is: at server.Recv (relay.go:123), at resps <- with AsyncSend's error (150), before
    uuidToPeer.Store (158), returned. *)
Inductive reader := RdRecv | RdError (u : string) | RdStore (u : string) | RdEnd.
(** One RelayStream: the channel resps (relay.go:113, capacity 100), the reader, and whether the writer goroutine
    (114-120) is still there. *)
Record strm := mkStrm { st_resps : list rmsg; st_reader : reader; st_writer : bool }.
Definition rcap : nat := 100.

Record rst := mkRst {
  strms : gmap nat strm;
  table : gmap string nat;               (* uuidToPeer: the stream whose channel is stored *)
  inc : option (nat * smsg) }.           (* the goroutine of relaySetup is at rqst.respchan <- (relay.go:87) *)
Definition rinit : rst := mkRst ∅ ∅ None.

Inductive rlabel :=
| LOpen (p : nat)                 (* a client opens a stream *)
| LReq (p : nat) (u : string) (ok : bool) (* a request comes in and AsyncSend returns nil (ok) or an error *)
| LErr (p : nat) (u : string)     (* the error goes to the channel *)
| LStore (p : nat) (u : string)   (* uuidToPeer.Store *)
| LEnd (p : nat)                  (* server.Recv fails, RelayStream returns *)
| LIn (m : smsg)                  (* a message from a server is taken *)
| LFwd (p : nat) (m : smsg)       (* it goes to the channel of p *)
| LSend (p : nat) (r : rmsg)      (* server.Send succeeds *)
| LFail (p : nat)                 (* server.Send fails, the writer ends *)
| LDrop (u : string).             (* the cleanup deletes an entry *)

Inductive rstep : rlabel → rst → rst → Prop :=
| rs_open s p : strms s !! p = None →
    rstep (LOpen p) s (mkRst (<[p := mkStrm [] RdRecv true]> (strms s)) (table s) (inc s))
(** relay.go:123-147; isValidRequest (132) is true *)
| rs_req s p u ok x : strms s !! p = Some x → st_reader x = RdRecv →
    rstep (LReq p u ok) s (mkRst (<[p := mkStrm (st_resps x) (if ok : bool then RdStore u else RdError u) (st_writer x)]> (strms s)) (table s) (inc s))
(** relay.go:148-156 *)
| rs_err s p u x : strms s !! p = Some x → st_reader x = RdError u → length (st_resps x) < rcap →
    rstep (LErr p u) s (mkRst (<[p := mkStrm (st_resps x ++ [RError u]) RdRecv (st_writer x)]> (strms s)) (table s) (inc s))
(** relay.go:158-162 *)
| rs_store s p u x : strms s !! p = Some x → st_reader x = RdStore u →
    rstep (LStore p u) s (mkRst (<[p := mkStrm (st_resps x) RdRecv (st_writer x)]> (strms s)) (<[u := p]> (table s)) (inc s))
(** relay.go:123-130 *)
| rs_end s p x : strms s !! p = Some x → st_reader x = RdRecv →
    rstep (LEnd p) s (mkRst (<[p := mkStrm (st_resps x) RdEnd (st_writer x)]> (strms s)) (table s) (inc s))
(** relay.go:77-85: no such request *)
| rs_in_unknown s m : inc s = None → table s !! sm_uuid m = None →
    rstep (LIn m) s s
(** relay.go:82: LoadAndDelete *)
| rs_in s m p : inc s = None → table s !! sm_uuid m = Some p →
    rstep (LIn m) s (mkRst (strms s) (delete (sm_uuid m) (table s)) (Some (p, m)))
(** relay.go:87-90 *)
| rs_fwd s p m x : inc s = Some (p, m) → strms s !! p = Some x → length (st_resps x) < rcap →
    rstep (LFwd p m) s (mkRst (<[p := mkStrm (st_resps x ++ [RResp m]) (st_reader x) (st_writer x)]> (strms s)) (table s) None)
(** relay.go:115-116 *)
| rs_send s p r b x : strms s !! p = Some x → st_writer x = true → st_resps x = r :: b →
    rstep (LSend p r) s (mkRst (<[p := mkStrm b (st_reader x) true]> (strms s)) (table s) (inc s))
(** relay.go:116-118 *)
| rs_fail s p r b x : strms s !! p = Some x → st_writer x = true → st_resps x = r :: b →
    rstep (LFail p) s (mkRst (<[p := mkStrm b (st_reader x) false]> (strms s)) (table s) (inc s))
(** gc.go:15-32 *)
| rs_drop s u : rstep (LDrop u) s (mkRst (strms s) (delete u (table s)) (inc s)).

Inductive rsteps : list rlabel → rst → rst → Prop :=
| rs_nil s : rsteps [] s s
| rs_snoc ls l s1 s2 s3 : rsteps ls s1 s2 → rstep l s2 s3 → rsteps (ls ++ [l]) s1 s3.
End relay.
Arguments smsg : clear implicits.
Arguments rmsg : clear implicits.
Arguments strm : clear implicits.
Arguments rst : clear implicits.
Arguments rlabel : clear implicits.
