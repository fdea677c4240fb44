(** Model of direct calls on the server and of what they exchange with the client:
    rrpc/server.go:103-167 (DirectCall), 169-189; rrpc/client.go:106-120 (the request), 148-175
    (VerifyAndDispatch); rrpc/peer.go.

    Not modelled: gRPC (a stream is the list of messages that arrive on it), a handler that panics, a
    response with a nil note. *)
From stdpp Require Import gmap.
From Verif.Base Require Import Base.
From Verif.Model Require Import Merkle Robust Network.

(** rrpc.proto DirectCallRequest *)
Record DirectRequest := mkDReq { dq_method : string; dq_payload : bytes; dq_note : option Note }.
(** rrpc.proto DirectCallResponse; the oneof Result is unset, an error or a payload. *)
Inductive dresult := DUnset | DError (e : code) | DPayload (b : bytes).
Record DirectResponse := mkDResp { ds_note : Note; ds_result : dresult }.

(** peer.go:12-24 getPeerFromContext: the "caller" values of the incoming metadata (None: none; an empty
    list is a panic, gRPC has none). *)
Definition getPeerFromContext (caller : option (list string)) : outcome code string :=
  match caller with
  | None => Err InvalidArgument
  | Some [] => Panic
  | Some (ip :: _) => Ok ip
  end.

Section server.
Context (H : bytes → digest) {SK : Type} (sign : SK → digest → bytes) (pub : SK → bytes)
        (sigok : bytes → digest → bytes → bool).
Context (encNote : Note → bytes).
(** Handlers: what they run on (call id, payload) and what they return; codec.Marshal (None: an error). *)
Context {V hnd : Type} (run : hnd → string → bytes → code + V) (enc : V → option bytes).
(** getServiceAndMethodDesc *)
Context (find : string → option hnd).

(** merkleSign on one object: the string s. *)
Definition sign_one (sk : SK) (s : bytes) : option cert :=
  match sign_strs H sign sk [s] with Some [ct] => Some ct | _ => None end.

(** client.go:107-118: the request a client sends. *)
Definition direct_request (sk : SK) (server : bytes) (method uuid : string) (margs : bytes) : option DirectRequest :=
  let note := mkNote (pub sk) server uuid None None in
  ct ← sign_one sk (encNote note);
  Some (mkDReq method margs (Some (set_scert note (Some ct)))).

(** server.go:169-180 intoDirectCallResponse *)
Definition intoDirectCallResponse (o : code + V) : option dresult :=
  match o with
  | inl e => Some (DError e)
  | inr v => DPayload <$> enc v
  end.

(** server.go:116-166, one iteration on a stream whose caller has key [client]: the handler run with its
    call id and payload, if any, and the response or the error that ends the stream. *)
Definition direct1 (sk : SK) (client : bytes) (cache : gset digest) (rq : DirectRequest) :
    option (hnd * string * bytes) * (code + DirectResponse) * gset digest :=
  match find (dq_method rq) with
  | None => (None, inl Unknown, cache)
  | Some h =>
      match dq_note rq with
      | None => (None, inl InvalidArgument, cache)
      | Some note =>
          if decide (client ≠ n_sender note) then (None, inl InvalidArgument, cache)
          else match VerifySeq H sigok cache (n_sender note) (encNote (set_scert note None)) (n_scert note) with
               | (Some _, cache) => (None, inl InvalidArgument, cache)
               | (None, cache) =>
                   let ran := Some (h, n_uuid note, dq_payload rq) in
                   match intoDirectCallResponse (run h (n_uuid note) (dq_payload rq)) with
                   | None => (ran, inl Internal, cache)
                   | Some result =>
                       match sign_one sk (encNote note) with
                       | None => (ran, inl Internal, cache)
                       | Some ct => (ran, inr (mkDResp (set_rcert note (Some ct)) result), cache)
                       end
                   end
               end
      end
  end.

(** server.go:115-167: the requests of a stream, each with what the verifier has cached then and whether
    server.Send succeeds.  The handlers run, the responses sent, and the error that ended the stream. *)
Fixpoint direct_stream (sk : SK) (client : bytes) (l : list (gset digest * bool * DirectRequest)) :
    list (hnd * string * bytes) * list DirectResponse * option code :=
  match l with
  | [] => ([], [], None)
  | (cache, ok, rq) :: l =>
      let '(ran, out, _) := direct1 sk client cache rq in
      match out with
      | inl e => (option_list ran, [], Some e)
      | inr resp =>
          if ok : bool then
            let '(rans, resps, e) := direct_stream sk client l in (option_list ran ++ rans, resp :: resps, e)
          else (option_list ran, [], Some Internal)
      end
  end.

(** server.go:104-112: the caller is whom the metadata says. *)
Definition DirectCall (sk : SK) (n : Network) (caller : option (list string)) (l : list (gset digest * bool * DirectRequest)) :
    outcome code (list (hnd * string * bytes) * list DirectResponse * option code) :=
  match getPeerFromContext caller with
  | Panic => Panic
  | Err _ => Err Unauthenticated
  | Ok ip => match GetPublicKey n ip with
             | Ok pk => Ok (direct_stream sk pk l)
             | _ => Err Unauthenticated
             end
  end.
End server.

Section client.
Context (H : bytes → digest) (sigok : bytes → digest → bytes → bool) (encNote : Note → bytes).
Context {Rep : Type} (unmarshal : bytes → Rep → option Rep).
Inductive direct_error := EVerify (e : code) | ERpc (e : code) | EUnpack.
(** client.go:161-175: what a call waiting for this response returns, and its Reply (before: old).  The
    request is used once (Model/Request.v has the general case). *)
Definition dispatch (cache : gset digest) (server : bytes) (resp : DirectResponse) (old : Rep) :
    option direct_error * Rep :=
  let note := ds_note resp in
  match (VerifySeq H sigok cache server (encNote (set_rcert note None)) (n_rcert note)).1 with
  | Some e => (Some (EVerify e), old)
  | None =>
      match ds_result resp with
      | DUnset => (None, old)
      | DError e => (Some (ERpc e), old)
      | DPayload b => match unmarshal b old with
                      | Some r => (None, r)
                      | None => (Some EUnpack, old)
                      end
      end
  end.
End client.
