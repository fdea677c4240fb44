(** Model of the errors that rrpc puts into messages as google.rpc.Status, with code and text: what the
    server makes of a handler's error (rrpc/server.go:169-189, rrpc/rrpc_server_stream.go:281-304), when a
    message with it can be sent, and what the clients make of it (rrpc/coordinator.go:218-232,
    rrpc/client.go:161-175, 323-349).  Elsewhere in the model an error is one of the codes the library itself
    uses, none of which is OK, and has no text.

    Described, not verified: google.golang.org/grpc/status (v1.51; Error, ErrorProto, FromError) and that a
    proto3 string field must be UTF-8 to be encoded.  Not modelled: the details of a status; an error whose
    GRPCStatus is nil. *)
From stdpp Require Import gmap.
From Verif.Base Require Import Base.
From Verif.Model Require Import Merkle Ecc Network Robust DirectServer Wire ServerStreams.

(** google.rpc.Status *)
Record status := mkStatus { st_code : Z; st_msg : string }.
Definition codes_OK : Z := 0.
Definition codes_Unknown : Z := 2.
(** status.Error and status.ErrorProto (FromProto(s).Err()): no error for the code OK. *)
Definition status_Err (s : status) : option status := if decide (st_code s = codes_OK) then None else Some s.

(** A handler's error: one that has a method GRPCStatus, or another with its text. *)
Inductive goerror := EStatus (s : status) | EOther (text : string).
(** server.go:182-189 errToRpcErr and rrpc_server_stream.go:282-286: the same *)
Definition errToRpcErr (e : goerror) : status :=
  match e with EStatus s => s | EOther text => mkStatus codes_Unknown text end.

(** rrpc.proto CallStreamResponse, RelayStreamResponse, DirectCallResponse *)
Record SCallResponse := mkSC { sc_resp : option RrpcResponse; sc_error : option status; sc_pk : bytes; sc_note : option Note }.
Record SRelayResponse := mkSR { sr_resp : option SCallResponse; sr_error : option status; sr_uuid : string }.
Inductive sresult := SUnset | SError (s : status) | SPayload (b : bytes).
Record SDirectResponse := mkSD { sd_note : Note; sd_result : sresult }.

(** Whether protobuf encodes them. *)
Definition status_sendable (s : status) : bool := utf8 (st_msg s).
Definition call_sendable (r : SCallResponse) : bool :=
  from_option status_sendable true (sc_error r) && from_option (λ n, utf8 (n_uuid n)) true (sc_note r).
Definition direct_sendable (r : SDirectResponse) : bool :=
  match sd_result r with SError s => status_sendable s | _ => true end && utf8 (n_uuid (sd_note r)).

(** rrpc_server_stream.go:281-304 erroToCallStreamResponseArray, one response for each relay (the
    certificates are those of merkleSign: Robust.respond). *)
Definition error_responses (pk : bytes) (note : Note) (certs : list cert) (e : goerror) : list SCallResponse :=
  (λ ct, mkSC None (Some (errToRpcErr e)) pk (Some (set_rcert note (Some ct)))) <$> certs.

(** The server's streams to its relays (Model/ServerStreams.v) while all connections are up: stream.Send
    fails exactly on a message that cannot be encoded. *)
Definition up_step (n : nat) (l : slabel SCallResponse) (s s' : sst SCallResponse) : Prop :=
  sstep n l s s' ∧
  match l with
  | SWrite i r => call_sendable r = true
  | SFail i => from_option call_sendable true (head (buf s i)) = false
  | _ => True
  end.
Inductive up_steps (n : nat) : list (slabel SCallResponse) → sst SCallResponse → sst SCallResponse → Prop :=
| up_nil s : up_steps n [] s s
| up_snoc ls l s1 s2 s3 : up_steps n ls s1 s2 → up_step n l s2 s3 → up_steps n (ls ++ [l]) s1 s3.

(** The codes of the rest of the model, as numbers. *)
Definition code_number (e : code) : Z :=
  match e with
  | Canceled => 1 | Unknown => 2 | InvalidArgument => 3 | DeadlineExceeded => 4 | NotFound => 5
  | FailedPrecondition => 9 | Aborted => 10 | Internal => 13 | Unauthenticated => 16
  end%Z.
(** An error made by the client itself (its text is left out). *)
Definition own_error (e : code) : status := mkStatus (code_number e) "".

Section server.
Context (H : bytes → digest) {SK : Type} (sign : SK → digest → bytes) (sigok : bytes → digest → bytes → bool).
Context (encNote : Note → bytes).
Context {V hnd : Type} (run : hnd → string → bytes → goerror + V) (enc : V → option bytes).
Context (find : string → option hnd).
(** server.go:169-180 intoDirectCallResponse *)
Definition intoDirectCallResponse (o : goerror + V) : option sresult :=
  match o with
  | inl e => Some (SError (errToRpcErr e))
  | inr v => SPayload <$> enc v
  end.
(** server.go:116-166: as DirectServer.direct1, with the error the handler returned. *)
Definition direct1 (sk : SK) (client : bytes) (cache : gset digest) (rq : DirectRequest) :
    option (hnd * string * bytes) * (code + SDirectResponse) * gset digest :=
  match find (dq_method rq) with
  | None => (None, inl Unknown, cache)
  | Some h =>
      match dq_note rq with
      | None => (None, inl InvalidArgument, cache)
      | Some note =>
          if decide (client ≠ n_sender note) then (None, inl InvalidArgument, cache)
          else match VerifySeq H sigok cache (n_sender note) (encNote (set_scert note None)) (n_scert note) with
               | (Some _, cache) => (None, inl InvalidArgument, cache)
               | (None, cache) =>
                   let ran := Some (h, n_uuid note, dq_payload rq) in
                   match intoDirectCallResponse (run h (n_uuid note) (dq_payload rq)) with
                   | None => (ran, inl Internal, cache)
                   | Some result =>
                       match sign_one H sign sk (encNote note) with
                       | None => (ran, inl Internal, cache)
                       | Some ct => (ran, inr (mkSD (set_rcert note (Some ct)) result), cache)
                       end
                   end
               end
      end
  end.
(** server.go:115-167 while the connection is up: server.Send fails exactly on a message that cannot be
    encoded. *)
Fixpoint direct_stream (sk : SK) (client : bytes) (l : list (gset digest * DirectRequest)) :
    list (hnd * string * bytes) * list SDirectResponse * option code :=
  match l with
  | [] => ([], [], None)
  | (cache, rq) :: l =>
      let '(ran, out, _) := direct1 sk client cache rq in
      match out with
      | inl e => (option_list ran, [], Some e)
      | inr resp =>
          if direct_sendable resp then
            let '(rans, resps, e) := direct_stream sk client l in (option_list ran ++ rans, resp :: resps, e)
          else (option_list ran, [], Some Internal)
      end
  end.
End server.

Section client.
Context (H : bytes → digest) (sigok : bytes → digest → bytes → bool) (encNote : Note → bytes).
(** coordinator.go:218-232 validateRrpcResponse *)
Definition validate (cache : gset digest) (serverId : bytes) (r : SRelayResponse) :
    outcome code (option status * gset digest) :=
  match sr_error r, sr_resp r with
  | Some s, _ => Ok (status_Err s, cache)
  | None, None => Ok (Some (own_error Internal), cache)
  | None, Some resp =>
      match sc_error resp with
      | Some s => Ok (status_Err s, cache)
      | None =>
          match sc_note resp with
          | None => Panic
          | Some note =>
              let '(v, cache) := VerifySeq H sigok cache serverId (encNote (set_rcert note None)) (n_rcert note) in
              Ok (own_error <$> v, cache)
          end
      end
  end.
(** client.go:323-349 reconstruct of what coordinator.go:206 collected: a nil CallStreamResponse panics, and
    one with a nil Response too. *)
Definition decode (c : rs_code) (out : list SRelayResponse) (arr : list (option nat)) : outcome ecc_error bytes :=
  match mapM (λ r, resp ← sr_resp r; sc_resp resp) out with
  | None => Panic
  | Some rs => reconstruct_from c (response_item <$> rs) arr
  end.

Context {Rep : Type} (unmarshal : bytes → Rep → option Rep).
Inductive direct_outcome := DVerify (e : code) | DRpc (s : status) | DUnpack.
(** client.go:161-175: what a call waiting for this response returns (None: nil), and its Reply. *)
Definition dispatch (cache : gset digest) (server : bytes) (resp : SDirectResponse) (old : Rep) :
    option direct_outcome * Rep :=
  let note := sd_note resp in
  match (VerifySeq H sigok cache server (encNote (set_rcert note None)) (n_rcert note)).1 with
  | Some e => (Some (DVerify e), old)
  | None =>
      match sd_result resp with
      | SUnset => (None, old)
      | SError s => (DRpc <$> status_Err s, old)
      | SPayload b => match unmarshal b old with
                      | Some r => (None, r)
                      | None => (Some DUnpack, old)
                      end
      end
  end.
End client.
