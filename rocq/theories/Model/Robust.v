(** Model of the robust call: rrpc/client.go (RobustCall), rrpc/rrpc_server_stream.go, rrpc/relay.go,
    rrpc/ecc_packing.go, rrpc/coordinator.go (validateRrpcResponse).

    Not modelled: gRPC streams (messages arrive as given), nil Parcel/Note in a request (Model/WireRequests.v), a failing
    codec.Marshal, worker-pool answers lost by stopping the encoder (see Model/Ecc.v for those). *)
From stdpp Require Import gmap vector.
From Verif.Base Require Import Base.
From Verif.Model Require Import Merkle Ecc.

(** rrpc.proto ExchangeNote *)
Record Note := mkNote { n_sender : bytes; n_receiver : bytes; n_uuid : string;
                        n_scert : option cert; n_rcert : option cert }.
(** rrpc.proto Parcel *)
Record Parcel := mkParcel { p_method : string; p_index : Z; p_note : Note; p_len : bytes;
                            p_payload : list shard; p_sig : option cert }.
(** rrpc.proto RrpcResponse, CallStreamResponse, RelayStreamResponse; nil is None. *)
Record RrpcResponse := mkResp { r_len : bytes; r_index : Z; r_payload : list shard }.
Record CallStreamResponse := mkCSR { cr_error : option code; cr_resp : option RrpcResponse;
                                     cr_pk : bytes; cr_note : option Note }.
Record RelayStreamResponse := mkRSR { rr_error : option code; rr_resp : option CallStreamResponse;
                                      rr_uuid : string }.

Definition set_scert (n : Note) (c : option cert) : Note :=
  mkNote (n_sender n) (n_receiver n) (n_uuid n) c (n_rcert n).
Definition set_rcert (n : Note) (c : option cert) : Note :=
  mkNote (n_sender n) (n_receiver n) (n_uuid n) (n_scert n) c.
Definition set_note (p : Parcel) (n : Note) : Parcel :=
  mkParcel (p_method p) (p_index p) n (p_len p) (p_payload p) (p_sig p).
Definition set_sig (p : Parcel) (c : option cert) : Parcel :=
  mkParcel (p_method p) (p_index p) (p_note p) (p_len p) (p_payload p) c.

(** binary.LittleEndian.Uint32 (None: panic, fewer than 4 bytes). *)
Definition Uint32 (b : bytes) : option N :=
  if decide (length b < 4) then None else Some (le_dec (take 4 b)).

Section packing.
Context (c : rs_code).

(** ecc_packing.go:12-17, 27-32 InsertECCPayload: column i of the chunks (None: panic). *)
Definition InsertECCPayload (chunks : list (option (list shard))) (i : nat) : option (list shard) :=
  mapM (λ row : option (list shard), row ← row; row !! i) chunks.
(** ecc_packing.go:19-23, 34-38 PutIntoShards: writes column idx (None: panic, index out of range). *)
Definition PutIntoShards (idx : Z) (payload : list shard) (shards : list (list shard)) :
    option (list (list shard)) :=
  if decide ((0 ≤ idx < Z.of_nat (rs_k c + rs_m c))%Z ∧ length shards ≤ length payload)
  then Some (zip_with (λ row x, <[Z.to_nat idx := x]> row) shards payload) else None.
Fixpoint put_all (ps : list (Z * list shard)) (shards : list (list shard)) : option (list (list shard)) :=
  match ps with
  | [] => Some shards
  | (i, pl) :: ps => shards ← PutIntoShards i pl shards; put_all ps shards
  end.

(** The common part of client.go:323-349 reconstruct and rrpc_server_stream.go:224-245
    reconstructParcels: the message length is taken from the first parcel.  An empty list is an error. *)
Definition reconstruct_from (ps : list (bytes * (Z * list shard))) (arr : list (option nat)) :
    outcome ecc_error bytes :=
  match ps with
  | [] => Err EShortData
  | (len, _) :: _ =>
      match Uint32 len, put_all ps.*2 (NewShards c) with
      | Some sz, Some shards => AuthReconstruct c shards (Z.of_N sz) arr
      | _, _ => Panic
      end
  end.
Definition parcel_item (p : Parcel) : bytes * (Z * list shard) := (p_len p, (p_index p, p_payload p)).
Definition response_item (r : RrpcResponse) : bytes * (Z * list shard) := (r_len r, (r_index r, r_payload r)).

(** client.go:279-321 requestIntoRobust, on the packed arguments; n is len(Servers()). *)
Definition requestIntoRobust (n : nat) (me server : bytes) (method uuid : string) (margs : bytes)
    (arr : list (option nat)) : outcome code (list Parcel) :=
  if decide (2 ^ 32 - 1 < N.of_nat (length margs))%N then Err Unknown
  else
    let msgLength := le_enc 4 (N.of_nat (length margs)) in
    match AuthEncode c margs arr with
    | Ok chunks =>
        match mapM (λ i, pl ← InsertECCPayload chunks i;
                     Some (mkParcel method (Z.of_nat i) (mkNote me server uuid None None) msgLength pl None))
                   (seq 0 n) with
        | Some ps => Ok ps
        | None => Panic
        end
    | Err _ => Err Unknown
    | Panic => Panic
    end.
End packing.

Section robust.
(** Hash, signature scheme, serialisation of the two signed objects. *)
Context (H : bytes → digest) {SK : Type} (sign : SK → digest → bytes) (pub : SK → bytes)
        (sigok : bytes → digest → bytes → bool).
Context (encNote : Note → bytes) (encParcel : Parcel → bytes).
(** Values of the handlers and their serialisation. *)
Context {V : Type} (enc : V → bytes).
Context (c : rs_code).

(** merkleSign (verifiables.go:38-68) on the strings of the objects: one certificate for each. *)
Definition sign_strs (sk : SK) (strs : list bytes) : option (list cert) :=
  let tree := Build H strs in
  let root := Root tree in
  mapM (λ i, p ← Prove tree [N.of_nat i]; Some (mkCert root p (N.of_nat i) (sign sk root)))
       (seq 0 (length strs)).

(** client.go:252-264: parcels and notes are signed together. *)
Definition sign_requests (sk : SK) (ps : list Parcel) : option (list Parcel) :=
  cs ← sign_strs sk ((encParcel <$> ps) ++ ((λ p, encNote (p_note p)) <$> ps));
  Some (imap (λ i p, set_sig (set_note p (set_scert (p_note p) (cs !! (length ps + i)))) (cs !! i)) ps).

(** client.go:242-264 RobustCall on the packed arguments: the parcels it sends, by relay (None: it fails
    or panics before). *)
Definition RobustCall_parcels (n : nat) (sk : SK) (server : bytes) (method uuid : string) (margs : bytes)
    (arr : list (option nat)) : option (list Parcel) :=
  match requestIntoRobust c n (pub sk) server method uuid margs arr with
  | Ok ps => sign_requests sk ps
  | _ => None
  end.

(** MerkleCertVerifier.Verify for calls made one after the other: [cache] are the roots whose signature
    was accepted before and not yet cleaned up (Model/Verifier.v has the concurrent version). *)
Definition VerifySeq (cache : gset digest) (pk : bytes) (msg : bytes) (ct : option cert) :
    option code * gset digest :=
  match ct with
  | None => (Some Unknown, cache)
  | Some ct =>
      if Verify H (ct_root ct) {[ct_index ct := msg]} (ct_path ct) then
        if decide (ct_root ct ∈ cache) then (None, cache)
        else if sigok pk (ct_root ct) (ct_sig ct) then (None, {[ct_root ct]} ∪ cache)
        else (Some Unknown, cache)
      else (Some Unknown, cache)
  end.

(** rrpc_server_stream.go:93-106 validateParcel (None: accepted).  [between] is what other goroutines do to
    the cache between the two Verify calls. *)
Definition validateParcelWith (between : gset digest → gset digest) (cache : gset digest) (index : nat)
    (p : Parcel) : option code * gset digest :=
  if decide (p_index p ≠ Z.of_nat index) then (Some InvalidArgument, cache)
  else
    let note := p_note p in
    let bare := set_scert note None in
    match VerifySeq cache (n_sender note) (encParcel (set_sig (set_note p bare) None)) (p_sig p) with
    | (Some e, cache) => (Some e, cache)
    | (None, cache) => VerifySeq (between cache) (n_receiver note) (encNote bare) (n_scert note)
    end.
Definition validateParcel : gset digest → nat → Parcel → option code * gset digest := validateParcelWith id.
(** rrpc_server_stream.go:74-81: the answer to a relay whose parcel is not accepted. *)
Definition invalid_parcel_response : CallStreamResponse := mkCSR (Some InvalidArgument) None [] None.

(** rrpc_server_stream.go:108-114 rrpcTask.  [hnd] stands for service and method. *)
Context {hnd : Type}.
Record task := mkTask { t_parcels : list Parcel; t_note : Note; t_start : Z; t_hnd : hnd }.
Inductive cevent := CParcel (now : Z) (p : Parcel) | CTick (now : Z).
(** What the collector does: an error response to one relay, or a task run. *)
Inductive cout := OReject (relay : Z) (r : CallStreamResponse) | ORun (t : task).

(** rrpc_server_stream.go:118-202 collector and getOrCreateTask, one iteration; [find] is
    getServiceAndMethodDesc, [q] MinimalRelayedParcels, [ttl] 5 s. *)
Definition collect1 (find : string → option hnd) (q : Z) (ttl : Z) (tasks : gmap string task) (e : cevent) :
    gmap string task * list cout :=
  match e with
  | CTick now => (filter (λ kv, ¬ (ttl < now - t_start kv.2)%Z) tasks, [])
  | CParcel now p =>
      match find (p_method p) with
      | None => (tasks, [OReject (p_index p) (mkCSR (Some InvalidArgument) None [] None)])
      | Some h =>
          let u := n_uuid (p_note p) in
          let v := default (mkTask [] (p_note p) now h) (tasks !! u) in
          let v := mkTask (t_parcels v ++ [p]) (t_note v) (t_start v) (t_hnd v) in
          if decide (Z.of_nat (length (t_parcels v)) < q)%Z then (<[u := v]> tasks, [])
          else (delete (n_uuid (t_note v)) (<[u := v]> tasks), [ORun v])
      end
  end.
Fixpoint collect (find : string → option hnd) (q : Z) (ttl : Z) (tasks : gmap string task) (es : list cevent) :
    gmap string task * list cout :=
  match es with
  | [] => (tasks, [])
  | e :: es => let '(tasks, o) := collect1 find q ttl tasks e in
               let '(tasks, o') := collect find q ttl tasks es in (tasks, o ++ o')
  end.

(** What runTask computes before signing. *)
Inductive run_out := RunOk (rs : list RrpcResponse) | RunFail (e : code).

(** rrpc_server_stream.go:247-279 prepareCallResponse: [old] is what the pooled buffer still contains; the
    second component what it contains when it is put back. *)
Definition prepareCallResponse (old : bytes) (v : V) (arr : list (option nat)) : outcome code (list RrpcResponse) * bytes :=
  let data := old ++ enc v in
  (match AuthEncode c data arr with
   | Ok chunks =>
       match mapM (λ i, pl ← InsertECCPayload chunks i;
                    Some (mkResp (le_enc 4 (N.of_nat (length data))) (Z.of_nat i) pl)) (seq 0 (rs_k c + rs_m c)) with
       | Some rs => Ok rs
       | None => Panic
       end
   | Err _ => Err Internal
   | Panic => Panic
   end, data).

(** rrpc_server_stream.go:204-222 runTask; [run] is the handler: uuid and payload to a value, an error or
    a panic. *)
Definition runTask (run : hnd → string → bytes → outcome code V) (t : task) (old : bytes)
    (arr arr' : list (option nat)) : outcome code run_out * bytes :=
  match reconstruct_from c (parcel_item <$> t_parcels t) arr with
  | Panic => (Panic, old)
  | Err _ => (Ok (RunFail InvalidArgument), old)
  | Ok payload =>
      match run (t_hnd t) (n_uuid (t_note t)) payload with
      | Panic => (Panic, old)
      | Err e => (Ok (RunFail e), old)
      | Ok v =>
          match prepareCallResponse old v arr' with
          | (Ok rs, buf) => (Ok (RunOk rs), buf)
          | (Err e, buf) => (Ok (RunFail e), buf)
          | (Panic, buf) => (Panic, buf)
          end
      end
  end.

(** rrpc_server_stream.go:150-169 and 281-304: the signed responses, by relay.  The successful ones share
    one note object, so all of them end up with the certificate written last; the failed ones have copies. *)
Definition respond (sk : SK) (t : task) (o : run_out) : option (list CallStreamResponse) :=
  match o with
  | RunOk rs =>
      match sign_strs sk (replicate (length rs) (encNote (t_note t))) with
      | Some cs =>
          match last cs with
          | Some ct => Some (map (λ r, mkCSR None (Some r) (pub sk) (Some (set_rcert (t_note t) (Some ct)))) rs)
          | None => Some []
          end
      | None => None
      end
  | RunFail e =>
      let note := set_rcert (t_note t) None in
      match sign_strs sk (replicate (rs_k c + rs_m c) (encNote note)) with
      | Some cs => Some (map (λ ct, mkCSR (Some e) None (pub sk) (Some (set_rcert note (Some ct)))) cs)
      | None => None
      end
  end.

(** relay.go:65-91, one response from a server: [waiting] is uuidToPeer (uuid to the client's channel).
    None: panic (c.Note.Calluuid with a nil Note). *)
Definition relay_incoming {chan : Type} (waiting : gmap string chan) (r : CallStreamResponse) :
    option (gmap string chan * option (chan * RelayStreamResponse)) :=
  note ← cr_note r;
  let u := n_uuid note in
  Some (delete u waiting, (λ ch, (ch, mkRSR None (Some r) u)) <$> waiting !! u).

(** coordinator.go:218-232 validateRrpcResponse: the verdict (None: accepted) or a panic. *)
Definition validateRrpcResponse (cache : gset digest) (serverId : bytes) (r : RelayStreamResponse) :
    outcome code (option code * gset digest) :=
  match rr_error r, rr_resp r with
  | Some e, _ => Ok (Some e, cache)
  | None, None => Ok (Some Internal, cache)
  | None, Some resp =>
      match cr_error resp with
      | Some e => Ok (Some e, cache)
      | None =>
          match cr_note resp with
          | None => Panic
          | Some note => Ok (VerifySeq cache serverId (encNote (set_rcert note None)) (n_rcert note))
          end
      end
  end.

(** client.go:323-349 reconstruct; a nil Response panics. *)
Definition client_reconstruct (rs : list CallStreamResponse) (arr : list (option nat)) : outcome ecc_error bytes :=
  match mapM cr_resp rs with
  | None => Panic
  | Some rs => reconstruct_from c (response_item <$> rs) arr
  end.
End robust.
Arguments task : clear implicits.
Arguments cout : clear implicits.
