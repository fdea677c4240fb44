(** Model of what a server and a relay do with a request as it comes off the wire, where every message
    field may be missing and every identity has any length: rrpc/rrpc_server_stream.go:64-89 (CallStream), 93-106 (
    validateParcel), rrpc/relay.go:43-63 (SendProof, Attest), 102-164 (RelayStream), rrpc/merkle_verifier.go:86-140 with
    internal/crypto/ed25519.go:40-58 and crypto/ed25519 (Verify panics if the public key does not have 32
    bytes), rrpc/client.go:148-175 (VerifyAndDispatch).

    Model/Robust.v, Model/DirectServer.v and Model/Relay.v have the case in which nothing is missing.
    Not modelled here: gRPC (messages arrive as given), the goroutines (a panic in any of them ends the
    process), a full channel to the collector or to the relay. *)
From stdpp Require Import gmap.
From Verif.Base Require Import Base.
From Verif.Model Require Import Merkle Ecc Robust Network Coordinator DirectServer.

(** rrpc.proto Parcel; the note may be missing. *)
Record WParcel := mkW { w_method : string; w_index : Z; w_note : option Note; w_len : bytes;
                        w_payload : list shard; w_sig : option cert }.
(** A parcel with its note. *)
Definition with_note (w : WParcel) (n : Note) : Parcel :=
  mkParcel (w_method w) (w_index w) n (w_len w) (w_payload w) (w_sig w).
Definition on_wire (p : Parcel) : WParcel :=
  mkW (p_method p) (p_index p) (Some (p_note p)) (p_len p) (p_payload p) (p_sig p).
(** crypto/ed25519 PublicKeySize *)
Definition PublicKeySize : nat := 32.

Section wire.
Context (H : bytes → digest) (sigok : bytes → digest → bytes → bool).
Context (encNote : Note → bytes) (encParcel : Parcel → bytes).

(** merkle_verifier.go:86-140 Verify, calls one after the other, with ed25519.go:43-45 and 48-58: the
    signature is checked, in a worker, if the path is right and the root is not in the cache; ed25519.Verify
    panics on a key of another length. *)
Definition VerifyWire (cache : gset digest) (pk : bytes) (msg : bytes) (ct : option cert) :
    outcome code (option code * gset digest) :=
  match ct with
  | None => Ok (Some Unknown, cache)
  | Some ct =>
      if Verify H (ct_root ct) {[ct_index ct := msg]} (ct_path ct) then
        if decide (ct_root ct ∈ cache) then Ok (None, cache)
        else if decide (length pk = PublicKeySize) then
          if sigok pk (ct_root ct) (ct_sig ct) then Ok (None, {[ct_root ct]} ∪ cache) else Ok (Some Unknown, cache)
        else Panic
      else Ok (Some Unknown, cache)
  end.

(** rrpc_server_stream.go:93-106 validateParcel: a nil parcel panics at 94, a nil note at 98. *)
Definition validateWire (cache : gset digest) (index : nat) (p : option WParcel) :
    outcome code (option code * gset digest) :=
  match p with
  | None => Panic
  | Some w =>
      if decide (w_index w ≠ Z.of_nat index) then Ok (Some InvalidArgument, cache)
      else match w_note w with
           | None => Panic
           | Some note =>
               let bare := set_scert note None in
               match VerifyWire cache (n_sender note) (encParcel (set_sig (with_note w bare) None)) (w_sig w) with
               | Ok (None, cache) => VerifyWire cache (n_receiver note) (encNote bare) (n_scert note)
               | r => r
               end
           end
  end.

(** rrpc_server_stream.go:64-89, the requests of one relay's stream, one after the other: the parcels given to
    the collector and the responses to the relay, in order (None: a panic; the process ends). *)
Inductive cs_out := CSCollect (w : WParcel) | CSReject (r : CallStreamResponse).
Fixpoint callStream (cache : gset digest) (index : nat) (reqs : list (option WParcel)) : option (list cs_out * gset digest) :=
  match reqs with
  | [] => Some ([], cache)
  | p :: reqs =>
      match validateWire cache index p, p with
      | Ok (Some _, cache), _ => '(o, cache) ← callStream cache index reqs; Some (CSReject invalid_parcel_response :: o, cache)
      | Ok (None, cache), Some w => '(o, cache) ← callStream cache index reqs; Some (CSCollect w :: o, cache)
      | _, _ => None
      end
  end.

(** relay.go:132-163, one request: rq is relayRequest.Request, in it the Parcel.  The request goes to the
    connection of a host, or an error to the client; None: a panic (140: a nil Request, Parcel or Note; a nil
    connection).  isValidRequest is true (166-168), so 132-137 is not reached. *)
Inductive relay_out := RForward (host : string) (w : WParcel) | RRefuse (e : code) (uuid : string).
Definition relay1 (nt : Network) (n : coord) (rq : option (option WParcel)) : option relay_out :=
  w ← rq; w ← w; note ← w_note w;
  match AsyncSend nt n (n_receiver note) with
  | Ok h => Some (RForward h w)
  | Err e => Some (RRefuse e (n_uuid note))
  | Panic => None
  end.

(** relay.go:43-63 and 102-164, the RPCs of a relay, on the messages that arrive: what RelayStream passes on.
    The caller is whom the metadata says; SendProof drops what it gets, without a check; Attest panics. *)
Inductive relay_call := CAttest | CSendProof (proofs : nat) | CRelayStream (caller : option (list string)) (reqs : list (option (option WParcel))).
Definition relay_rpc (nt : Network) (n : coord) (c : relay_call) : outcome code (list relay_out) :=
  match c with
  | CAttest => Panic
  | CSendProof _ => Ok []
  | CRelayStream caller reqs =>
      match getPeerFromContext caller with
      | Panic => Panic
      | Err _ => Err Unauthenticated
      | Ok ip => match GetPublicKey nt ip with
                 | Ok _ => match mapM (relay1 nt n) reqs with Some o => Ok o | None => Panic end
                 | _ => Err Unauthenticated
                 end
      end
  end.

(** server.go:126-139, the check of a direct request of a caller with key [client] (None: accepted). *)
Definition checkDirect (cache : gset digest) (client : bytes) (note : option Note) : outcome code (option code * gset digest) :=
  match note with
  | None => Ok (Some InvalidArgument, cache)
  | Some note =>
      if decide (client ≠ n_sender note) then Ok (Some InvalidArgument, cache)
      else match VerifyWire cache (n_sender note) (encNote (set_scert note None)) (n_scert note) with
           | Ok (Some _, cache) => Ok (Some InvalidArgument, cache)
           | r => r
           end
  end.

(** client.go:148-164 VerifyAndDispatch on a response whose note may be missing (149 panics): is there a
    call waiting, and the verdict for it. *)
Definition dispatchWire (cache : gset digest) (server : bytes) (waiting : gset string) (note : option Note) :
    outcome code (option (option code)) :=
  match note with
  | None => Panic
  | Some note =>
      if decide (n_uuid note ∈ waiting) then
        match VerifyWire cache server (encNote (set_rcert note None)) (n_rcert note) with
        | Ok (v, _) => Ok (Some v)
        | Err e => Err e
        | Panic => Panic
        end
      else Ok None
  end.
End wire.
