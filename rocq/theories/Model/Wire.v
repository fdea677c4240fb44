(** Model of what the transport does to the signed messages (rrpc/rrpc.proto: MerkleCertificate, ExchangeNote,
    Parcel; sent by client.go:118-131, net_conns.go, relay.go, server.go:149-160, rrpc_server_stream.go).

    Signatures are over the bytes of internal/codec (binc), which writes a nil slice and an empty one differently;
    messages travel as protobuf (proto3), which does not, and which refuses strings that are not UTF-8.  A Go slice
    is an option here, None being nil.  The codec's encoding is a parameter.  Simplification: a note or parcel pointer
    is not nil (C76 has those). *)
From stdpp Require Import gmap vector.
From Coq Require Import Strings.Byte.
From Verif.Base Require Import Base.
From Verif.Model Require Import Merkle Ecc Robust Verifier.

(** Strings: RFC 3629. *)
Definition between (lo hi n : N) : bool := (lo <=? n)%N && (n <=? hi)%N.
Definition tail_byte (b : byte) : bool := between 0x80 0xBF (b2N b).
Definition utf8_two (a b : byte) : bool := between 0xC2 0xDF (b2N a) && tail_byte b.
Definition utf8_three (a b c : byte) : bool :=
  tail_byte c &&
  ((N.eqb (b2N a) 0xE0 && between 0xA0 0xBF (b2N b)) || (between 0xE1 0xEC (b2N a) && tail_byte b) ||
   (N.eqb (b2N a) 0xED && between 0x80 0x9F (b2N b)) || (between 0xEE 0xEF (b2N a) && tail_byte b)).
Definition utf8_four (a b c d : byte) : bool :=
  tail_byte c && tail_byte d &&
  ((N.eqb (b2N a) 0xF0 && between 0x90 0xBF (b2N b)) || (between 0xF1 0xF3 (b2N a) && tail_byte b) ||
   (N.eqb (b2N a) 0xF4 && between 0x80 0x8F (b2N b))).
Fixpoint utf8_bytes (s : bytes) : bool :=
  match s with
  | [] => true
  | a :: s1 =>
      if (b2N a <? 0x80)%N then utf8_bytes s1
      else match s1 with
      | [] => false
      | b :: s2 =>
          if utf8_two a b then utf8_bytes s2
          else match s2 with
          | [] => false
          | c :: s3 =>
              if utf8_three a b c then utf8_bytes s3
              else match s3 with [] => false | d :: s4 => utf8_four a b c d && utf8_bytes s4 end
          end
      end
  end.
Definition utf8 (s : string) : bool := utf8_bytes (String.list_byte_of_string s).

(** rrpc.proto:100-106 MerkleCertificate, 37-46 ExchangeNote, 79-98 Parcel as Go values. *)
Record gcert := mkGCert { gc_root : option bytes; gc_path : option (list (option bytes)); gc_index : N;
                          gc_sig : option bytes }.
Record gnote := mkGNote { gn_sender : option bytes; gn_receiver : option bytes; gn_uuid : string;
                          gn_scert : option gcert; gn_rcert : option gcert }.
Record gparcel := mkGParcel { gp_method : string; gp_index : Z; gp_note : gnote; gp_len : option bytes;
                              gp_payload : option (list (option bytes)); gp_sig : option gcert }.

(** proto.Marshal, then proto.Unmarshal.  A bytes field of length 0 is not written, and comes back nil; a repeated
    field without elements too; the elements of a repeated bytes field are all written, and come back as slices that
    are not nil.  A message that is present stays present. *)
Definition wire_bytes (b : option bytes) : option bytes := match b with Some (x :: l) => Some (x :: l) | _ => None end.
Definition wire_reps (l : option (list (option bytes))) : option (list (option bytes)) :=
  match l with Some (x :: l) => Some ((λ e, Some (default [] e)) <$> x :: l) | _ => None end.
Definition wire_cert (c : gcert) : gcert :=
  mkGCert (wire_bytes (gc_root c)) (wire_reps (gc_path c)) (gc_index c) (wire_bytes (gc_sig c)).
(** None: Marshal fails, nothing is sent. *)
Definition wire_note (n : gnote) : option gnote :=
  if utf8 (gn_uuid n) then
    Some (mkGNote (wire_bytes (gn_sender n)) (wire_bytes (gn_receiver n)) (gn_uuid n)
                  (wire_cert <$> gn_scert n) (wire_cert <$> gn_rcert n))
  else None.
Definition wire_parcel (p : gparcel) : option gparcel :=
  n ← wire_note (gp_note p);
  if utf8 (gp_method p) then
    Some (mkGParcel (gp_method p) (gp_index p) n (wire_bytes (gp_len p)) (wire_reps (gp_payload p)) (wire_cert <$> gp_sig p))
  else None.

(** verifiables.go:96-103 with 70-79: SetMerkleCert.  proofIntoBytes makes a slice that is never nil. *)
Definition pack (c : cert) : gcert :=
  mkGCert (Some (vec_to_list (ct_root c))) (Some ((λ d : digest, Some (vec_to_list d)) <$> ct_path c)) (ct_index c) (Some (ct_sig c)).
(** merkle_verifier.go:205-219 unpackMerkleCert *)
Definition unpack (c : gcert) : cert :=
  mkCert (to_digest (default [] (gc_root c))) ((λ e, to_digest (default [] e)) <$> default [] (gc_path c))
         (gc_index c) (default [] (gc_sig c)).

Definition g_scert (n : gnote) (c : option gcert) : gnote := mkGNote (gn_sender n) (gn_receiver n) (gn_uuid n) c (gn_rcert n).
Definition g_rcert (n : gnote) (c : option gcert) : gnote := mkGNote (gn_sender n) (gn_receiver n) (gn_uuid n) (gn_scert n) c.
Definition g_parcel (p : gparcel) (n : gnote) (c : option gcert) : gparcel :=
  mkGParcel (gp_method p) (gp_index p) n (gp_len p) (gp_payload p) c.

(** What client.go:279-321 builds, as Go values: no slice in it is nil. *)
Definition go_note (n : Note) : gnote :=
  mkGNote (Some (n_sender n)) (Some (n_receiver n)) (n_uuid n) (pack <$> n_scert n) (pack <$> n_rcert n).
Definition go_parcel (p : Parcel) : gparcel :=
  mkGParcel (p_method p) (p_index p) (go_note (p_note p)) (Some (p_len p)) (Some (Some <$> p_payload p)) (pack <$> p_sig p).

Section wire.
Context (H : bytes → digest) {SK PK : Type} (sign : SK → digest → bytes) (sigok : PK → digest → bytes → bool).
Context (encNote : gnote → bytes) (encParcel : gparcel → bytes).

(** The two checks of Verify (merkle_verifier.go:86-140, 161-185) on the bytes of the object without its
    certificate. *)
Definition certified (pk : PK) (msg : bytes) (c : option gcert) : bool :=
  match c with
  | None => false
  | Some c => let c := unpack c in
      Verify H (ct_root c) {[ct_index c := msg]} (ct_path c) && sigok pk (ct_root c) (ct_sig c)
  end.
(** server.go:137, client.go:161 (the senderNote and receiverNote views, verifiables.go:174-224) *)
Definition sender_ok (pk : PK) (n : gnote) : bool := certified pk (encNote (g_scert n None)) (gn_scert n).
Definition receiver_ok (pk : PK) (n : gnote) : bool := certified pk (encNote (g_rcert n None)) (gn_rcert n).
(** rrpc_server_stream.go:98-105, the note under the same key as the parcel (the code asks for the receiver's, and is
    answered from the cache: C65). *)
Definition parcel_ok (pk : PK) (p : gparcel) : bool :=
  certified pk (encParcel (g_parcel p (g_scert (gp_note p) None) None)) (gp_sig p) && sender_ok pk (gp_note p).

(** client.go:106-118: the note of a direct call, signed. *)
Definition direct_note (me server : bytes) (uuid : string) : gnote := mkGNote (Some me) (Some server) uuid None None.
Definition client_sign (n : gnote) (sk : SK) : option gnote :=
  cs ← sign_strs H sign sk [encNote n]; c ← cs !! 0; Some (g_scert n (Some (pack c))).
(** server.go:149 *)
Definition server_sign (n : gnote) (sk : SK) : option gnote :=
  cs ← sign_strs H sign sk [encNote n]; c ← cs !! 0; Some (g_rcert n (Some (pack c))).
(** client.go:252-264: parcels and notes signed together. *)
Definition sign_parcels (sk : SK) (ps : list gparcel) : option (list gparcel) :=
  cs ← sign_strs H sign sk ((encParcel <$> ps) ++ ((λ p, encNote (gp_note p)) <$> ps));
  Some (imap (λ i p, g_parcel p (g_scert (gp_note p) (pack <$> cs !! (length ps + i))) (pack <$> cs !! i)) ps).
(** rrpc_server_stream.go:150-169 with 258-276: [k] responses sharing the note they sign, so that it ends with the
    certificate written last. *)
Definition sign_responses (sk : SK) (n : gnote) (k : nat) : option gnote :=
  cs ← sign_strs H sign sk (replicate k (encNote n)); c ← last cs; Some (g_rcert n (Some (pack c))).
End wire.
(** client to relay to server, and back. *)
Definition two_hops {A} (wire : A → option A) (x : A) : option A := y ← wire x; wire y.
