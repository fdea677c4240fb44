(** Model of exchange notes and their two certificates (rrpc/verifiables.go:174-224, the ExchangeNote message).

    A note is signed by its sender (client.go:118, 258) and by its receiver (server.go:149), each through its own
    view of the note: senderNote and receiverNote take their own certificate out before they are hashed, and leave the
    other one in.  The encoding (internal/codec, the binc format of ugorji/go/codec, a map from field names to values)
    is a parameter; it does not write the name of the type, so both views of a note are encoded alike. *)
From stdpp Require Import gmap vector.
From Verif.Base Require Import Base.
From Verif.Model Require Import Merkle.

(** ExchangeNote: SenderID, ReceiverID, Calluuid; SenderMerkleProof, ReceiverMerkleProof. *)
Record note := mkNote {
  n_sender : bytes; n_receiver : bytes; n_uuid : bytes;
  n_sproof : option cert; n_rproof : option cert }.
Definition with_sproof (n : note) (c : option cert) : note := mkNote (n_sender n) (n_receiver n) (n_uuid n) c (n_rproof n).
Definition with_rproof (n : note) (c : option cert) : note := mkNote (n_sender n) (n_receiver n) (n_uuid n) (n_sproof n) c.

Section notes.
Context (H : bytes → digest) {SK PK : Type} (enc : note → bytes).
Context (sign : SK → digest → bytes) (sigok : PK → digest → bytes → bool).

(** 174-198 senderNote and 200-224 receiverNote as things to be signed: the certificate they pop and push, and the
    rest. *)
Definition senderNote (n : note) : signable (B := note) := mkSignable n (n_sproof n).
Definition receiverNote (n : note) : signable (B := note) := mkSignable n (n_rproof n).
(** ToBeHashed (187-189, 213-215): the note with the certificate the view holds at that time. *)
Definition enc_sender (n : note) (c : option cert) : bytes := enc (with_sproof n c).
Definition enc_receiver (n : note) (c : option cert) : bytes := enc (with_rproof n c).

(** client.go:118: merkleSign of one senderNote; server.go:149: of one receiverNote. *)
Definition sign_sender (n : note) (sk : SK) : option note :=
  match merkleSign H enc_sender sign [senderNote n] sk with
  | Some [x] => Some (with_sproof n (sg_cert x))
  | _ => None
  end.
Definition sign_receiver (n : note) (sk : SK) : option note :=
  match merkleSign H enc_receiver sign [receiverNote n] sk with
  | Some [x] => Some (with_rproof n (sg_cert x))
  | _ => None
  end.
(** The checks of Verify on the senderNote and on the receiverNote view of n, a note nobody else is looking at
    (Model/Verifier.v has the rest of Verify). *)
Definition verify_sender (pk : PK) (n : note) : bool :=
  path_ok H enc_sender (senderNote n) && signature_ok sigok pk (senderNote n).
Definition verify_receiver (pk : PK) (n : note) : bool :=
  path_ok H enc_receiver (receiverNote n) && signature_ok sigok pk (receiverNote n).
End notes.
