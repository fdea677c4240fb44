(** Model of internal/crypto/util.go (Digest: String, DigestFromString, TrimUint64, IsZero) and the key
    codecs of internal/crypto/ed25519.go.

    encoding/base32 (standard alphabet, no padding) is modelled on its bits: a quintuple of bits per
    letter.  [decode] models the decoder on strings of letters of the alphabet; for other characters it
    answers None here, and nothing is claimed about them (Go's decoder also skips line breaks). *)
From stdpp Require Import list.
From Coq Require Import Strings.Byte.
From Verif.Base Require Import Base.

(** Five bits, most significant first. *)
Notation quint := (bool * bool * bool * bool * bool)%type (only parsing).
Definition q_bits (q : quint) : list bool := [q.1.1.1.1; q.1.1.1.2; q.1.1.2; q.1.2; q.2].
Definition q_num (q : quint) : nat :=
  16 * Nat.b2n q.1.1.1.1 + 8 * Nat.b2n q.1.1.1.2 + 4 * Nat.b2n q.1.1.2 + 2 * Nat.b2n q.1.2 + Nat.b2n q.2.
(** The RFC 4648 alphabet A-Z 2-7. *)
Definition alphabet : list byte := String.list_byte_of_string "ABCDEFGHIJKLMNOPQRSTUVWXYZ234567".
Definition letter (q : quint) : byte := nth (q_num q) alphabet Byte.x00.
Definition all_quints : list quint :=
  a ← [false; true]; b ← [false; true]; c ← [false; true]; d ← [false; true]; e ← [false; true]; [(a, b, c, d, e)].
(** The decoding table. *)
Definition unletter (c : byte) : option quint := list_find (λ q, letter q = c) all_quints ≫= λ p, Some p.2.

(** The bits of a byte, most significant first, and back. *)
Definition byte_bits (b : byte) : list bool :=
  let '(b0, (b1, (b2, (b3, (b4, (b5, (b6, b7))))))) := Byte.to_bits b in [b7; b6; b5; b4; b3; b2; b1; b0].
Definition bits_byte (b7 b6 b5 b4 b3 b2 b1 b0 : bool) : byte :=
  Byte.of_bits (b0, (b1, (b2, (b3, (b4, (b5, (b6, b7))))))).

(** Encoding.Encode without padding: groups of five bits, the last filled up with zeros. *)
Fixpoint quints (bits : list bool) : list quint :=
  match bits with
  | a :: b :: c :: d :: e :: rest => (a, b, c, d, e) :: quints rest
  | [a; b; c; d] => [(a, b, c, d, false)]
  | [a; b; c] => [(a, b, c, false, false)]
  | [a; b] => [(a, b, false, false, false)]
  | [a] => [(a, false, false, false, false)]
  | [] => []
  end.
Definition encode (bs : list byte) : list byte := letter <$> quints (mjoin (byte_bits <$> bs)).

(** Whole bytes of a string of bits. *)
Fixpoint whole_bytes (bits : list bool) : list byte :=
  match bits with
  | b7 :: b6 :: b5 :: b4 :: b3 :: b2 :: b1 :: b0 :: rest => bits_byte b7 b6 b5 b4 b3 b2 b1 b0 :: whole_bytes rest
  | _ => []
  end.
(** Encoding.decode: how many bytes a group of [dlen] letters yields (switch dlen; no case for 1, 3, 6). *)
Definition group_bytes (dlen : nat) : nat := match dlen with 8 => 5 | 7 => 4 | 5 => 3 | 4 => 2 | 2 => 1 | _ => 0 end.
Fixpoint unquints (qs : list quint) : list byte :=
  match qs with
  | a :: b :: c :: d :: e :: f :: g :: h :: rest =>
      take (group_bytes 8) (whole_bytes (mjoin (q_bits <$> [a; b; c; d; e; f; g; h]))) ++ unquints rest
  | _ => take (group_bytes (length qs)) (whole_bytes (mjoin (q_bits <$> qs)))
  end.
Definition decode (s : list byte) : option (list byte) := qs ← mapM unletter s; Some (unquints qs).

(** util.go:51-55 Digest: an array of 32 bytes. *)
Definition DigestSize : nat := 32.
(** util.go:58-60 *)
Definition digest_string (d : list byte) : list byte := encode d.
(** util.go:73-84; None: an error *)
Definition DigestFromString (s : list byte) : option (list byte) :=
  decoded ← decode s; if bool_decide (length decoded = DigestSize) then Some decoded else None.
(** util.go:63-65: binary.LittleEndian.Uint64(d[:8]) *)
Fixpoint little_endian (bs : list byte) : N :=
  match bs with [] => 0 | b :: bs => b2N b + 256 * little_endian bs end.
Definition TrimUint64 (d : list byte) : N := little_endian (take 8 d).
(** util.go:68-70 *)
Definition IsZero (d : list byte) : bool := bool_decide (d = replicate DigestSize Byte.x00).
(** ed25519.go:70-77, ed25519.PublicKeySize = 32; None: an error *)
Definition DecodePKey (bs : list byte) : option (list byte) := if bool_decide (length bs = 32) then Some bs else None.
(** ed25519.go:79-88, ed25519.PrivateKeySize = 64 *)
Definition DecodeSKey (bs : list byte) : option (list byte) := if bool_decide (length bs = 64) then Some bs else None.
(** ed25519.go:62-68 *)
Definition key_marshal (k : list byte) : list byte := k.
(** ed25519.go:56-58 *)
Definition key_equal (k k' : list byte) : bool := bool_decide (k = k').
