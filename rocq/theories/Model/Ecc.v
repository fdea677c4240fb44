(** Model of internal/ecc/reedsolomon.go: RSEncoder.AuthEncode, AuthReconstruct.

    The erasure code itself (github.com/klauspost/reedsolomon) is a parameter; its Split and Join, which
    only cut and paste, are modelled as its documentation describes them. *)
From Verif.Base Require Import Base.

(** A missing shard is a nil (empty) slice. *)
Notation shard := (list byte) (only parsing).
Definition present (s : shard) : bool := match s with [] => false | _ => true end.
Definition num_present (l : list shard) : nat := length (filter (λ s, present s) l).

(** reedsolomon.Encoder: [parity] gives the parity shards (Encode), [recon] is Reconstruct (None: an
    error). *)
Record rs_code := RsCode {
  rs_k : nat; rs_m : nat;
  parity : list shard → list shard;
  recon : list shard → option (list shard) }.

(** What is assumed of the library: parity shards have the size of the data shards; any rs_k shards of a
    code word give back the whole word; fewer than rs_k shards are an error. *)
Record rs_laws (c : rs_code) : Prop := RsLaws {
  rs_k_pos : 0 < rs_k c;
  parity_length : ∀ ds s, length ds = rs_k c → Forall (λ d, length d = s) ds →
    length (parity c ds) = rs_m c ∧ Forall (λ d, length d = s) (parity c ds);
  recon_ok : ∀ ds s got, length ds = rs_k c → Forall (λ d, length d = s) ds → 0 < s →
    Forall2 (λ f g, g = f ∨ g = []) (ds ++ parity c ds) got → rs_k c ≤ num_present got →
    recon c got = Some (ds ++ parity c ds);
  recon_few : ∀ got, num_present got < rs_k c → recon c got = None }.

(** reedsolomon.go:11 *)
Definition NumChunks : nat := 36.
(** reedsolomon.go:37 *)
Definition zeros : bytes := replicate NumChunks Byte.x00.

Inductive ecc_error := EStopped | EShortData | EReconstruct.

Section ecc.
Variable c : rs_code.

(** Encoder.Split: rs_k shards of equal size, zero padded (None: ErrShortData). *)
Definition per_shard (len : nat) : nat := (len + rs_k c - 1) / rs_k c.
Fixpoint cut (size n : nat) (data : bytes) : list shard :=
  match n with O => [] | S n => take size data :: cut size n (drop size data) end.
Definition Split (data : bytes) : option (list shard) :=
  if decide (length data = 0) then None
  else let p := per_shard (length data) in
       Some (cut p (rs_k c) (data ++ replicate (p * rs_k c - length data) Byte.x00)).
(** Encoder.Join (None: ErrShortData). *)
Definition Join (shards : list shard) (outSize : nat) : option bytes :=
  let joined := mjoin (take (rs_k c) shards) in
  if decide (length joined < outSize) then None else Some (take outSize joined).

(** reedsolomon.go:83-95 authEncode *)
Definition authEncode (chunk : bytes) : option (list shard) :=
  ds ← Split chunk; Some (ds ++ parity c ds).
(** reedsolomon.go:153-167 authReconstruct *)
Definition authReconstruct (shards : list shard) (dataSize : nat) : option bytes :=
  w ← recon c shards; Join w dataSize.

(** reedsolomon.go:45-57: the i-th of the NumChunks pieces; the last takes the rest. *)
Definition chunk_of (data : bytes) (i : nat) : bytes :=
  let chunkSize := length data / NumChunks in
  if decide (NumChunks ≤ S i) then drop (i * chunkSize) data
  else take chunkSize (drop (i * chunkSize) data).

(** What the receiving loop sees: the response of task i, or (None) that the encoder was stopped.
    Workers answer in any order. *)
Notation arrival := (option nat) (only parsing).

(** reedsolomon.go:69-79: [todo] iterations left. *)
Fixpoint encode_loop (data : bytes) (arr : list arrival) (todo : nat) (acc : list (option (list shard))) :
    outcome ecc_error (list (option (list shard))) :=
  match todo, arr with
  | O, _ => Ok acc
  | S todo, Some i :: arr =>
      match authEncode (chunk_of data i) with
      | None => Err EShortData
      | Some sh => encode_loop data arr todo (<[i := Some sh]> acc)
      end
  | S _, _ => Err EStopped
  end.
(** reedsolomon.go:39-81 AuthEncode.  A nil entry of the result is None. *)
Definition AuthEncode (data : bytes) (arr : list arrival) : outcome ecc_error (list (option (list shard))) :=
  encode_loop (data ++ zeros) arr NumChunks (replicate NumChunks None).

(** reedsolomon.go:108-125: segment i of a buffer of n bytes. *)
Definition segment (n i : nat) : nat * nat :=
  let segmentSize := n / NumChunks in
  (i * segmentSize, if decide (NumChunks ≤ S i) then n else i * segmentSize + segmentSize).
(** copy(data[s:e], chunk) *)
Definition copy_into (data : bytes) (s e : nat) (chunk : bytes) : bytes :=
  let chunk := take (e - s) chunk in
  take s data ++ chunk ++ drop (s + length chunk) data.

(** reedsolomon.go:136-147 *)
Fixpoint decode_loop (shards : list (list shard)) (arr : list arrival) (todo : nat) (data : bytes) :
    outcome ecc_error bytes :=
  match todo, arr with
  | O, _ => Ok data
  | S todo, Some i :: arr =>
      let '(s, e) := segment (length data) i in
      match shards !! i with
      | None => Panic
      | Some sh =>
          match authReconstruct sh (e - s) with
          | None => Err EReconstruct
          | Some chunk => decode_loop shards arr todo (copy_into data s e chunk)
          end
      end
  | S _, _ => Err EStopped
  end.
(** reedsolomon.go:102-150 AuthReconstruct.  make panics on a negative size, shards[i] when there are
    fewer than NumChunks entries (line 130, before any answer is awaited), and data[:len-36] when the
    requested size was negative. *)
Definition AuthReconstruct (shards : list (list shard)) (dataSize : Z) (arr : list arrival) :
    outcome ecc_error bytes :=
  if decide (dataSize + Z.of_nat NumChunks < 0)%Z then Panic
  else if decide (length shards < NumChunks) then Panic
  else
    let n := Z.to_nat (dataSize + Z.of_nat NumChunks) in
    let! data := decode_loop shards arr NumChunks (replicate n Byte.x00) in
    if decide (n < NumChunks) then Panic else Ok (take (n - NumChunks) data).

(** reedsolomon.go:28-34 NewShards *)
Definition NewShards : list (list shard) := replicate NumChunks (replicate (rs_k c + rs_m c) []).
End ecc.
