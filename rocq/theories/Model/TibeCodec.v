(** Model of the byte encodings in internal/crypto/tibe: Poly, PolyShare (poly.go), ExponentPoly
    (exponent_poly.go), PublicKey (scheme2.go), MasterPublicKey, Cipher (vss_ibe.go).

    The encodings of single scalars and group elements come from the circl library and are parameters. *)
From Verif.Base Require Import Base.

(** bls12381.ScalarSize, bls12381.G1Size, macSize (util.go:11). *)
Definition ScalarSize : nat := 32.
Definition G1Size : nat := 96.
Definition macSize : nat := 32.

(** The library's codecs.  [setSc] = Scalar.SetBytes (reduces, never fails); [unmSc] =
    Scalar.UnmarshalBinary; [setG] = G1.SetBytes; None is an error. *)
Record element_codecs (Sc G : Type) := ElementCodecs {
  encSc : Sc → bytes; setSc : bytes → Sc; unmSc : bytes → option Sc;
  encG : G → bytes; setG : bytes → option G }.
Arguments encSc {_ _} _. Arguments setSc {_ _} _. Arguments unmSc {_ _} _.
Arguments encG {_ _} _. Arguments setG {_ _} _.
(** What is assumed of them: fixed sizes and decoding what was encoded. *)
Record element_laws {Sc G} (c : element_codecs Sc G) : Prop := ElementLaws {
  encSc_len : ∀ x, length (encSc c x) = ScalarSize;
  setSc_enc : ∀ x, setSc c (encSc c x) = x;
  unmSc_enc : ∀ x, unmSc c (encSc c x) = Some x;
  encG_len : ∀ g, length (encG c g) = G1Size;
  setG_enc : ∀ g, setG c (encG c g) = Some g }.

(** An element of a slice of pointers: nil, a value, or an allocated element whose content is not
    specified (decoding it failed half-way). *)
Inductive cell (A : Type) := CNil | CVal (a : A) | CJunk.
Arguments CNil {A}. Arguments CVal {A} _. Arguments CJunk {A}.

(** bts[4+i*size : 4+(i+1)*size] *)
Definition chunk (size i : nat) (bts : bytes) : bytes := take size (drop (4 + i * size) bts).

Section codecs.
Context {Sc G : Type} (c : element_codecs Sc G).

(** poly.go:155-172 Poly.Marshal (MarshalBinary of a scalar does not fail). *)
Definition PolyMarshal (coefs : list Sc) : bytes :=
  be_enc 4 (N.of_nat (length coefs)) ++ mjoin (encSc c <$> coefs).
(** poly.go:174-197 Poly.SetBytes on a receiver holding [old]: error or not, and the receiver's
    coefficients afterwards. *)
Definition PolySetBytes (old : list (cell Sc)) (bts : bytes) : bool * list (cell Sc) :=
  if decide (length bts < 4) then (false, old)
  else
    let n := N.to_nat (be_dec (take 4 bts)) in
    if decide (length bts ≠ 4 + n * ScalarSize) then (false, replicate n CNil)
    else (true, (λ i, CVal (setSc c (chunk ScalarSize i bts))) <$> seq 0 n).

(** exponent_poly.go:85-94 ExponentPoly.Marshal *)
Definition ExpMarshal (coefs : list G) : bytes :=
  be_enc 4 (N.of_nat (length coefs)) ++ mjoin (encG c <$> coefs).
(** exponent_poly.go:113-119: decode from position i on, [todo] elements left. *)
Fixpoint exp_loop (bts : bytes) (i todo : nat) : bool * list (cell G) :=
  match todo with
  | O => (true, [])
  | S todo =>
      match setG c (chunk G1Size i bts) with
      | None => (false, CJunk :: replicate todo CNil)
      | Some g => let '(ok, r) := exp_loop bts (S i) todo in (ok, CVal g :: r)
      end
  end.
(** exponent_poly.go:98-122 ExponentPoly.SetBytes *)
Definition ExpSetBytes (old : list (cell G)) (bts : bytes) : bool * list (cell G) :=
  if decide (length bts < 4) then (false, old)
  else
    let n := N.to_nat (be_dec (take 4 bts)) in
    if decide (length bts ≠ 4 + n * G1Size) then (false, old)
    else exp_loop bts 0 n.

(** uint32(p.Index) *)
Definition uint32 (i : Z) : N := Z.to_N (i mod 2 ^ 32).

(** poly.go:24-34 and 36-45 PolyShare.Marshal, SetBytes (None: error). *)
Definition ShareMarshal (s : Z * Sc) : bytes := be_enc 4 (uint32 s.1) ++ encSc c s.2.
Definition ShareSetBytes (bts : bytes) : option (Z * Sc) :=
  if decide (length bts < 4 + ScalarSize) then None
  else v ← unmSc c (drop 4 bts); Some (Z.of_N (be_dec (take 4 bts)), v).

(** scheme2.go:49-57 and 59-76 PublicKey.Marshal, SetBytes. *)
Definition PubkeyMarshal (k : Z * G) : bytes := be_enc 4 (uint32 k.1) ++ encG c k.2.
Definition PubkeySetBytes (bts : bytes) : option (Z * G) :=
  if decide (length bts < 4) then None
  else g ← setG c (drop 4 bts); Some (Z.of_N (be_dec (take 4 bts)), g).

(** vss_ibe.go:138-149 MasterPublicKey.Bytes, SetBytes. *)
Definition MpkBytes (g : G) : bytes := encG c g.
Definition MpkSetBytes (bts : bytes) : option G := setG c bts.

(** vss_ibe.go:68-72 Cipher.ToBuffer; 74-76 Size; 78-91 SetBytes, for a slice whose capacity is its
    length: slicing beyond it panics. *)
Definition CipherToBuffer (x : G * bytes * bytes) : bytes := encG c x.1.1 ++ x.1.2 ++ x.2.
Definition CipherSize (x : G * bytes * bytes) : nat := G1Size + length x.1.2 + length x.2.
Definition CipherSetBytes (bts : bytes) : outcome unit (G * bytes * bytes) :=
  if decide (length bts < G1Size) then Panic
  else match setG c (take G1Size bts) with
       | None => Err tt
       | Some g =>
           if decide (length bts < G1Size + macSize) then Panic
           else Ok (g, take macSize (drop G1Size bts), drop (G1Size + macSize) bts)
       end.
End codecs.
