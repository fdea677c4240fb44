(** Model of internal/crypto/tibe: secret sharing (poly.go, exponent_poly.go), identity based encryption
    with threshold reconstruction (vss_ibe.go), the publisher (scheme2.go), util.go.

    The algebra is abstract: scalars are a field, G1, G2 and GT are modules over it (written
    additively), pairing and hashes are parameters.  [pairing_laws] collects what is assumed of them. *)
From Coq Require Import ZArith String.
From mathcomp Require Import all_ssreflect all_algebra.
From Verif.Base Require Base.
From Verif.Model Require Cfb.
Set Implicit Arguments.
Unset Strict Implicit.
Unset Printing Implicit Defensive.
Import GRing.Theory.
Local Open Scope ring_scope.
Delimit Scope Z_scope with BZ.

Notation bytes := Verif.Base.Base.bytes.

Lemma Z_eqbP : Equality.axiom Z.eqb.
Proof. by move=> x y; apply: (iffP idP) => /Z.eqb_eq. Qed.
Definition Z_eqMixin := EqMixin Z_eqbP.
Canonical Z_eqType := Eval hnf in EqType Z Z_eqMixin.

(** The value of the conversion uint64(i) of a Go int. *)
Definition uint64 (i : Z) : Z := (i mod 2 ^ 64)%BZ.

(** * Scalars: poly.go *)
Section Scalars.
Variable F : fieldType.

(** Scalar.SetUint64(uint64(i)). *)
Definition scal (i : Z) : F := (Z.to_nat (uint64 i))%:R.

(** poly.go:14-16: Poly is its coefficient list; 77-84 Degree and Threshold. *)
Definition Degree (coefs : seq F) : nat := size coefs.
Definition Threshold (coefs : seq F) : nat := (size coefs).+1.

(** poly.go:92-97 Secret: panics without coefficients. *)
Definition Secret (coefs : seq F) : option F := ohead coefs.

(** poly.go:100-113 Eval: v = 0; for j from the last coefficient to the first: v = v*xi + coef[j]. *)
Definition Eval (coefs : seq F) (i : Z) : F := foldr (fun c v => v * scal i + c) 0 coefs.

(** poly.go:19-22, 117-127: PolyShare and CreateShares, indices 1..n. *)
Record poly_share := PolyShare { ps_index : Z; ps_value : F }.
Definition CreateShares (coefs : seq F) (n : nat) : seq poly_share :=
  [seq PolyShare (Z.of_nat j) (Eval coefs (Z.of_nat j)) | j <- iota 1 n].

(** poly.go:294-304: the loop of computeLagrangeIndexMultiplier. *)
Fixpoint lagrange_loop (indices : seq Z) (index : Z) (nom denom : F) : F * F :=
  match indices with
  | [::] => (nom, denom)
  | xj :: rest =>
      if xj == index then lagrange_loop rest index nom denom
      else lagrange_loop rest index (nom * scal xj) (denom * (scal xj - scal index))
  end.
(** poly.go:283-311 *)
Definition computeLagrangeIndexMultiplier (indices : seq Z) (index : Z) : F :=
  let: (nom, denom) := lagrange_loop indices index 1 1 in nom * denom^-1.

(** poly.go:223-246 newLagrangeIndexMultiplier with degree = t - 1 (so degree+1 = t); None: the error. *)
Definition newLagrangeIndexMultiplier (t : nat) (index : Z) (indices : seq Z) : option F :=
  let xs := undup indices in
  if (size xs < t)%N then None
  else Some (computeLagrangeIndexMultiplier (take t (sort Z.leb xs)) index).

(** poly.go:248-281 reconstructSecret: [xy] lists the map's entries in the order of the outer range,
    [inner xi] the keys in the order of the inner range. *)
Fixpoint rs_inner (keys : seq Z) (xi : Z) (nom denom : F) : F * F :=
  match keys with
  | [::] => (nom, denom)
  | xj :: rest =>
      if xj == xi then rs_inner rest xi nom denom
      else rs_inner rest xi (nom * scal xj) (denom * (scal xj - scal xi))
  end.
Definition reconstructSecret (xy : seq (Z * F)) (inner : Z -> seq Z) : F :=
  foldl (fun acc p => let: (nom, denom) := rs_inner (inner p.1) p.1 p.2 1 in acc + nom * denom^-1) 0 xy.
End Scalars.

(** * The pairing setting *)

(** The group and hash operations used by the code: bls12381.G1/G2/Gt, G1Generator, Pair, g2Hash
    (util.go:40-45), hashGt (util.go:28-37), G1.Bytes, hmac-sha256 (util.go:13-17), AES. *)
Record setting := Setting {
  sF : fieldType;
  sG1 : lmodType sF; sG2 : lmodType sF; sGT : lmodType sF;
  gen1 : sG1;
  pair : sG1 -> sG2 -> sGT;
  g2Hash : bytes -> sG2;
  hashGt : sGT -> bytes;
  g1Bytes : sG1 -> bytes;
  hmac : bytes -> bytes -> bytes;          (* data, key *)
  aes : bytes -> bytes -> bytes            (* key, block *)
}.

(** What is assumed of them: SetUint64 does not wrap (the group order exceeds 2^64); the pairing is
    bilinear and non-degenerate; a block cipher maps blocks to blocks. *)
Record pairing_laws (S : setting) : Prop := PairingLaws {
  law_char : forall n : nat, (Z.of_nat n < 2 ^ 64)%BZ -> n%:R = 0 :> sF S -> n = 0%N;
  law_gen : gen1 S <> 0;
  law_addl : forall a b y, pair (a + b) y = pair a y + pair b y :> sGT S;
  law_scalel : forall (c : sF S) a y, pair (c *: a) y = c *: pair a y :> sGT S;
  law_addr : forall x a b, pair x (a + b) = pair x a + pair x b :> sGT S;
  law_scaler : forall (c : sF S) x a, pair x (c *: a) = c *: pair x a :> sGT S;
  law_nondeg : forall y, pair (gen1 S) y = 0 :> sGT S -> y = 0;
  law_aes : forall k b, List.length (aes S k b) = Cfb.blockSize
}.

Section Scheme.
Variable S : setting.
Notation F := (sF S).
Notation G1 := (sG1 S).
Notation G2 := (sG2 S).
Notation GT := (sGT S).
Local Notation g := (gen1 S).
Local Notation e := (@pair S).
Local Notation H := (@g2Hash S).

(** ** exponent_poly.go *)

(** poly.go:130-142 GetExponentPoly *)
Definition GetExponentPoly (coefs : seq F) : seq G1 := [seq c *: g | c <- coefs].

(** exponent_poly.go:46-52: v is the current power of vCopy. *)
Fixpoint share_loop (cs : seq G1) (v vCopy : F) (res : G1) : G1 :=
  match cs with
  | [::] => res
  | c :: cs => share_loop cs (v * vCopy) vCopy (res + v *: c)
  end.
(** exponent_poly.go:35-55, the function computed once per index, and line 27-29 for i = 0.  The
    cache around it is modelled in Model/Memo.v.  Coefs[0] panics without coefficients: None. *)
Definition computePublicShare (cs : seq G1) (i : Z) : option G1 :=
  match cs with
  | [::] => None
  | c0 :: rest =>
      if uint64 i == 0%BZ then Some c0
      else Some (c0 + share_loop rest (scal F i) (scal F i) 0)
  end.
(** exponent_poly.go:78-83 VerifyShare *)
Definition VerifyShare (cs : seq G1) (i : Z) (share : F) : option bool :=
  omap (fun p => share *: g == p) (computePublicShare cs i).
(** exponent_poly.go:20-22 *)
Definition ExpThreshold (cs : seq G1) : nat := (size cs).+1.

(** ** Ciphers, vss_ibe.go *)
Record cipher := Cipher { c_Gr : G1; c_Mac : bytes; c_Encrypted : bytes }.

(** vss_ibe.go:108-136 Encrypt with master public key p; [r] and [iv] are the random choices. *)
Definition Encrypt (p : G1) (id msg : bytes) (r : F) (iv : bytes) : cipher :=
  let h := H id in
  let k := hashGt (e (r *: p) h) in
  let c := Cfb.aesEncrypt (@aes S) k msg iv in
  let Gr := r *: g in
  Cipher Gr (hmac S (app (g1Bytes Gr) c) k) c.

(** vss_ibe.go:152-163 Decrypt: the result (None: error) and the cipher afterwards, its Encrypted
    bytes having been overwritten by aesDecrypt. *)
Definition Decrypt (sk : G2) (c : cipher) : option bytes * cipher :=
  let k := hashGt (e (c_Gr c) sk) in
  if Cfb.bytes_eqb (c_Mac c) (hmac S (app (g1Bytes (c_Gr c)) (c_Encrypted c)) k) then
    let: (d, enc') := Cfb.aesDecrypt (@aes S) k (c_Encrypted c) in
    (d, Cipher (c_Gr c) (c_Mac c) enc')
  else (None, c).

(** ** Votes *)

(** scheme2.go:21-25 *)
Record vote := Vote_ { v_index : Z; v_id : bytes; v_sig : G2 }.

(** util.go:46-51 isValidSignature *)
Definition isValidSignature (msg : bytes) (sig : G2) (pubkey : G1) : bool :=
  e pubkey (H msg) == e g sig.

(** scheme2.go:229-257 reconstructSecretIbeKey (None: error).  threshold is not negative: it is a
    number of coefficients plus one, or a converted uint32 (config.go:169). *)
Definition combine_votes (t : nat) (indices : seq Z) (sum : option G2) (v : vote) : option G2 :=
  if sum is Some s then
    if newLagrangeIndexMultiplier F t (v_index v) indices is Some l then Some (s + l *: v_sig v) else None
  else None.
Definition reconstructSecretIbeKey (votes : seq vote) (t : nat) : option G2 :=
  if (size votes < t)%N then None
  else let votes := take t votes in
       foldl (combine_votes t (map v_index votes)) (Some 0) votes.

(** ** Node, vss_ibe.go *)

(** vss_ibe.go:186-190 VssShare; 311-315 shareableIbeScheme; 170-174 Node (Shares: host name to share). *)
Record vss_share := VssShare { vs_expoly : seq G1; vs_share : poly_share F; vs_mpk : G1 }.
Record node := Node { n_poly : seq F; n_pk : G1; n_secret : F; n_shares : string -> option vss_share }.

(** vss_ibe.go:199-224, 338-349 NewNode: Secret panics on an empty polynomial. *)
Definition NewNode (coefs : seq F) : option node :=
  omap (fun s => Node coefs (s *: g) s (fun _ => None)) (Secret coefs).
(** vss_ibe.go:246-248 ReceiveShare *)
Definition ReceiveShare (n : node) (name : string) (shr : vss_share) : node :=
  Node (n_poly n) (n_pk n) (n_secret n)
       (fun m => if String.eqb m name then Some shr else n_shares n m).
(** vss_ibe.go:317-336 VssShares (GetMasterPublicKey, 358-365, copies PK through its encoding). *)
Definition VssShares (n : node) (k : nat) : seq vss_share :=
  [seq VssShare (GetExponentPoly (n_poly n)) shr (n_pk n) | shr <- CreateShares (n_poly n) k].
(** vss_ibe.go:351-356 Decrypter *)
Definition MasterDecrypter (n : node) (id : bytes) : G2 := n_secret n *: H id.
(** vss_ibe.go:176-183 EncryptFor *)
Definition EncryptFor (n : node) (other : string) (id msg : bytes) (r : F) (iv : bytes) : option cipher :=
  omap (fun shr => Encrypt (vs_mpk shr) id msg r iv) (n_shares n other).
(** vss_ibe.go:227-243 Vote *)
Definition NodeVote (n : node) (other : string) (id : bytes) : option vote :=
  omap (fun shr => Vote_ (ps_index (vs_share shr)) id (ps_value (vs_share shr) *: H id)) (n_shares n other).

(** The worker's check (vss_ibe.go:210-218); None: GetPublicShare panics. *)
Definition checkVote (expoly : seq G1) (v : vote) : option bool :=
  omap (isValidSignature (v_id v) (v_sig v)) (computePublicShare expoly (v_index v)).
(** vss_ibe.go:250-266 ValidateVote: nil is Some true, an error Some false, None a panic of a worker. *)
Definition ValidateVote (n : node) (other : string) (v : vote) : option bool :=
  if n_shares n other is Some shr then checkVote (vs_expoly shr) v else Some false.

Inductive reconstructed := RKey (sk : G2) | RError | RPanic.
(** vss_ibe.go:269-307 ReconstructDecrypter.  The checks run on worker goroutines; every vote's answer is
    awaited or an earlier error returned, so the verdict does not depend on the schedule. *)
Definition ReconstructDecrypter (n : node) (name : string) (votes : seq vote) : reconstructed :=
  if votes is [::] then RError
  else if n_shares n name is Some shr then
    if has (fun v => checkVote (vs_expoly shr) v == None) votes then RPanic
    else if all (fun v => checkVote (vs_expoly shr) v == Some true) votes then
      if reconstructSecretIbeKey votes (ExpThreshold (vs_expoly shr)) is Some sk then RKey sk else RError
    else RError
  else RError.

(** ** Publisher, scheme2.go *)

(** scheme2.go:44-47 PublicKey; 29-38 Player. *)
Definition public_key := (Z * G1)%type.
Record player := Player {
  p_t : nat; p_index : Z; p_secret : F; p_pk : G1; p_pks : seq public_key; p_shared : G1 }.

(** poly.go:47-54 ComputePublicKey *)
Definition ComputePublicKey (s : poly_share F) : public_key := (ps_index s, ps_value s *: g).

(** scheme2.go:82-92: xys after inserting the first [threshold] keys (a later entry with the same index
    replaces the earlier), and indices, whose unfilled places keep the value 0. *)
Definition xys_insert (xys : seq public_key) (k : public_key) : seq public_key :=
  k :: [seq p <- xys | p.1 != k.1].
Definition publisher_xys (t : nat) (pks : seq public_key) : seq public_key :=
  foldl xys_insert [::] (take t pks).
Definition publisher_indices (t : nat) (pks : seq public_key) : seq Z :=
  map fst (take t pks) ++ nseq (t - size pks) 0%BZ.

(** scheme2.go:158-174 computeSharedPubkey; [xys] in the order of the range over the map. *)
Definition add_key (t : nat) (indices : seq Z) (sum : option G1) (p : public_key) : option G1 :=
  if sum is Some s then
    if newLagrangeIndexMultiplier F t p.1 indices is Some l then Some (s + l *: p.2) else None
  else None.
Definition computeSharedPubkey (t : nat) (xys : seq public_key) (indices : seq Z) : option G1 :=
  foldl (add_key t indices) (Some 0) xys.

(** Indexing a slice with a Go int. *)
Definition go_nth (T : Type) (s : seq T) (i : Z) : option T :=
  if Z.ltb i 0 then None else List.nth_error s (Z.to_nat i).

Inductive published := POk (p : player) | PErr | PPanic.
(** scheme2.go:81-107 NewPublisher; [order] is the order in which the range visits xys. *)
Definition NewPublisher (order : seq public_key -> seq public_key) (t : nat) (priv : poly_share F)
    (pks : seq public_key) : published :=
  if computeSharedPubkey t (order (publisher_xys t pks)) (publisher_indices t pks) is Some shared then
    if go_nth pks (ps_index priv - 1)%BZ is Some own then
      POk (Player t (ps_index priv) (ps_value priv) own.2 pks shared)
    else PPanic
  else PErr.

(** scheme2.go:111-117, 259-264 Vote and sign; 120-122 Verify (None: index panic). *)
Definition PlayerVote (p : player) (id : bytes) : vote := Vote_ (p_index p) id (p_secret p *: H id).
Definition PlayerVerify (p : player) (v : vote) : option bool :=
  omap (fun k : public_key => isValidSignature (v_id v) (v_sig v) k.2) (go_nth (p_pks p) (v_index v - 1)%BZ).

(** scheme2.go:125-146, 176-200, 215-218: Secret and Hide. *)
Record secret := MkSecret { s_id : bytes; s_hiding : G1; s_encrypted : bytes }.
Definition Hide (p : player) (id msg : bytes) (r : F) (iv : bytes) : secret :=
  let k := hashGt (e (r *: p_shared p) (H id)) in
  MkSecret id (r *: g) (Cfb.aesEncrypt (@aes S) k msg iv).
(** scheme2.go:149-156, 220-227 Reveal (None: error) and the bytes of secret.Encrypted afterwards. *)
Definition Reveal (p : player) (votes : seq vote) (s : secret) : option bytes * bytes :=
  if reconstructSecretIbeKey votes (p_t p) is Some sk then
    Cfb.aesDecrypt (@aes S) (hashGt (e (s_hiding s) sk)) (s_encrypted s)
  else (None, s_encrypted s).
End Scheme.
