(** C35: key material codecs. *)
From Verif.Base Require Import Base.
From Verif.Model Require Import TibeCodec.

Lemma mjoin_length {A} (k : nat) (ls : list (list A)) :
  (∀ l, l ∈ ls → length l = k) → length (mjoin ls) = length ls * k.
Proof.
  induction ls as [|l ls IH]; intros H; [done|]. simpl. rewrite app_length, IH, (H l); [done|left|].
  intros l' Hl. apply H. by right.
Qed.
Lemma mjoin_chunk {A} (k i : nat) (ls : list (list A)) (l : list A) :
  (∀ l, l ∈ ls → length l = k) → ls !! i = Some l → take k (drop (i * k) (mjoin ls)) = l.
Proof.
  revert i. induction ls as [|l' ls IH]; intros i H Hi; [done|].
  assert (length l' = k) as Hl' by (apply H; left).
  destruct i as [|i]; simpl in Hi |- *.
  - injection Hi as ->. rewrite drop_0. by rewrite take_app_alt.
  - rewrite drop_app_ge by lia. rewrite Hl'. replace (k + i * k - k) with (i * k) by lia.
    apply IH; [|done]. intros l2 Hl2. apply H. by right.
Qed.
Lemma seq_map_ext {A B} (ls : list A) (f : nat → B) (g : A → B) :
  (∀ i x, ls !! i = Some x → f i = g x) → f <$> seq 0 (length ls) = g <$> ls.
Proof.
  intros H. apply list_eq. intros i. rewrite !list_lookup_fmap. destruct (ls !! i) as [x|] eqn:E; simpl.
  - assert (i < length ls) by by eapply lookup_lt_Some. rewrite lookup_seq_lt by done. simpl. f_equal. by apply H.
  - apply lookup_ge_None in E. by rewrite lookup_seq_ge.
Qed.

Section C35.
Context {Sc G : Type} (c : element_codecs Sc G) (laws : element_laws c).

Lemma head4 n l : take 4 (be_enc 4 n ++ l) = be_enc 4 n.
Proof using Type. apply take_app_alt. by rewrite be_enc_length. Qed.
Lemma tail4 n l : drop 4 (be_enc 4 n ++ l) = l.
Proof using Type. apply drop_app_alt. by rewrite be_enc_length. Qed.
Lemma dec4 n : (n < 2 ^ 32)%N → be_dec (be_enc 4 n) = n.
Proof using Type. intros H. by apply be_dec_enc_small. Qed.

(** Polynomials: whatever the receiver held before. *)
Theorem C35_poly (coefs : list Sc) (old : list (cell Sc)) :
  (N.of_nat (length coefs) < 2 ^ 32)%N →
  PolySetBytes c old (PolyMarshal c coefs) = (true, CVal <$> coefs).
Proof using laws.
  intros Hn. unfold PolySetBytes, PolyMarshal.
  assert (∀ l, l ∈ encSc c <$> coefs → length l = ScalarSize) as Hl.
  { intros l (x & -> & _)%elem_of_list_fmap. apply (encSc_len c laws). }
  rewrite head4, dec4, Nat2N.id by done.
  rewrite app_length, be_enc_length, (mjoin_length ScalarSize), fmap_length by done.
  rewrite decide_False by lia. rewrite decide_False by lia. f_equal.
  apply seq_map_ext. intros i x Hi. f_equal. unfold chunk. rewrite <-drop_drop, tail4.
  rewrite (mjoin_chunk _ _ _ (encSc c x)); [apply (setSc_enc c laws)|done|].
  by rewrite list_lookup_fmap, Hi.
Qed.

Lemma exp_loop_ok bts i ls : (∀ j g, ls !! j = Some g → setG c (chunk G1Size (i + j) bts) = Some g) →
  exp_loop c bts i (length ls) = (true, CVal <$> ls).
Proof using Type.
  revert i. induction ls as [|g ls IH]; intros i H; [done|]. cbn [length exp_loop].
  pose proof (H 0 g eq_refl) as H0. rewrite Nat.add_0_r in H0. rewrite H0.
  rewrite IH; [done|]. intros j g' Hj. replace (S i + j) with (i + S j) by lia. by apply H.
Qed.
Theorem C35_exponent_poly (coefs : list G) (old : list (cell G)) :
  (N.of_nat (length coefs) < 2 ^ 32)%N →
  ExpSetBytes c old (ExpMarshal c coefs) = (true, CVal <$> coefs).
Proof using laws.
  intros Hn. unfold ExpSetBytes, ExpMarshal.
  assert (∀ l, l ∈ encG c <$> coefs → length l = G1Size) as Hl.
  { intros l (x & -> & _)%elem_of_list_fmap. apply (encG_len c laws). }
  rewrite head4, dec4, Nat2N.id by done.
  rewrite app_length, be_enc_length, (mjoin_length G1Size), fmap_length by done.
  rewrite decide_False by lia. rewrite decide_False by lia.
  apply exp_loop_ok. intros i x Hi. simpl plus. unfold chunk. rewrite <-drop_drop, tail4.
  rewrite (mjoin_chunk _ _ _ (encG c x)); [apply (setG_enc c laws)|done|].
  by rewrite list_lookup_fmap, Hi.
Qed.

(** Shares and public keys: the index comes back modulo 2^32. *)
Theorem C35_share (i : Z) (v : Sc) :
  ShareSetBytes c (ShareMarshal c (i, v)) = Some ((i mod 2 ^ 32)%Z, v).
Proof using laws.
  unfold ShareSetBytes, ShareMarshal. cbn [fst snd].
  rewrite app_length, be_enc_length, (encSc_len c laws), decide_False by lia.
  rewrite tail4, head4, (unmSc_enc c laws). unfold uint32. simpl. do 2 f_equal.
  pose proof (Z.mod_pos_bound i (2 ^ 32)). rewrite dec4; [rewrite Z2N.id; lia|].
  change (2 ^ 32)%N with (Z.to_N (2 ^ 32)). apply Z2N.inj_lt; lia.
Qed.
Theorem C35_public_key (i : Z) (g : G) :
  PubkeySetBytes c (PubkeyMarshal c (i, g)) = Some ((i mod 2 ^ 32)%Z, g).
Proof using laws.
  unfold PubkeySetBytes, PubkeyMarshal. cbn [fst snd].
  rewrite app_length, be_enc_length, (encG_len c laws), decide_False by lia.
  rewrite tail4, head4, (setG_enc c laws). unfold uint32. simpl. do 2 f_equal.
  pose proof (Z.mod_pos_bound i (2 ^ 32)). rewrite dec4; [rewrite Z2N.id; lia|].
  change (2 ^ 32)%N with (Z.to_N (2 ^ 32)). apply Z2N.inj_lt; lia.
Qed.
Corollary C35_index_range (i : Z) (v : Sc) (g : G) : (0 ≤ i < 2 ^ 32)%Z →
  ShareSetBytes c (ShareMarshal c (i, v)) = Some (i, v) ∧
  PubkeySetBytes c (PubkeyMarshal c (i, g)) = Some (i, g).
Proof using laws. intros H. rewrite C35_share, C35_public_key. by rewrite Z.mod_small. Qed.

Theorem C35_master_key (g : G) : MpkSetBytes c (MpkBytes c g) = Some g.
Proof using laws. apply (setG_enc c laws). Qed.

Theorem C35_cipher (g : G) (mac enc : bytes) : length mac = 32 →
  CipherSetBytes c (CipherToBuffer c (g, mac, enc)) = Ok (g, mac, enc) ∧
  length (CipherToBuffer c (g, mac, enc)) = CipherSize (g, mac, enc).
Proof using laws.
  intros Hm. unfold CipherSetBytes, CipherToBuffer, CipherSize. cbn [fst snd].
  pose proof (encG_len c laws g) as Hg. change 32 with macSize in Hm.
  rewrite !app_length, Hg. split; [|lia].
  rewrite decide_False by lia. rewrite take_app_alt by done. rewrite (setG_enc c laws).
  rewrite decide_False by lia. rewrite <-drop_drop, !drop_app_alt, take_app_alt by done.
  done.
Qed.

(** Wrong lengths are rejected. *)
Theorem C35_poly_length (old : list (cell Sc)) bts :
  (PolySetBytes c old bts).1 = true ↔ 4 ≤ length bts ∧ length bts = 4 + N.to_nat (be_dec (take 4 bts)) * 32.
Proof using Type.
  unfold PolySetBytes. cbv zeta. change 32 with ScalarSize. case_decide; [simpl; split; [done|lia]|].
  case_decide; simpl; split; try done; lia.
Qed.
Theorem C35_exponent_length (old : list (cell G)) bts :
  (ExpSetBytes c old bts).1 = true → 4 ≤ length bts ∧ length bts = 4 + N.to_nat (be_dec (take 4 bts)) * 96.
Proof using Type.
  unfold ExpSetBytes. cbv zeta. change 96 with G1Size. case_decide; [done|]. case_decide; [done|]. lia.
Qed.
Theorem C35_short_rejected bts :
  (length bts < 36 → ShareSetBytes c bts = None) ∧ (length bts < 4 → PubkeySetBytes c bts = None).
Proof using Type.
  unfold ShareSetBytes, PubkeySetBytes. split; intros H; rewrite decide_True; try done.
Qed.
(** A cipher shorter than its fixed part is never accepted, but the rejection can be a panic. *)
Theorem C35_short_cipher bts : length bts < 128 → ∀ x, CipherSetBytes c bts ≠ Ok x.
Proof using Type.
  intros H x. unfold CipherSetBytes. case_decide; [done|]. destruct (setG c _); [|done].
  rewrite decide_True; [done|]. unfold G1Size, macSize in *. lia.
Qed.
Theorem C35_short_cipher_panics bts : length bts < 96 → CipherSetBytes c bts = Panic.
Proof using Type. intros H. unfold CipherSetBytes. by rewrite decide_True. Qed.

(** Finding: a rejected encoding still overwrites the receiving polynomial, with nil coefficients. *)
Theorem C35_poly_clobbered (old : list (cell Sc)) bts :
  (PolySetBytes c old bts).1 = false → 4 ≤ length bts →
  (PolySetBytes c old bts).2 = replicate (N.to_nat (be_dec (take 4 bts))) CNil.
Proof using Type.
  unfold PolySetBytes. cbv zeta. intros H Hl. rewrite decide_False in * by lia.
  case_decide; done.
Qed.
(** ... whereas the length checks of ExponentPoly come first. *)
Theorem C35_exponent_kept (old : list (cell G)) bts :
  length bts < 4 ∨ length bts ≠ 4 + N.to_nat (be_dec (take 4 bts)) * 96 → (ExpSetBytes c old bts).2 = old.
Proof using Type.
  unfold ExpSetBytes. cbv zeta. change 96 with G1Size. intros H. case_decide; [done|].
  destruct H; [done|]. by rewrite decide_True.
Qed.
(** What is accepted: exactly the byte strings of the right length all of whose elements decode, and the result
    are the decoded elements. *)
Lemma exp_loop_inv bts n : ∀ i cells, exp_loop c bts i n = (true, cells) ↔
  ∃ gs, cells = CVal <$> gs ∧ length gs = n ∧ ∀ j g, gs !! j = Some g → setG c (chunk G1Size (i + j) bts) = Some g.
Proof using Type.
  intros i cells. split; [|intros (gs & -> & <- & H); by apply exp_loop_ok].
  revert i cells. induction n as [|n IH]; intros i cells; cbn [exp_loop].
  - intros [= <-]. by exists [].
  - destruct (setG c (chunk G1Size i bts)) as [g|] eqn:Eg; [|done].
    destruct (exp_loop c bts (S i) n) as [ok r] eqn:El. intros [= -> <-].
    destruct (IH _ _ El) as (gs & -> & <- & H). exists (g :: gs). split; [done|]. split; [done|].
    intros [|j] g' Hj; simpl in Hj.
    + injection Hj as <-. by rewrite Nat.add_0_r.
    + replace (i + S j) with (S i + j) by lia. by apply H.
Qed.
Theorem C35_exponent_accepts (old : list (cell G)) bts cells :
  ExpSetBytes c old bts = (true, cells) ↔
  4 ≤ length bts ∧ length bts = 4 + N.to_nat (be_dec (take 4 bts)) * 96 ∧
  ∃ gs, cells = CVal <$> gs ∧ length gs = N.to_nat (be_dec (take 4 bts)) ∧
    ∀ j g, gs !! j = Some g → setG c (take 96 (drop (4 + j * 96) bts)) = Some g.
Proof using Type.
  unfold ExpSetBytes. cbv zeta. change 96 with G1Size. case_decide; [split; [done|lia]|].
  case_decide; [split; [done|lia]|]. rewrite exp_loop_inv. unfold chunk. simpl (0 + _).
  split; [intros H1; split; [lia|split; [lia|exact H1]]|intros (_ & _ & H1); exact H1].
Qed.
Theorem C35_poly_accepts (old : list (cell Sc)) bts cells :
  PolySetBytes c old bts = (true, cells) ↔
  4 ≤ length bts ∧ length bts = 4 + N.to_nat (be_dec (take 4 bts)) * 32 ∧
  cells = (λ j, CVal (setSc c (take 32 (drop (4 + j * 32) bts)))) <$> seq 0 (N.to_nat (be_dec (take 4 bts))).
Proof using Type.
  unfold PolySetBytes. cbv zeta. change 32 with ScalarSize. case_decide; [split; [done|lia]|].
  case_decide; [split; [done|lia]|]. unfold chunk.
  split; [intros [= <-]; split; [lia|split; [lia|done]]|intros (_ & _ & ->); done].
Qed.
Theorem C35_share_accepts bts (i : Z) (v : Sc) :
  ShareSetBytes c bts = Some (i, v) ↔ 36 ≤ length bts ∧ unmSc c (drop 4 bts) = Some v ∧ i = Z.of_N (be_dec (take 4 bts)).
Proof using Type.
  unfold ShareSetBytes. unfold ScalarSize. case_decide; [split; [done|lia]|].
  destruct (unmSc c (drop 4 bts)) as [w|]; simpl; split; intros Hx; try done.
  - injection Hx as <- <-. split; [lia|done].
  - destruct Hx as (_ & [= ->] & ->). done.
  - by destruct Hx as (_ & ? & _).
Qed.
Theorem C35_public_key_accepts bts (i : Z) (g : G) :
  PubkeySetBytes c bts = Some (i, g) ↔ 4 ≤ length bts ∧ setG c (drop 4 bts) = Some g ∧ i = Z.of_N (be_dec (take 4 bts)).
Proof using Type.
  unfold PubkeySetBytes. case_decide; [split; [done|lia]|].
  destruct (setG c (drop 4 bts)) as [w|]; simpl; split; intros Hx; try done.
  - injection Hx as <- <-. split; [lia|done].
  - destruct Hx as (_ & [= ->] & ->). done.
  - by destruct Hx as (_ & ? & _).
Qed.
Theorem C35_cipher_accepts bts (g : G) (mac enc : bytes) :
  CipherSetBytes c bts = Ok (g, mac, enc) ↔
  128 ≤ length bts ∧ setG c (take 96 bts) = Some g ∧ drop 96 bts = mac ++ enc ∧ length mac = 32.
Proof using Type.
  unfold CipherSetBytes. unfold G1Size, macSize. case_decide; [split; [done|lia]|].
  destruct (setG c (take 96 bts)) as [w|]; [|split; [done|by intros (_ & ? & _)]].
  case_decide; [split; [done|lia]|]. split.
  - intros [= <- <- <-]. split; [lia|]. split; [done|]. rewrite take_length, drop_length.
    split; [|lia]. rewrite <-(take_drop 32 (drop 96 bts)) at 1. by rewrite drop_drop.
  - intros (_ & [= <-] & Hd & Hm). do 2 f_equal; [f_equal|].
    + rewrite Hd. by apply take_app_alt.
    + transitivity (drop 32 (drop 96 bts)); [by rewrite drop_drop|]. rewrite Hd. by apply drop_app_alt.
Qed.
End C35.

(** An instance: elements of one byte, repeated. *)
Definition toy_codecs : element_codecs byte byte :=
  ElementCodecs byte byte (replicate 32) (hd Byte.x00) head (replicate 96) head.
Lemma toy_codecs_laws : element_laws toy_codecs.
Proof. by split; intros; simpl. Qed.
Example C35_example :
  PolySetBytes toy_codecs [CNil] (PolyMarshal toy_codecs [Byte.x01; Byte.x02]) = (true, [CVal Byte.x01; CVal Byte.x02]) ∧
  (PolySetBytes toy_codecs [CVal Byte.x09] (take 40 (PolyMarshal toy_codecs [Byte.x01; Byte.x02]))) = (false, [CNil; CNil]) ∧
  ShareSetBytes toy_codecs (ShareMarshal toy_codecs (-1, Byte.x03)%Z) = Some (4294967295, Byte.x03)%Z ∧
  CipherSetBytes toy_codecs (take 100 (CipherToBuffer toy_codecs (Byte.x05, replicate 32 Byte.x06, []))) = Panic.
Proof. by vm_compute. Qed.
Print Assumptions C35_poly.
Print Assumptions C35_exponent_poly.
Print Assumptions C35_share.
Print Assumptions C35_public_key.
Print Assumptions C35_index_range.
Print Assumptions C35_master_key.
Print Assumptions C35_cipher.
Print Assumptions C35_poly_length.
Print Assumptions C35_exponent_length.
Print Assumptions C35_short_rejected.
Print Assumptions C35_short_cipher.
Print Assumptions C35_short_cipher_panics.
Print Assumptions C35_poly_clobbered.
Print Assumptions C35_exponent_kept.
Print Assumptions C35_exponent_accepts.
Print Assumptions C35_poly_accepts.
Print Assumptions C35_share_accepts.
Print Assumptions C35_public_key_accepts.
Print Assumptions C35_cipher_accepts.
