(** C99: digests as text, and the key codecs. *)
From stdpp Require Import list.
From Coq Require Import Strings.Byte.
From Verif.Base Require Import Base.
From Verif.Model Require Import DigestText.

Lemma letter_unletter q : unletter (letter q) = Some q.
Proof. destruct q as [[[[[] []] []] []] []]; vm_compute; reflexivity. Qed.
Lemma unletter_letter c q : unletter c = Some q → letter q = c.
Proof.
  unfold unletter. destruct (list_find _ _) as [[i q']|] eqn:E; [|done]. simpl. intros [= <-].
  apply list_find_Some in E as (_ & E & _). done.
Qed.
Lemma letter_inj q q' : letter q = letter q' → q = q'.
Proof. intros E. apply (f_equal unletter) in E. rewrite !letter_unletter in E. by injection E. Qed.
Global Instance letter_inj' : Inj (=) (=) letter.
Proof. intros ? ?. apply letter_inj. Qed.
Lemma letter_in q : letter q ∈ alphabet.
Proof. destruct q as [[[[[] []] []] []] []]; apply (bool_decide_eq_true_1 _); vm_compute; reflexivity. Qed.
Lemma in_letter c : c ∈ alphabet → ∃ q, letter q = c.
Proof.
  intros H. assert (Forall (λ c, is_Some (unletter c)) alphabet) as F.
  { apply (bool_decide_eq_true_1 _). vm_compute. reflexivity. }
  rewrite Forall_forall in F. destruct (F c H) as [q Hq]. exists q. by apply unletter_letter.
Qed.

Lemma byte_bits_length b : length (byte_bits b) = 8.
Proof. unfold byte_bits. by destruct (Byte.to_bits b) as (?&?&?&?&?&?&?&?). Qed.
Lemma bits_byte_bits b7 b6 b5 b4 b3 b2 b1 b0 :
  byte_bits (bits_byte b7 b6 b5 b4 b3 b2 b1 b0) = [b7; b6; b5; b4; b3; b2; b1; b0].
Proof. unfold byte_bits, bits_byte. by rewrite Byte.to_bits_of_bits. Qed.
Lemma byte_bits_inj b b' : byte_bits b = byte_bits b' → b = b'.
Proof.
  unfold byte_bits. intros E. rewrite <- (Byte.of_bits_to_bits b), <- (Byte.of_bits_to_bits b').
  destruct (Byte.to_bits b) as (?&?&?&?&?&?&?&?), (Byte.to_bits b') as (?&?&?&?&?&?&?&?).
  by injection E as -> -> -> -> -> -> -> ->.
Qed.
Notation bits_of ds := (mjoin (byte_bits <$> ds)).
Notation qbits_of qs := (mjoin (q_bits <$> qs)).
Lemma bits_of_length ds : length (bits_of ds) = 8 * length ds.
Proof. induction ds as [|d ds IH]; [done|]. rewrite fmap_cons. simpl. rewrite app_length, byte_bits_length, IH. lia. Qed.
Lemma qbits_of_length qs : length (qbits_of qs) = 5 * length qs.
Proof. induction qs as [|q qs IH]; [done|]. rewrite fmap_cons. simpl. rewrite IH. lia. Qed.

(** The whole bytes of a string of bits are the bytes with these bits. *)
Lemma whole_bytes_iff ds bits : 8 * length ds ≤ length bits < 8 * length ds + 8 →
  whole_bytes bits = ds ↔ take (8 * length ds) bits = bits_of ds.
Proof.
  revert bits; induction ds as [|d ds IH]; intros bits L.
  - simpl in L. do 8 (destruct bits as [|? bits]; [done|]). simpl in L. lia.
  - simpl in L. do 8 (destruct bits as [|? bits]; [simpl in L; lia|]).
    specialize (IH bits ltac:(simpl in L; lia)).
    replace (8 * length (d :: ds)) with (S (S (S (S (S (S (S (S (8 * length ds))))))))) by (simpl; lia).
    rewrite fmap_cons. cbn [take whole_bytes mjoin list_join]. split.
    + intros [= <- E]. rewrite bits_byte_bits. cbn [app]. do 8 f_equal. by apply IH.
    + intros E. change (?a :: ?b :: ?c :: ?d :: ?e :: ?f :: ?g :: ?h :: ?t) with ([a; b; c; d; e; f; g; h] ++ t) in E.
      apply app_inj_1 in E as [E1 E2]; [|by rewrite byte_bits_length].
      f_equal; [apply byte_bits_inj; by rewrite bits_byte_bits|by apply IH].
Qed.

Lemma quints_bits bits : take (length bits) (qbits_of (quints bits)) = bits ∧
  length (quints bits) = (length bits + 4) / 5.
Proof.
  revert bits. fix IH 1. intros [|a [|b [|c [|d [|e rest]]]]]; try (split; reflexivity).
  destruct (IH rest) as [E1 E2]. split.
  - cbn [quints]. rewrite fmap_cons. cbn. do 5 f_equal. exact E1.
  - cbn [quints length]. rewrite E2. change (S (S (S (S (S (length rest))))) + 4) with (5 + length rest + 4).
    replace (5 + length rest + 4) with (length rest + 4 + 1 * 5) by lia. rewrite Nat.div_add by lia. lia.
Qed.
Lemma quints_last bits n : length bits = 5 * n + 1 →
  ∃ qs b, quints bits = qs ++ [(b, false, false, false, false)] ∧ length qs = n.
Proof.
  revert bits; induction n as [|n IH]; intros bits L.
  - destruct bits as [|a [|? ?]]; simpl in L; try lia. exists [], a. done.
  - destruct bits as [|a [|b [|c [|d [|e rest]]]]]; simpl in L; try lia.
    destruct (IH rest) as (qs & x & E & Lq); [lia|]. exists ((a, b, c, d, e) :: qs), x. cbn [quints]. rewrite E.
    split; [done|]. simpl; lia.
Qed.

(** Two lists of quintuples agree on the first 5n+1 bits iff they agree on the first n quintuples and the
    first bit of the next. *)
Lemma q_bits_inj q q' : q_bits q = q_bits q' → q = q'.
Proof. destruct q as [[[[a b] c] d] e], q' as [[[[a' b'] c'] d'] e']. by intros [= -> -> -> -> ->]. Qed.
Lemma take_qbits n qs q qs' q' : length qs = n → length qs' = n →
  take (5 * n + 1) (qbits_of (qs ++ [q])) = take (5 * n + 1) (qbits_of (qs' ++ [q'])) ↔
  qs = qs' ∧ q.1.1.1.1 = q'.1.1.1.1.
Proof.
  revert qs qs'; induction n as [|n IH]; intros qs qs' L L'.
  - apply nil_length_inv in L as ->. apply nil_length_inv in L' as ->. simpl. split; [by intros [= ->]|by intros [_ ->]].
  - destruct qs as [|x qs]; [done|]. destruct qs' as [|x' qs']; [done|]. simpl in L, L'.
    injection L as L. injection L' as L'. specialize (IH qs qs' L L').
    replace (5 * S n + 1) with (S (S (S (S (S (5 * n + 1)))))) by lia.
    rewrite <- !app_comm_cons, !fmap_cons. cbn [mjoin list_join].
    change (mjoin (q_bits <$> qs ++ [q])) with (qbits_of (qs ++ [q])).
    change (mjoin (q_bits <$> qs' ++ [q'])) with (qbits_of (qs' ++ [q'])).
    cbn [q_bits app take]. split.
    + intros E. injection E as E1 E2 E3 E4 E5 E. apply IH in E as [-> E]. split; [|done]. f_equal.
      apply q_bits_inj. unfold q_bits. by rewrite E1, E2, E3, E4, E5.
    + intros [[= -> ->] E]. do 5 f_equal. by apply IH.
Qed.

(** 52 quintuples decode to the 32 whole bytes of their bits. *)
Lemma unquints_52 qs : length qs = 52 → unquints qs = whole_bytes (qbits_of qs).
Proof. intros L. do 52 (destruct qs as [|? qs]; [done|]). destruct qs; [reflexivity|done]. Qed.
Lemma unquints_length qs : length (unquints qs) = 5 * (length qs / 8) + group_bytes (length qs mod 8).
Proof.
  revert qs. fix IH 1. intros [|a [|b [|c [|d [|e [|f [|g [|h rest]]]]]]]]; try reflexivity.
  cbn [unquints]. rewrite app_length, IH. clear IH.
  replace (length (a :: b :: c :: d :: e :: f :: g :: h :: rest)) with (length rest + 1 * 8) by (simpl; lia).
  rewrite Nat.div_add, Nat.mod_add by lia.
  replace (length (take _ _)) with 5 by reflexivity. lia.
Qed.

(** * C99 *)
Definition is_text (s : list byte) : Prop := Forall (λ c, c ∈ alphabet) s.

Lemma text_quints s : is_text s → ∃ qs, s = letter <$> qs ∧ mapM unletter s = Some qs.
Proof.
  induction 1 as [|c s Hc _ (qs & -> & E)]; [by exists []|]. destruct (in_letter c Hc) as [q <-].
  exists (q :: qs). split; [done|]. simpl. rewrite letter_unletter. simpl. by rewrite E.
Qed.

(** The text of a digest: 52 letters of the alphabet, the last one A or Q. *)
Theorem C99_text d : length d = 32 →
  length (digest_string d) = 52 ∧ is_text (digest_string d) ∧
  (last (digest_string d) = Some Byte.x41 ∨ last (digest_string d) = Some Byte.x51).
Proof.
  intros L. unfold digest_string, encode. rewrite fmap_length.
  destruct (quints_bits (bits_of d)) as [_ Lq]. rewrite bits_of_length, L in Lq. split; [exact Lq|]. split.
  - apply Forall_fmap, Forall_true. intros q. apply letter_in.
  - destruct (quints_last (bits_of d) 51) as (qs & b & -> & _); [rewrite bits_of_length, L; lia|].
    rewrite fmap_app, last_app. simpl. destruct b; [by right|by left].
Qed.

(** Which texts are accepted, and what they mean: exactly those of 52 letters; 16 texts (differing in the
    last letter) mean the same digest. *)
Definition upper_half (c : byte) : bool := bool_decide (c ∈ take 16 alphabet).
Lemma upper_letter q : upper_half (letter q) = negb q.1.1.1.1.
Proof. destruct q as [[[[[] []] []] []] []]; vm_compute; reflexivity. Qed.
Theorem C99_parse s d : is_text s → length d = 32 →
  DigestFromString s = Some d ↔
  ∃ t c c', s = t ++ [c] ∧ digest_string d = t ++ [c'] ∧ upper_half c = upper_half c'.
Proof.
  intros T L. destruct (text_quints s T) as (qs & -> & E). unfold DigestFromString, decode. rewrite E. simpl.
  destruct (quints_bits (bits_of d)) as [Eb Lq]. rewrite bits_of_length, L in Eb, Lq.
  change (length (quints (bits_of d)) = 52) in Lq.
  destruct (quints_last (bits_of d) 51) as (ps & b & Ep & Lp); [rewrite bits_of_length, L; lia|].
  set (q' := (b, false, false, false, false) : bool * bool * bool * bool * bool) in *.
  assert (digest_string d = (letter <$> ps) ++ [letter q']) as Ed.
  { unfold digest_string, encode. by rewrite Ep, fmap_app. }
  split.
  - intros H. case_bool_decide as Hl; [|done]. injection H as H.
    assert (length qs = 52) as L52.
    { unfold DigestSize in Hl. rewrite unquints_length in Hl.
      pose proof (Nat.div_mod_eq (length qs) 8). pose proof (Nat.mod_upper_bound (length qs) 8 ltac:(lia)).
      remember (length qs mod 8) as j. do 8 (destruct j as [|j]; [cbn [group_bytes] in Hl; lia|]). lia. }
    rewrite unquints_52 in H by done.
    apply whole_bytes_iff in H; [|rewrite qbits_of_length, L, L52; lia]. rewrite L in H.
    destruct qs as [|q qs _] using rev_ind; [done|]. rewrite app_length in L52; simpl in L52.
    rewrite <- Eb, Ep in H. apply (take_qbits 51) in H as [-> Hq]; [|lia|done].
    exists (letter <$> ps), (letter q), (letter q'). split_and!; [by rewrite fmap_app|done|].
    by rewrite !upper_letter, Hq.
  - intros (t & c & c' & Es & Et & Hc). rewrite Ed in Et. apply app_inj_2 in Et as [<- Et]; [|done].
    injection Et as <-.
    destruct qs as [|q qs _] using rev_ind; [by destruct (letter <$> ps)|].
    rewrite fmap_app in Es. apply app_inj_2 in Es as [Es Eq]; [|done]. injection Eq as <-.
    apply (inj (fmap letter : list _ → list _)) in Es as ->.
    assert (length (ps ++ [q]) = 52) as L52 by (rewrite app_length, Lp; done).
    rewrite unquints_52 by done.
    assert (whole_bytes (qbits_of (ps ++ [q])) = d) as ->.
    { apply whole_bytes_iff; [rewrite qbits_of_length, L, L52; lia|]. rewrite L, <- Eb, Ep.
      apply (take_qbits 51); [done|done|]. split; [done|]. rewrite !upper_letter in Hc.
      by destruct q.1.1.1.1, q'.1.1.1.1. }
    by rewrite bool_decide_true.
Qed.

(** A digest's text gives back the digest; different digests have different texts. *)
Theorem C99_round_trip d : length d = 32 → DigestFromString (digest_string d) = Some d.
Proof.
  intros L. destruct (C99_text d L) as (L52 & T & _). apply (C99_parse _ d T L).
  destruct (digest_string d) as [|c t _] using rev_ind; [done|]. by exists t, c, c.
Qed.
Theorem C99_injective d d' : length d = 32 → length d' = 32 → digest_string d = digest_string d' → d = d'.
Proof.
  intros L L' E. pose proof (C99_round_trip d L) as H. rewrite E, (C99_round_trip d' L') in H. by injection H.
Qed.
(** Every accepted text has 52 letters, and a text of 52 letters is accepted. *)
Theorem C99_accepts s : is_text s → is_Some (DigestFromString s) ↔ length s = 52.
Proof.
  intros T. destruct (text_quints s T) as (qs & -> & E). unfold DigestFromString, decode. rewrite E. simpl.
  rewrite fmap_length.
  assert (length (unquints qs) = 32 ↔ length qs = 52) as H.
  { rewrite unquints_length. split.
    - pose proof (Nat.div_mod_eq (length qs) 8). pose proof (Nat.mod_upper_bound (length qs) 8 ltac:(lia)).
      remember (length qs mod 8) as j. intros Hl. do 8 (destruct j as [|j]; [cbn [group_bytes] in Hl; lia|]). lia.
    - by intros ->. }
  unfold DigestSize. case_bool_decide as Hd; split.
  - intros _. by apply H.
  - eauto.
  - by intros [? [=]].
  - intros Hl. by destruct Hd; apply H.
Qed.
(** Texts other than the digest's own are accepted for it: exactly 16 per digest. *)
Theorem C99_sixteen d : length d = 32 →
  ∃ ss, NoDup ss ∧ length ss = 16 ∧ ∀ s, is_text s → DigestFromString s = Some d ↔ s ∈ ss.
Proof.
  intros L. destruct (C99_text d L) as (L52 & T & _).
  destruct (digest_string d) as [|c' t _] eqn:E using rev_ind; [done|].
  exists ((λ c, t ++ [c]) <$> filter (λ c, upper_half c = upper_half c') alphabet). split_and!.
  - apply NoDup_fmap_2; [intros ? ? [_ ?]%app_inj_2; [by simplify_eq|done]|]. apply NoDup_filter.
    apply (bool_decide_eq_true_1 _). vm_compute. reflexivity.
  - rewrite fmap_length. destruct (upper_half c'); vm_compute; reflexivity.
  - intros s Ts. rewrite (C99_parse s d Ts L), E, elem_of_list_fmap. split.
    + intros (t2 & c & c2 & -> & Et & Hc). apply app_inj_2 in Et as [<- [= <-]]; [|done].
      exists c. split; [done|]. apply elem_of_list_filter. split; [done|].
      unfold is_text in Ts. rewrite Forall_app, Forall_singleton in Ts. apply Ts.
    + intros (c & -> & [Hc _]%elem_of_list_filter). by exists t, c, c'.
Qed.

(** * Numbers and keys *)
Lemma little_endian_lt bs : (little_endian bs < 256 ^ N.of_nat (length bs))%N.
Proof.
  induction bs as [|b bs IH]; [done|]. cbn [little_endian length]. rewrite Nat2N.inj_succ, N.pow_succ_r'.
  pose proof (b2N_lt b). nia.
Qed.
Lemma little_endian_inj bs bs' : length bs = length bs' → little_endian bs = little_endian bs' → bs = bs'.
Proof.
  revert bs'; induction bs as [|b bs IH]; intros [|b' bs'] L E; try done. cbn [little_endian] in E.
  pose proof (b2N_lt b). pose proof (b2N_lt b'). assert (b2N b = b2N b' ∧ little_endian bs = little_endian bs') as [E1 E2] by lia.
  f_equal; [by apply b2N_inj|]. apply IH; [by injection L|done].
Qed.
(** The number of a digest fits in 64 bits and is determined by, and determines, its first eight bytes. *)
Theorem C99_number d d' : length d = 32 → length d' = 32 →
  (TrimUint64 d < 2 ^ 64)%N ∧ (TrimUint64 d = TrimUint64 d' ↔ take 8 d = take 8 d').
Proof.
  intros L L'. unfold TrimUint64. split.
  - pose proof (little_endian_lt (take 8 d)) as H. rewrite take_length, L in H. exact H.
  - split; [|by intros ->]. apply little_endian_inj. by rewrite !take_length, L, L'.
Qed.
Theorem C99_zero d : IsZero d = true ↔ length d = 32 ∧ Forall (λ b, b = Byte.x00) d.
Proof.
  unfold IsZero, DigestSize. rewrite bool_decide_eq_true. split.
  - intros ->. split; [by rewrite replicate_length|]. by apply Forall_replicate.
  - intros [L F]. symmetry. apply replicate_as_elem_of. rewrite Forall_forall in F. by split.
Qed.
(** Key codecs: keys of the right size round-trip, nothing else decodes, and equality is of the bytes. *)
Theorem C99_keys bs k k' :
  (DecodePKey bs = Some k ↔ length bs = 32 ∧ key_marshal k = bs) ∧
  (DecodeSKey bs = Some k ↔ length bs = 64 ∧ key_marshal k = bs) ∧
  (key_equal k k' = true ↔ key_marshal k = key_marshal k').
Proof.
  unfold DecodePKey, DecodeSKey, key_equal, key_marshal. split_and!.
  - case_bool_decide; naive_solver.
  - case_bool_decide; naive_solver.
  - by rewrite bool_decide_eq_true.
Qed.

Example C99_ex :
  String.string_of_list_byte (digest_string (replicate 31 Byte.x00 ++ [Byte.x01])) =
    "AAAAAAAAAAAAAAAAAAAAAAAAAAAAAAAAAAAAAAAAAAAAAAAAAAAQ"%string ∧
  DigestFromString (String.list_byte_of_string "AAAAAAAAAAAAAAAAAAAAAAAAAAAAAAAAAAAAAAAAAAAAAAAAAAA7") =
    Some (replicate 31 Byte.x00 ++ [Byte.x01]) ∧
  DigestFromString (String.list_byte_of_string "MFRGGZDF") = None ∧
  decode (String.list_byte_of_string "MFRGGZDF") = Some (String.list_byte_of_string "abcde").
Proof. vm_compute. repeat split; reflexivity. Qed.
