(** C45, C46: erasure coding. *)
From Verif.Base Require Import Base.
From Verif.Model Require Import Ecc.
From stdpp Require Import sorting.

Local Opaque NumChunks.

(** The answers of the 36 tasks, each exactly once, in some order. *)
Definition all_answers (arr : list (option nat)) : Prop :=
  ∃ p, Permutation p (seq 0 36) ∧ arr = Some <$> p.
(** ... or some of them, and then the encoder is stopped. *)
Definition stopped_answers (arr : list (option nat)) : Prop :=
  ∃ p q, Permutation (p ++ q) (seq 0 36) ∧ q ≠ [] ∧ arr = (Some <$> p) ++ [None].

(** [got] is what is left of the shards of one chunk: some of them are missing, at least k are there. *)
Definition survives (k : nat) (full got : list shard) : Prop :=
  Forall2 (λ f g, g = f ∨ g = []) full got ∧ k ≤ num_present got.

Section C45.
Context (c : rs_code) (laws : rs_laws c).
(** A full code word: k+m shards, none empty. *)
Definition full_word (w : list shard) : Prop := length w = rs_k c + rs_m c ∧ Forall (λ s, s ≠ []) w.

Lemma cut_length p k l : length (cut p k l) = k.
Proof using Type. revert l. induction k; intros l; simpl; [done|]. by rewrite IHk. Qed.
Lemma cut_sizes p k l : length l = p * k → Forall (λ d, length d = p) (cut p k l).
Proof using Type.
  revert l. induction k as [|k IH]; intros l Hl; simpl; [constructor|]. constructor.
  - rewrite take_length. lia.
  - apply IH. rewrite drop_length. lia.
Qed.
Lemma cut_join p k l : mjoin (cut p k l) = take (p * k) l.
Proof using Type.
  revert l. induction k as [|k IH]; intros l; simpl; [by rewrite Nat.mul_0_r|].
  rewrite IH. replace (p * S k) with (p + p * k) by lia. by rewrite take_take_drop.
Qed.
Lemma per_shard_bound n : 0 < n → n ≤ per_shard c n * rs_k c ∧ 0 < per_shard c n.
Proof using laws.
  intros Hn. pose proof (rs_k_pos c laws) as Hk. unfold per_shard.
  assert (n ≤ (n + rs_k c - 1) / rs_k c * rs_k c) as H.
  { pose proof (Nat.div_mod (n + rs_k c - 1) (rs_k c) ltac:(lia)) as E.
    pose proof (Nat.mod_upper_bound (n + rs_k c - 1) (rs_k c) ltac:(lia)). lia. }
  split; [done|]. destruct ((n + rs_k c - 1) / rs_k c); [lia|lia].
Qed.

(** One chunk. *)
Lemma chunk_encode chunk : chunk ≠ [] → ∃ w, authEncode c chunk = Some w ∧ full_word w ∧
  ∀ got, survives (rs_k c) w got → authReconstruct c got (length chunk) = Some chunk.
Proof using laws.
  intros Hne. assert (0 < length chunk) as Hl by (destruct chunk; [done|simpl; lia]).
  destruct (per_shard_bound (length chunk) Hl) as [Hp Hp0]. set (p := per_shard c (length chunk)) in *.
  unfold authEncode, Split. rewrite decide_False by lia. fold p. simpl.
  set (l := chunk ++ replicate (p * rs_k c - length chunk) Byte.x00).
  assert (length l = p * rs_k c) as Hll by (unfold l; rewrite app_length, replicate_length; lia).
  set (ds := cut p (rs_k c) l).
  assert (length ds = rs_k c) as Hd1 by apply cut_length.
  assert (Forall (λ d, length d = p) ds) as Hd2 by by apply cut_sizes.
  destruct (parity_length c laws ds p Hd1 Hd2) as [Hq1 Hq2].
  eexists. split; [done|]. split.
  { split; [rewrite app_length; lia|]. apply Forall_app. split.
    - eapply Forall_impl; [exact Hd2|]. cbv beta. intros d Hd ->. simpl in Hd. lia.
    - eapply Forall_impl; [exact Hq2|]. cbv beta. intros d Hd ->. simpl in Hd. lia. }
  intros got [Hg1 Hg2]. unfold authReconstruct.
  rewrite (recon_ok c laws ds p got Hd1 Hd2 Hp0 Hg1 Hg2). cbn [mbind option_bind]. unfold Ecc.Join.
  cbv zeta. rewrite take_app_alt by done. assert (mjoin ds = l) as -> by (unfold ds; rewrite cut_join; apply take_ge; lia).
  rewrite decide_False by lia. f_equal. unfold l. by rewrite take_app.
Qed.

(** The pieces of the message. *)
Lemma num36 : NumChunks = 36. Proof using Type. done. Qed.
Lemma segment_eq n i s e : segment n i = (s, e) →
  s = i * (n / 36) ∧ e = if decide (36 ≤ S i) then n else i * (n / 36) + n / 36.
Proof using Type.
  intros H. split; [by apply (f_equal fst) in H|by apply (f_equal snd) in H].
Qed.
Lemma segment_bounds n i s e : segment n i = (s, e) → i < 36 → 36 ≤ n → s < e ∧ e ≤ n.
Proof using Type.
  intros [-> ->]%segment_eq Hi Hn.
  pose proof (Nat.div_mod n 36 ltac:(lia)) as E. pose proof (Nat.mod_upper_bound n 36 ltac:(lia)).
  assert (1 ≤ n / 36) by (apply Nat.div_le_lower_bound; lia).
  generalize dependent (n / 36). intros q E Hq. generalize dependent (n mod 36). intros r E Hr.
  case_decide as Hc; [assert (i = 35) as -> by lia; lia|]. assert (i * q ≤ 34 * q) by (apply Nat.mul_le_mono_r; lia). lia.
Qed.
Lemma segment_cover n j : 36 ≤ n → j < n → ∃ i s e, i < 36 ∧ segment n i = (s, e) ∧ s ≤ j < e.
Proof using Type.
  intros Hn Hj. assert (1 ≤ n / 36) as H1 by (apply Nat.div_le_lower_bound; lia).
  destruct (decide (j < 36 * (n / 36))) as [Hlt|Hge].
  - exists (j / (n / 36)). unfold segment. rewrite num36. eexists _, _.
    assert (j / (n / 36) < 36) as Hi by (apply Nat.div_lt_upper_bound; lia).
    split; [done|]. split; [done|].
    pose proof (Nat.div_mod j (n / 36) ltac:(lia)) as E. pose proof (Nat.mod_upper_bound j (n / 36) ltac:(lia)).
    case_decide; lia.
  - exists 35. unfold segment. rewrite num36. eexists _, _. split; [lia|]. split; [done|].
    rewrite decide_True by lia. lia.
Qed.
Lemma chunk_of_lookup (full : list byte) i s e j : segment (length full) i = (s, e) → i < 36 → 36 ≤ length full →
  length (chunk_of full i) = e - s ∧ (j < e - s → (chunk_of full i : list byte) !! j = full !! (s + j)).
Proof using Type.
  intros Hs Hi Hn. pose proof (segment_bounds _ _ _ _ Hs Hi Hn) as [Hb1 Hb2].
  apply segment_eq in Hs as [-> ->]. unfold chunk_of. rewrite num36.
  case_decide; rewrite ?take_length, drop_length.
  - split; [lia|]. intros _. apply lookup_drop.
  - split; [lia|]. intros Hj. etransitivity; [apply lookup_take; lia|apply lookup_drop].
Qed.

Lemma encode_loop_ok data p todo acc :
  36 ≤ length data → todo = length p → (∀ i, i ∈ p → i < 36) → length acc = 36 →
  ∃ res, encode_loop c data (Some <$> p) todo acc = Ok res ∧ length res = 36 ∧
    (∀ i, i ∈ p → res !! i = Some (authEncode c (chunk_of data i))) ∧
    (∀ i, i ∉ p → res !! i = acc !! i).
Proof using laws.
  intros Hn. revert todo acc. induction p as [|i p IH]; intros todo acc -> Hp Ha; cbn [fmap list_fmap encode_loop length].
  - exists acc. split; [done|]. split; [done|]. split; [by intros i ?%elem_of_nil|done].
  - assert (i < 36) as Hi by (apply Hp; left).
    assert (chunk_of data i ≠ []) as Hne.
    { destruct (segment (length data) i) as [s e] eqn:E.
      destruct (chunk_of_lookup data i s e 0 E Hi Hn) as [Hl _]. pose proof (segment_bounds _ _ _ _ E Hi Hn).
      intros H0. rewrite H0 in Hl. simpl in Hl. lia. }
    destruct (chunk_encode _ Hne) as (w & Hw & _). rewrite Hw.
    destruct (IH (length p) (<[i:=Some w]> acc)) as (res & Hr & Hl & H1 & H2); [done|intros; apply Hp; by right|by rewrite insert_length|].
    exists res. split; [done|]. split; [done|]. split.
    + intros j Hj. destruct (decide (j ∈ p)) as [Hin|Hnin]; [by apply H1|].
      apply elem_of_cons in Hj as [->|Hj]; [|done]. rewrite H2 by done.
      rewrite list_lookup_insert by lia. by rewrite Hw.
    + intros j Hj. apply not_elem_of_cons in Hj as [Hj1 Hj2]. rewrite H2 by done.
      by rewrite list_lookup_insert_ne.
Qed.

Lemma copy_into_lookup (data full : list byte) i s e j :
  length data = length full → segment (length full) i = (s, e) → i < 36 → 36 ≤ length full →
  let d' : list byte := copy_into data s e (chunk_of full i) in
  length d' = length full ∧ d' !! j = if decide (s ≤ j < e) then full !! j else data !! j.
Proof using Type.
  intros Hd Hs Hi Hn. pose proof (segment_bounds _ _ _ _ Hs Hi Hn) as [Hb1 Hb2].
  destruct (chunk_of_lookup full i s e (j - s) Hs Hi Hn) as [Hl Hlk].
  intros d'. unfold d', copy_into. rewrite (take_ge (chunk_of full i)) by lia.
  rewrite !app_length, take_length, drop_length, Hl. split; [lia|].
  destruct (decide (j < s)) as [Hlt|Hge].
  - rewrite decide_False by lia. rewrite lookup_app_l by (rewrite take_length; lia). by rewrite lookup_take.
  - rewrite lookup_app_r by (rewrite take_length; lia). rewrite take_length.
    replace (j - s `min` length data) with (j - s) by lia.
    destruct (decide (j < e)) as [Hlt|Hge2].
    + rewrite decide_True by lia. rewrite lookup_app_l by lia. rewrite Hlk by lia. f_equal. lia.
    + rewrite decide_False by lia. rewrite lookup_app_r by lia. rewrite lookup_drop. f_equal. lia.
Qed.

Lemma decode_loop_ok (full : list byte) got p todo (data : list byte) :
  36 ≤ length full → todo = length p → (∀ i, i ∈ p → i < 36) → length data = length full →
  (∀ i, i < 36 → ∃ w g, authEncode c (chunk_of full i) = Some w ∧ got !! i = Some g ∧ survives (rs_k c) w g) →
  ∃ res : list byte, decode_loop c got (Some <$> p) todo data = Ok res ∧ length res = length full ∧
    (∀ j, (data !! j = full !! j ∨ ∃ i s e, i ∈ p ∧ segment (length full) i = (s, e) ∧ s ≤ j < e) → res !! j = full !! j).
Proof using laws.
  intros Hn Ht Hp Hd Hg. revert todo data Ht Hd. induction p as [|i p IH]; intros todo data -> Hd; cbn [fmap list_fmap decode_loop length].
  - exists data. split; [done|]. split; [done|]. intros j [Hj|(i & s & e & Hi & _)]; [done|by apply elem_of_nil in Hi].
  - assert (i < 36) as Hi by (apply Hp; left).
    rewrite Hd. destruct (segment (length full) i) as [s e] eqn:Es.
    destruct (Hg i Hi) as (w & g & Hw & -> & Hs).
    destruct (chunk_of_lookup full i s e 0 Es Hi Hn) as [Hl _].
    assert (chunk_of full i ≠ []) as Hne.
    { pose proof (segment_bounds _ _ _ _ Es Hi Hn). intros H0. rewrite H0 in Hl. simpl in Hl. lia. }
    destruct (chunk_encode _ Hne) as (w' & Hw' & _ & Hr). simplify_eq. rewrite Hl in Hr. rewrite (Hr g Hs).
    destruct (IH ltac:(intros; apply Hp; by right) (length p) (copy_into data s e (chunk_of full i))) as (res & Hres & Hlen & H1); [done| |].
    { by apply (copy_into_lookup data full i s e 0). }
    exists res. split; [done|]. split; [done|]. intros j Hj. apply H1.
    destruct (copy_into_lookup data full i s e j Hd Es Hi Hn) as [_ Hlk]. rewrite Hlk.
    case_decide as Hc; [by left|].
    destruct Hj as [Hj|(i' & s' & e' & Hi' & Hs' & Hj)]; [by left|].
    apply elem_of_cons in Hi' as [->|Hi']; [rewrite Es in Hs'; injection Hs' as <- <-; lia|]. right. eauto 10.
Qed.

Lemma perm_seq p : Permutation p (seq 0 36) → length p = 36 ∧ ∀ i, i ∈ p ↔ i < 36.
Proof using Type.
  intros H. split; [by rewrite H|]. intros i. rewrite H, elem_of_seq. lia.
Qed.

(** C45: every message, every order of answers on both sides, every pattern of missing shards. *)
Theorem C45_roundtrip (data : bytes) arr :
  all_answers arr →
  ∃ shards, AuthEncode c data arr = Ok (Some <$> shards) ∧ length shards = 36 ∧
    Forall full_word shards ∧
    ∀ got arr', all_answers arr' → Forall2 (survives (rs_k c)) shards got →
      AuthReconstruct c got (Z.of_nat (length data)) arr' = Ok data.
Proof using laws.
  intros (p & Hp & ->).
  destruct (perm_seq p Hp) as [Hpl Hpi].
  set (full := data ++ zeros).
  assert (length full = length data + 36) as Hfl by (unfold full, zeros; by rewrite app_length, replicate_length, num36).
  assert (36 ≤ length full) as Hn by lia.
  destruct (encode_loop_ok full p 36 (replicate 36 None) Hn) as (res & Hr & Hrl & Hr1 & _).
  { done. } { intros i. apply Hpi. } { by rewrite replicate_length. }
  assert (∃ shards, res = Some <$> shards ∧ length shards = 36 ∧
     ∀ i, i < 36 → ∃ w, shards !! i = Some w ∧ authEncode c (chunk_of full i) = Some w ∧ full_word w) as (shards & -> & Hsl & Hs).
  { assert (∀ i, i < 36 → ∃ w, authEncode c (chunk_of full i) = Some w ∧ full_word w) as Hw.
    { intros i Hi. destruct (segment (length full) i) as [s e] eqn:Es.
      destruct (chunk_of_lookup full i s e 0 Es Hi Hn) as [Hl _].
      destruct (chunk_encode (chunk_of full i)) as (w & Hw & Hwl & _); [|by exists w].
      pose proof (segment_bounds _ _ _ _ Es Hi Hn). intros H0. rewrite H0 in Hl. simpl in Hl. lia. }
    exists ((λ i, default [] (authEncode c (chunk_of full i))) <$> seq 0 36).
    split; [|split].
    - apply list_eq. intros i. rewrite !list_lookup_fmap. destruct (decide (i < 36)) as [Hi|Hi].
      + rewrite lookup_seq_lt by done. simpl. rewrite Hr1 by by apply Hpi.
        by destruct (Hw i Hi) as (w & -> & _).
      + rewrite lookup_seq_ge by lia. simpl. apply lookup_ge_None. lia.
    - by rewrite fmap_length, seq_length.
    - intros i Hi. destruct (Hw i Hi) as (w & Hw1 & Hw2). exists w. rewrite list_lookup_fmap, lookup_seq_lt by done.
      simpl. by rewrite Hw1. }
  exists shards. unfold AuthEncode. fold full. rewrite num36. split; [done|]. split; [done|]. split.
  { apply Forall_lookup. intros i w Hi. assert (i < 36) by (apply lookup_lt_Some in Hi; lia).
    destruct (Hs i) as (w' & Hw' & _ & ?); [done|]. by simplify_eq. }
  intros got ? (p' & Hp' & ->) Hgot. destruct (perm_seq p' Hp') as [Hpl' Hpi'].
  unfold AuthReconstruct. rewrite num36.
  pose proof (Forall2_length _ _ _ Hgot) as Hgl. rewrite decide_False by lia. rewrite decide_False by lia.
  replace (Z.to_nat (Z.of_nat (length data) + Z.of_nat 36)) with (length full) by lia.
  destruct (decode_loop_ok full got p' 36 (replicate (length full) Byte.x00) Hn) as (d' & Hd' & Hdl & Hd).
  { done. } { intros i. apply Hpi'. } { apply replicate_length. }
  { intros i Hi. destruct (Hs i Hi) as (w & Hw1 & Hw2 & _).
    destruct (Forall2_lookup_l _ _ _ _ _ Hgot Hw1) as (g & Hg1 & Hg2). eauto. }
  rewrite Hd'. simpl. rewrite decide_False by lia. f_equal.
  assert (d' = full) as ->.
  { apply list_eq_same_length with (length full); [done|done|]. intros j x y Hj Hx Hy.
    rewrite Hd in Hx; [by simplify_eq|]. right.
    destruct (segment_cover (length full) j Hn Hj) as (i & s & e & Hi & Hse & Hb).
    exists i, s, e. split; [by apply Hpi'|done]. }
  unfold full. rewrite take_app_alt; [done|]. rewrite app_length. unfold zeros. rewrite replicate_length, num36. lia.
Qed.

(** Stopping the encoder at any moment gives the error, never a partial result. *)
Lemma encode_loop_stopped data p rest todo acc : length p < todo →
  ∀ x, encode_loop c data ((Some <$> p) ++ None :: rest) todo acc ≠ Ok x.
Proof using Type.
  revert todo acc. induction p as [|i p IH]; intros todo acc Ht x; destruct todo as [|todo]; simpl in *; try lia; [done|].
  destruct (authEncode c _); [|done]. apply IH. lia.
Qed.
Lemma decode_loop_stopped got p rest todo data : length p < todo →
  ∀ x, decode_loop c got ((Some <$> p) ++ None :: rest) todo data ≠ Ok x.
Proof using Type.
  revert todo data. induction p as [|i p IH]; intros todo data Ht x; destruct todo as [|todo]; simpl in *; try lia; [done|].
  destruct (got !! i); [|done]. destruct (authReconstruct c _ _); [|done]. apply IH. lia.
Qed.
Theorem C45_stopped data got size arr : stopped_answers arr →
  (∀ x, AuthEncode c data arr ≠ Ok x) ∧ (∀ x, AuthReconstruct c got size arr ≠ Ok x).
Proof using Type.
  intros (p & q & Hp & Hq & ->). assert (length p < NumChunks) as Hl.
  { apply Permutation_length in Hp. rewrite app_length, seq_length in Hp. rewrite num36. destruct q; [done|simpl in Hp; lia]. }
  split; intros x; unfold AuthEncode, AuthReconstruct.
  - by apply encode_loop_stopped.
  - case_decide; [done|]. case_decide; [done|].
    destruct (decode_loop c got _ _ _) as [d| |] eqn:E; simpl; [|done|done].
    by apply decode_loop_stopped in E.
Qed.

(** C46 *)
Lemma decode_loop_few got arr todo data i g :
  got !! i = Some g → num_present g < rs_k c → Some i ∈ take todo arr →
  ∀ x, decode_loop c got arr todo data ≠ Ok x.
Proof using laws.
  intros Hg Hf. revert todo data. induction arr as [|[j|] arr IH]; intros todo data Hin x.
  - rewrite take_nil in Hin. by apply elem_of_nil in Hin.
  - destruct todo as [|todo]; [by apply elem_of_nil in Hin|]. cbn [take] in Hin. cbn [decode_loop].
    destruct (segment (length data) j) as [s e]. destruct (got !! j) as [g'|] eqn:Ej; [|done].
    destruct (authReconstruct c g' (e - s)) as [ch|] eqn:Er; [|done].
    apply IH. apply elem_of_cons in Hin as [[= <-]|Hin]; [|done]. exfalso. simplify_eq.
    unfold authReconstruct in Er. rewrite (recon_few c laws) in Er; done.
  - destruct todo as [|todo]; [by apply elem_of_nil in Hin|done].
Qed.
Lemma decode_loop_outcome got p todo data : (∀ i, i ∈ p → is_Some (got !! i)) → todo = length p →
  (∃ d, decode_loop c got (Some <$> p) todo data = Ok d) ∨ decode_loop c got (Some <$> p) todo data = Err EReconstruct.
Proof using Type.
  revert todo data. induction p as [|i p IH]; intros todo data Hp ->; cbn [fmap list_fmap decode_loop length]; [by left; exists data|].
  destruct (segment (length data) i) as [s e]. destruct (Hp i) as [g ->]; [left|].
  destruct (authReconstruct c g (e - s)); [|by right]. apply IH; [|done]. intros j Hj. apply Hp. by right.
Qed.
(** Whatever the shards are: if one of the 36 chunks has fewer than k of them the result is an error. *)
Theorem C46_too_few (got : list (list shard)) (dataSize : nat) arr i g :
  all_answers arr → 36 ≤ length got → i < 36 → got !! i = Some g → num_present g < rs_k c →
  AuthReconstruct c got (Z.of_nat dataSize) arr = Err EReconstruct.
Proof using laws.
  intros (p & Hp & ->) Hl Hi Hg Hf. destruct (perm_seq p Hp) as [Hpl Hpi].
  unfold AuthReconstruct. rewrite num36. rewrite decide_False by lia. rewrite decide_False by lia.
  destruct (decode_loop_outcome got p 36 (replicate (Z.to_nat (Z.of_nat dataSize + Z.of_nat 36)) Byte.x00)) as [[d Hd]| ->]; [| |exfalso|done].
  - intros j Hj. apply lookup_lt_is_Some. apply Hpi in Hj. lia.
  - done.
  - revert Hd. eapply decode_loop_few; [done|done|]. rewrite take_ge by (rewrite fmap_length; lia).
    apply elem_of_list_fmap. exists i. split; [done|]. by apply Hpi.
Qed.
(** ... even when the encoder may be stopped meanwhile it is never a message. *)
Theorem C46_never_decoded (got : list (list shard)) (dataSize : Z) arr i g :
  all_answers arr ∨ stopped_answers arr → i < 36 → got !! i = Some g → num_present g < rs_k c →
  ∀ x, AuthReconstruct c got dataSize arr ≠ Ok x.
Proof using laws.
  intros [(p & Hp & ->)|Hs] Hi Hg Hf x; [|by apply (C45_stopped [])].
  destruct (perm_seq p Hp) as [Hpl Hpi].
  unfold AuthReconstruct. case_decide; [done|]. case_decide; [done|].
  destruct (decode_loop c got _ _ _) as [d| |] eqn:E; simpl; [|done|done]. exfalso. revert E.
  eapply decode_loop_few; [done|done|]. rewrite take_ge by (rewrite fmap_length, num36; lia).
  apply elem_of_list_fmap. exists i. split; [done|]. by apply Hpi.
Qed.
(** Boundary: a negative size or fewer than 36 chunks crash the caller. *)
Theorem C46_panics (got : list (list shard)) (dataSize : Z) arr :
  (dataSize < -36)%Z ∨ length got < 36 → AuthReconstruct c got dataSize arr = Panic.
Proof using Type.
  intros H. unfold AuthReconstruct. rewrite num36. case_decide; [done|]. rewrite decide_True; [done|]. lia.
Qed.
End C45.

(** ** An instance: two data shards and their exclusive or. *)
Definition bxor (a b : byte) : byte := N2b (N.lxor (b2N a) (b2N b)).
Fixpoint sxor (a b : shard) : shard :=
  match a, b with x :: a, y :: b => bxor x y :: sxor a b | _, _ => [] end.
Definition xor_code : rs_code :=
  RsCode 2 1 (λ ds, match ds with [a; b] => [sxor a b] | _ => [] end)
    (λ got, match got with
            | [a; b; p] =>
                if present a then
                  if present b then Some [a; b; sxor a b] else if present p then Some [a; sxor a p; p] else None
                else if present b && present p then Some [sxor b p; b; p] else None
            | _ => None
            end).
Lemma bxor_back a b : bxor a (bxor a b) = b.
Proof.
  unfold bxor. rewrite b2N_N2b.
  assert (N.lxor (b2N a) (b2N b) < 256)%N as Hlt.
  { destruct (N.eq_dec (N.lxor (b2N a) (b2N b)) 0) as [->|Hn]; [lia|].
    change 256%N with (2 ^ 8)%N. apply N.log2_lt_pow2; [lia|].
    eapply N.le_lt_trans; [apply N.log2_lxor|].
    assert (∀ x, (N.log2 (b2N x) < 8)%N) as Hx.
    { intros x. destruct (N.eq_dec (b2N x) 0) as [->|?]; [by vm_compute|].
      apply N.log2_lt_pow2; [lia|]. apply b2N_lt. }
    apply N.max_lub_lt; apply Hx. }
  rewrite N.mod_small by done. rewrite <-N.lxor_assoc, N.lxor_nilpotent, N.lxor_0_l. apply N2b_b2N.
Qed.
Lemma bxor_comm a b : bxor a b = bxor b a.
Proof. unfold bxor. by rewrite N.lxor_comm. Qed.
Lemma sxor_comm a b : sxor a b = sxor b a.
Proof. revert b. induction a as [|x a IH]; intros [|y b]; simpl; try done. by rewrite bxor_comm, IH. Qed.
Lemma sxor_back a b : length a = length b → sxor a (sxor a b) = b.
Proof.
  revert b. induction a as [|x a IH]; intros [|y b] H; simpl in *; try done; try lia. rewrite bxor_back, IH; [done|lia].
Qed.
Lemma sxor_length a b : length a = length b → length (sxor a b) = length a.
Proof. revert b. induction a as [|x a IH]; intros [|y b] H; simpl in *; try done; try lia. rewrite IH; lia. Qed.
Lemma xor_laws : rs_laws xor_code.
Proof.
  split; simpl.
  - lia.
  - intros [|a [|b [|? ?]]] s Hl Hf; try done. rewrite !Forall_cons in Hf. destruct Hf as (H1 & H2 & _).
    split; [done|]. apply Forall_singleton. rewrite sxor_length; congruence.
  - intros [|a [|b [|? ?]]] s got Hl Hf Hs Hg Hp; try done. rewrite !Forall_cons in Hf. destruct Hf as (H1 & H2 & _).
    simpl in Hg. inversion Hg as [|? ga ? ? Ha Hg1]; subst. inversion Hg1 as [|? gb ? ? Hb Hg2]; subst.
    inversion Hg2 as [|? gp ? ? Hpp Hg3]; subst. inversion Hg3; subst.
    assert (length (sxor a b) = length a) as Hx by (apply sxor_length; congruence).
    assert (∀ l : shard, l ≠ [] → present l = true) as Hpr by (intros []; done).
    assert (a ≠ []) by (intros ->; simpl in *; lia). assert (b ≠ []) by (intros ->; simpl in *; lia).
    assert (sxor a b ≠ []) by (intros E; rewrite E in Hx; simpl in *; lia).
    unfold num_present in Hp.
    destruct Ha as [->| ->], Hb as [->| ->], Hpp as [->| ->];
      rewrite ?filter_cons, ?filter_nil in Hp; rewrite ?Hpr in * by done; simpl in Hp |- *; rewrite ?Hpr by done; try lia; try done.
    + rewrite sxor_back by congruence. done.
    + simpl. rewrite (sxor_comm a b), sxor_back by congruence. done.
    + exfalso. repeat case_decide; simpl in *; (lia || done).
    + exfalso. repeat case_decide; simpl in *; (lia || done).
  - intros got H. unfold num_present in H. destruct got as [|a [|b [|p [|? ?]]]]; try done.
    rewrite !filter_cons, filter_nil in H. destruct (present a), (present b), (present p); simpl in *; try done; lia.
Qed.

(** The second data shard of every chunk is lost; the answers come in reverse order. *)
Definition ex_msg : bytes := [Byte.x41; Byte.x42; Byte.x43].
Example C45_example : ∃ shards, AuthEncode xor_code ex_msg (Some <$> reverse (seq 0 36)) = Ok (Some <$> shards) ∧
  AuthReconstruct xor_code (<[1 := []]> <$> shards) 3 (Some <$> seq 0 36) = Ok ex_msg ∧
  AuthReconstruct xor_code (<[7 := [[]; []; [Byte.x01]]]> shards) 3 (Some <$> seq 0 36) = Err EReconstruct.
Proof.
  eexists (omap id (match AuthEncode xor_code ex_msg (Some <$> reverse (seq 0 36)) with Ok l => l | _ => [] end)).
  by vm_compute.
Qed.
Print Assumptions C45_roundtrip.
Print Assumptions C45_stopped.
Print Assumptions C46_too_few.
Print Assumptions C46_never_decoded.
Print Assumptions C46_panics.
