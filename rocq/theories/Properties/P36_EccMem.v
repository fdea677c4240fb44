(** C91: the erasure coder and the memory of its arguments. *)
From stdpp Require Import gmap.
From Verif.Base Require Import Base.
From Verif.Model Require Import Ecc EccMem.
From Verif.Properties Require P14_Ecc.

Lemma n36 : NumChunks = 36. Proof. done. Qed.
Lemma zeros_len : length zeros = 36. Proof. unfold zeros. by rewrite replicate_length. Qed.
Local Opaque NumChunks.

Lemma write_lookup (a : list byte) off (bs : list byte) : off + length bs ≤ length a →
  length (write_at a off bs) = length a ∧
  ∀ i, write_at a off bs !! i = if decide (off ≤ i < off + length bs) then bs !! (i - off) else a !! i.
Proof.
  intros H. unfold write_at. rewrite !app_length, take_length, drop_length. split; [lia|]. intros i.
  destruct (decide (i < off)) as [Hlt|Hge].
  - rewrite decide_False by lia. rewrite lookup_app_l by (rewrite take_length; lia). by rewrite lookup_take.
  - rewrite lookup_app_r by (rewrite take_length; lia). rewrite take_length.
    replace (i - off `min` length a) with (i - off) by lia. destruct (decide (i < off + length bs)) as [Hlt|Hge2].
    + rewrite decide_True by lia. by rewrite lookup_app_l by lia.
    + rewrite decide_False by lia. rewrite lookup_app_r by lia. rewrite lookup_drop. f_equal. lia.
Qed.
Lemma content_lookup h s a i : h !! sl_arr s = Some a →
  (content h s : list byte) !! i = if decide (i < sl_len s) then a !! (sl_off s + i) else None.
Proof.
  intros Ha. unfold content. rewrite Ha. cbn [default]. case_decide.
  - change (take (sl_len s) (drop (sl_off s) a) !! i = a !! (sl_off s + i)). by rewrite lookup_take, lookup_drop.
  - apply lookup_ge_None. rewrite take_length. lia.
Qed.
Lemma content_length h s : valid h s → length (content h s) = sl_len s.
Proof. intros (a & Ha & H1 & H2). unfold content. rewrite Ha. cbn. rewrite take_length, drop_length. lia. Qed.

Lemma append_content h s bs : valid h s → let '(h', s') := append h s bs in content h' s' = content h s ++ bs.
Proof.
  intros Hv. pose proof Hv as (a & Ha & H1 & H2). unfold append. case_decide as Hd.
  - apply list_eq. intros i. rewrite Ha. cbn [default from_option id].
    destruct (write_lookup a (sl_off s + sl_len s) bs) as [_ Hw]; [lia|].
    etransitivity; [apply (content_lookup _ _ (write_at a (sl_off s + sl_len s) bs)); cbn; apply lookup_insert|].
    cbn [sl_len sl_off]. rewrite Hw.
    destruct (decide (i < sl_len s)) as [Hi|Hi].
    + rewrite !decide_True, decide_False by lia. rewrite lookup_app_l by (rewrite content_length by done; lia).
      rewrite (content_lookup _ _ a) by done. by rewrite decide_True.
    + rewrite lookup_app_r by (rewrite content_length by done; lia). rewrite content_length by done.
      destruct (decide (i < sl_len s + length bs)).
      * rewrite decide_True by lia. f_equal. lia.
      * symmetry. apply lookup_ge_None. lia.
  - unfold content at 1. cbn. rewrite lookup_insert. cbn. rewrite drop_0. apply take_ge.
    rewrite app_length, content_length by done. lia.
Qed.

Section C91.
Context (c : rs_code).

(** The result is that of encoding the bytes of the argument. *)
Theorem C91_encode_result h data arr : valid h data → (AuthEncodeMem c h data arr).2 = AuthEncode c (content h data) arr.
Proof.
  intros Hv. unfold AuthEncodeMem. pose proof (append_content h data zeros Hv) as Hc.
  destruct (append h data zeros) as [h' s']. cbn. by rewrite Hc.
Qed.
(** A slice without spare capacity for 36 bytes: no array the caller had changes. *)
Theorem C91_encode_frame h data arr :
  sl_cap data < sl_len data + 36 → ∀ l a, h !! l = Some a → (AuthEncodeMem c h data arr).1 !! l = Some a.
Proof.
  intros Hcap l a Hl. unfold AuthEncodeMem, append. rewrite zeros_len. rewrite decide_False by lia. cbn.
  rewrite lookup_insert_ne; [done|]. intros <-. apply (is_fresh (dom h)). by apply elem_of_dom_2 in Hl.
Qed.
(** With it: the 36 bytes after the argument become zero, and nothing else changes. *)
Theorem C91_encode_overwrites h data arr a :
  h !! sl_arr data = Some a → valid h data → sl_len data + 36 ≤ sl_cap data →
  let h' := (AuthEncodeMem c h data arr).1 in
  (∀ l, l ≠ sl_arr data → h' !! l = h !! l) ∧
  ∃ a', h' !! sl_arr data = Some a' ∧ length a' = length a ∧
    ∀ i, a' !! i = if decide (sl_off data + sl_len data ≤ i < sl_off data + sl_len data + 36) then Some Byte.x00 else a !! i.
Proof.
  intros Ha (a0 & Ha0 & H1 & H2) Hcap. assert (a0 = a) as -> by congruence.
  unfold AuthEncodeMem, append. rewrite zeros_len. rewrite decide_True by lia. cbn.
  split; [intros l Hl; by rewrite lookup_insert_ne|]. rewrite lookup_insert, Ha. cbn.
  eexists. split; [done|]. destruct (write_lookup a (sl_off data + sl_len data) zeros) as [Hl Hw]; [rewrite zeros_len; lia|].
  split; [done|]. intros i. rewrite Hw, zeros_len. case_decide; [|done].
  unfold zeros. apply lookup_replicate_2. rewrite n36. lia.
Qed.
(** The bytes of the argument itself never change. *)
Theorem C91_encode_keeps_argument h data arr : valid h data → content (AuthEncodeMem c h data arr).1 data = content h data.
Proof.
  intros Hv. pose proof Hv as (a & Ha & H1 & H2).
  destruct (decide (sl_len data + 36 ≤ sl_cap data)) as [Hc|Hc].
  - destruct (C91_encode_overwrites h data arr a Ha Hv Hc) as (_ & a' & Ha' & _ & Hl). apply list_eq. intros i.
    rewrite (content_lookup _ _ _ i Ha'), (content_lookup _ _ _ i Ha). case_decide; [|done]. rewrite Hl.
    by rewrite decide_False by lia.
  - assert ((AuthEncodeMem c h data arr).1 !! sl_arr data = Some a) as Ha' by (apply C91_encode_frame; [lia|done]).
    apply list_eq. intros i. by rewrite (content_lookup _ _ _ i Ha'), (content_lookup _ _ _ i Ha).
Qed.

(** So two messages that lie one after the other in one buffer cannot be encoded one after the other: the second
    one loses its first 36 bytes to the encoding of the first. *)
Theorem C91_adjacent h buf (m1 m2 : bytes) arr arr' :
  valid h buf → content h buf = m1 ++ m2 → sl_len buf = length m1 + length m2 → 36 ≤ length m2 →
  let '(h1, r1) := AuthEncodeMem c h (subslice buf 0 (length m1)) arr in
  let '(h2, r2) := AuthEncodeMem c h1 (subslice buf (length m1) (sl_len buf)) arr' in
  r1 = AuthEncode c m1 arr ∧ r2 = AuthEncode c (zeros ++ drop 36 m2) arr'.
Proof.
  intros (a & Ha & H1 & H2) Hc Hlen Hm2.
  assert (Hca : ∀ i, i < sl_len buf → a !! (sl_off buf + i) = (m1 ++ m2) !! i).
  { intros i Hi. transitivity ((content h buf : list byte) !! i).
    - rewrite (content_lookup _ _ _ i Ha). by rewrite decide_True.
    - f_equal. exact Hc. }
  set (d1 := subslice buf 0 (length m1)). set (d2 := subslice buf (length m1) (sl_len buf)).
  assert (valid h d1) as Hv1 by (exists a; cbn; split; [done|]; lia).
  assert (content h d1 = m1) as Hc1.
  { apply list_eq. intros i. rewrite (content_lookup _ d1 a) by done. cbn. case_decide as Hi.
    - replace (sl_off buf + 0 + i) with (sl_off buf + i) by lia. rewrite Hca by lia. apply lookup_app_l. lia.
    - symmetry. apply lookup_ge_None. lia. }
  pose proof (C91_encode_result h d1 arr Hv1) as Hr1. rewrite Hc1 in Hr1.
  destruct (C91_encode_overwrites h d1 arr a) as (_ & a' & Ha' & Hl' & Hlk); [done|done|cbn; lia|].
  destruct (AuthEncodeMem c h d1 arr) as [h1 r1]. cbn [fst snd] in *.
  assert (valid h1 d2) as Hv2 by (exists a'; cbn; split; [done|]; lia).
  pose proof (C91_encode_result h1 d2 arr' Hv2) as Hr2.
  destruct (AuthEncodeMem c h1 d2 arr') as [h2 r2]. cbn [fst snd] in *. split; [done|]. rewrite Hr2. f_equal.
  apply list_eq. intros i. rewrite (content_lookup _ d2 a') by done. cbn. rewrite Hlk. cbn [sl_off sl_len d1 subslice].
  destruct (decide (i < 36)) as [Hi|Hi].
  - rewrite decide_True by lia. rewrite decide_True by lia. rewrite lookup_app_l by (rewrite zeros_len; lia).
    symmetry. unfold zeros. apply lookup_replicate_2. rewrite n36. lia.
  - rewrite lookup_app_r by (rewrite zeros_len; lia). rewrite zeros_len, lookup_drop.
    case_decide.
    + rewrite decide_False by lia. replace (sl_off buf + length m1 + i) with (sl_off buf + (length m1 + i)) by lia.
      rewrite Hca by lia. rewrite lookup_app_r by lia. f_equal. lia.
    + symmetry. apply lookup_ge_None. lia.
Qed.
(** ... unless the caller gives away slices that end where the message ends. *)
Theorem C91_adjacent_capped h buf (m1 m2 : bytes) arr arr' :
  valid h buf → content h buf = m1 ++ m2 → sl_len buf = length m1 + length m2 →
  let '(h1, r1) := AuthEncodeMem c h (subslice_cap buf 0 (length m1)) arr in
  let '(h2, r2) := AuthEncodeMem c h1 (subslice_cap buf (length m1) (sl_len buf)) arr' in
  r1 = AuthEncode c m1 arr ∧ r2 = AuthEncode c m2 arr'.
Proof.
  intros (a & Ha & H1 & H2) Hc Hlen.
  assert (Hca : ∀ i, i < sl_len buf → a !! (sl_off buf + i) = (m1 ++ m2) !! i).
  { intros i Hi. transitivity ((content h buf : list byte) !! i).
    - rewrite (content_lookup _ _ _ i Ha). by rewrite decide_True.
    - f_equal. exact Hc. }
  set (d1 := subslice_cap buf 0 (length m1)). set (d2 := subslice_cap buf (length m1) (sl_len buf)).
  assert (valid h d1) as Hv1 by (exists a; cbn; split; [done|]; lia).
  assert (content h d1 = m1) as Hc1.
  { apply list_eq. intros i. rewrite (content_lookup _ d1 a) by done. cbn. case_decide as Hi.
    - replace (sl_off buf + 0 + i) with (sl_off buf + i) by lia. rewrite Hca by lia. apply lookup_app_l. lia.
    - symmetry. apply lookup_ge_None. lia. }
  pose proof (C91_encode_result h d1 arr Hv1) as Hr1. rewrite Hc1 in Hr1.
  pose proof (C91_encode_frame h d1 arr ltac:(cbn; lia) _ _ Ha) as Ha'. cbn [sl_arr] in Ha'.
  destruct (AuthEncodeMem c h d1 arr) as [h1 r1]. cbn [fst snd] in *.
  assert (valid h1 d2) as Hv2 by (exists a; cbn; split; [done|]; lia).
  pose proof (C91_encode_result h1 d2 arr' Hv2) as Hr2.
  destruct (AuthEncodeMem c h1 d2 arr') as [h2 r2]. cbn [fst snd] in *. split; [done|]. rewrite Hr2. f_equal.
  apply list_eq. intros i. rewrite (content_lookup _ d2 a) by done. cbn. case_decide.
  - replace (sl_off buf + length m1 + i) with (sl_off buf + (length m1 + i)) by lia.
    rewrite Hca by lia. rewrite lookup_app_r by lia. f_equal. lia.
  - symmetry. apply lookup_ge_None. lia.
Qed.

(** AuthReconstruct fills in the shards its caller was missing: after a successful call the caller's table holds all
    of them; before that, every entry is what it was or complete. *)
Theorem C91_reconstruct_fills data arr shards got arr' ran :
  rs_laws c → P14_Ecc.all_answers arr → AuthEncode c data arr = Ok (Some <$> shards) →
  Forall2 (P14_Ecc.survives (rs_k c)) shards got →
  let '(got', r) := AuthReconstructMem c got (Z.of_nat (length data)) arr' ran in
  length got' = 36 ∧
  (∀ i, got' !! i = if decide (i ∈ ran) then shards !! i else got !! i) ∧
  (P14_Ecc.all_answers arr' → r = Ok data ∧
    (** and calling again with the same table gives the same and changes nothing *)
    ∀ arr'' ran', P14_Ecc.all_answers arr'' → (∀ i, i < 36 → i ∈ ran) →
      AuthReconstructMem c got' (Z.of_nat (length data)) arr'' ran' = (got', Ok data)).
Proof.
  intros laws Harr Henc Hs.
  destruct (P14_Ecc.C45_roundtrip c laws data arr Harr) as (shards' & He & Hlen & Hfull & Hdec).
  assert (shards' = shards) as ->.
  { rewrite Henc in He. injection He as He. apply (inj (fmap Some)) in He. done. }
  assert (Hword : ∀ i w, shards !! i = Some w → ∃ chunk, chunk ≠ [] ∧ authEncode c chunk = Some w).
  { intros i w Hw. destruct Harr as (p & Hp & ->).
    assert (i < 36) as Hi by (apply lookup_lt_Some in Hw; lia).
    set (full := data ++ zeros).
    assert (36 ≤ length full) as Hfl by (unfold full; rewrite app_length, zeros_len; lia).
    destruct (P14_Ecc.perm_seq p Hp) as [Hpl Hpi].
    destruct (P14_Ecc.encode_loop_ok c laws full p 36 (replicate 36 None) Hfl) as (res & Hr & _ & Hr1 & _).
    { done. } { intros j. apply Hpi. } { by rewrite replicate_length. }
    unfold AuthEncode in Henc. rewrite n36 in Henc. fold full in Henc. rewrite Hr in Henc. injection Henc as ->.
    exists (chunk_of full i). split.
    - destruct (segment (length full) i) as [s e] eqn:E.
      destruct (P14_Ecc.chunk_of_lookup full i s e 0 E Hi Hfl) as [Hl _].
      pose proof (P14_Ecc.segment_bounds _ _ _ _ E Hi Hfl). intros H0. rewrite H0 in Hl. cbn in Hl. lia.
    - specialize (Hr1 i (proj2 (Hpi i) Hi)). rewrite list_lookup_fmap, Hw in Hr1. cbn in Hr1. by injection Hr1. }
  assert (Hrec : ∀ i w g, shards !! i = Some w → P14_Ecc.survives (rs_k c) w g → recon c g = Some w).
  { intros i w g Hw [Hg1 Hg2]. destruct (Hword i w Hw) as (chunk & Hne & Hen).
    unfold authEncode, Split in Hen. case_decide as Hd; [done|]. cbn in Hen. injection Hen as Hen.
    set (p := per_shard c (length chunk)) in *.
    assert (0 < length chunk) as Hl by lia.
    destruct (P14_Ecc.per_shard_bound c laws (length chunk) Hl) as [Hp Hp0]. fold p in Hp, Hp0.
    rewrite <-Hen in Hg1 |- *. eapply (recon_ok c laws _ p); [apply P14_Ecc.cut_length| |done|done|done].
    apply P14_Ecc.cut_sizes. rewrite app_length, replicate_length. lia. }
  pose proof (Forall2_length _ _ _ Hs) as Hlg.
  assert (Hlook : ∀ i, fill c got ran !! i = if decide (i ∈ ran) then shards !! i else got !! i).
  { intros i. unfold fill. rewrite list_lookup_imap. destruct (got !! i) as [g|] eqn:Eg; cbn.
    - destruct (Forall2_lookup_r _ _ _ _ _ Hs Eg) as (w & Hw & Hsv). case_decide; [|done].
      by rewrite (Hrec i w g Hw Hsv), Hw.
    - case_decide; [|done]. symmetry. apply lookup_ge_None. apply lookup_ge_None in Eg. lia. }
  unfold AuthReconstructMem. split; [unfold fill; rewrite imap_length; lia|]. split; [exact Hlook|].
  intros Harr'. split; [by apply Hdec|]. intros arr'' ran' Harr'' Hran.
  assert (fill c got ran = shards) as Hfs.
  { apply list_eq. intros i. rewrite Hlook. case_decide as Hd; [done|].
    destruct (decide (i < 36)) as [Hi|Hi]; [by destruct Hd; apply Hran|].
    rewrite !(proj2 (lookup_ge_None _ _)) by lia. done. }
  rewrite Hfs.
  assert (Hself : ∀ w, P14_Ecc.full_word c w → P14_Ecc.survives (rs_k c) w w).
  { intros w [Hw1 Hw2]. split.
    - clear. induction w; constructor; [by left|done].
    - assert (num_present w = length w) as ->; [|lia].
      clear -Hw2. unfold num_present. induction Hw2 as [|x w Hx _ IH]; [done|].
      destruct x as [|y x]; [done|]. rewrite filter_cons_True by done. cbn. lia. }
  f_equal.
  - unfold fill. apply list_eq. intros i. rewrite list_lookup_imap. destruct (shards !! i) as [w|] eqn:Ew; [|done]. cbn.
    case_decide; [|done]. rewrite (Hrec i w w Ew); [done|]. apply Hself. by eapply Forall_lookup_1 in Hfull.
  - apply Hdec; [done|]. clear -Hfull Hself. induction Hfull; constructor; [by apply Hself|done].
Qed.
End C91.

(** ** Instances *)
(** Two messages of 40 bytes in one buffer: the second is not what was encoded. *)
Example C91_example :
  let m1 := replicate 40 Byte.x01 in let m2 := replicate 40 Byte.x02 in
  let h : gmap nat (list byte) := {[ 0 := m1 ++ m2 ]} in
  let buf := Slice 0 0 80 80 in
  valid h buf ∧ content h buf = m1 ++ m2 ∧
  AuthEncode P14_Ecc.xor_code m2 (Some <$> seq 0 36) ≠
  (let h1 := (AuthEncodeMem P14_Ecc.xor_code h (subslice buf 0 40) (Some <$> seq 0 36)).1 in
   AuthEncodeMem P14_Ecc.xor_code h1 (subslice buf 40 80) (Some <$> seq 0 36)).2.
Proof.
  cbv zeta. split; [eexists; split; [reflexivity|cbn; lia]|]. split; [reflexivity|].
  intros E. apply (f_equal (λ r, match r with Ok (Some (d :: _) :: _) => Some d | _ => None end)) in E.
  revert E. vm_compute. discriminate.
Qed.
(** A receiver that lost the parity shard of every chunk. *)
Example C91_example_reconstruct :
  ∃ shards got, AuthEncode P14_Ecc.xor_code [Byte.x01; Byte.x02] (Some <$> seq 0 36) = Ok (Some <$> shards) ∧
    Forall2 (P14_Ecc.survives (rs_k P14_Ecc.xor_code)) shards got ∧ got ≠ shards.
Proof.
  assert (P14_Ecc.all_answers (Some <$> seq 0 36)) as Hall by (by exists (seq 0 36)).
  destruct (P14_Ecc.C45_roundtrip P14_Ecc.xor_code P14_Ecc.xor_laws [Byte.x01; Byte.x02] _ Hall) as (shards & He & Hl & Hf & _).
  assert (∀ w, P14_Ecc.full_word P14_Ecc.xor_code w → ∃ a b p, w = [a; b; p] ∧ a ≠ [] ∧ b ≠ [] ∧ p ≠ []) as Hw.
  { intros w [Hw1 Hw2]. cbn in Hw1. destruct w as [|a [|b [|p [|]]]]; try done.
    apply Forall_cons in Hw2 as [? Hw2]. apply Forall_cons in Hw2 as [? Hw2]. apply Forall_cons in Hw2 as [? _].
    by exists a, b, p. }
  exists shards, ((λ w, take 2 w ++ [[]]) <$> shards). split; [done|]. split.
  - clear -Hf Hw. induction Hf as [|w l Hw1 _ IH]; constructor; [|exact IH].
    destruct (Hw w Hw1) as (a & b & p & -> & Ha & Hb & Hp). split; [cbn; constructor; [by left|]; constructor; [by left|]; constructor; [by right|constructor]|].
    by destruct a, b.
  - destruct shards as [|w l]; [done|]. intros [= E _]. apply Forall_cons in Hf as [Hf _].
    destruct (Hw w Hf) as (a & b & p & -> & Ha & Hb & Hp). cbn in E. congruence.
Qed.
