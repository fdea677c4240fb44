(** Lemmas for the properties of a whole robust call. *)
From stdpp Require Import gmap vector.
From Verif.Base Require Import Base.
From Verif.Model Require Import Merkle Ecc Robust.
From Verif.Properties Require Import P06_Merkle P14_Ecc.
From Verif.Proofs Require Import RobustProofs.

Section signing.
Context (H : bytes → digest) {SK : Type} (sign : SK → digest → bytes).

Lemma sign_strs_ok (sk : SK) strs : (N.of_nat (length strs) ≤ 2 ^ 64)%N →
  ∃ cs, sign_strs H sign sk strs = Some cs ∧ length cs = length strs ∧
    ∀ i s, strs !! i = Some s → ∃ ct, cs !! i = Some ct ∧ ct_root ct = Root (Build H strs) ∧
      ct_sig ct = sign sk (ct_root ct) ∧ Verify H (ct_root ct) {[ct_index ct := s]} (ct_path ct) = true.
Proof using Type.
  intros Hl. unfold sign_strs. set (root := Root (Build H strs)).
  assert (∀ i s, strs !! i = Some s → ∃ p, Prove (Build H strs) [N.of_nat i] = Some p ∧
    Verify H root {[N.of_nat i := s]} p = true) as Hp.
  { intros i s Hs. apply C37_complete; [done|done| |].
    - intros p. case_decide as Hp; rewrite elem_of_list_singleton in Hp.
      + subst p. by rewrite lookup_singleton, Nat2N.id, Hs.
      + by rewrite lookup_singleton_ne.
    - intros p ->%elem_of_list_singleton. rewrite Nat2N.id. by eapply lookup_lt_Some. }
  set (f := λ i, p ← Prove (Build H strs) [N.of_nat i]; Some (mkCert root p (N.of_nat i) (sign sk root))).
  assert (∀ i, i ∈ seq 0 (length strs) → is_Some (f i)) as Hf.
  { intros i Hi%elem_of_seq. destruct (lookup_lt_is_Some_2 strs i) as [s Hs]; [lia|].
    destruct (Hp i s Hs) as (p & Hpr & _). unfold f. rewrite Hpr. simpl. eauto. }
  destruct (mapM f (seq 0 (length strs))) as [cs|] eqn:E.
  2: { exfalso. apply eq_None_not_Some in E. apply E. apply mapM_is_Some_2. by apply Forall_forall. }
  apply mapM_Some in E. exists cs. split; [done|].
  split; [apply Forall2_length in E; by rewrite <-E, seq_length|].
  intros i s Hs. assert (seq 0 (length strs) !! i = Some i) as Hi.
  { apply lookup_seq. split; [lia|]. by eapply lookup_lt_Some. }
  destruct (Forall2_lookup_l _ _ _ _ _ E Hi) as (ct & Hct & Hfi). unfold f in Hfi.
  destruct (Hp i s Hs) as (p & Hpr & Hv). rewrite Hpr in Hfi. simpl in Hfi. injection Hfi as <-.
  exists (mkCert root p (N.of_nat i) (sign sk root)). by split_and!.
Qed.

Context (sigok : bytes → digest → bytes → bool).
Lemma VerifySeq_ok cache pk s ct :
  Verify H (ct_root ct) {[ct_index ct := s]} (ct_path ct) = true →
  ct_root ct ∈ cache ∨ sigok pk (ct_root ct) (ct_sig ct) = true →
  (VerifySeq H sigok cache pk s (Some ct)).1 = None ∧
  ct_root ct ∈ (VerifySeq H sigok cache pk s (Some ct)).2.
Proof using Type.
  intros Hv Hor. unfold VerifySeq. rewrite Hv. case_decide as Hd; [done|].
  destruct Hor as [?| ->]; [done|]. simpl. set_solver.
Qed.
Lemma VerifySeq_iff cache pk s ct :
  Verify H (ct_root ct) {[ct_index ct := s]} (ct_path ct) = true →
  ((VerifySeq H sigok cache pk s (Some ct)).1 = None ↔
   ct_root ct ∈ cache ∨ sigok pk (ct_root ct) (ct_sig ct) = true).
Proof using Type.
  intros Hv. unfold VerifySeq. rewrite Hv. case_decide as Hd; [naive_solver|].
  destruct (sigok _ _ _); naive_solver.
Qed.
End signing.

Section decode.
Context (c : rs_code) (laws : rs_laws c).
Notation width := (rs_k c + rs_m c).

(** Items carrying columns of the encoding of data, enough distinct ones: decoded. *)
Lemma reconstruct_columns (data : bytes) (shards : list (list shard)) (items : list (bytes * (Z * list shard))) arr :
  all_answers arr → (N.of_nat (length data) < 2 ^ 32)%N →
  length shards = 36 → Forall (full_word c) shards →
  (∀ got arr', all_answers arr' → Forall2 (survives (rs_k c)) shards got →
      AuthReconstruct c got (Z.of_nat (length data)) arr' = Ok data) →
  Forall (λ it, it.1 = le_enc 4 (N.of_nat (length data)) ∧
    ∃ i, it.2.1 = Z.of_nat i ∧ i < width ∧ column shards i it.2.2) items →
  NoDup (items.*2).*1 → rs_k c ≤ length items →
  reconstruct_from c items arr = Ok data.
Proof using laws.
  intros Harr Hlen Hs Hfull Hdec Hit Hnd Hk.
  assert (∃ len it items', items = (len, it) :: items') as (len & it & items' & Ei).
  { destruct items as [|[len it] items']; [|by eexists _, _, _]. simpl in Hk. pose proof (rs_k_pos c laws). lia. }
  assert (reconstruct_from c items arr = match Uint32 len, put_all c items.*2 (NewShards c) with
      | Some sz, Some shards => AuthReconstruct c shards (Z.of_N sz) arr | _, _ => Panic end) as ->
    by by rewrite Ei.
  assert (len = le_enc 4 (N.of_nat (length data))) as ->.
  { rewrite Ei in Hit. apply Forall_cons in Hit as [[? _] _]. done. }
  rewrite Uint32_enc by done.
  destruct (put_all_columns c shards (items.*2) (NewShards c)) as (sh' & Hput & Hl' & Hf2 & Hlk).
  { apply Forall_fmap. eapply Forall_impl; [exact Hit|]. intros x [_ Hx]. exact Hx. }
  { unfold NewShards. rewrite replicate_length. by rewrite Hs. }
  { apply Forall2_same_length_lookup_2; [unfold NewShards; rewrite replicate_length; by rewrite Hs|].
    intros j f g Hf Hg. unfold NewShards in Hg. apply lookup_replicate in Hg as [-> _].
    rewrite Forall_forall in Hfull. destruct (Hfull f) as [Hfl _]; [by eapply elem_of_list_lookup_2|].
    split; [done|]. apply Forall2_same_length_lookup_2; [by rewrite replicate_length|].
    intros k x y _ Hy. apply lookup_replicate in Hy as [-> _]. by right. }
  rewrite Hput.
  replace (Z.of_N (N.of_nat (length data))) with (Z.of_nat (length data)) by lia.
  apply Hdec; [done|]. apply Forall2_same_length_lookup_2; [lia|]. intros j f g Hf Hg. split.
  { exact (Forall2_lookup_lr _ _ _ _ _ _ Hf2 Hf Hg). }
  assert (full_word c f) as [Hfl Hfn].
  { rewrite Forall_forall in Hfull. apply Hfull. by eapply elem_of_list_lookup_2. }
  transitivity (length (Z.to_nat <$> (items.*2).*1)); [by rewrite !fmap_length|].
  apply num_present_lower.
  - apply NoDup_fmap_2_strong; [|done]. intros x y Hx Hy Hxy.
    assert (∀ z, z ∈ (items.*2).*1 → (0 ≤ z)%Z) as Hpos.
    { intros z Hz. rewrite <-list_fmap_compose in Hz. apply elem_of_list_fmap in Hz as (it' & -> & Hin).
      rewrite Forall_forall in Hit. destruct (Hit it' Hin) as [_ (i & Hi & _)]. simpl. lia. }
    pose proof (Hpos x Hx). pose proof (Hpos y Hy). lia.
  - intros i Hi. apply elem_of_list_fmap in Hi as (z & -> & Hz).
    rewrite <-list_fmap_compose in Hz. pose proof Hz as Hz'. apply elem_of_list_fmap in Hz' as (it' & Hz' & Hin).
    rewrite Forall_forall in Hit. destruct (Hit it' Hin) as [_ (i & Hi & Hw & _)]. simpl in Hz'.
    assert (z = Z.of_nat i) as Hzi by congruence. clear Hz'. subst z. rewrite Nat2Z.id.
    destruct (lookup_lt_is_Some_2 f i) as [x Hx]; [lia|]. exists x. split.
    + apply (Hlk j f g i x Hf Hg Hx). left. by rewrite <-list_fmap_compose.
    + rewrite Forall_forall in Hfn. apply Hfn. by eapply elem_of_list_lookup_2.
Qed.

(** Fewer distinct indices than data shards: never decoded; an error if nothing is malformed. *)
Lemma reconstruct_few items arr (D : list nat) :
  all_answers arr ∨ stopped_answers arr →
  (∀ it, it ∈ items → Z.to_nat it.2.1 ∈ D) → length D < rs_k c →
  ∀ data, reconstruct_from c items arr ≠ Ok data.
Proof using laws.
  intros Harr HD Hfew data Heq. unfold reconstruct_from in Heq.
  assert (∃ len it items', items = (len, it) :: items') as (len & it & items' & Ei).
  { destruct items as [|[len it] items']; [done|by eexists _, _, _]. }
  assert (match Uint32 len, put_all c items.*2 (NewShards c) with
      | Some sz, Some shards => AuthReconstruct c shards (Z.of_N sz) arr | _, _ => Panic end = Ok data) as Heq'
    by by rewrite Ei in *.
  clear Heq. rename Heq' into Heq.
  destruct (Uint32 len) as [sz|]; [|done].
  destruct (put_all c items.*2 (NewShards c)) as [sh|] eqn:Ep; [|done].
  assert (length sh = 36) as Hl.
  { rewrite (put_all_length c _ _ _ Ep). unfold NewShards. by rewrite replicate_length. }
  destruct (lookup_lt_is_Some_2 sh 0) as [g Hg]; [lia|].
  revert Heq. apply (C46_never_decoded c laws sh (Z.of_N sz) arr 0 g); [done|lia|done|].
  eapply Nat.le_lt_trans; [|exact Hfew]. apply num_present_upper. intros j s Hj Hne.
  assert (j ∈ (Z.to_nat <$> (items.*2).*1) ++ []) as Hin.
  { eapply (put_all_present c _ _ _ Ep [] _ 0 g j s); [done..]. Unshelve.
    intros j' row i' s' Hrow Hs' Hne'. unfold NewShards in Hrow. apply lookup_replicate in Hrow as [-> _].
    apply lookup_replicate in Hs' as [-> _]. done. }
  rewrite app_nil_r in Hin. rewrite <-list_fmap_compose, <-list_fmap_compose in Hin.
  apply elem_of_list_fmap in Hin as (it' & -> & Hin). by apply HD.
Qed.
End decode.

Section columns.
Context (c : rs_code).
Lemma mapM_columns {A} (f : nat → list shard → A) (shards : list (list shard)) n :
  n ≤ rs_k c + rs_m c → Forall (full_word c) shards →
  ∃ l, mapM (λ i, pl ← InsertECCPayload (Some <$> shards) i; Some (f i pl)) (seq 0 n) = Some l ∧ length l = n ∧
    ∀ i, i < n → ∃ pl, column shards i pl ∧ l !! i = Some (f i pl).
Proof using Type.
  intros Hn Hfull.
  assert (∀ i, i < n → ∃ pl, InsertECCPayload (Some <$> shards) i = Some pl ∧ column shards i pl) as Hc.
  { intros i Hi. apply (insert_ecc_column c); [|lia]. eapply Forall_impl; [exact Hfull|]. by intros w [? _]. }
  set (g := λ i, pl ← InsertECCPayload (Some <$> shards) i; Some (f i pl)).
  destruct (mapM g (seq 0 n)) as [l|] eqn:E.
  2: { exfalso. apply eq_None_not_Some in E. apply E. apply mapM_is_Some_2. apply Forall_forall.
       intros i Hi%elem_of_seq. destruct (Hc i) as (pl & Hpl & _); [lia|]. unfold g, compose. rewrite Hpl. simpl. eauto. }
  apply mapM_Some in E. exists l. split; [done|].
  split; [apply Forall2_length in E; by rewrite <-E, seq_length|].
  intros i Hi. destruct (Hc i Hi) as (pl & Hpl & Hcol). exists pl. split; [done|].
  assert (seq 0 n !! i = Some i) as Hs by (apply lookup_seq; lia).
  destruct (Forall2_lookup_l _ _ _ _ _ E Hs) as (x & Hx & Hg). unfold g in Hg. rewrite Hpl in Hg. simpl in Hg. congruence.
Qed.
End columns.

Section whole.
Context (H : bytes → digest) {SK : Type} (sign : SK → digest → bytes) (pub : SK → bytes)
        (sigok : bytes → digest → bytes → bool).
Context (encNote : Note → bytes) (encParcel : Parcel → bytes).
Context {V : Type} (enc : V → bytes).
Context (c : rs_code) (laws : rs_laws c).
Notation width := (rs_k c + rs_m c).

(** What an honest client sends. *)
Lemma parcels_ok n ck srv m u margs arr :
  n ≤ width → (N.of_nat (2 * n) ≤ 2 ^ 64)%N → (N.of_nat (length margs) < 2 ^ 32)%N → all_answers arr →
  ∃ shards sps root,
    length shards = 36 ∧ Forall (full_word c) shards ∧
    (∀ got arr', all_answers arr' → Forall2 (survives (rs_k c)) shards got →
      AuthReconstruct c got (Z.of_nat (length margs)) arr' = Ok margs) ∧
    RobustCall_parcels H sign pub encNote encParcel c n ck srv m u margs arr = Some sps ∧ length sps = n ∧
    ∀ i p, sps !! i = Some p → ∃ pl ct1 ct2, column shards i pl ∧
      p = mkParcel m (Z.of_nat i) (mkNote (pub ck) srv u (Some ct2) None) (le_enc 4 (N.of_nat (length margs))) pl (Some ct1) ∧
      ct_root ct1 = root ∧ ct_root ct2 = root ∧ ct_sig ct1 = sign ck root ∧ ct_sig ct2 = sign ck root ∧
      Verify H root {[ct_index ct1 := encParcel (set_sig (set_note p (set_scert (p_note p) None)) None)]} (ct_path ct1) = true ∧
      Verify H root {[ct_index ct2 := encNote (set_scert (p_note p) None)]} (ct_path ct2) = true.
Proof using laws.
  intros Hn H2n Hlen Harr. destruct (C45_roundtrip c laws margs arr Harr) as (shards & Henc & Hs & Hfull & Hdec).
  set (mk := λ (i : nat) (pl : list shard), mkParcel m (Z.of_nat i) (mkNote (pub ck) srv u None None)
    (le_enc 4 (N.of_nat (length margs))) pl None).
  destruct (mapM_columns c mk shards n Hn Hfull) as (ps & Hps & Hpl & Hcol).
  destruct (sign_strs_ok H sign ck ((encParcel <$> ps) ++ ((λ p, encNote (p_note p)) <$> ps))) as (cs & Hcs & Hcl & Hv).
  { rewrite app_length, !fmap_length, Hpl. lia. }
  set (root := Root _) in Hv.
  set (sps := imap (λ i p, set_sig (set_note p (set_scert (p_note p) (cs !! (length ps + i)))) (cs !! i)) ps).
  exists shards, sps, root. split; [done|]. split; [done|]. split; [done|]. split; [|split].
  - unfold RobustCall_parcels, requestIntoRobust. rewrite decide_False by lia. rewrite Henc.
    fold mk. change (mapM _ _) with (mapM (λ i, pl ← InsertECCPayload (Some <$> shards) i; Some (mk i pl)) (seq 0 n)).
    rewrite Hps. unfold sign_requests. rewrite Hcs. done.
  - unfold sps. by rewrite imap_length.
  - intros i p Hp. unfold sps in Hp. rewrite list_lookup_imap in Hp.
    destruct (ps !! i) as [p0|] eqn:Hp0; [|done]. simpl in Hp. injection Hp as <-.
    assert (i < n) as Hi by (rewrite <-Hpl; by eapply lookup_lt_Some).
    destruct (Hcol i Hi) as (pl & Hc & Hpi). rewrite Hp0 in Hpi. injection Hpi as ->.
    destruct (Hv i (encParcel (mk i pl))) as (ct1 & Hct1 & Hr1 & Hs1 & Hv1).
    { apply lookup_app_l_Some. by rewrite list_lookup_fmap, Hp0. }
    destruct (Hv (length ps + i) (encNote (p_note (mk i pl)))) as (ct2 & Hct2 & Hr2 & Hs2 & Hv2).
    { rewrite lookup_app_r by (rewrite fmap_length; lia). rewrite fmap_length.
      replace (length ps + i - length ps) with i by lia. by rewrite list_lookup_fmap, Hp0. }
    rewrite Hct1, Hct2. exists pl, ct1, ct2. rewrite Hr1 in Hs1, Hv1. rewrite Hr2 in Hs2, Hv2.
    split; [done|]. split; [done|]. split; [done|]. split; [done|]. split; [done|]. split; [done|]. by split.
Qed.

Lemma parcel_accepted_iff ct1 ct2 between cache i p (root : digest) :
  p_index p = Z.of_nat i → p_sig p = Some ct1 → n_scert (p_note p) = Some ct2 →
  ct_root ct1 = root → ct_root ct2 = root →
  sigok (n_sender (p_note p)) root (ct_sig ct1) = true →
  Verify H root {[ct_index ct1 := encParcel (set_sig (set_note p (set_scert (p_note p) None)) None)]} (ct_path ct1) = true →
  Verify H root {[ct_index ct2 := encNote (set_scert (p_note p) None)]} (ct_path ct2) = true →
  root ∈ (VerifySeq H sigok cache (n_sender (p_note p))
      (encParcel (set_sig (set_note p (set_scert (p_note p) None)) None)) (p_sig p)).2 ∧
  ((validateParcelWith H sigok encNote encParcel between cache i p).1 = None ↔
   root ∈ between (VerifySeq H sigok cache (n_sender (p_note p))
      (encParcel (set_sig (set_note p (set_scert (p_note p) None)) None)) (p_sig p)).2 ∨
   sigok (n_receiver (p_note p)) root (ct_sig ct2) = true).
Proof using Type.
  intros Hi Hs1 Hs2 <- Hr2 Hok Hv1 Hv2. unfold validateParcelWith. rewrite decide_False by (intros Hne; by apply Hne).
  rewrite Hs1. destruct (VerifySeq_ok H sigok cache (n_sender (p_note p)) _ ct1 Hv1) as [E1 E2]; [by right|].
  destruct (VerifySeq H sigok cache _ _ _) as [o cache'] eqn:E. simpl in E1, E2. subst o. simpl. split; [done|].
  rewrite Hs2. rewrite <-Hr2 in Hv2 |- *. by apply VerifySeq_iff.
Qed.

(** What a server's answers look like. *)
Lemma responses_ok ssk {hnd} (t : task hnd) old v arr :
  (N.of_nat width ≤ 2 ^ 64)%N → all_answers arr → n_rcert (t_note t) = None →
  ∃ shards rs resps ct,
    let data := old ++ enc v in
    length shards = 36 ∧ Forall (full_word c) shards ∧
    (∀ got arr', all_answers arr' → Forall2 (survives (rs_k c)) shards got →
      AuthReconstruct c got (Z.of_nat (length data)) arr' = Ok data) ∧
    prepareCallResponse enc c old v arr = (Ok rs, data) ∧ length rs = width ∧
    respond H sign pub encNote c ssk t (RunOk rs) = Some resps ∧ length resps = width ∧
    ct_sig ct = sign ssk (ct_root ct) ∧
    Verify H (ct_root ct) {[ct_index ct := encNote (t_note t)]} (ct_path ct) = true ∧
    ∀ i resp, resps !! i = Some resp → ∃ pl, column shards i pl ∧
      resp = mkCSR None (Some (mkResp (le_enc 4 (N.of_nat (length data))) (Z.of_nat i) pl)) (pub ssk)
        (Some (set_rcert (t_note t) (Some ct))).
Proof using laws.
  intros Hw Harr Hrc. set (data := old ++ enc v).
  destruct (C45_roundtrip c laws data arr Harr) as (shards & Henc & Hs & Hfull & Hdec).
  set (mk := λ (i : nat) (pl : list shard), mkResp (le_enc 4 (N.of_nat (length data))) (Z.of_nat i) pl).
  destruct (mapM_columns c mk shards width (le_n _) Hfull) as (rs & Hrs & Hrl & Hcol).
  destruct (sign_strs_ok H sign ssk (replicate (length rs) (encNote (t_note t)))) as (cs & Hcs & Hcl & Hv).
  { rewrite replicate_length, Hrl. done. }
  pose proof (rs_k_pos c laws) as Hk. rewrite replicate_length in Hcl.
  destruct (last cs) as [ct|] eqn:El; [|apply last_None in El; subst cs; simpl in Hcl; lia].
  rewrite last_lookup in El.
  destruct (Hv (pred (length cs)) (encNote (t_note t))) as (ct' & Hct' & Hr & Hsg & Hver).
  { apply lookup_replicate. split; [done|]. lia. }
  assert (ct' = ct) as -> by congruence.
  set (resps := map (λ r, mkCSR None (Some r) (pub ssk) (Some (set_rcert (t_note t) (Some ct)))) rs).
  exists shards, rs, resps, ct. intros data'. split; [done|]. split; [done|]. split; [done|]. split; [|split; [done|split]].
  - unfold prepareCallResponse. fold data. rewrite Henc.
    change (mapM _ _) with (mapM (λ i, pl ← InsertECCPayload (Some <$> shards) i; Some (mk i pl)) (seq 0 width)).
    by rewrite Hrs.
  - unfold respond. rewrite Hcs, last_lookup, El. done.
  - unfold resps. split; [by rewrite map_length|]. split; [done|]. split; [done|].
    intros i resp Hi. change (resps !! i = Some resp) in Hi. unfold resps in Hi.
    change (map ?f rs) with (f <$> rs) in Hi. rewrite list_lookup_fmap in Hi.
    destruct (rs !! i) as [r|] eqn:Er; [|done]. simpl in Hi. injection Hi as <-.
    destruct (Hcol i) as (pl & Hc & Hri); [rewrite <-Hrl; by eapply lookup_lt_Some|].
    exists pl. split; [done|]. rewrite Er in Hri. by injection Hri as ->.
Qed.
End whole.
