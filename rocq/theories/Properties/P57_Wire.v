(** C114: signatures and the transport. *)
From stdpp Require Import gmap vector.
From Verif.Base Require Import Base.
From Verif.Model Require Import Merkle Ecc Robust Verifier Wire.
From Verif.Proofs Require Import RobustCall.

Local Arguments utf8 : simpl never.
Local Arguments to_digest : simpl never.

Lemma copy_into_list {n} (d : vec byte n) : copy_into n (vec_to_list d) = d.
Proof. induction d as [|b n d IH]; [done|]. cbn. by rewrite IH. Qed.
Lemma to_digest_list (d : digest) : to_digest (vec_to_list d) = d.
Proof. apply copy_into_list. Qed.
Lemma default_wire_bytes b : default [] (wire_bytes b) = default [] b.
Proof. by destruct b as [[|x l]|]. Qed.
Lemma wire_bytes_idem b : wire_bytes (wire_bytes b) = wire_bytes b.
Proof. by destruct b as [[|x l]|]. Qed.
Lemma wire_reps_idem l : wire_reps (wire_reps l) = wire_reps l.
Proof.
  destruct l as [[|x l]|]; [done| |done]. cbn [wire_reps]. rewrite fmap_cons. cbn [wire_reps]. f_equal.
  rewrite !fmap_cons. cbn. f_equal. rewrite <-list_fmap_compose. apply list_fmap_ext. by intros i [y|] _.
Qed.
Lemma wire_cert_idem c : wire_cert (wire_cert c) = wire_cert c.
Proof. unfold wire_cert. cbn. by rewrite !wire_bytes_idem, wire_reps_idem. Qed.
Lemma unpack_wire c : unpack (wire_cert c) = unpack c.
Proof.
  unfold unpack, wire_cert. cbn. rewrite !default_wire_bytes. f_equal.
  destruct (gc_path c) as [[|x l]|]; [done| |done]. cbn. f_equal. induction l as [|y l IH]; [done|]. cbn. by f_equal.
Qed.
Lemma unpack_pack c : unpack (pack c) = c.
Proof.
  destruct c as [r p i s]. unfold unpack, pack. cbn [gc_root gc_path gc_index gc_sig ct_root ct_path ct_index ct_sig].
  cbn [from_option]. unfold id. rewrite to_digest_list. f_equal.
  induction p as [|d p IH]; [done|]. rewrite !fmap_cons. cbn [from_option]. unfold id. rewrite to_digest_list. by f_equal.
Qed.
Lemma wire_note_two n n' : wire_note n = Some n' → wire_note n' = Some n'.
Proof.
  unfold wire_note. destruct (utf8 (gn_uuid n)) eqn:E; [|done]. intros [= <-]. cbn. rewrite E, !wire_bytes_idem.
  do 2 f_equal.
  - destruct (gn_scert n) as [c|]; [|done]. cbn. by rewrite wire_cert_idem.
  - destruct (gn_rcert n) as [c|]; [|done]. cbn. by rewrite wire_cert_idem.
Qed.

(** What arrived once arrives unchanged ever after. *)
Theorem C114_stable p p' : wire_parcel p = Some p' → wire_parcel p' = Some p'.
Proof.
  unfold wire_parcel. destruct (wire_note (gp_note p)) as [n|] eqn:En; [|done]. cbn.
  destruct (utf8 (gp_method p)) eqn:E; [|done]. intros [= <-]. cbn.
  rewrite (wire_note_two _ _ En). cbn. rewrite E, wire_bytes_idem, wire_reps_idem. do 2 f_equal.
  destruct (gp_sig p) as [c|]; [|done]. cbn. by rewrite wire_cert_idem.
Qed.
(** A certificate arrives as it was given: what a verifier reads off it is the same before and after. *)
Theorem C114_certificate c : unpack (wire_cert (pack c)) = c ∧ unpack (wire_cert (wire_cert (pack c))) = c.
Proof. by rewrite !unpack_wire, unpack_pack. Qed.
(** Nothing is sent exactly when the id (for a parcel, the id or the method) is not UTF-8. *)
Theorem C114_refused_note n : wire_note n = None ↔ utf8 (gn_uuid n) = false.
Proof. unfold wire_note. by destruct (utf8 _). Qed.
Theorem C114_refused_parcel p :
  wire_parcel p = None ↔ utf8 (gn_uuid (gp_note p)) = false ∨ utf8 (gp_method p) = false.
Proof.
  unfold wire_parcel, wire_note. destruct (utf8 (gn_uuid _)); cbn; [|naive_solver].
  destruct (utf8 (gp_method p)); naive_solver.
Qed.

Section C114.
Context (H : bytes → digest) {SK PK : Type} (sign : SK → digest → bytes) (sigok : PK → digest → bytes → bool).
Context (encNote : gnote → bytes) (encParcel : gparcel → bytes).
Notation sender_ok := (sender_ok H sigok encNote).
Notation receiver_ok := (receiver_ok H sigok encNote).
Notation parcel_ok := (parcel_ok H sigok encNote encParcel).
Notation client_sign := (client_sign H sign encNote).
Notation server_sign := (server_sign H sign encNote).
Notation sign_parcels := (sign_parcels H sign encNote encParcel).
Notation sign_responses := (sign_responses H sign encNote).

Definition key_pair (sk : SK) (pk : PK) : Prop := ∀ d, sigok pk d (sign sk d) = true.

Lemma certified_ok sk pk strs cs i s c g : key_pair sk pk → (N.of_nat (length strs) ≤ 2 ^ 64)%N →
  sign_strs H sign sk strs = Some cs → strs !! i = Some s → cs !! i = Some c → unpack g = c →
  certified H sigok pk s (Some g) = true.
Proof.
  intros Hk Hl Hs Hi Hc Hg. destruct (sign_strs_ok H sign sk strs Hl) as (cs' & E & _ & Hall).
  rewrite Hs in E. injection E as <-. destruct (Hall i s Hi) as (c' & Hc' & Hr & Hsig & Hv).
  rewrite Hc in Hc'. injection Hc' as <-. unfold certified. rewrite Hg. cbn zeta. rewrite Hv, Hsig. cbn [andb]. apply Hk.
Qed.
Lemma sign_one sk s : ∃ c, sign_strs H sign sk [s] = Some [c].
Proof.
  destruct (sign_strs_ok H sign sk [s]) as (cs & E & Hl & _); [done|].
  destruct cs as [|c [|]]; [done| |done]. by exists c.
Qed.

(** Direct calls: the note a client signs is accepted by the server it reaches, and the note the server then signs is
    accepted by the client it comes back to, whatever the encoding. *)
Theorem C114_direct me server uuid sk pk sk' pk' :
  key_pair sk pk → key_pair sk' pk' → me ≠ [] → server ≠ [] → utf8 uuid = true →
  ∃ n1 n2 n3 n4,
    client_sign (direct_note me server uuid) sk = Some n1 ∧ wire_note n1 = Some n2 ∧ sender_ok pk n2 = true ∧
    server_sign n2 sk' = Some n3 ∧ wire_note n3 = Some n4 ∧ receiver_ok pk' n4 = true ∧
    gn_sender n4 = Some me ∧ gn_receiver n4 = Some server ∧ gn_uuid n4 = uuid.
Proof.
  intros Hk Hk' Hme Hsv Hu.
  destruct (sign_one sk (encNote (direct_note me server uuid))) as [c Hc].
  set (n2 := mkGNote (Some me) (Some server) uuid (Some (wire_cert (pack c))) None).
  assert (wire_note (g_scert (direct_note me server uuid) (Some (pack c))) = Some n2) as H2.
  { unfold wire_note. cbn. rewrite Hu. destruct me; [done|]. destruct server; [done|]. done. }
  destruct (sign_one sk' (encNote n2)) as [c' Hc'].
  set (n4 := mkGNote (Some me) (Some server) uuid (Some (wire_cert (pack c))) (Some (wire_cert (pack c')))).
  assert (wire_note (g_rcert n2 (Some (pack c'))) = Some n4) as H4.
  { unfold wire_note. cbn. rewrite Hu. destruct me; [done|]. destruct server; [done|]. cbn. by rewrite wire_cert_idem. }
  exists (g_scert (direct_note me server uuid) (Some (pack c))), n2, (g_rcert n2 (Some (pack c'))), n4.
  split; [unfold Wire.client_sign; by rewrite Hc|]. split; [exact H2|]. split.
  { apply (certified_ok sk pk [encNote (direct_note me server uuid)] [c] 0 _ c); try done.
    by rewrite unpack_wire, unpack_pack. }
  split; [unfold Wire.server_sign; by rewrite Hc'|]. split; [exact H4|]. split; [|done].
  apply (certified_ok sk' pk' [encNote n2] [c'] 0 _ c'); try done. by rewrite unpack_wire, unpack_pack.
Qed.

(** Finding: the note of a client whose id is an empty slice is not accepted (or two strings collide): it is nil when it
    arrives, and nil is signed differently. *)
Theorem C114_empty_id server uuid sk pk n1 n2 :
  server ≠ [] → Inj eq eq encNote →
  client_sign (direct_note [] server uuid) sk = Some n1 → wire_note n1 = Some n2 →
  sender_ok pk n2 = true → ∃ a b, a ≠ b ∧ H a = H b.
Proof.
  intros Hsv Hinj. unfold Wire.client_sign. set (n0 := direct_note [] server uuid).
  change (sign_strs H sign sk [encNote n0]) with (Some [mkCert (H (encNote n0)) [] 0 (sign sk (H (encNote n0)))]).
  cbn [mbind option_bind lookup list_lookup]. intros [= <-]. unfold wire_note. cbn [gn_uuid g_scert].
  destruct (utf8 (gn_uuid n0)); [|done]. intros [= <-]. unfold Wire.sender_ok, certified.
  cbn [gn_scert g_scert fmap option_fmap option_map]. rewrite unpack_wire, unpack_pack. cbn [ct_root ct_index ct_path ct_sig].
  intros [Hv _]%andb_true_iff. unfold Verify in Hv. rewrite decide_False in Hv by apply map_non_empty_singleton.
  rewrite map_to_list_singleton in Hv. cbn [fmap list_fmap fst snd] in Hv.
  set (m := encNote _) in Hv.
  change (sorting.merge_sort pos_le [(0%N, H m)]) with [(0%N, H m)] in Hv.
  cbn [verify_loop] in Hv. rewrite decide_False in Hv; [|simpl; intros [?|?]; [done|lia]].
  apply bool_decide_eq_true in Hv as [_ Hv]. exists m, (encNote n0). split; [|done].
  intros E. apply Hinj in E. done.
Qed.
(** Finding: a server that signed the very note the client signed, without the transport in between, would make a
    signature that the client does not accept (or two strings collide). *)
Theorem C114_sign_after_transport me server uuid sk sk' pk' n1 n3 n4 :
  Inj eq eq encNote →
  client_sign (direct_note me server uuid) sk = Some n1 → server_sign n1 sk' = Some n3 → wire_note n3 = Some n4 →
  receiver_ok pk' n4 = true → ∃ a b, a ≠ b ∧ H a = H b.
Proof.
  intros Hinj. unfold Wire.client_sign, Wire.server_sign. set (n0 := direct_note me server uuid).
  change (sign_strs H sign sk [encNote n0]) with (Some [mkCert (H (encNote n0)) [] 0 (sign sk (H (encNote n0)))]).
  cbn [mbind option_bind lookup list_lookup]. intros [= <-].
  set (c := mkCert (H (encNote n0)) [] 0 (sign sk (H (encNote n0)))). set (n := g_scert n0 (Some (pack c))).
  change (sign_strs H sign sk' [encNote n]) with (Some [mkCert (H (encNote n)) [] 0 (sign sk' (H (encNote n)))]).
  cbn [mbind option_bind lookup list_lookup]. intros [= <-]. unfold wire_note. cbn [gn_uuid g_rcert].
  destruct (utf8 (gn_uuid n)); [|done]. intros [= <-]. unfold Wire.receiver_ok, certified.
  cbn [gn_rcert g_rcert fmap option_fmap option_map]. rewrite unpack_wire, unpack_pack. cbn [ct_root ct_index ct_path ct_sig].
  intros [Hv _]%andb_true_iff. unfold Verify in Hv. rewrite decide_False in Hv by apply map_non_empty_singleton.
  rewrite map_to_list_singleton in Hv. cbn [fmap list_fmap fst snd] in Hv.
  set (m := encNote (g_rcert _ None)) in Hv.
  change (sorting.merge_sort pos_le [(0%N, H m)]) with [(0%N, H m)] in Hv.
  cbn [verify_loop] in Hv. rewrite decide_False in Hv; [|simpl; intros [?|?]; [done|lia]].
  apply bool_decide_eq_true in Hv as [_ Hv]. exists m, (encNote n). split; [|done].
  intros E. apply Hinj in E. cbn in E. injection E as E1 E2 E3. done.
Qed.

(** Robust calls: every parcel of a robust call is accepted by the server after it went through its relay, and carries
    what the client put in. *)
Theorem C114_robust (code : rs_code) n me server method uuid margs arr ps sk pk :
  key_pair sk pk → me ≠ [] → server ≠ [] → utf8 uuid = true → utf8 method = true → (N.of_nat n < 2 ^ 63)%N →
  requestIntoRobust code n me server method uuid margs arr = Ok ps →
  ∃ ps', sign_parcels sk (go_parcel <$> ps) = Some ps' ∧ length ps' = n ∧
  ∀ i p p', ps !! i = Some p → ps' !! i = Some p' →
    ∃ q, two_hops wire_parcel p' = Some q ∧ parcel_ok pk q = true ∧
      g_parcel q (g_scert (gp_note q) None) None = go_parcel p.
Proof.
  intros Hk Hme Hsv Hu Hm Hn Hreq.
  assert (length ps = n ∧ ∀ i p, ps !! i = Some p → ∃ pl, length pl = NumChunks ∧
     p = mkParcel method (Z.of_nat i) (mkNote me server uuid None None) (le_enc 4 (N.of_nat (length margs))) pl None) as [Hlen Hps].
  { unfold requestIntoRobust in Hreq. case_decide; [done|]. destruct (AuthEncode code margs arr) as [chunks| |] eqn:Ea; [|done|done].
    destruct (mapM _ _) as [ps0|] eqn:Em; [|done]. injection Hreq as <-.
    apply mapM_Some in Em. split. { by rewrite <-(Forall2_length _ _ _ Em), seq_length. }
    intros i p Hp. destruct (Forall2_lookup_r _ _ _ _ _ Em Hp) as (j & Hj & Hb).
    apply lookup_seq in Hj as [-> Hj]. cbn in Hb. destruct (InsertECCPayload chunks i) as [pl|] eqn:Ei; [|done].
    injection Hb as <-. exists pl. split; [|done].
    unfold InsertECCPayload in Ei. apply mapM_Some in Ei. rewrite <-(Forall2_length _ _ _ Ei).
    unfold AuthEncode in Ea.
    assert (∀ data arr todo acc r, encode_loop code data arr todo acc = Ok r → length r = length acc) as Hloop.
    { clear. intros data arr todo. revert arr. induction todo as [|todo IH]; intros arr acc r; cbn.
      - destruct arr as [|[i|] arr]; cbn; by intros [= <-].
      - destruct arr as [|[i|] arr]; cbn; [done| |done]. destruct (authEncode _ _); [|done].
        intros E%IH. by rewrite E, insert_length. }
    apply Hloop in Ea. by rewrite replicate_length in Ea. }
  set (gs := go_parcel <$> ps) in *.
  assert (length gs = n) as Hgl by (unfold gs; by rewrite fmap_length).
  set (strs := (encParcel <$> gs) ++ ((λ p, encNote (gp_note p)) <$> gs)) in *.
  assert (length strs = n + n) as Hsl by (unfold strs; rewrite app_length, !fmap_length; lia).
  assert (N.of_nat (length strs) ≤ 2 ^ 64)%N as Hbound by lia.
  destruct (sign_strs_ok H sign sk strs Hbound) as (cs & Hcs & Hcl & _).
  unfold Wire.sign_parcels. fold strs. rewrite Hcs. eexists. split; [reflexivity|].
  split; [by rewrite imap_length|]. intros i p p' Hp Hp'.
  rewrite list_lookup_imap in Hp'. assert (gs !! i = Some (go_parcel p)) as Hg by (unfold gs; by rewrite list_lookup_fmap, Hp).
  rewrite Hg in Hp'. injection Hp' as <-.
  assert (i < n) as Hi by (rewrite <-Hlen; by apply lookup_lt_Some in Hp).
  destruct (lookup_lt_is_Some_2 cs i) as [c1 Hc1]; [lia|].
  destruct (lookup_lt_is_Some_2 cs (length gs + i)) as [c2 Hc2]; [lia|].
  rewrite Hc1, Hc2. cbn [fmap option_fmap option_map].
  destruct (Hps i p Hp) as (pl & Hpl & ->).
  set (q := mkGParcel method (Z.of_nat i) (mkGNote (Some me) (Some server) uuid (Some (wire_cert (pack c2))) None)
     (Some (le_enc 4 (N.of_nat (length margs)))) (Some (Some <$> pl)) (Some (wire_cert (pack c1)))).
  match goal with |- context [two_hops wire_parcel ?x] => set (x0 := x) end.
  assert (wire_parcel x0 = Some q) as Hw.
  { unfold x0, wire_parcel, wire_note. cbn. rewrite Hu. cbn. rewrite Hm. unfold q.
    destruct me as [|m1 me]; [done|]. destruct server as [|s1 server]; [done|]. destruct pl as [|y pl]; [done|].
    do 2 f_equal. cbn. f_equal. f_equal. rewrite <-list_fmap_compose. by apply list_fmap_ext. }
  exists q. split. { unfold two_hops. rewrite Hw. cbn. by apply C114_stable with x0. }
  split; [|done]. unfold Wire.parcel_ok. apply andb_true_iff. split.
  - apply (certified_ok sk pk strs cs i (encParcel (go_parcel (mkParcel method (Z.of_nat i) (mkNote me server uuid None None)
       (le_enc 4 (N.of_nat (length margs))) pl None))) c1); try done.
    + unfold strs. rewrite lookup_app_l by (rewrite fmap_length; lia). by rewrite list_lookup_fmap, Hg.
    + by rewrite unpack_wire, unpack_pack.
  - apply (certified_ok sk pk strs cs (length gs + i) (encNote (go_note (mkNote me server uuid None None))) c2); try done.
    + unfold strs. rewrite lookup_app_r by (rewrite fmap_length; lia). rewrite fmap_length.
      replace (length gs + i - length gs) with i by lia. by rewrite list_lookup_fmap, Hg.
    + by rewrite unpack_wire, unpack_pack.
Qed.
(** Its responses: the note that reached the server, signed there once for every response, is accepted by the client
    it comes back to through a relay. *)
Theorem C114_response n0 n k sk pk :
  key_pair sk pk → 0 < k → (N.of_nat k ≤ 2 ^ 64)%N →
  wire_note n0 = Some n → gn_rcert n = None →
  ∃ n' q, sign_responses sk n k = Some n' ∧ two_hops wire_note n' = Some q ∧ receiver_ok pk q = true ∧ g_rcert q None = n.
Proof.
  intros Hk Hk0 Hb Hw Hr.
  destruct (sign_strs_ok H sign sk (replicate k (encNote n))) as (cs & Hcs & Hcl & _); [by rewrite replicate_length|].
  rewrite replicate_length in Hcl.
  destruct (last cs) as [c|] eqn:Hlast; [|apply last_None in Hlast; subst cs; cbn in Hcl; lia].
  set (q := g_rcert n (Some (wire_cert (pack c)))).
  assert (wire_note (g_rcert n (Some (pack c))) = Some q) as Hq.
  { pose proof (wire_note_two _ _ Hw) as Hn. unfold wire_note in Hn |- *. cbn [gn_uuid g_rcert]. destruct (utf8 (gn_uuid n)); [|done].
    unfold q, g_rcert. cbn. injection Hn as Hn. destruct n as [a b u s r]. cbn in *. by injection Hn as -> -> -> _. }
  exists (g_rcert n (Some (pack c))), q. split. { unfold Wire.sign_responses. rewrite Hcs. cbn [mbind option_bind]. by rewrite Hlast. }
  split. { unfold two_hops. rewrite Hq. cbn. by apply wire_note_two with (g_rcert n (Some (pack c))). }
  assert (g_rcert q None = n) as Hqn. { unfold q. destruct n as [a b u s r]. cbn in *. by subst r. }
  split; [|done]. unfold Wire.receiver_ok. rewrite Hqn.
  rewrite last_lookup in Hlast. apply (certified_ok sk pk (replicate k (encNote n)) cs (Nat.pred (length cs)) (encNote n) c); try done.
  - by rewrite replicate_length.
  - apply lookup_replicate. split; [done|lia].
  - by rewrite unpack_wire, unpack_pack.
Qed.
End C114.

(** The hypotheses can be met: ids in the strings of signatures, a one-parcel call. *)
Example C114_direct_example :
  ∃ n2 n4 : gnote, sender_ok (PK := unit) (λ s, to_digest s) (λ _ d s, bool_decide (s = vec_to_list d)) (λ n, default [] (gn_sender n)) tt n2 = true ∧
    receiver_ok (PK := unit) (λ s, to_digest s) (λ _ d s, bool_decide (s = vec_to_list d)) (λ n, default [] (gn_sender n)) tt n4 = true ∧
    gn_uuid n4 = "call 7".
Proof.
  destruct (C114_direct (λ s, to_digest s) (SK := unit) (PK := unit) (λ _ d, vec_to_list d) (λ _ d s, bool_decide (s = vec_to_list d))
    (λ n, default [] (gn_sender n)) [Byte.x01] [Byte.x02] "call 7" tt tt tt tt) as (n1 & n2 & n3 & n4 & _ & _ & Hs & _ & _ & Hr & _ & _ & Hu).
  - intros d. by apply bool_decide_eq_true.
  - intros d. by apply bool_decide_eq_true.
  - done.
  - done.
  - reflexivity.
  - by exists n2, n4.
Qed.
(** Latin-1 text is not UTF-8; the same word in UTF-8 is. *)
Example C114_utf8_examples :
  utf8 (String.string_of_list_byte [Byte.x63; Byte.xe9]) = false ∧
  utf8 (String.string_of_list_byte [Byte.x63; Byte.xc3; Byte.xa9]) = true ∧
  utf8 (String.string_of_list_byte [Byte.xed; Byte.xa0; Byte.x80]) = false ∧
  utf8 (String.string_of_list_byte [Byte.xf0; Byte.x9f; Byte.x98; Byte.x80]) = true ∧ utf8 "plain" = true.
Proof. done. Qed.
Print Assumptions C114_direct.
Print Assumptions C114_robust.
Print Assumptions C114_response.
