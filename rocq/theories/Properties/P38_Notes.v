(** C93: the two signatures of an exchange note. *)
From stdpp Require Import gmap sorting vector.
From Verif.Base Require Import Base.
From Verif.Model Require Import Merkle Notes.
From Verif.Spec Require Import MerkleSpec.
From Verif.Properties Require Import P06_Merkle.

Lemma verify_one H d e : Verify H d {[0%N := e]} [] = bool_decide (H e = d).
Proof.
  unfold Verify. rewrite decide_False by apply map_non_empty_singleton.
  rewrite map_to_list_singleton. cbn [fmap list_fmap fst snd].
  change (merge_sort pos_le [(0%N, ?h)]) with [(0%N, h)].
  cbn [verify_loop]. rewrite decide_False; [|simpl; intros [?|?]; [done|lia]].
  apply bool_decide_ext. naive_solver.
Qed.

Section C93.
Context (H : bytes → digest) {SK PK : Type} (enc : note → bytes).
Context (sign : SK → digest → bytes) (sigok : PK → digest → bytes → bool).
Notation sign_sender := (sign_sender H enc sign).
Notation sign_receiver := (sign_receiver H enc sign).
Notation verify_sender := (verify_sender H enc sigok).
Notation verify_receiver := (verify_receiver H enc sigok).

Lemma sign_sender_eq n sk :
  sign_sender n sk = Some (with_sproof n (Some (mkCert (H (enc n)) [] 0 (sign sk (H (enc n)))))).
Proof. by destruct n. Qed.
Lemma sign_receiver_eq n sk :
  sign_receiver n sk = Some (with_rproof n (Some (mkCert (H (enc n)) [] 0 (sign sk (H (enc n)))))).
Proof. by destruct n. Qed.
Lemma verify_sender_eq pk n root sg :
  n_sproof n = Some (mkCert root [] 0 sg) →
  verify_sender pk n = bool_decide (H (enc (with_sproof n None)) = root) && sigok pk root sg.
Proof.
  intros Hn. unfold Notes.verify_sender, path_ok, signature_ok, senderNote. cbn [sg_cert sg_body]. rewrite Hn.
  cbn [ct_root ct_index ct_path ct_sig]. by rewrite verify_one.
Qed.
Lemma verify_receiver_eq pk n root sg :
  n_rproof n = Some (mkCert root [] 0 sg) →
  verify_receiver pk n = bool_decide (H (enc (with_rproof n None)) = root) && sigok pk root sg.
Proof.
  intros Hn. unfold Notes.verify_receiver, path_ok, signature_ok, receiverNote. cbn [sg_cert sg_body]. rewrite Hn.
  cbn [ct_root ct_index ct_path ct_sig]. by rewrite verify_one.
Qed.

(** Keys belong together. *)
Definition key_pair (sk : SK) (pk : PK) : Prop := ∀ d, sigok pk d (sign sk d) = true.

(** A note the sender signs verifies under the sender's key, and one the receiver then signs verifies under the
    receiver's. *)
Theorem C93_sender n sk pk : key_pair sk pk → n_sproof n = None →
  ∃ n', sign_sender n sk = Some n' ∧ n' = with_sproof n (n_sproof n') ∧ verify_sender pk n' = true.
Proof.
  intros Hk Hn. rewrite sign_sender_eq. eexists. split; [done|]. split; [done|].
  rewrite (verify_sender_eq pk _ (H (enc n)) (sign sk (H (enc n)))) by done.
  destruct n as [a b c sp rp]. cbn in Hn. subst sp. cbn. rewrite bool_decide_true by done. apply Hk.
Qed.
Theorem C93_receiver n sk pk : key_pair sk pk → n_rproof n = None →
  ∃ n', sign_receiver n sk = Some n' ∧ n' = with_rproof n (n_rproof n') ∧ verify_receiver pk n' = true.
Proof.
  intros Hk Hn. rewrite sign_receiver_eq. eexists. split; [done|]. split; [done|].
  rewrite (verify_receiver_eq pk _ (H (enc n)) (sign sk (H (enc n)))) by done.
  destruct n as [a b c sp rp]. cbn in Hn. subst rp. cbn. rewrite bool_decide_true by done. apply Hk.
Qed.

(** Finding: once both have signed, the sender's signature no longer verifies -- unless the hash maps the note with
    and without the receiver's certificate to the same digest -- although it does as soon as the receiver's
    certificate is taken out. *)
Theorem C93_both_signed n n1 n2 sk pk sk' :
  key_pair sk pk → n_sproof n = None → n_rproof n = None →
  sign_sender n sk = Some n1 → sign_receiver n1 sk' = Some n2 →
  (verify_sender pk n2 = true ↔ H (enc (with_sproof n2 None)) = H (enc n)) ∧
  n ≠ with_sproof n2 None ∧
  verify_sender pk (with_rproof n2 None) = true.
Proof.
  intros Hk Hs Hr. rewrite sign_sender_eq. intros [= <-]. rewrite sign_receiver_eq. intros [= <-].
  destruct n as [a b c sp rp]. cbn in Hs, Hr. subst sp rp.
  set (n0 := mkNote a b c None None). set (d := H (enc n0)).
  split; [|split].
  - rewrite (verify_sender_eq pk _ d (sign sk d)) by done. rewrite Hk, andb_true_r. rewrite bool_decide_eq_true. done.
  - done.
  - rewrite (verify_sender_eq pk _ d (sign sk d)) by done. rewrite Hk, andb_true_r. by rewrite bool_decide_eq_true.
Qed.

(** The receiver's signature covers the sender's: putting another sender's certificate (or none) into a note the
    receiver signed makes it invalid, or exhibits two strings with the same hash. *)
Theorem C93_receiver_binds n n' c sk pk :
  n_rproof n = None → sign_receiver n sk = Some n' → c ≠ n_sproof n → Inj eq eq enc →
  verify_receiver pk (with_sproof n' c) = true → ∃ a b, a ≠ b ∧ H a = H b.
Proof.
  intros Hr. rewrite sign_receiver_eq. intros [= <-] Hc Hinj. destruct n as [x y z sp rp]. cbn in Hr, Hc. subst rp.
  rewrite (verify_receiver_eq pk _ (H (enc (mkNote x y z sp None))) (sign sk (H (enc (mkNote x y z sp None))))) by done.
  intros [Hb _]%andb_true_iff. apply bool_decide_eq_true in Hb. cbn in Hb. eexists _, _. split; [|exact Hb].
  intros E. apply Hinj in E. cbn in E. injection E as E. done.
Qed.
(** The same for the sender's signature and anything else in the note. *)
Theorem C93_sender_binds n n' m sk pk :
  n_sproof n = None → sign_sender n sk = Some n' → n_sproof m = n_sproof n' → with_sproof m None ≠ n → Inj eq eq enc →
  verify_sender pk m = true → ∃ a b, a ≠ b ∧ H a = H b.
Proof.
  intros Hs. rewrite sign_sender_eq. intros [= <-] Hm Hne Hinj. cbn in Hm.
  rewrite (verify_sender_eq pk m _ _ Hm). intros [Hb _]%andb_true_iff. apply bool_decide_eq_true in Hb.
  eexists _, _. split; [|exact Hb]. intros E. apply Hinj in E. done.
Qed.

(** Finding: nothing in a certificate says in which role it was given: a sender's certificate is one of a receiver, for
    the same note, and the other way round. *)
Theorem C93_roles n c pk :
  verify_sender pk (mkNote (n_sender n) (n_receiver n) (n_uuid n) (Some c) None) =
  verify_receiver pk (mkNote (n_sender n) (n_receiver n) (n_uuid n) None (Some c)).
Proof. done. Qed.
(** So whoever has a note that [sk] signed as a sender has one that counts as signed by [sk] as the receiver. *)
Theorem C93_sender_as_receiver n n' sk pk :
  key_pair sk pk → n_sproof n = None → n_rproof n = None → sign_sender n sk = Some n' →
  ∃ m, n_sender m = n_sender n ∧ n_receiver m = n_receiver n ∧ n_uuid m = n_uuid n ∧
    m = mkNote (n_sender n') (n_receiver n') (n_uuid n') None (n_sproof n') ∧ verify_receiver pk m = true.
Proof.
  intros Hk Hs Hr Hn. destruct (C93_sender n sk pk Hk Hs) as (n1 & Hn1 & Heq & Hv).
  assert (n1 = n') as -> by congruence. exists (mkNote (n_sender n') (n_receiver n') (n_uuid n') None (n_sproof n')).
  assert (n_sender n' = n_sender n ∧ n_receiver n' = n_receiver n ∧ n_uuid n' = n_uuid n ∧ n_rproof n' = None) as (E1 & E2 & E3 & E4).
  { rewrite Heq. cbn. done. }
  split; [done|]. split; [done|]. split; [done|]. split; [done|].
  rewrite sign_sender_eq in Hn. injection Hn as <-. cbn [n_sproof with_sproof]. rewrite <-C93_roles.
  cbn [n_sender n_receiver n_uuid]. destruct n as [a b c sp rp]. cbn in *. subst sp rp. exact Hv.
Qed.
End C93.

(** A robust call signs its notes and parcels together (client.go:250-265): the same finding there.  [arr]: the strings
    signed together, the note's at position i. *)
Theorem C93_both_signed_batch (H : bytes → digest) (enc : note → bytes) arr i n c rc proof sg :
  Inj eq eq enc → arr !! i = Some (enc (mkNote (n_sender n) (n_receiver n) (n_uuid n) None None)) →
  c = mkCert (Root (Build H arr)) proof (N.of_nat i) sg →
  path_ok H (enc_sender enc) (senderNote (mkNote (n_sender n) (n_receiver n) (n_uuid n) (Some c) (Some rc))) = true →
  let e := enc (mkNote (n_sender n) (n_receiver n) (n_uuid n) None (Some rc)) in
  clash H (verify_strings H (N.of_nat i) e proof) (build_strings H arr) ∨ length e = 64 ∨ (∃ a, a ∈ arr ∧ length a = 64).
Proof.
  intros Hinj Ha -> Hp. unfold path_ok, senderNote in Hp. cbn in Hp.
  destruct (C38_sound _ _ _ _ _ Hp) as [He|He]; [|exact He]. rewrite Nat2N.id, Ha in He. injection He as He.
  apply Hinj in He. unfold with_sproof in He. cbn in He. done.
Qed.

(** ** An instance: an injective encoding, keys and a hash that tells the two notes apart. *)
Section example.
Definition put (b : bytes) : bytes := mjoin ((λ x, [Byte.x01; x]) <$> b) ++ [Byte.x00].
Definition toy_enc (n : note) : bytes :=
  put (n_sender n) ++ put (n_receiver n) ++ put (n_uuid n) ++
  (match n_sproof n with None => [Byte.x00] | Some _ => [Byte.x01] end) ++
  (match n_rproof n with None => [Byte.x00] | Some _ => [Byte.x01] end).
Definition toy_sign (sk : unit) (d : digest) : bytes := vec_to_list d.
Definition toy_sigok (pk : unit) (d : digest) (s : bytes) : bool := bool_decide (s = vec_to_list d).
Example C93_example :
  let n := mkNote [Byte.x61] [Byte.x62] [Byte.x63] None None in
  key_pair toy_sign toy_sigok tt tt ∧
  ∃ n1 n2, sign_sender toyH toy_enc toy_sign n tt = Some n1 ∧ sign_receiver toyH toy_enc toy_sign n1 tt = Some n2 ∧
    verify_sender toyH toy_enc toy_sigok tt n1 = true ∧ verify_receiver toyH toy_enc toy_sigok tt n2 = true ∧
    verify_sender toyH toy_enc toy_sigok tt n2 = false ∧
    verify_receiver toyH toy_enc toy_sigok tt (mkNote [Byte.x61] [Byte.x62] [Byte.x63] None (n_sproof n1)) = true.
Proof.
  cbv zeta. split; [intros d; by apply bool_decide_eq_true|]. eexists _, _. split; [reflexivity|]. split; [reflexivity|].
  split; [vm_compute; reflexivity|]. split; [vm_compute; reflexivity|]. split; vm_compute; reflexivity.
Qed.

(** An injective encoding exists. *)
Fixpoint pos_bytes (p : positive) : bytes :=
  match p with xH => [] | xO p => Byte.x00 :: pos_bytes p | xI p => Byte.x01 :: pos_bytes p end.
Global Instance pos_bytes_inj : Inj eq eq pos_bytes.
Proof. intros p. induction p as [p IH|p IH|]; intros [q|q|]; cbn; try done; intros [= E]; f_equal; by apply IH. Qed.
Global Instance cert_eq_dec : EqDecision cert.
Proof. solve_decision. Defined.
Global Instance cert_countable : Countable cert.
Proof.
  apply (inj_countable' (λ c, (ct_root c, ct_path c, ct_index c, ct_sig c)) (λ x, mkCert x.1.1.1 x.1.1.2 x.1.2 x.2)). by intros [].
Defined.
Global Instance note_eq_dec : EqDecision note.
Proof. solve_decision. Defined.
Global Instance note_countable : Countable note.
Proof.
  apply (inj_countable' (λ n, (n_sender n, n_receiver n, n_uuid n, n_sproof n, n_rproof n))
    (λ x, mkNote x.1.1.1.1 x.1.1.1.2 x.1.1.2 x.1.2 x.2)). by intros [].
Defined.
Example C93_injective : ∃ enc : note → bytes, Inj eq eq enc.
Proof. exists (λ n, pos_bytes (encode n)). intros n n' E. apply pos_bytes_inj in E. by apply encode_inj in E. Qed.
End example.
