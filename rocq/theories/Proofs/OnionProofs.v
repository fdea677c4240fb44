(** Proofs about onion headers, grouping and the sender. *)
From Coq Require Import Ascii.
From stdpp Require Import gmap.
From Verif.Base Require Import Base Strs.
From Verif.Model Require Import Topology Onion.

Lemma onion_header_attach c l p :
  (l < 2 ^ 32)%N → (p < 2 ^ 32)%N →
  onion_header (attach_header c l p) = Some (l, p) ∧
  cipher_part (attach_header c l p) = Some c.
Proof.
  intros Hl Hp. unfold onion_header, cipher_part, attach_header.
  rewrite !app_length, !be_enc_length.
  rewrite !decide_False by lia. split.
  - f_equal. f_equal.
    + replace (length c + (4 + 4) - 8) with (length c) by lia.
      rewrite drop_app. rewrite take_app_alt by by rewrite be_enc_length.
      by apply be_dec_enc_small.
    + replace (length c + (4 + 4) - 4) with (length c + 4) by lia.
      rewrite drop_app_ge by lia.
      replace (length c + 4 - length c) with 4 by lia.
      rewrite drop_app_alt by by rewrite be_enc_length.
      by apply be_dec_enc_small.
  - f_equal. rewrite take_app_alt; [done|lia].
Qed.

Lemma onion_header_short c : length c < 8 → onion_header c = None ∧ cipher_part c = None.
Proof. intros H. unfold onion_header, cipher_part. by rewrite !decide_True. Qed.

(** Every onion of at least 8 bytes is some cipher with some header. *)
Lemma onion_header_inv c l p :
  onion_header c = Some (l, p) →
  ∃ b, c = attach_header b l p ∧ cipher_part c = Some b ∧ (l < 2^32)%N ∧ (p < 2^32)%N.
Proof.
  unfold onion_header, cipher_part. case_decide as Hd; [done|]. intros [= <- <-].
  exists (take (length c - 8) c). unfold attach_header.
  set (h := take 4 (drop (length c - 8) c)). set (q := drop (length c - 4) c).
  assert (Lh : length h = 4) by (unfold h; rewrite take_length, drop_length; lia).
  assert (Lq : length q = 4) by (unfold q; rewrite drop_length; lia).
  pose proof (be_enc_dec h) as Eh. pose proof (be_enc_dec q) as Eq.
  rewrite Lh in Eh. rewrite Lq in Eq. rewrite Eh, Eq.
  pose proof (be_dec_bound h) as Bh. pose proof (be_dec_bound q) as Bq.
  rewrite Lh in Bh. rewrite Lq in Bq. change (256 ^ N.of_nat 4)%N with (2^32)%N in *.
  split; [|split; [done|split; done]].
  rewrite <-(take_drop (length c - 8) c) at 1. f_equal.
  rewrite <-(take_drop 4 (drop (length c - 8) c)). fold h. f_equal.
  unfold q. rewrite drop_drop. f_equal. lia.
Qed.

(** ** Grouping *)
Section group.
Context (key : LogicalMix → string) (t : topology).

Definition key_of (o : onion) : option string := key <$> ExtractMixConfig t o.

Lemma group_fold_None os : foldl (group_step key t) None os = None.
Proof. induction os as [|o os IH]; simpl; [done|]. exact IH. Qed.

Lemma group_fold_spec os g0 :
  match foldl (group_step key t) (Some g0) os with
  | Some g => Forall (λ o, is_Some (ExtractMixConfig t o)) os ∧
     (∀ k, default [] (g !! k) = default [] (g0 !! k) ++ filter (λ o, key_of o = Some k) os) ∧
     (∀ k, g !! k = Some [] → g0 !! k = Some [])
  | None => ¬ Forall (λ o, is_Some (ExtractMixConfig t o)) os
  end.
Proof.
  revert g0. induction os as [|o os IH]; intros g0; simpl.
  - split; [constructor|]. split; [intros k; by rewrite app_nil_r|done].
  - destruct (ExtractMixConfig t o) as [mix|] eqn:E; simpl.
    + set (g1 := <[key mix:=default [] (g0 !! key mix) ++ [o]]> g0).
      specialize (IH g1).
      destruct (foldl (group_step key t) (Some g1) os) as [g|] eqn:F.
      * destruct IH as (H1 & H2 & H3). split; [constructor; [by eexists|done]|]. split.
        -- intros k. rewrite H2. rewrite filter_cons.
           assert (key_of o = Some (key mix)) as Hko by (unfold key_of; by rewrite E).
           unfold g1. destruct (decide (key_of o = Some k)) as [Hk|Hne];
             rewrite Hko in *; [injection Hk as <-|].
           ++ rewrite lookup_insert. simpl. by rewrite <-app_assoc.
           ++ rewrite lookup_insert_ne by congruence. done.
        -- intros k Hk. apply H3 in Hk. unfold g1 in Hk.
           apply lookup_insert_Some in Hk as [[_ Hk]|[_ Hk]]; [|done].
           by apply app_eq_nil in Hk as [_ ?].
      * intros HF. apply IH. by apply Forall_cons in HF as [_ ?].
    + rewrite group_fold_None. intros HF. apply Forall_cons in HF as [[x Hx] _]. congruence.
Qed.

Lemma group_by_spec os g :
  group_by key os t = Some g →
  Forall (λ o, is_Some (ExtractMixConfig t o)) os ∧
  ∀ k, (g !! k = None ↔ filter (λ o, key_of o = Some k) os = []) ∧
       (∀ grp, g !! k = Some grp → grp = filter (λ o, key_of o = Some k) os ∧ grp ≠ []).
Proof.
  unfold group_by. destruct (tp_layers t !! 0) as [l0|]; simpl; [|done].
  case_decide; [done|]. intros Hf. pose proof (group_fold_spec os ∅) as H'.
  rewrite Hf in H'. destruct H' as (H1 & H2 & H3). split; [done|]. intros k.
  specialize (H2 k). rewrite lookup_empty in H2. simpl in H2. split.
  - split.
    + intros E. rewrite E in H2. simpl in H2. done.
    + intros E. rewrite E in H2. destruct (g !! k) as [grp|] eqn:G; [|done]. simpl in H2. subst grp.
      apply H3 in G. by rewrite lookup_empty in G.
  - intros grp G. rewrite G in H2. simpl in H2. split; [done|]. intros ->.
    apply H3 in G. by rewrite lookup_empty in G.
Qed.

Lemma group_by_success os :
  is_Some (group_by key os t) ↔
  (∃ l0, tp_layers t !! 0 = Some l0 ∧ (l0 = [] → os = [])) ∧
  Forall (λ o, is_Some (ExtractMixConfig t o)) os.
Proof.
  unfold group_by. destruct (tp_layers t !! 0) as [l0|] eqn:El; simpl.
  - case_decide as Hd.
    + split; [intros [x Hx]; done|]. intros [(l & [= <-] & H) _]. destruct Hd as [-> Hd].
      by destruct Hd; apply H.
    + pose proof (group_fold_spec os ∅) as H'.
      destruct (foldl _ _ os) as [g|].
      * destruct H' as (H1 & _). split; [intros _|eauto]. split; [|done].
        exists l0. split; [done|]. intros ->. destruct os; [done|]. by destruct Hd.
      * split; [intros [x Hx]; done|]. intros [_ HF]. done.
  - split; [intros [x Hx]; done|]. intros [(l & Hl & _) _]. congruence.
Qed.
End group.

Lemma filter_split_perm {A} (P : A → Prop) `{!∀ x, Decision (P x)} (l : list A) :
  filter P l ++ filter (λ x, ¬ P x) l ≡ₚ l.
Proof.
  induction l as [|x l IH]; [done|]. rewrite !filter_cons.
  destruct (decide (P x)) as [HP|HP].
  - rewrite (decide_False (P := ¬ P x)) by tauto. simpl. by rewrite IH.
  - rewrite (decide_True (P := ¬ P x)) by done. rewrite <-Permutation_middle. by rewrite IH.
Qed.

(** Groups of a list by a key: the groups, each keyed by a distinct key, concatenate to a
    permutation of the list. *)
Lemma groups_concat {A} (f : A → option string) (es : list (string * list A)) (os : list A) :
  NoDup es.*1 →
  (∀ k grp, (k, grp) ∈ es → grp = filter (λ o, f o = Some k) os) →
  (∀ o, o ∈ os → ∃ k, f o = Some k ∧ k ∈ es.*1) →
  concat es.*2 ≡ₚ os.
Proof.
  revert os. induction es as [|[k grp] es IH]; intros os Hnd Hgrp Hcov; simpl.
  - destruct os as [|o os]; [done|]. destruct (Hcov o ltac:(left)) as (k & _ & Hk).
    by apply elem_of_nil in Hk.
  - simpl in Hnd. apply NoDup_cons in Hnd as [Hni Hnd].
    rewrite (Hgrp k grp ltac:(left)).
    rewrite <-(filter_split_perm (λ o, f o = Some k) os) at 2. f_equiv.
    apply IH; [done| |].
    + intros k' grp' Hin. rewrite (Hgrp k' grp') by by right.
      rewrite list_filter_filter. symmetry. apply list_filter_iff. intros o.
      split; [by intros [? ?]|]. intros E. split; [done|]. rewrite E. intros [= ->].
      apply Hni. apply elem_of_list_fmap. by exists (k, grp').
    + intros o Ho. apply elem_of_list_filter in Ho as [Hne Ho].
      destruct (Hcov o Ho) as (k' & Hk' & Hin). exists k'. split; [done|].
      simpl in Hin. apply elem_of_cons in Hin as [->|Hin]; [|done]. done.
Qed.

Lemma group_by_concat key t os g order :
  group_by key os t = Some g → order ≡ₚ map_to_list g → concat order.*2 ≡ₚ os.
Proof.
  intros Hg Ho. pose proof (group_by_spec key t os g Hg) as [Hex Hsp].
  apply (groups_concat (key_of key t)).
  - rewrite Ho. apply NoDup_fst_map_to_list.
  - intros k grp Hin. rewrite Ho in Hin. apply elem_of_map_to_list in Hin.
    by apply (Hsp k).
  - intros o Hin. rewrite Forall_forall in Hex. destruct (Hex o Hin) as [mix Hm].
    exists (key mix). unfold key_of. rewrite Hm. split; [done|].
    destruct (g !! key mix) as [grp|] eqn:G.
    + rewrite Ho. apply elem_of_list_fmap. exists (key mix, grp). split; [done|].
      by apply elem_of_map_to_list.
    + apply (Hsp (key mix)) in G.
      assert (o ∈ filter (λ o, key_of key t o = Some (key mix)) os) as Hf.
      { apply elem_of_list_filter. split; [|done]. unfold key_of. by rewrite Hm. }
      rewrite G in Hf. by apply elem_of_nil in Hf.
Qed.

(** ** uuids *)
Lemma str_last_split_unique c (s1 s2 r1 r2 : string) :
  str_all (λ x, negb (Ascii.eqb x c)) r1 = true →
  str_all (λ x, negb (Ascii.eqb x c)) r2 = true →
  s1 +:+ String c r1 = s2 +:+ String c r2 → s1 = s2 ∧ r1 = r2.
Proof.
  assert (Hno : ∀ s r a, str_all (λ x, negb (Ascii.eqb x c)) r = true → r = a +:+ String c s → False).
  { intros s r a Hr ->. rewrite str_all_app in Hr. apply andb_true_iff in Hr as [_ Hr].
    cbn [str_all] in Hr. rewrite Ascii.eqb_refl in Hr. done. }
  revert s2; induction s1 as [|x s1 IH]; intros [|y s2] H1 H2 Heq; strs; simpl in *.
  - by injection Heq.
  - injection Heq as -> Heq. exfalso. by eapply (Hno r2 r1 s2).
  - injection Heq as -> Heq. exfalso. by eapply (Hno r1 r2 s1).
  - injection Heq as -> Heq. destruct (IH s2 H1 H2 Heq) as [-> ->]. done.
Qed.

Lemma str_app_inj_r_len (a a' b b' : string) :
  String.length b = String.length b' → a +:+ b = a' +:+ b' → a = a' ∧ b = b'.
Proof.
  intros Hl H. apply str_app_inj_len; [|done].
  apply (f_equal String.length) in H. rewrite !str_length_app in H. lia.
Qed.

Definition no_colon (s : string) : Prop := str_all (λ x, negb (Ascii.eqb x ":"%char)) s = true.

Lemma request_uuid_inj addr h1 l1 h2 l2 :
  no_colon l1 → no_colon l2 →
  request_uuid addr h1 l1 = request_uuid addr h2 l2 → h1 = h2 ∧ l1 = l2.
Proof.
  unfold request_uuid, no_colon. intros N1 N2 H.
  apply str_app_inj_l in H. rewrite !str_cons_app, !str_nil_app in H. injection H as H.
  apply str_last_split_unique in H as [-> H].
  - injection H as ->. done.
  - cbn [str_all]. by rewrite N1.
  - cbn [str_all]. by rewrite N2.
Qed.

Lemma mix_name_no_colon l p : no_colon (mix_name l p).
Proof.
  unfold no_colon, mix_name. rewrite !str_all_app. cbn [str_all].
  rewrite !(digits_no ":"%char) by (done || apply pretty_nat_digits). done.
Qed.

(** ** The sender's requests *)
Definition request_onions (rq : AddRequest) : list onion := concat (msg_onions <$> rq_msgs rq).

Lemma list_fmap_snd_msgs (order : list (string * list onion)) a l :
  msg_onions <$> ((λ e, mkMessages e.2 a l e.1) <$> order) = order.*2.
Proof. rewrite <-list_fmap_compose. by apply list_fmap_ext. Qed.
Lemma list_fmap_fst_msgs (order : list (string * list onion)) a l :
  msg_recv <$> ((λ e, mkMessages e.2 a l e.1) <$> order) = order.*1.
Proof. rewrite <-list_fmap_compose. by apply list_fmap_ext. Qed.

Lemma createRRPCRequest_spec round t addr os ls host rq :
  createRRPCRequest round t addr os ls host (Some rq) →
  rq_round rq = Z.to_N (round mod 2 ^ 32) ∧ rq_uuid rq = request_uuid addr host ls ∧
  request_onions rq ≡ₚ os ∧ NoDup (msg_recv <$> rq_msgs rq) ∧
  (∀ m, m ∈ rq_msgs rq → msg_phys m = addr ∧ msg_lsender m = ls ∧ msg_onions m ≠ [] ∧
     msg_onions m = filter (λ o, mx_name <$> ExtractMixConfig t o = Some (msg_recv m)) os).
Proof.
  unfold createRRPCRequest. destruct (GroupOnionsByMixName os t) as [mp|] eqn:G; [|done].
  intros (order & Ho & [= ->]). simpl. split; [done|]. split; [done|].
  unfold request_onions. simpl. rewrite list_fmap_snd_msgs, list_fmap_fst_msgs.
  split; [by eapply group_by_concat|].
  split; [rewrite Ho; apply NoDup_fst_map_to_list|].
  intros m Hm. apply elem_of_list_fmap in Hm as ([nm grp] & -> & Hin). simpl.
  rewrite Ho in Hin. apply elem_of_map_to_list in Hin.
  pose proof (group_by_spec _ _ _ _ G) as [_ Hsp]. apply (Hsp nm) in Hin as [-> Hne].
  done.
Qed.

Lemma createRRPCRequest_no_panic round t addr os ls host r g :
  GroupOnionsByHostname os t = Some g →
  (∀ o, o ∈ os → is_Some (ExtractMixConfig t o)) →
  ∀ grp, (∀ o, o ∈ grp → o ∈ os) → 
  createRRPCRequest round t addr grp ls host r → is_Some r.
Proof.
  intros G Hex grp Hsub Hc. unfold createRRPCRequest in Hc.
  assert (is_Some (GroupOnionsByMixName grp t)) as [mp Hmp].
  { apply group_by_success.
    assert (is_Some (GroupOnionsByHostname os t)) as Hs by eauto.
    apply group_by_success in Hs as [(l0 & Hl & H0) _]. split.
    - exists l0. split; [done|]. intros E. specialize (H0 E). subst os.
      destruct grp as [|o grp]; [done|]. specialize (Hsub o ltac:(left)).
      by apply elem_of_nil in Hsub.
    - apply Forall_forall. intros o Ho. apply Hex, Hsub, Ho. }
  rewrite Hmp in Hc. destruct Hc as (order & _ & ->). eauto.
Qed.

Lemma mapM_id_Some {A} (l : list (option A)) (rs : list A) :
  mapM id l = Some rs → l = Some <$> rs.
Proof.
  revert rs; induction l as [|[x|] l IH]; intros rs H; simpl in H.
  - by injection H as <-.
  - destruct (mapM id l) as [rs'|]; simpl in H; [|done]. injection H as <-. simpl.
    f_equal. by apply IH.
  - done.
Qed.

Lemma mapM_id_all_Some {A} (l : list (option A)) :
  (∀ r, r ∈ l → is_Some r) → is_Some (mapM id l).
Proof.
  induction l as [|x l IH]; intros H; [by eexists|].
  destruct (H x ltac:(left)) as [y ->]. simpl.
  destruct IH as [rs ->]; [intros r Hr; apply H; by right|]. simpl. eauto.
Qed.

Lemma sender_iteration_spec round t addr out ls calls :
  sender_iteration round t addr out ls (Some calls) →
  NoDup calls.*1 ∧
  concat (request_onions <$> calls.*2) ≡ₚ out ∧
  (∀ h rq, (h, rq) ∈ calls →
     rq_round rq = Z.to_N (round mod 2 ^ 32) ∧ rq_uuid rq = request_uuid addr h ls ∧
     NoDup (msg_recv <$> rq_msgs rq) ∧ rq_msgs rq ≠ [] ∧
     ∀ m, m ∈ rq_msgs rq → msg_phys m = addr ∧ msg_lsender m = ls ∧ msg_onions m ≠ [] ∧
       ∀ o, o ∈ msg_onions m →
         ∃ mix, ExtractMixConfig t o = Some mix ∧ mx_name mix = msg_recv m ∧ mx_host mix = h).
Proof.
  unfold sender_iteration. destruct (GroupOnionsByHostname out t) as [g|] eqn:G; [|done].
  intros (order & rqs & Ho & HF & Hc).
  destruct (mapM id rqs) as [rs|] eqn:M; simpl in Hc; [|done]. injection Hc as ->.
  apply mapM_id_Some in M. subst rqs.
  apply Forall2_fmap_r in HF.
  assert (Hlen : length order = length rs) by by eapply Forall2_length.
  assert (Hfst : (zip order.*1 rs).*1 = order.*1) by (apply fst_zip; rewrite fmap_length; lia).
  assert (Hsnd : (zip order.*1 rs).*2 = rs) by (apply snd_zip; rewrite fmap_length; lia).
  rewrite Hfst, Hsnd.
  split; [rewrite Ho; apply NoDup_fst_map_to_list|]. split.
  { rewrite <-(group_by_concat _ _ _ _ order G Ho).
    clear -HF. induction HF as [|[h os] rq order rs H HF IH]; [done|]. simpl.
    f_equiv; [|exact IH]. by apply createRRPCRequest_spec in H as (_ & _ & H & _). }
  intros h rq Hin.
  apply elem_of_list_lookup in Hin as [i Hi]. apply lookup_zip_with_Some in Hi as (a & b & [= <- <-] & Ha & Hb).
  rewrite list_lookup_fmap in Ha. destruct (order !! i) as [[h' os]|] eqn:Hoi; [|done].
  injection Ha as ->. simpl in Hb.
  pose proof (Forall2_lookup_lr _ _ _ _ _ _ HF Hoi Hb) as Hc. simpl in Hc.
  apply createRRPCRequest_spec in Hc as (R1 & R2 & R3 & R4 & R5).
  split; [done|]. split; [done|]. split; [done|].
  assert ((h, os) ∈ map_to_list g) as Hin by (rewrite <-Ho; by eapply elem_of_list_lookup_2).
  apply elem_of_map_to_list in Hin.
  pose proof (group_by_spec _ _ _ _ G) as [_ Hsp]. apply (Hsp h) in Hin as [-> Hne].
  split.
  { intros E. unfold request_onions in R3. rewrite E in R3. simpl in R3.
    by apply Permutation_nil_l in R3. }
  intros m Hm. destruct (R5 m Hm) as (E1 & E2 & E3 & E4). split; [done|]. split; [done|].
  split; [done|]. intros o Ho'. rewrite E4 in Ho'.
  apply elem_of_list_filter in Ho' as [Hname Ho'].
  apply elem_of_list_filter in Ho' as [Hhost _]. unfold key_of in Hhost.
  destruct (ExtractMixConfig t o) as [mix|]; [|done]. simpl in *.
  exists mix. split; [done|]. split; congruence.
Qed.

Lemma sender_iteration_panics_iff round t addr out ls calls :
  sender_iteration round t addr out ls calls →
  (calls = None ↔ ¬ ((∃ l0, tp_layers t !! 0 = Some l0 ∧ (l0 = [] → out = [])) ∧
                     Forall (λ o, is_Some (ExtractMixConfig t o)) out)).
Proof.
  intros H. pose proof (group_by_success mx_host t out) as Hs.
  unfold sender_iteration in H. unfold GroupOnionsByHostname in H.
  destruct (group_by mx_host out t) as [g|] eqn:G.
  - destruct H as (order & rqs & Ho & HF & ->).
    assert (is_Some (mapM id rqs)) as [rs ->].
    { apply mapM_id_all_Some. intros r Hr. apply elem_of_list_lookup in Hr as [i Hi].
      destruct (Forall2_lookup_r _ _ _ _ _ HF Hi) as ([h os] & Hoi & Hc). simpl in Hc.
      eapply (createRRPCRequest_no_panic _ _ _ out); [exact G| | |exact Hc].
      - pose proof (group_by_spec _ _ _ _ G) as [Hex _]. by rewrite Forall_forall in Hex.
      - intros o Hin.
        assert ((h, os) ∈ map_to_list g) as Hg by (rewrite <-Ho; by eapply elem_of_list_lookup_2).
        apply elem_of_map_to_list in Hg.
        pose proof (group_by_spec _ _ _ _ G) as [_ Hsp]. apply (Hsp h) in Hg as [-> _].
        by apply elem_of_list_filter in Hin as [_ ?]. }
    simpl. split; [done|]. intros Hn. destruct Hn. apply Hs. eauto.
  - split; [|done]. intros _ Hn. apply Hs in Hn as [? ?]. done.
Qed.
