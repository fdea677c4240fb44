(** C50-C53, C59, C65: a robust call from end to end. *)
From stdpp Require Import gmap vector.
From Verif.Base Require Import Base.
From Verif.Model Require Import Merkle Ecc Network Robust.
From Verif.Spec Require Import RobustSpec.
From Verif.Properties Require Import P06_Merkle P14_Ecc P16_Network P17_Collector.
From Verif.Proofs Require Import RobustProofs RobustCall.

Lemma sublist_NoDup {A} (l k : list A) : NoDup k → l `sublist_of` k → NoDup l.
Proof.
  intros Hnd Hs. apply sublist_submseteq, submseteq_Permutation in Hs as [r Hr].
  rewrite Hr in Hnd. by apply NoDup_app in Hnd as [? _].
Qed.
Lemma elem_of_sublist {A} (x : A) l k : x ∈ l → l `sublist_of` k → x ∈ k.
Proof. intros Hx Hs%sublist_submseteq. by eapply elem_of_submseteq. Qed.

Lemma mjoin_snoc {A} (l : list (list A)) k : mjoin (l ++ [k]) = mjoin l ++ k.
Proof. induction l as [|x l IH]; simpl; [by rewrite app_nil_r|]. by rewrite IH, app_assoc. Qed.

Section robust.
Context (H : bytes → digest) {SK : Type} (sign : SK → digest → bytes) (pub : SK → bytes)
        (sigok : bytes → digest → bytes → bool).
Context (encNote : Note → bytes) (encParcel : Parcel → bytes).
Context {V : Type} (enc : V → bytes).
Context (c : rs_code) (laws : rs_laws c).
Context {hnd : Type} (find : string → option hnd) (run : hnd → string → bytes → outcome code V) (ttl : Z).

(** The owner of sk makes signatures that verify under its public key. *)
Definition signs (sk : SK) : Prop := ∀ d, sigok (pub sk) d (sign sk d) = true.
(** The coordinator's code for n relays of which tau-1 may fail. *)
Definition code_for (n tau : nat) : Prop := rs_k c = n - (tau - 1) ∧ rs_m c = tau - 1 ∧ n ≤ Z.to_nat 65536.
(** The verdicts are those of the client's validation, whatever its verifier has cached at each time. *)
Definition judged (server : bytes) (l : list (RelayStreamResponse * option code)) : Prop :=
  ∀ r v, (r, v) ∈ l → ∃ cache cache', validateRrpcResponse H sigok encNote cache server r = Ok (v, cache').
(** What a relay sends to the client that handed it call u, for the server's response resp. *)
Definition forwarded (u : string) (resp : CallStreamResponse) : RelayStreamResponse := mkRSR None (Some resp) u.

Notation sent := (RobustCall_parcels H sign pub encNote encParcel c).
Notation answer := (respond H sign pub encNote c).
Notation served q es := (collect find (Z.of_nat q) ttl ∅ es).
Notation valid := (validateParcel H sigok encNote encParcel).
Notation validWith := (validateParcelWith H sigok encNote encParcel).
Notation serve := (runTask enc c run).
Notation client_decode := (client_reconstruct c).

Lemma small n : n ≤ Z.to_nat 65536 → (N.of_nat (2 * n) ≤ 2 ^ 64)%N.
Proof using Type. intros Hn. assert (N.of_nat n ≤ 65536)%N by lia. lia. Qed.

(** ** C51 *)

(** The client always gets its request out, and every server accepts every parcel from its relay,
    whatever its verifier has cached. *)
Theorem C51_accepted n tau ck ssk m u margs arr : code_for n tau → 1 ≤ tau ≤ n → signs ck →
  (N.of_nat (length margs) < 2 ^ 32)%N → all_answers arr →
  ∃ ps, sent n ck (pub ssk) m u margs arr = Some ps ∧ length ps = n ∧ NoDup ps ∧
    ∀ i p, ps !! i = Some p → p_index p = Z.of_nat i ∧ p_method p = m ∧ uuid_of p = u ∧
      ∀ cache, (valid cache i p).1 = None.
Proof using laws.
  intros (Hk & Hm & Hmax) Ht Hck Hlen Harr.
  destruct (parcels_ok H sign pub encNote encParcel c laws n ck (pub ssk) m u margs arr) as
    (shards & sps & root & _ & _ & _ & Hs & Hl & Hp); [lia|by apply small|done|done|].
  exists sps. split; [done|]. split; [done|]. split.
  - apply NoDup_alt. intros i j p Hi Hj. destruct (Hp i p Hi) as (pl & c1 & c2 & _ & Hpi & _).
    destruct (Hp j p Hj) as (pl' & c1' & c2' & _ & Hpj & _).
    assert (p_index p = Z.of_nat i) by (rewrite Hpi; done). assert (p_index p = Z.of_nat j) by (rewrite Hpj; done). lia.
  - intros i p Hi. destruct (Hp i p Hi) as (pl & ct1 & ct2 & _ & Hpi & Hr1 & Hr2 & Hs1 & Hs2 & Hv1 & Hv2).
    assert (p_index p = Z.of_nat i ∧ p_method p = m ∧ uuid_of p = u ∧ p_sig p = Some ct1 ∧
      n_scert (p_note p) = Some ct2 ∧ n_sender (p_note p) = pub ck) as (E1 & E2 & E3 & E4 & E5 & E6) by by rewrite Hpi.
    split; [done|]. split; [done|]. split; [done|]. intros cache.
    destruct (parcel_accepted_iff H sigok encNote encParcel ct1 ct2 id cache i p root) as [Hin Hiff]; try done.
    { rewrite E6, Hs1. apply Hck. }
    apply Hiff. by left.
Qed.

(** What the server decodes. *)
Lemma request_decoded nt n tau ck ssk m u margs es a1 a2 ps h :
  quorum_net nt n tau → code_for n tau → 2 * (tau - 1) < n →
  (N.of_nat (length margs) < 2 ^ 32)%N → all_answers a1 → all_answers a2 →
  find m = Some h →
  sent n ck (pub ssk) m u margs a1 = Some ps →
  in_time ttl u es → arrived find u es ⊆+ ps → n - (tau - 1) ≤ length (arrived find u es) →
  ∃ t, runs_of u (served (n - (tau - 1)) es).2 = [t] ∧
    reconstruct_from c (parcel_item <$> t_parcels t) a2 = Ok margs ∧ t_hnd t = h ∧ n_uuid (t_note t) = u ∧
    ∃ ct, t_note t = mkNote (pub ck) (pub ssk) u (Some ct) None.
Proof using laws.
  intros Hq (Hk & Hm & Hmax) H2t Hlen Ha1 Ha2 Hf Hsent Hin Hsub Hge.
  assert (1 ≤ tau ≤ n) as Ht by apply Hq.
  assert (rs_k c + rs_m c = n) as Hw by lia.
  destruct (parcels_ok H sign pub encNote encParcel c laws n ck (pub ssk) m u margs a1) as
    (shards & sps & root & Hs36 & Hfull & Hdec & Hs & Hl & Hp); [lia|by apply small|done|done|].
  assert (sps = ps) as -> by congruence.
  destruct (C49_exactly_once find ttl n tau u ps es Ht H2t Hl Hin Hsub Hge) as (t & Hruns & Htp & p0 & Hp0 & Hnote & Hh).
  assert (NoDup ps) as Hnd.
  { apply NoDup_alt. intros i j p Hi Hj. destruct (Hp i p Hi) as (pl & c1 & c2 & _ & Hpi & _).
    destruct (Hp j p Hj) as (pl' & c1' & c2' & _ & Hpj & _).
    assert (p_index p = Z.of_nat i) by (rewrite Hpi; done). assert (p_index p = Z.of_nat j) by (rewrite Hpj; done). lia. }
  set (a := arrived find u es) in *.
  assert (NoDup a) as Hnda.
  { apply submseteq_Permutation in Hsub as [k Hk']. rewrite Hk' in Hnd. by apply NoDup_app in Hnd as [? _]. }
  assert (∀ p, p ∈ t_parcels t → p ∈ ps) as Htin.
  { intros p Hpin. rewrite Htp in Hpin. apply (elem_of_submseteq a); [|done].
    apply elem_of_take in Hpin as (i & Hi & _). by eapply elem_of_list_lookup_2. }
  assert (p0 ∈ ps) as Hp0in.
  { apply (elem_of_submseteq a); [|done]. by apply elem_of_list_lookup_2 with 0; destruct a. }
  apply elem_of_list_lookup in Hp0in as [i0 Hi0].
  destruct (Hp i0 p0 Hi0) as (pl0 & c1 & c2 & _ & Hpe & _).
  assert (t_note t = mkNote (pub ck) (pub ssk) u (Some c2) None) as Htn by (rewrite Hnote, Hpe; done).
  assert (t_hnd t = h) as Hth by (rewrite Hpe in Hh; simpl in Hh; congruence).
  assert (reconstruct_from c (parcel_item <$> t_parcels t) a2 = Ok margs) as Hrec.
  { apply (reconstruct_columns c laws margs shards); try done.
    - apply Forall_fmap, Forall_forall. intros p Hpin. apply Htin, elem_of_list_lookup in Hpin as [i Hi].
      destruct (Hp i p Hi) as (pl & ? & ? & Hcol & -> & _). split; [done|]. exists i. split; [done|].
      split; [|done]. rewrite Hw, <-Hl. by eapply lookup_lt_Some.
    - rewrite <-!list_fmap_compose. apply NoDup_fmap_2_strong.
      + intros p p' Hpin Hpin' Heq. apply Htin, elem_of_list_lookup in Hpin as [i Hi].
        apply Htin, elem_of_list_lookup in Hpin' as [j Hj].
        assert (p_index p = p_index p') as Heq' by exact Heq.
        destruct (Hp i p Hi) as (? & ? & ? & _ & E1 & _). destruct (Hp j p' Hj) as (? & ? & ? & _ & E2 & _).
        assert (i = j) as ->; [|congruence]. rewrite E1, E2 in Heq'. simpl in Heq'. lia.
      + rewrite Htp. eapply sublist_NoDup; [exact Hnda|apply sublist_take].
    - rewrite fmap_length, Htp, take_length. lia. }
  exists t. split; [done|]. split; [done|]. split; [done|]. split; [by rewrite Htn|by exists c2].
Qed.

(** From the task that a server runs to what its client returns, for a response buffer that contains
    [old]; the note of the task need not be the client's. *)
Lemma task_reply nt n tau ssk u margs h v a2 a3 a4 old (t : task hnd) :
  quorum_net nt n tau → code_for n tau → 2 * (tau - 1) < n → signs ssk →
  (N.of_nat (length (old ++ enc v)) < 2 ^ 32)%N →
  all_answers a3 → all_answers a4 → run h u margs = Ok v →
  reconstruct_from c (parcel_item <$> t_parcels t) a2 = Ok margs → t_hnd t = h → n_uuid (t_note t) = u →
  n_rcert (t_note t) = None →
  ∃ rs resps,
    serve t old a2 a3 = (Ok (RunOk rs), old ++ enc v) ∧
    answer ssk t (RunOk rs) = Some resps ∧ length resps = n ∧ NoDup resps ∧
    (∀ resp, resp ∈ resps → n_sender <$> cr_note resp = Some (n_sender (t_note t))) ∧
    (∀ resp cache, resp ∈ resps → ∃ cache',
      validateRrpcResponse H sigok encNote cache (pub ssk) (forwarded u resp) = Ok (None, cache')) ∧
    ∀ l, length l ≤ n → judged (pub ssk) l → NoDup (oks l) →
      (∀ r, (r, None) ∈ l → ∃ resp, resp ∈ resps ∧ r = forwarded u resp) →
      (∃ good, NoDup good ∧ good ⊆ resps ∧ n - (tau - 1) ≤ length good ∧ forwarded u <$> good ⊆ l.*1) →
      ∃ out, robust_call nt l = RDone out ∧ client_decode (omap rr_resp out) a4 = Ok (old ++ enc v).
Proof using laws.
  intros Hq Hcode H2t Hssk Hlen' Ha3 Ha4 Hrun Hrec Hth Hu Hrc.
  assert (1 ≤ tau ≤ n) as Ht by apply Hq.
  assert (∀ ct, set_rcert (set_rcert (t_note t) ct) None = t_note t) as Hback.
  { intros ct. destruct (t_note t) as [? ? ? ? rc]. simpl in Hrc. by subst rc. }
  destruct Hcode as (Hk & Hm & Hmax). assert (rs_k c + rs_m c = n) as Hw by lia.
  destruct (responses_ok H sign pub encNote enc c laws ssk t old v a3) as
    (shards' & rs & resps & ct & Hs36' & Hfull' & Hdec' & Hprep & Hrl & Hresp & Hrespl & Hsig & Hver & Hri).
  { rewrite Hw. apply small in Hmax. lia. } { done. } { done. }
  exists rs, resps. split.
  { unfold runTask. rewrite Hrec, Hu, Hth, Hrun, Hprep. done. }
  split; [done|]. split; [lia|]. split.
  { apply NoDup_alt. intros i j r Hi Hj. destruct (Hri i r Hi) as (pl & _ & E1). destruct (Hri j r Hj) as (pl' & _ & E2).
    rewrite E1 in E2. injection E2 as E2 _. lia. }
  split.
  { intros resp Hrin. apply elem_of_list_lookup in Hrin as [i Hi]. destruct (Hri i resp Hi) as (pl & _ & ->). done. }
  split.
  { intros resp cache Hrin. apply elem_of_list_lookup in Hrin as [i Hi]. destruct (Hri i resp Hi) as (pl & _ & ->).
    unfold validateRrpcResponse, forwarded. cbn [rr_error rr_resp cr_error cr_note].
    rewrite Hback.
    cbn [n_rcert set_rcert].
    destruct (VerifySeq_ok H sigok cache (pub ssk) (encNote (t_note t)) ct Hver) as [E _].
    { right. rewrite Hsig. apply Hssk. }
    destruct (VerifySeq H sigok cache _ _ _) as [o cache']. simpl in E. subst o. by exists cache'. }
  intros l Hll Hjudge Hndl Hfaith (good & Hndg & Hgood & Hgl & Hgin).
  assert (∀ r, r ∈ oks l ↔ (r, None) ∈ l) as Hoks.
  { intros r. unfold oks. rewrite elem_of_list_omap. split.
    - intros ([r' v'] & Hin' & Heq). simpl in Heq. destruct v'; [done|]. by injection Heq as ->.
    - intros Hin'. by exists (r, None). }
  assert (∀ resp resp', forwarded u resp = forwarded u resp' → resp = resp') as Hinj.
  { intros x y Hxy. by injection Hxy. }
  assert (n - (tau - 1) ≤ length (oks l)) as Hokl.
  { assert (forwarded u <$> good ⊆ oks l) as Hsubset.
    { intros r Hr. apply Hoks. pose proof (Hgin r Hr) as Hrl'.
      apply elem_of_list_fmap in Hrl' as ([r' v'] & -> & Hin'). simpl in Hr |- *.
      apply elem_of_list_fmap in Hr as (resp & -> & Hrg). destruct (Hjudge _ _ Hin') as (cache & cache' & Hval).
      apply Hgood in Hrg. apply elem_of_list_lookup in Hrg as [i Hi]. destruct (Hri i resp Hi) as (pl & _ & Hre).
      assert (v' = None) as ->; [|done].
      revert Hval. rewrite Hre. unfold validateRrpcResponse, forwarded. cbn [rr_error rr_resp cr_error cr_note].
      rewrite Hback.
      cbn [n_rcert set_rcert]. intros Hval0.
      assert (VerifySeq H sigok cache (pub ssk) (encNote (t_note t)) (Some ct) = (v', cache')) as Hval by congruence.
      destruct (VerifySeq_ok H sigok cache (pub ssk) (encNote (t_note t)) ct Hver) as [E _].
      { right. rewrite Hsig. apply Hssk. }
      rewrite Hval in E. done. }
    transitivity (length (forwarded u <$> good)); [by rewrite fmap_length|].
    apply submseteq_length, NoDup_submseteq; [|done]. by apply (NoDup_fmap_2_strong _ _ (λ x y _ _, Hinj x y)). }
  pose proof (oks_errs l) as Hcount.
  assert (length (errs l) ≤ tau - 1) as Herr by lia.
  pose proof (robust_call_cases nt n tau l Hq) as Hcases.
  destruct (robust_call nt l) as [|out|e| | |] eqn:Ecall; try done.
  { unfold quorum in Hcases. lia. }
  2: { exfalso. destruct Hcases as (pre & r & rest & -> & _ & He). rewrite errs_app, app_length in Herr.
       simpl in Herr. lia. }
  exists out. split; [done|]. apply (C47_succeeds nt n tau) in Ecall; [|done].
  destruct Ecall as (pre & r & rest & Hpre & Hout & Houtl & _).
  assert (out `sublist_of` oks l) as Hsubl.
  { rewrite Hout, Hpre, oks_app. apply sublist_app; [done|]. rewrite oks_ok. by apply sublist_skip, sublist_nil_l. }
  assert (∀ r, r ∈ out → ∃ i resp, resps !! i = Some resp ∧ r = forwarded u resp) as Hof.
  { intros r' Hr'. destruct (Hfaith r') as (resp & Hri' & ->).
    - apply Hoks. by eapply elem_of_sublist.
    - apply elem_of_list_lookup in Hri' as [i Hi]. by exists i, resp. }
  assert (NoDup out) as Hndo by by eapply sublist_NoDup.
  assert (∃ rso, mapM cr_resp (omap rr_resp out) = Some rso ∧ length rso = length out ∧
    Forall (λ r, ∃ i resp pl, resps !! i = Some resp ∧ forwarded u resp ∈ out ∧ i < length resps ∧ column shards' i pl ∧
        r = mkResp (le_enc 4 (N.of_nat (length (old ++ enc v)))) (Z.of_nat i) pl) rso ∧
    NoDup (r_index <$> rso)) as (rso & Hmap & Hrsol & Hrso & Hndr).
  { clear -Hof Hndo Hri. induction out as [|r out IH]; [exists []; repeat split; constructor|].
    apply NoDup_cons in Hndo as [Hnin Hndo].
    destruct IH as (rso & IH1 & IH2 & IH3 & IH4); [intros; apply Hof; by right|done|].
    destruct (Hof r) as (i & resp & Hi & ->); [by left|]. destruct (Hri i resp Hi) as (pl & Hcol & Hre).
    exists (mkResp (le_enc 4 (N.of_nat (length (old ++ enc v)))) (Z.of_nat i) pl :: rso). split_and!.
    - cbn [omap list_omap forwarded rr_resp mapM]. rewrite IH1. rewrite Hre. done.
    - simpl. by rewrite IH2.
    - constructor.
      + exists i, resp, pl. split; [done|]. split; [by left|]. split; [by eapply lookup_lt_Some|]. done.
      + eapply Forall_impl; [exact IH3|]. intros x (i' & resp' & pl' & ? & ? & ? & ? & ?).
        exists i', resp', pl'. split; [done|]. split; [by right|]. done.
    - simpl. constructor; [|done]. intros Hbad. apply elem_of_list_fmap in Hbad as (x & Hx & Hxin).
      rewrite Forall_forall in IH3. destruct (IH3 x Hxin) as (i' & resp' & pl' & Hi' & Hin' & _ & _ & ->).
      simpl in Hx. assert (i = i') as <- by lia. assert (resp = resp') as <- by congruence. done. }
  unfold client_reconstruct. rewrite Hmap. 
  apply (reconstruct_columns c laws (old ++ enc v) shards'); try done.
  - apply Forall_fmap. eapply Forall_impl; [exact Hrso|].
    intros x (i & resp & pl & _ & _ & Hi & Hcol & ->). split; [done|]. exists i. split; [done|]. split; [|done]. lia.
  - rewrite <-!list_fmap_compose. exact Hndr.
  - rewrite fmap_length, Hrsol, Houtl. lia.
Qed.


(** The core, for a response buffer that contains [old]. *)
Lemma robust_reply nt n tau ck ssk m u margs h v es a1 a2 a3 a4 ps old :
  quorum_net nt n tau → code_for n tau → 2 * (tau - 1) < n → signs ssk →
  (N.of_nat (length margs) < 2 ^ 32)%N → (N.of_nat (length (old ++ enc v)) < 2 ^ 32)%N →
  all_answers a1 → all_answers a2 → all_answers a3 → all_answers a4 →
  find m = Some h → run h u margs = Ok v →
  sent n ck (pub ssk) m u margs a1 = Some ps →
  in_time ttl u es → arrived find u es ⊆+ ps → n - (tau - 1) ≤ length (arrived find u es) →
  ∃ t rs resps,
    runs_of u (served (n - (tau - 1)) es).2 = [t] ∧
    serve t old a2 a3 = (Ok (RunOk rs), old ++ enc v) ∧
    answer ssk t (RunOk rs) = Some resps ∧ length resps = n ∧ NoDup resps ∧
    (∀ resp cache, resp ∈ resps → ∃ cache',
      validateRrpcResponse H sigok encNote cache (pub ssk) (forwarded u resp) = Ok (None, cache')) ∧
    ∀ l, length l ≤ n → judged (pub ssk) l → NoDup (oks l) →
      (∀ r, (r, None) ∈ l → ∃ resp, resp ∈ resps ∧ r = forwarded u resp) →
      (∃ good, NoDup good ∧ good ⊆ resps ∧ n - (tau - 1) ≤ length good ∧ forwarded u <$> good ⊆ l.*1) →
      ∃ out, robust_call nt l = RDone out ∧ client_decode (omap rr_resp out) a4 = Ok (old ++ enc v).
Proof using laws.
  intros Hq Hcode H2t Hssk Hlen Hlen' Ha1 Ha2 Ha3 Ha4 Hf Hrun Hsent Hin Hsub Hge.
  destruct (request_decoded nt n tau ck ssk m u margs es a1 a2 ps h) as (t & Hruns & Hrec & Hth & Hu & c2 & Htn); try done.
  destruct (task_reply nt n tau ssk u margs h v a2 a3 a4 old t) as (rs & resps & E1 & E2 & E3 & E4 & _ & E5); try done.
  { by rewrite Htn. }
  exists t, rs, resps. done.
Qed.

(** At least n-(tau-1) relays forward, in both directions, in any order, among any other traffic of the
    server: the handler runs once, on the request's bytes; and if every answer that the client accepts is
    the server's own, the call returns the handler's reply. *)
Theorem C51_reply nt n tau ck ssk m u margs h v es a1 a2 a3 a4 ps :
  quorum_net nt n tau → code_for n tau → 2 * (tau - 1) < n → signs ssk →
  (N.of_nat (length margs) < 2 ^ 32)%N → (N.of_nat (length (enc v)) < 2 ^ 32)%N →
  all_answers a1 → all_answers a2 → all_answers a3 → all_answers a4 →
  find m = Some h → run h u margs = Ok v →
  sent n ck (pub ssk) m u margs a1 = Some ps →
  in_time ttl u es → arrived find u es ⊆+ ps → n - (tau - 1) ≤ length (arrived find u es) →
  ∃ t rs resps,
    runs_of u (served (n - (tau - 1)) es).2 = [t] ∧
    serve t [] a2 a3 = (Ok (RunOk rs), enc v) ∧
    answer ssk t (RunOk rs) = Some resps ∧ length resps = n ∧ NoDup resps ∧
    (∀ resp cache, resp ∈ resps → ∃ cache',
      validateRrpcResponse H sigok encNote cache (pub ssk) (forwarded u resp) = Ok (None, cache')) ∧
    ∀ l, length l ≤ n → judged (pub ssk) l → NoDup (oks l) →
      (∀ r, (r, None) ∈ l → ∃ resp, resp ∈ resps ∧ r = forwarded u resp) →
      (∃ good, NoDup good ∧ good ⊆ resps ∧ n - (tau - 1) ≤ length good ∧ forwarded u <$> good ⊆ l.*1) →
      ∃ out, robust_call nt l = RDone out ∧ client_decode (omap rr_resp out) a4 = Ok (enc v).
Proof using laws.
  intros. eapply (robust_reply nt n tau ck ssk m u margs h v es a1 a2 a3 a4 ps []); eassumption.
Qed.

Lemma failed_call nt n tau ssk (t : task hnd) e :
  quorum_net nt n tau → code_for n tau →
  ∃ resps, answer ssk t (RunFail e) = Some resps ∧ length resps = n ∧
    (∀ resp, resp ∈ resps → n_uuid <$> cr_note resp = Some (n_uuid (t_note t)) ∧ cr_error resp = Some e) ∧
    ∀ u l, tau ≤ length l → judged (pub ssk) l → (∀ r, r ∈ l.*1 → ∃ resp, resp ∈ resps ∧ r = forwarded u resp) →
      robust_call nt l = RErr e.
Proof using Type.
  intros Hq (Hk & Hm & Hmax). assert (1 ≤ tau ≤ n) as Ht by apply Hq.
  set (note := set_rcert (t_note t) None).
  destruct (sign_strs_ok H sign ssk (replicate (rs_k c + rs_m c) (encNote note))) as (cs & Hcs & Hcl & _).
  { rewrite replicate_length. apply small in Hmax. lia. }
  rewrite replicate_length in Hcl.
  exists (map (λ ct, mkCSR (Some e) None (pub ssk) (Some (set_rcert note (Some ct)))) cs).
  split; [unfold respond; fold note; by rewrite Hcs|]. split; [rewrite map_length; lia|].
  assert (∀ resp, resp ∈ map (λ ct, mkCSR (Some e) None (pub ssk) (Some (set_rcert note (Some ct)))) cs →
    ∃ ct, resp = mkCSR (Some e) None (pub ssk) (Some (set_rcert note (Some ct)))) as Hform.
  { intros resp Hresp. change (map ?f cs) with (f <$> cs) in Hresp.
    apply elem_of_list_fmap in Hresp as (ct & -> & _). by exists ct. }
  split; [intros resp (ct & ->)%Hform; done|].
  intros u l Hll Hj Hall.
  assert (∀ r v, (r, v) ∈ l → v = Some e) as Hv.
  { intros r v Hrv. destruct (Hall r) as (resp & (ct & ->)%Hform & ->).
    { apply elem_of_list_fmap. by exists (r, v). }
    destruct (Hj _ _ Hrv) as (cache & cache' & Hval). unfold validateRrpcResponse, forwarded in Hval. simpl in Hval. congruence. }
  assert (∀ k, k `sublist_of` l → length (oks k) = 0 ∧ length (errs k) = length k) as Hcnt.
  { intros k Hk'. assert (∀ r v, (r, v) ∈ k → v = Some e) as Hvk by (intros r v Hin; eapply Hv, elem_of_sublist; eassumption).
    clear -Hvk. induction k as [|[r v] k IH]; [done|].
    rewrite (Hvk r v) by by left. rewrite errs_err, oks_err. simpl.
    destruct IH as [-> ->]; [|done]. intros r' v' Hin. apply (Hvk r'). by right. }
  apply (C47_fails nt n tau); [done|].
  destruct (lookup_lt_is_Some_2 l (tau - 1)) as [[r v] Hr]; [lia|].
  exists (take (tau - 1) l), r, (drop tau l). split_and!.
  - rewrite <-(Hv r v) by by eapply elem_of_list_lookup_2.
    rewrite <-(take_drop_middle l (tau - 1) (r, v) Hr) at 1. replace (S (tau - 1)) with tau by lia. done.
  - destruct (Hcnt (take (tau - 1) l)) as [-> _]; [apply sublist_take|]. lia.
  - destruct (Hcnt (take (tau - 1) l)) as [_ ->]; [apply sublist_take|]. rewrite take_length. lia.
Qed.
(** The handler's own error reaches the client: however the n signed error responses come back, with the
    tau-th the call fails with exactly that error. *)
Theorem C51_handler_error nt n tau ck ssk m u margs h e es a1 a2 a3 ps old :
  quorum_net nt n tau → code_for n tau → 2 * (tau - 1) < n →
  (N.of_nat (length margs) < 2 ^ 32)%N → all_answers a1 → all_answers a2 →
  find m = Some h → run h u margs = Err e →
  sent n ck (pub ssk) m u margs a1 = Some ps →
  in_time ttl u es → arrived find u es ⊆+ ps → n - (tau - 1) ≤ length (arrived find u es) →
  ∃ t resps,
    runs_of u (served (n - (tau - 1)) es).2 = [t] ∧
    serve t old a2 a3 = (Ok (RunFail e), old) ∧
    answer ssk t (RunFail e) = Some resps ∧ length resps = n ∧
    ∀ l, tau ≤ length l → judged (pub ssk) l → (∀ r, r ∈ l.*1 → ∃ resp, resp ∈ resps ∧ r = forwarded u resp) →
      robust_call nt l = RErr e.
Proof using laws.
  intros Hq Hcode H2t Hlen Ha1 Ha2 Hf Hrun Hsent Hin Hsub Hge.
  destruct (request_decoded nt n tau ck ssk m u margs es a1 a2 ps h) as (t & Hruns & Hrec & Hth & Hu & _); try done.
  destruct (failed_call nt n tau ssk t e Hq Hcode) as (resps & Ha & Hl & _ & Hc).
  exists t, resps. split; [done|]. split; [|split; [done|split; [done|exact (Hc u)]]].
  unfold runTask. by rewrite Hrec, Hth, Hu, Hrun.
Qed.

(** ** C52 *)

(** A buffer taken from the pool is not emptied: after serving vs it contains all their encodings. *)
Theorem C52_buffer_grows (vs : list V) arr :
  foldl (λ buf v, (prepareCallResponse enc c buf v arr).2) [] vs = mjoin (enc <$> vs).
Proof using Type.
  induction vs as [|v vs IH] using rev_ind; [done|].
  rewrite foldl_snoc, IH, fmap_app. change (enc <$> [v]) with [enc v]. symmetry. apply (mjoin_snoc (A:=byte)).
Qed.
(** Served with a buffer that was used before, first for v0: everything goes as in C51, but the client
    obtains the old contents followed by the reply; with a codec that reads one value from the front the
    reply it returns is v0, whatever the handler returned. *)
Theorem C52_earlier_reply nt n tau ck ssk m u margs h v v0 vs es a1 a2 a3 a4 ps (dec : bytes → option V) :
  (∀ v rest, dec (enc v ++ rest) = Some v) →
  let old := mjoin (enc <$> v0 :: vs) in
  quorum_net nt n tau → code_for n tau → 2 * (tau - 1) < n → signs ssk →
  (N.of_nat (length margs) < 2 ^ 32)%N → (N.of_nat (length (old ++ enc v)) < 2 ^ 32)%N →
  all_answers a1 → all_answers a2 → all_answers a3 → all_answers a4 →
  find m = Some h → run h u margs = Ok v →
  sent n ck (pub ssk) m u margs a1 = Some ps →
  in_time ttl u es → arrived find u es ⊆+ ps → n - (tau - 1) ≤ length (arrived find u es) →
  ∃ t rs resps,
    runs_of u (served (n - (tau - 1)) es).2 = [t] ∧
    serve t old a2 a3 = (Ok (RunOk rs), mjoin (enc <$> (v0 :: vs) ++ [v])) ∧
    answer ssk t (RunOk rs) = Some resps ∧
    ∀ l, length l ≤ n → judged (pub ssk) l → NoDup (oks l) →
      (∀ r, (r, None) ∈ l → ∃ resp, resp ∈ resps ∧ r = forwarded u resp) →
      (∃ good, NoDup good ∧ good ⊆ resps ∧ n - (tau - 1) ≤ length good ∧ forwarded u <$> good ⊆ l.*1) →
      ∃ out payload, robust_call nt l = RDone out ∧ client_decode (omap rr_resp out) a4 = Ok payload ∧
        payload = old ++ enc v ∧ dec payload = Some v0.
Proof using laws.
  intros Hdec old Hq Hc H2 Hs Hl Hl' Ha1 Ha2 Ha3 Ha4 Hf Hr Hsent Hin Hsub Hge.
  destruct (robust_reply nt n tau ck ssk m u margs h v es a1 a2 a3 a4 ps old) as
    (t & rs & resps & E1 & E2 & E3 & _ & _ & _ & E4); try done.
  exists t, rs, resps. split; [done|]. split.
  { rewrite E2. rewrite fmap_app. change (enc <$> [v]) with [enc v]. f_equal. symmetry. apply (mjoin_snoc (A:=byte)). }
  split; [done|]. intros l ? ? ? ? ?. destruct (E4 l) as (out & E5 & E6); try done.
  exists out, (old ++ enc v). split; [done|]. split; [done|]. split; [done|].
  unfold old. cbn [fmap list_fmap mjoin list_join]. rewrite <-app_assoc. apply Hdec.
Qed.

(** ** C50 *)

(** Parcels of fewer distinct relays than there are data shards never lead to a reply. *)
Theorem C50_too_few_relays (t : task hnd) (relays : list nat) old a2 a3 rs buf :
  all_answers a2 ∨ stopped_answers a2 →
  (∀ p, p ∈ t_parcels t → Z.to_nat (p_index p) ∈ relays) → length relays < rs_k c →
  serve t old a2 a3 ≠ (Ok (RunOk rs), buf).
Proof using laws.
  intros Ha Hp Hl Heq. unfold runTask in Heq.
  destruct (reconstruct_from c (parcel_item <$> t_parcels t) a2) as [data| |] eqn:E; try done.
  revert E. apply (reconstruct_few c laws _ _ relays); [done| |done].
  intros it Hit. apply elem_of_list_fmap in Hit as (p & -> & Hin). by apply Hp.
Qed.

(** One relay sends its parcel n-(tau-1) times before the others' parcels come (whatever these are): the
    first run fails, its n signed error responses go out, and however these come back to the client, the
    call fails with InvalidArgument. *)
Theorem C50_repeated_parcel nt n tau ck ssk m u margs h es rest a1 a2 a3 ps p old :
  quorum_net nt n tau → code_for n tau → tau < n →
  (N.of_nat (length margs) < 2 ^ 32)%N → all_answers a1 → all_answers a2 →
  find m = Some h → sent n ck (pub ssk) m u margs a1 = Some ps → p ∈ ps →
  in_time ttl u es → arrived find u es = replicate (n - (tau - 1)) p ++ rest →
  ∃ t more resps,
    runs_of u (served (n - (tau - 1)) es).2 = t :: more ∧
    serve t old a2 a3 = (Ok (RunFail InvalidArgument), old) ∧
    answer ssk t (RunFail InvalidArgument) = Some resps ∧ length resps = n ∧
    ∀ l, length l = n → judged (pub ssk) l → (∀ r, r ∈ l.*1 → ∃ resp, resp ∈ resps ∧ r = forwarded u resp) →
      robust_call nt l = RErr InvalidArgument.
Proof using laws.
  intros Hq (Hk & Hm & Hmax) Htn Hlen Ha1 Ha2 Hf Hsent Hpin Hin Harr.
  assert (1 ≤ tau ≤ n) as Ht by apply Hq. set (q := n - (tau - 1)) in *.
  destruct (parcels_ok H sign pub encNote encParcel c laws n ck (pub ssk) m u margs a1) as
    (shards & sps & root & Hs36 & Hfull & Hdec & Hs & Hl & Hp); [lia|by apply small|done|done|].
  assert (sps = ps) as -> by congruence.
  apply elem_of_list_lookup in Hpin as [i Hi].
  destruct (Hp i p Hi) as (pl & c1 & c2 & Hcol & Hpe & _).
  destruct (C49_runs find ttl q u es) as [Hruns _]; [unfold q; lia|done|]. cbv zeta in Hruns. rewrite Harr in Hruns.
  assert (1 ≤ length (replicate q p ++ rest) / q) as Hd.
  { apply Nat.div_le_lower_bound; [unfold q; lia|]. rewrite app_length, replicate_length. lia. }
  destruct (length (replicate q p ++ rest) / q) as [|k]; [lia|]. cbn [seq fmap list_fmap] in Hruns.
  unfold group at 1 in Hruns. rewrite Nat.mul_0_l, drop_0, take_app_alt in Hruns by by rewrite replicate_length.
  destruct (runs_of u (served q es).2) as [|t more] eqn:Er; [done|]. cbn [fmap list_fmap] in Hruns.
  injection Hruns as Htp _.
  assert (ORun t ∈ (served q es).2) as Hrun.
  { assert (t ∈ runs_of u (served q es).2) as Hin' by (rewrite Er; by left).
    apply elem_of_list_omap in Hin' as (o & Ho & Hx). destruct o; [done|]. case_decide; [|done]. by injection Hx as ->. }
  destruct (C49_own_parcels find ttl q es t Hrun) as (p0 & ps0 & Htp0 & Hnote & _ & _).
  assert (p0 = p) as ->.
  { rewrite Htp in Htp0. unfold q in Htp0. destruct (n - (tau - 1)) eqn:E; [lia|]. simpl in Htp0. congruence. }
  assert (reconstruct_from c (parcel_item <$> t_parcels t) a2 = Err EReconstruct) as Hrec.
  { rewrite Htp. set (items := parcel_item <$> replicate q p).
    assert (∀ it, it ∈ items → it = parcel_item p) as Hitems.
    { intros it Hit. apply elem_of_list_fmap in Hit as (p' & -> & Hp').
      apply elem_of_replicate_inv in Hp' as ->. done. }
    assert (reconstruct_from c items a2 = match Uint32 (p_len p), put_all c items.*2 (NewShards c) with
      | Some sz, Some shards => AuthReconstruct c shards (Z.of_N sz) a2 | _, _ => Panic end) as ->.
    { unfold items, q. destruct (n - (tau - 1)) eqn:E; [lia|]. done. }
    replace (p_len p) with (le_enc 4 (N.of_nat (length margs))) by by rewrite Hpe.
    rewrite Uint32_enc by done.
    assert (i < rs_k c + rs_m c) as Hiw.
    { apply lookup_lt_Some in Hi. unfold q in *. lia. }
    destruct (put_all_columns c shards (items.*2) (NewShards c)) as (sh' & Hput & Hl' & _ & _).
    { apply Forall_fmap, Forall_forall. intros it Hit. rewrite (Hitems it Hit). exists i. rewrite Hpe. done. }
    { unfold NewShards. rewrite replicate_length. by rewrite Hs36. }
    { apply Forall2_same_length_lookup_2; [unfold NewShards; rewrite replicate_length; by rewrite Hs36|].
      intros j f g Hf' Hg. unfold NewShards in Hg. apply lookup_replicate in Hg as [-> _].
      rewrite Forall_forall in Hfull. destruct (Hfull f) as [Hfl _]; [by eapply elem_of_list_lookup_2|].
      split; [done|]. apply Forall2_same_length_lookup_2; [by rewrite replicate_length|].
      intros k' x y _ Hy. apply lookup_replicate in Hy as [-> _]. by right. }
    rewrite Hput. destruct (lookup_lt_is_Some_2 sh' 0) as [g Hg]; [lia|].
    replace (Z.of_N (N.of_nat (length margs))) with (Z.of_nat (length margs)) by lia.
    apply (C46_too_few c laws sh' (length margs) a2 0 g); [done|lia|lia|done|].
    apply Nat.le_lt_trans with (length [i]); [|simpl; unfold q in *; lia].
    apply num_present_upper. intros j s Hj Hne.
    assert (j ∈ (Z.to_nat <$> (items.*2).*1) ++ []) as Hjin.
    { eapply (put_all_present c _ _ _ Hput [] _ 0 g j s); [done..]. Unshelve.
      intros j' row i' s' Hrow Hs' Hne'. unfold NewShards in Hrow. apply lookup_replicate in Hrow as [-> _].
      apply lookup_replicate in Hs' as [-> _]. done. }
    rewrite app_nil_r in Hjin. rewrite <-list_fmap_compose, <-list_fmap_compose in Hjin.
    apply elem_of_list_fmap in Hjin as (it & -> & Hit). rewrite (Hitems it Hit), Hpe. simpl.
    rewrite Nat2Z.id. by left. }
  assert (t_note t = mkNote (pub ck) (pub ssk) u (Some c2) None) as Htno by (rewrite Hnote, Hpe; done).
  destruct (failed_call nt n tau ssk t InvalidArgument Hq) as (resps & Ha & Hrl & _ & Hc); [done|].
  exists t, more, resps. split; [done|]. split; [unfold runTask; by rewrite Hrec|]. split; [done|]. split; [done|].
  intros l Hll. apply Hc. lia.
Qed.
(** A relay forwards one response for each request it stored: the error that came first is the answer. *)
Theorem C50_relay_forwards_first {chan : Type} (waiting waiting' : gmap string chan) r r' o note note' :
  cr_note r = Some note → cr_note r' = Some note' → n_uuid note = n_uuid note' →
  relay_incoming waiting r = Some (waiting', o) →
  relay_incoming waiting' r' = Some (waiting', None).
Proof using Type.
  intros Hn Hn' Hu Hr. unfold relay_incoming in *. rewrite Hn in Hr. rewrite Hn'. simpl in *. injection Hr as <- _.
  rewrite Hu, delete_idemp, lookup_delete. done.
Qed.

(** ** C53: the verdict on a response depends on neither its payload, message length, relay index, public
    key nor the uuid the relay puts on it. *)
Theorem C53_only_note cache server e er x x' pk pk' note u u' :
  validateRrpcResponse H sigok encNote cache server (mkRSR e (Some (mkCSR er x pk note)) u) =
  validateRrpcResponse H sigok encNote cache server (mkRSR e (Some (mkCSR er x' pk' note)) u').
Proof using Type. done. Qed.

(** ** C59 *)

(** Every parcel with an unregistered method that reaches the collector makes it send its relay a response
    on which the relay panics, whatever the relay is waiting for; so does every parcel that is refused. *)
Theorem C59_unknown_method q tasks now p : find (p_method p) = None →
  ∃ r, collect1 find q ttl tasks (CParcel now p) = (tasks, [OReject (p_index p) r]) ∧
    cr_error r = Some InvalidArgument ∧
    ∀ (chan : Type) (waiting : gmap string chan), relay_incoming waiting r = None.
Proof using Type. intros Hf. eexists. split; [simpl; by rewrite Hf|]. done. Qed.
Theorem C59_refused_parcel (chan : Type) (waiting : gmap string chan) :
  relay_incoming waiting invalid_parcel_response = None.
Proof using Type. done. Qed.
(** An honest call to an unregistered method: all its parcels are accepted, and each relay is sent such a
    response. *)
Theorem C59_honest_call q n tau ck ssk m u margs arr : code_for n tau → 1 ≤ tau ≤ n → signs ck →
  (N.of_nat (length margs) < 2 ^ 32)%N → all_answers arr → find m = None →
  ∃ ps, sent n ck (pub ssk) m u margs arr = Some ps ∧ length ps = n ∧
    ∀ i p cache tasks now, ps !! i = Some p →
      (valid cache i p).1 = None ∧
      ∃ r, collect1 find q ttl tasks (CParcel now p) = (tasks, [OReject (Z.of_nat i) r]) ∧
        ∀ (chan : Type) (waiting : gmap string chan), relay_incoming waiting r = None.
Proof using laws.
  intros Hc Ht Hck Hl Ha Hf. destruct (C51_accepted n tau ck ssk m u margs arr) as (ps & Hs & Hpl & _ & Hp); try done.
  exists ps. split; [done|]. split; [done|]. intros i p cache tasks now Hi. destruct (Hp i p Hi) as (E1 & E2 & _ & E3).
  split; [apply E3|]. destruct (C59_unknown_method q tasks now p) as (r & Hr & _ & Hpanic); [by rewrite E2|].
  exists r. split; [|done]. by rewrite Hr, E1.
Qed.
(** The relay never panics on the responses of a task that was run. *)
Theorem C59_run_is_safe ssk (t : task hnd) o resps resp (chan : Type) (waiting : gmap string chan) :
  answer ssk t o = Some resps → resp ∈ resps →
  relay_incoming waiting resp =
    Some (delete (n_uuid (t_note t)) waiting,
          (λ ch, (ch, forwarded (n_uuid (t_note t)) resp)) <$> waiting !! n_uuid (t_note t)).
Proof using Type.
  unfold respond. intros Ha Hin. destruct o as [rs|e].
  - destruct (sign_strs _ _ _ _) as [cs|]; [|done]. destruct (last cs) as [ct|]; injection Ha as <-.
    + change (map ?f rs) with (f <$> rs) in Hin. apply elem_of_list_fmap in Hin as (r & -> & _). done.
    + by apply elem_of_nil in Hin.
  - destruct (sign_strs _ _ _ _) as [cs|]; [|done]. injection Ha as <-.
    change (map ?f cs) with (f <$> cs) in Hin. apply elem_of_list_fmap in Hin as (r & -> & _). done.
Qed.

(** ** C65: whether an honest parcel is accepted when other goroutines change the cache between the two
    checks: it has to survive in the cache, or the client's signature has to verify under the server's
    key. *)
Theorem C65_iff n tau ck ssk m u margs arr : code_for n tau → 1 ≤ tau ≤ n → signs ck →
  (N.of_nat (length margs) < 2 ^ 32)%N → all_answers arr →
  ∃ ps root, sent n ck (pub ssk) m u margs arr = Some ps ∧ length ps = n ∧
    ∀ i p between cache, ps !! i = Some p →
      ((validWith between cache i p).1 = None ↔
       root ∈ between ({[root]} ∪ cache) ∨ sigok (pub ssk) root (sign ck root) = true).
Proof using laws.
  intros (Hk & Hm & Hmax) Ht Hck Hlen Harr.
  destruct (parcels_ok H sign pub encNote encParcel c laws n ck (pub ssk) m u margs arr) as
    (shards & sps & root & _ & _ & _ & Hs & Hl & Hp); [lia|by apply small|done|done|].
  exists sps, root. split; [done|]. split; [done|]. intros i p between cache Hi.
  destruct (Hp i p Hi) as (pl & ct1 & ct2 & _ & Hpi & Hr1 & Hr2 & Hs1 & Hs2 & Hv1 & Hv2).
  assert (p_index p = Z.of_nat i ∧ p_sig p = Some ct1 ∧ n_receiver (p_note p) = pub ssk ∧
    n_scert (p_note p) = Some ct2 ∧ n_sender (p_note p) = pub ck) as (E1 & E2 & E3 & E4 & E5) by by rewrite Hpi.
  destruct (parcel_accepted_iff H sigok encNote encParcel ct1 ct2 between cache i p root) as [Hin Hiff]; try done.
  { rewrite E5, Hs1. apply Hck. }
  rewrite Hiff, E3, Hs2, E2. unfold VerifySeq. rewrite Hr1, Hv1.
  replace (if decide (root ∈ cache) then _ else _) with (@None code, {[root]} ∪ cache); [done|].
  case_decide as Hd; [f_equal; by apply subseteq_union_1_L, singleton_subseteq_l|]. rewrite E5, Hs1, Hck. done.
Qed.
(** So a cleanup at that moment makes the server refuse every honest parcel. *)
Theorem C65_cleanup_refuses n tau ck ssk m u margs arr : code_for n tau → 1 ≤ tau ≤ n → signs ck →
  (∀ d, sigok (pub ssk) d (sign ck d) = false) →
  (N.of_nat (length margs) < 2 ^ 32)%N → all_answers arr →
  ∃ ps, sent n ck (pub ssk) m u margs arr = Some ps ∧ length ps = n ∧
    ∀ i p cache, ps !! i = Some p → (validWith (λ _, ∅) cache i p).1 ≠ None.
Proof using laws.
  intros Hc Ht Hck Hother Hl Ha. destruct (C65_iff n tau ck ssk m u margs arr) as (ps & root & Hs & Hpl & Hp); try done.
  exists ps. split; [done|]. split; [done|]. intros i p cache Hi. rewrite (Hp i p _ cache Hi). rewrite Hother. intros [Hbad|Hbad]; [by apply elem_of_empty in Hbad|done].
Qed.
End robust.

(** ** Instances: three relays, threshold two, the xor code, toy hash and signatures. *)
Section example.
Definition tsign (sk : byte) (d : digest) : bytes := sk :: vec_to_list d.
Definition tpub (sk : byte) : bytes := [sk].
Definition tsigok (pk : bytes) (d : digest) (s : bytes) : bool := bool_decide (s = pk ++ vec_to_list d).
Definition tstr (s : string) : bytes := (λ a, N2b (Ascii.N_of_ascii a)) <$> String.list_ascii_of_string s.
Definition tcert (o : option cert) : bytes := match o with None => [] | Some ct => Byte.x01 :: ct_sig ct end.
Definition tnote (n : Note) : bytes :=
  n_sender n ++ n_receiver n ++ tstr (n_uuid n) ++ tcert (n_scert n) ++ tcert (n_rcert n).
Definition tparcel (p : Parcel) : bytes :=
  tstr (p_method p) ++ tnote (p_note p) ++ p_len p ++ mjoin (p_payload p) ++ tcert (p_sig p).
(** Replies are two bytes; the handler returns the length and the first byte of the request. *)
Definition tenc (v : byte * byte) : bytes := [v.1; v.2].
Definition tdec (b : bytes) : option (byte * byte) := match b with x :: y :: _ => Some (x, y) | _ => None end.
Definition trun (h : nat) (u : string) (payload : bytes) : outcome code (byte * byte) :=
  Ok (N2b (N.of_nat (length payload)), default Byte.x00 (head payload)).
Definition tnt : Network := NewNetworkData C48_cfg.
Definition tps (m : string) : list Parcel :=
  default [] (RobustCall_parcels toyH tsign tpub tnote tparcel xor_code 3 Byte.x05 (tpub Byte.x06) m "u" msg1 ex_answers).
(** Relay 0 forwards late, relay 1 never. *)
Definition tes : list cevent :=
  [CParcel 1 (nth_parcel (tps "/S/Do") 2); CTick 3; CParcel 4 (nth_parcel (tps "/S/Do") 0)].

Lemma tes_in_time u p p' : in_time 5 u [CParcel 1 p; CTick 3; CParcel 4 p'].
Proof.
  intros i j now p0 T Hij Hi _ Hj. assert (j = 1 ∧ T = 3%Z) as [-> ->].
  { destruct j as [|[|[|j]]]; try discriminate Hj. split; [done|]. by injection Hj. }
  assert (now = 1%Z) as ->; [|lia]. destruct i as [|i]; [|lia]. by injection Hi.
Qed.

Example C51_hypotheses :
  quorum_net tnt 3 2 ∧ code_for xor_code 3 2 ∧ signs tsign tpub tsigok Byte.x05 ∧ signs tsign tpub tsigok Byte.x06 ∧
  length msg1 = 40 ∧ all_answers ex_answers ∧ ex_find "/S/Do" = Some 7 ∧
  RobustCall_parcels toyH tsign tpub tnote tparcel xor_code 3 Byte.x05 (tpub Byte.x06) "/S/Do" "u" msg1 ex_answers = Some (tps "/S/Do") ∧
  in_time 5 "u" tes ∧ arrived ex_find "u" tes ⊆+ tps "/S/Do" ∧ length (arrived ex_find "u" tes) = 2 ∧
  (∀ v rest, tdec (tenc v ++ rest) = Some v).
Proof.
  assert (∀ sk d, tsigok (tpub sk) d (tsign sk d) = true) as Hs.
  { intros sk d. unfold tsigok, tsign, tpub. by apply bool_decide_eq_true. }
  split_and!.
  - split_and!; [apply (bool_decide_unpack _); vm_compute; reflexivity|vm_compute; reflexivity|vm_compute; reflexivity|lia|lia].
  - split_and!; [done|done|]. lia.
  - intros d. apply Hs.
  - intros d. apply Hs.
  - done.
  - exists (reverse (seq 0 36)). split; [apply reverse_Permutation|done].
  - done.
  - vm_compute; reflexivity.
  - apply tes_in_time.
  - assert (arrived ex_find "u" tes = [nth_parcel (tps "/S/Do") 2; nth_parcel (tps "/S/Do") 0]) as -> by (vm_compute; reflexivity).
    assert (∃ p0 p1 p2, tps "/S/Do" = [p0; p1; p2]) as (p0 & p1 & p2 & Hp).
    { vm_compute. by eexists _, _, _. }
    rewrite Hp. unfold nth_parcel. simpl. clear.
    transitivity [p0; p2]; [apply Permutation_submseteq, Permutation_swap|]. apply submseteq_skip, submseteq_cons. done.
  - vm_compute; reflexivity.
  - by intros [x y] rest.
Qed.

(** The task that the server runs, its responses for a given buffer, and the client's result when relay 1
    fails and relay 0 changes its response by f. *)
Definition ttask : option (task nat) := head (runs_of "u" (collect ex_find 2 5 ∅ tes).2).
Definition tresps (old : bytes) : list CallStreamResponse :=
  match ttask with
  | Some t => match (runTask tenc xor_code trun t old ex_answers ex_answers).1 with
              | Ok o => default [] (respond toyH tsign tpub tnote xor_code Byte.x06 t o)
              | _ => [] end
  | None => []
  end.
Definition tresult (f : CallStreamResponse → CallStreamResponse) (old : bytes) : option (byte * byte) :=
  match tresps old with
  | [r0; r1; r2] =>
      let judge r := (r, match validateRrpcResponse toyH tsigok tnote ∅ (tpub Byte.x06) r with
                         | Ok (v, _) => v | _ => Some Aborted end) in
      match robust_call tnt (judge <$> [forwarded "u" (f r0); mkRSR (Some Internal) None "u"; forwarded "u" r2]) with
      | RDone out => match client_reconstruct xor_code (omap rr_resp out) ex_answers with
                     | Ok payload => tdec payload | _ => None end
      | _ => None
      end
  | _ => None
  end.
Example C51_example : tresult id [] = Some (Byte.x28, Byte.x41).
Proof. vm_compute; reflexivity. Qed.
(** With a buffer that served another call before. *)
Example C52_example : tresult id (tenc (Byte.x99, Byte.x77)) = Some (Byte.x99, Byte.x77).
Proof. vm_compute; reflexivity. Qed.
(** C53: relay 0 alone changes the reply that the client returns. *)
Definition forge (r : CallStreamResponse) : CallStreamResponse :=
  match cr_resp r with
  | Some x => mkCSR (cr_error r) (Some (mkResp (r_len x) (r_index x) (map (map (λ b, N2b (b2N b + 1))) (r_payload x)))) (cr_pk r) (cr_note r)
  | None => r
  end.
Example C53_forged :
  tresult id [] = Some (Byte.x28, Byte.x41) ∧ ∃ v, tresult forge [] = Some v ∧ v ≠ (Byte.x28, Byte.x41).
Proof. split; [vm_compute; reflexivity|]. eexists. split; [vm_compute; reflexivity|done]. Qed.
(** C50, C65 and C59, concretely. *)
Example C50_example :
  arrived ex_find "u" (CParcel 1 <$> replicate 2 (nth_parcel (tps "/S/Do") 0) ++ tps "/S/Do") =
    replicate 2 (nth_parcel (tps "/S/Do") 0) ++ tps "/S/Do" ∧
  match head (runs_of "u" (collect ex_find 2 5 ∅ (CParcel 1 <$> replicate 2 (nth_parcel (tps "/S/Do") 0) ++ tps "/S/Do")).2) with
  | Some t => (runTask tenc xor_code trun t [] ex_answers ex_answers).1 = Ok (RunFail InvalidArgument)
  | None => False
  end.
Proof. split; vm_compute; reflexivity. Qed.
Example C65_example :
  (validateParcelWith toyH tsigok tnote tparcel (λ _, ∅) ∅ 1 (nth_parcel (tps "/S/Do") 1)).1 = Some Unknown ∧
  (∀ d, tsigok (tpub Byte.x06) d (tsign Byte.x05 d) = false).
Proof. split; [vm_compute; reflexivity|]. intros d. by apply bool_decide_eq_false. Qed.
Example C59_example : ex_find "/S/Gone" = None ∧ length (tps "/S/Gone") = 3.
Proof. split; vm_compute; reflexivity. Qed.
End example.
