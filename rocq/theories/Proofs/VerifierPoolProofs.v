(** Proofs about the verifier's worker pool. *)
From stdpp Require Import gmap sorting vector.
From Verif.Base Require Import Base.
From Verif.Model Require Import Merkle Verifier VerifierPool.
From Verif.Spec Require Import VerifierSpec VerifierPoolSpec.
From Verif.Proofs Require Import VerifierProofs VerifierExec VerifierLive.

Section pool.
Context (H : bytes → digest) {PK B : Type} (enc : B → option rcert → bytes)
        (sigok : PK → digest → bytes → bool).
Notation vstate := (vstate PK B).
Notation vstep := (vstep H enc sigok).
Notation pool := (pool PK B).
Notation pstep := (pstep H enc sigok).

(** *** Steps of the calls *)
Lemma vstep_thr G s s' : vstep G s s' →
  v_thr s' = v_thr s ∨ ∃ i x', v_thr s' = <[i:=x']> (v_thr s) ∧
    (v_thr s !! i = None ∧ th_pc x' = PPop ∧ G s (th_pk x') (th_obj x') ∨ is_Some (v_thr s !! i)).
Proof. intros Hst. destruct Hst; try (by left); right; eexists _, _; (split; [reflexivity|]); eauto. Qed.
Lemma off_queued G s s' : vstep G s s' → off_channel s s' →
  ∀ t k, v_tasks s' !! t = Some k → vt_st k = TQueued → v_tasks s !! t = Some k.
Proof.
  intros Hst [Ho Hq] t0 k0 Hk0 Hst0. destruct Hst; cbn in Hk0; try done.
  - (* store *) destruct (decide (t = t0)) as [<-|Hne]; [|by rewrite lookup_insert_ne in Hk0].
    rewrite lookup_insert in Hk0. injection Hk0 as <-. done.
  - destruct (decide (t = t0)) as [<-|Hne]; [|by rewrite lookup_insert_ne in Hk0].
    rewrite lookup_insert in Hk0. injection Hk0 as <-. done.
  - (* send *) exfalso. match goal with Hi : v_thr s !! i = Some x, Hp : th_pc x = PSend _ _ |- _ =>
      specialize (Ho i x Hi); rewrite Hp in Ho; specialize (Ho I); cbn in Ho; rewrite lookup_insert in Ho; injection Ho as E; apply (f_equal th_pc) in E; cbn in E; congruence end.
  - destruct (decide (t = t0)) as [<-|Hne]; [|by rewrite lookup_insert_ne in Hk0].
    rewrite lookup_insert in Hk0. injection Hk0 as <-. done.
Qed.

(** Every pool step is a step of the calls or leaves them alone. *)
Lemma pstep_v G n p p' : pstep G n p p' → p_v p' = p_v p ∨ vstep G (p_v p) (p_v p').
Proof.
  intros Hst. destruct Hst; cbn; try (by left).
  - by right.
  - right. by eapply V_send.
  - right. by eapply V_auth.
  - right. by eapply V_work.
Qed.

Record pinv (n : nat) (p : pool) : Prop := mkPinv {
  q_linv : linv (p_v p);
  q_senders : senders (p_v p);
  q_sent : ∀ i, i ∈ p_sent p → ∃ x c, v_thr (p_v p) !! i = Some x ∧ th_pc x = PAuth c;
  q_auth : ∀ i, i ∈ p_sent p ↔ IAuth i ∈ p_chan p ++ p_busy p;
  q_sig : ∀ t, (∃ k, v_tasks (p_v p) !! t = Some k ∧ vt_st k = TQueued) ↔ ISig t ∈ p_chan p ++ p_busy p;
  q_nodup : NoDup (p_chan p ++ p_busy p);
  q_busy : length (p_busy p) ≤ p_alive p;
  q_alive : p_stopped p = false → p_alive p = n }.

Lemma pinv_init n objs : pinv n (NewVerifier n objs).
Proof.
  split.
  - eapply (linv_reach H enc sigok anytime objs). apply rtc_refl.
  - eapply (senders_reach H enc sigok anytime objs). apply rtc_refl.
  - cbn. intros i Hi. by apply elem_of_empty in Hi.
  - intros i. cbn. rewrite elem_of_empty, elem_of_nil. done.
  - intros t. cbn. rewrite elem_of_nil. split; [|done]. intros (k & Hk & _). by rewrite lookup_empty in Hk.
  - apply NoDup_nil_2.
  - cbn. lia.
  - done.
Qed.

Lemma pinv_step G n p p' : pinv n p → pstep G n p p' → pinv n p'.
Proof.
  intros [Hl Hs Hse Ha Hq Hn Hb Hal] Hst.
  assert (linv (p_v p')) as Hl'.
  { destruct (pstep_v _ _ _ _ Hst) as [->|Hv]; [done|by eapply linv_step]. }
  assert (senders (p_v p')) as Hs'.
  { destruct (pstep_v _ _ _ _ Hst) as [->|Hv]; [done|by eapply senders_step]. }
  split; try done; destruct Hst; cbn in *; try done.
  (* q_sent *)
  - intros i Hi. destruct (Hse i Hi) as (x & c & Hx & Hp). exists x, c. split; [|done]. destruct H1 as [Ho _].
    apply Ho; [done|]. by rewrite Hp.
  - intros j [->%elem_of_singleton|Hj]%elem_of_union; [eauto|]. by apply Hse.
  - intros j Hj. destruct (Hse j Hj) as (y & c' & Hy & Hp). exists y, c'. split; [|done].
    rewrite lookup_insert_ne; [done|]. intros ->. congruence.
  - intros j [Hj Hne]%elem_of_difference. destruct (Hse j Hj) as (y & c' & Hy & Hp). exists y, c'. split; [|done].
    rewrite lookup_insert_ne; [done|]. intros ->. apply Hne. by apply elem_of_singleton.
  (* q_auth *)
  - intros j. rewrite elem_of_union, elem_of_singleton, Ha, !elem_of_app, elem_of_list_singleton.
    split; [intros [->|[?|?]]; tauto|intros [[?|[= ->]]|?]; tauto].
  - intros j. rewrite Ha, !elem_of_app, elem_of_list_singleton. split; [tauto|intros [[?|[=]]|?]; tauto].
  - intros j. rewrite Ha, H0, !elem_of_app, elem_of_cons, elem_of_list_singleton. tauto.
  - intros j. rewrite elem_of_difference, elem_of_singleton, Ha, H0. rewrite H0 in Hn.
    rewrite !elem_of_app, elem_of_cons. rewrite app_assoc in Hn. apply NoDup_app in Hn as (N1 & N2 & N3).
    apply NoDup_cons in N3 as [N3 N4]. specialize (N2 (IAuth i)). rewrite elem_of_app in N2.
    assert (¬ (IAuth i ∈ p_chan p ∨ IAuth i ∈ b1)) by (intros ?; apply N2; [done|left]).
    split; [intros [[?|[?|[[= ->]|?]]] ?]; tauto|]. intros Hx. split; [tauto|]. intros ->. tauto.
  - intros j. rewrite Ha, H0, !elem_of_app, elem_of_cons. split; [intros [?|[?|[[=]|?]]]; tauto|tauto].
  (* q_sig *)
  - intros t. rewrite <-Hq. split.
    + intros (k & Hk & Hkq). exists k. split; [|done]. by eapply off_queued.
    + intros (k & Hk & Hkq). exists k. split; [|done]. destruct H1 as [_ Ho]. by apply Ho.
  - intros t. rewrite Hq, !elem_of_app, elem_of_list_singleton. split; [tauto|intros [[?|[=]]|?]; tauto].
  - intros t0. destruct (decide (t = t0)) as [<-|Hne].
    + rewrite lookup_insert. split; [intros _; rewrite !elem_of_app, elem_of_list_singleton; tauto|]. intros _. by eexists.
    + rewrite lookup_insert_ne by done. rewrite Hq, !elem_of_app, elem_of_list_singleton. split; [tauto|intros [[?|[= <-]]|?]; tauto].
  - intros t. rewrite Hq, H0, !elem_of_app, elem_of_cons, elem_of_list_singleton. tauto.
  - intros t. rewrite Hq, H0, !elem_of_app, elem_of_cons. split; [intros [?|[?|[[=]|?]]]; tauto|tauto].
  - intros t0. rewrite H0 in Hn. rewrite app_assoc in Hn. apply NoDup_app in Hn as (N1 & N2 & N3).
    apply NoDup_cons in N3 as [N3 N4]. specialize (N2 (ISig t)). rewrite elem_of_app in N2.
    assert (¬ (ISig t ∈ p_chan p ∨ ISig t ∈ b1)) by (intros ?; apply N2; [done|left]).
    destruct (decide (t = t0)) as [<-|Hne].
    + rewrite lookup_insert. rewrite !elem_of_app. split; [by intros (k' & [= <-] & ?)|tauto].
    + rewrite lookup_insert_ne by done. rewrite Hq, H0, !elem_of_app, elem_of_cons. split; [intros [?|[?|[[= <-]|?]]]; tauto|tauto].
  (* q_nodup *)
  - rewrite <-app_assoc. cbn. apply NoDup_Permutation_proper with (IAuth i :: p_chan p ++ p_busy p); [by rewrite Permutation_middle|].
    apply NoDup_cons. split; [|done]. by rewrite <-Ha.
  - rewrite <-app_assoc. cbn. apply NoDup_Permutation_proper with (ISig t :: p_chan p ++ p_busy p); [by rewrite Permutation_middle|].
    apply NoDup_cons. split; [|done]. rewrite <-Hq. intros (k' & Hk' & Hkq).
    destruct (Hs _ _ _ _ H0 H1) as [(k2 & Hk2 & ?) _]. congruence.
  - rewrite H0 in Hn. apply NoDup_Permutation_proper with (it :: rest ++ p_busy p); [|done].
    rewrite app_assoc. rewrite (Permutation_app_comm _ [it]). done.
  - rewrite H0 in Hn. rewrite app_assoc in Hn |- *.
    apply NoDup_app in Hn as (N1 & N2 & N3). apply NoDup_cons in N3 as [N3 N4]. apply NoDup_app. split; [done|]. split; [|done].
    intros y Hy Hy2. apply (N2 y Hy). by right.
  - rewrite H0 in Hn. rewrite app_assoc in Hn |- *. 
    apply NoDup_app in Hn as (N1 & N2 & N3). apply NoDup_cons in N3 as [N3 N4]. apply NoDup_app. split; [done|]. split; [|done].
    intros y Hy Hy2. apply (N2 y Hy). by right.
  (* q_busy *)
  - rewrite app_length. cbn. lia.
  - rewrite H0, app_length in Hb. cbn in Hb. rewrite app_length. lia.
  - rewrite H0, app_length in Hb. cbn in Hb. rewrite app_length. lia.
  - lia.
  (* q_alive *)
  - intros. congruence.
Qed.
Lemma pinv_reach G n objs p : pool_execution H enc sigok G n (NewVerifier n objs) p → pinv n p.
Proof. apply (rtc_ind_r (pinv n)); [apply pinv_init|]. intros ? ? _ ? ?. by eapply pinv_step. Qed.

(** *** Bounded work *)
Definition at_auth (x : vthread PK) : nat := match th_pc x with PAuth _ => 1 | _ => 0 end.
Definition nPA (s : vstate) : nat := msum at_auth (v_thr s).
Lemma size_le_msum {A} (f : A → nat) (S : gset nat) (m : gmap nat A) :
  (∀ i, i ∈ S → ∃ x, m !! i = Some x ∧ 1 ≤ f x) → size S ≤ msum f m.
Proof.
  revert m. induction S as [|i S Hi IH] using set_ind_L; intros m Hm; [rewrite size_empty; lia|].
  rewrite size_union, size_singleton by (intros j ->%elem_of_singleton; done).
  destruct (Hm i) as (x & Hx & Hf); [set_solver|]. rewrite (msum_delete f m i x Hx).
  enough (size S ≤ msum f (delete i m)) by lia. apply IH. intros j Hj.
  destruct (Hm j) as (y & Hy & Hf'); [set_solver|]. exists y. split; [|done]. rewrite lookup_delete_ne; [done|]. congruence.
Qed.
Lemma sent_le n p : pinv n p → size (p_sent p) ≤ nPA (p_v p).
Proof. intros Hi. apply size_le_msum. intros i (x & c & Hx & Hp)%(q_sent _ _ Hi). exists x. split; [done|]. unfold at_auth. by rewrite Hp. Qed.
Definition pM (p : pool) : nat := 3 * measure (p_v p) + 2 * nPA (p_v p) + length (p_chan p) + p_alive p - 2 * size (p_sent p).

Lemma npa_upd (s s' : vstate) i x x' : v_thr s !! i = Some x → v_thr s' = <[i:=x']> (v_thr s) →
  nPA s' + at_auth x = nPA s + at_auth x'.
Proof.
  intros Hx E. unfold nPA. rewrite E. rewrite (msum_delete at_auth _ i x Hx).
  rewrite <-insert_delete_insert, msum_insert by apply lookup_delete. lia.
Qed.

Lemma work_measure n p p' : pinv n p → pool_work H enc sigok n p p' → pM p' < pM p.
Proof.
  intros Hi (Hst & Hns & Hnc). pose proof (pinv_step _ _ _ _ Hi Hst) as Hi'.
  pose proof (sent_le _ _ Hi) as Hle. pose proof (sent_le _ _ Hi') as Hle'. pose proof Hi as [Hl Hs _ _ _ _ _ _].
  assert (∀ s' i x x', p_v p' = s' → vstep (λ _ _ _, False) (p_v p) s' → v_thr (p_v p) !! i = Some x → v_thr s' = <[i:=x']> (v_thr (p_v p)) → th_pc x' ≠ th_pc x →
    measure s' < measure (p_v p)) as Hm.
  { intros s' i x x' E Hv Hx Ex Hne. eapply measure_step; try done. intros d ->. cbn in Ex. rewrite Ex, lookup_insert in Hx. congruence. }
  unfold pM. destruct Hst; cbn [p_v p_chan p_sent p_busy p_alive p_stopped] in *.
  - (* other *) assert (measure s' < measure (p_v p)) as Hd.
    { eapply measure_step; [done|done|exact H0|]. intros d ->. by eapply Hnc. }
    assert (nPA s' ≤ S (nPA (p_v p))); [|lia].
    destruct (vstep_thr _ _ _ H0) as [E|(i & x' & E & [(_ & _ & [])|[x Hx]])]; [unfold nPA; rewrite E; lia|].
    pose proof (npa_upd _ _ _ _ _ Hx E). assert (at_auth x' ≤ 1) by (unfold at_auth; destruct (th_pc x'); lia). lia.
  - rewrite app_length in *. cbn [length]. rewrite size_union, size_singleton in * by (intros j ->%elem_of_singleton; done). lia.
  - match type of Hi' with pinv _ (mkPool ?s' _ _ _ _ _) => specialize (Hm s' i x _ eq_refl ltac:(by eapply V_send) H0 eq_refl); pose proof (npa_upd _ s' i x _ H0 eq_refl) as Hu end.
    cbn [set_pc th_pc] in Hm. specialize (Hm ltac:(congruence)). unfold at_auth in Hu. cbn [set_pc th_pc] in Hu. rewrite H1 in Hu.
    rewrite app_length. cbn [length]. lia.
  - rewrite H0. cbn [length]. lia.
  - match type of Hi' with pinv _ (mkPool ?s' _ _ _ _ _) => specialize (Hm s' i x _ eq_refl ltac:(by eapply V_auth) H1 eq_refl); pose proof (npa_upd _ s' i x _ H1 eq_refl) as Hu end.
    cbn [set_pc th_pc] in Hm. specialize (Hm ltac:(rewrite H2; by destruct (auth _ _ _ _))). unfold at_auth in Hu. cbn [set_pc th_pc] in Hu. rewrite H2 in Hu.
    assert (i ∈ p_sent p) as Hin. { apply (q_auth _ _ Hi). rewrite H0, !elem_of_app. right. right. by left. }
    rewrite size_difference in * by (by apply singleton_subseteq_l). rewrite size_singleton in *.
    assert (size (p_sent p) ≠ 0) by (intros E0%size_empty_inv; apply E0 in Hin; by apply elem_of_empty in Hin).
    destruct (auth H enc v c); lia.
  - match type of Hi' with pinv _ (mkPool ?s' _ _ _ _ _) => assert (measure s' < measure (p_v p)) as Hd end.
    { eapply (measure_step H enc sigok); [done|done|by eapply V_work|]. intros d E. apply (f_equal v_tasks) in E. cbn in E.
      assert (Some k = Some (set_st k (TReady (sig_valid sigok (vt_pk k) (vt_cert k))))) as [= E2]; [|by rewrite E2 in H2].
      rewrite <-H1, <-E. apply lookup_insert. }
    match type of Hi' with pinv _ (mkPool ?s' _ _ _ _ _) => change (nPA s') with (nPA (p_v p)) in * end. lia.
  - congruence.
  - lia.
Qed.
Lemma clean_measure p d : pM (mkPool (with_map (p_v p) (delete d (v_map (p_v p)))) (p_chan p) (p_sent p) (p_busy p) (p_alive p) (p_stopped p)) ≤ pM p.
Proof. unfold pM. cbn. change (nPA (with_map (p_v p) (delete d (v_map (p_v p))))) with (nPA (p_v p)). pose proof (measure_clean (p_v p) d). lia. Qed.
Lemma clean_step G n p d : pstep G n p (mkPool (with_map (p_v p) (delete d (v_map (p_v p)))) (p_chan p) (p_sent p) (p_busy p) (p_alive p) (p_stopped p)).
Proof. apply P_other; [apply V_clean|]. by split. Qed.
Lemma run_bounded n p m p' : pinv n p → pool_run H enc sigok n m p p' → m ≤ pM p.
Proof.
  intros Hi Hr. revert Hi. induction Hr as [|k p p' d Hr IH|k p p1 p' Hw Hr IH]; intros Hi; [lia| |].
  - etrans; [apply IH|apply clean_measure]. eapply pinv_step; [exact Hi|apply (clean_step (λ _ _ _, False))].
  - pose proof (work_measure _ _ _ Hi Hw). enough (k ≤ pM p1) by lia. apply IH. by eapply pinv_step; [|apply Hw].
Qed.

(** *** Progress *)
Lemma worker_moves n p : pinv n p → 0 < p_alive p → p_chan p ++ p_busy p ≠ [] → ∃ p', pool_work H enc sigok n p p'.
Proof.
  intros Hi Ha Hne. destruct (p_busy p) as [|it b] eqn:Eb.
  - destruct (p_chan p) as [|it rest] eqn:Ec; [done|]. eexists. split; [eapply P_take; [exact Ec|rewrite Eb; done]|]. split; [done|].
    intros d E. apply (f_equal p_busy) in E. cbn in E. rewrite Eb in E. done.
  - destruct it as [i|t].
    + assert (i ∈ p_sent p) as Hs by (apply (q_auth _ _ Hi); rewrite Eb, elem_of_app; right; left).
      destruct (q_sent _ _ Hi i Hs) as (x & c & Hx & Hp). destruct (l_obj _ (q_linv _ _ Hi) _ _ Hx) as [v Hv].
      eexists. split; [eapply (P_auth _ _ _ _ _ _ [] i b x c v); try done|]. split; [done|].
      intros d E. apply (f_equal (length ∘ p_busy)) in E. cbn in E. rewrite Eb in E. cbn in E. lia.
    + assert (∃ k, v_tasks (p_v p) !! t = Some k ∧ vt_st k = TQueued) as (k & Hk & Hq) by (apply (q_sig _ _ Hi); rewrite Eb, elem_of_app; right; left).
      eexists. split; [eapply (P_sig _ _ _ _ _ _ [] t b k); try done|]. split; [done|].
      intros d E. apply (f_equal (length ∘ p_busy)) in E. cbn in E. rewrite Eb in E. cbn in E. lia.
Qed.
Lemma pool_progress n p i x : pinv n p → 0 < n → p_stopped p = false → v_thr (p_v p) !! i = Some x → active x →
  ∃ p', pool_work H enc sigok n p p'.
Proof.
  intros Hi Hn Hs Hx Ha. pose proof (q_alive _ _ Hi Hs) as Hal.
  destruct (decide (p_chan p ++ p_busy p = [])) as [He|Hne]; [|apply worker_moves; [done|lia|done]].
  apply app_eq_nil in He as [Ec Eb].
  destruct (progress H enc sigok (λ _ _ _, False) _ _ _ (q_linv _ _ Hi) Hx Ha) as (s' & Hst & Hnc).
  assert (off_channel (p_v p) s' → ∃ p', pool_work H enc sigok n p p') as Hoff.
  { intros Ho. eexists. split; [by apply P_other|]. split; [done|]. intros d E. apply (f_equal p_v) in E. cbn in E. by eapply Hnc. }
  assert (∀ j y y' v, v_thr (p_v p) !! j = Some y → match th_pc y with PAuth _ | PSend _ _ => False | _ => True end →
    v_thr v = <[j:=y']> (v_thr (p_v p)) → (∀ t k, v_tasks (p_v p) !! t = Some k → vt_st k = TQueued → v_tasks v !! t = Some k) → off_channel (p_v p) v) as Hmk.
  { intros j y y' v Hy Hp E Ht. split; [|done]. intros j2 z Hz Hpz. rewrite E. rewrite lookup_insert_ne; [done|]. intros <-.
    rewrite Hy in Hz. injection Hz as <-. by destruct (th_pc y). }
  assert (∀ t k k0, v_tasks (p_v p) !! t = k0 → (∀ k1, k0 = Some k1 → vt_st k1 ≠ TQueued) →
    ∀ t' k', v_tasks (p_v p) !! t' = Some k' → vt_st k' = TQueued → <[t:=k]> (v_tasks (p_v p)) !! t' = Some k') as Htk.
  { intros t k k0 Hk Hnq t' k' Hk' Hq. rewrite lookup_insert_ne; [done|]. intros ->. rewrite Hk' in Hk. by eapply Hnq. }
  inversion Hst; subst s'; try done.
  - apply Hoff. eapply Hmk; [eassumption| |reflexivity|done]. match goal with E : th_pc _ = PPop |- _ => by rewrite E end.
  - (* auth *) destruct (decide (i0 ∈ p_sent p)) as [Hin|Hni].
    + apply (q_auth _ _ Hi) in Hin. rewrite Ec, Eb in Hin. by apply elem_of_nil in Hin.
    + eexists. split; [eapply P_send_auth; try done; rewrite Ec; unfold chan_cap; cbn; lia|]. split; [done|].
      intros d E. apply (f_equal (length ∘ p_chan)) in E. cbn in E. rewrite Ec in E. done.
  - apply Hoff. eapply Hmk; [eassumption| |reflexivity|done]. match goal with E : th_pc _ = PStore _ |- _ => by rewrite E end.
  - apply Hoff. eapply Hmk; [eassumption| |reflexivity|cbn; eapply Htk; [eassumption|done]]. match goal with E : th_pc _ = PStore _ |- _ => by rewrite E end.
  - apply Hoff. eapply Hmk; [eassumption| |reflexivity|cbn; eapply Htk; [eassumption|intros k1 [= <-]; congruence]]. match goal with E : th_pc _ = PCas _ _ |- _ => by rewrite E end.
  - apply Hoff. eapply Hmk; [eassumption| |reflexivity|done]. match goal with E : th_pc _ = PCas _ _ |- _ => by rewrite E end.
  - (* send *) eexists. split; [eapply P_send_sig; try done; rewrite Ec; unfold chan_cap; cbn; lia|]. split; [done|].
    intros d E. apply (f_equal (length ∘ p_chan)) in E. cbn in E. rewrite Ec in E. done.
  - (* work *) exfalso. assert (ISig t ∈ p_chan p ++ p_busy p) as Hin by (apply (q_sig _ _ Hi); eauto). rewrite Ec, Eb in Hin. by apply elem_of_nil in Hin.
  - apply Hoff. eapply Hmk; [eassumption| |reflexivity|done]. match goal with E : th_pc _ = PWait _ _ _ |- _ => by rewrite E end.
  - apply Hoff. eapply Hmk; [eassumption| |reflexivity|done]. match goal with E : th_pc _ = PDel _ _ _ |- _ => by rewrite E end.
  - apply Hoff. eapply Hmk; [eassumption| |reflexivity|done]. match goal with E : th_pc _ = PRetry _ |- _ => by rewrite E end.
  - apply Hoff. eapply Hmk; [eassumption| |reflexivity|done]. match goal with E : th_pc _ = PRet _ |- _ => by rewrite E end.
  - apply Hoff. eapply Hmk; [eassumption| |reflexivity|done]. match goal with E : th_pc _ = PRet _ |- _ => by rewrite E end.
  - exfalso. by eapply Hnc.
Qed.

(** *** After all workers have returned *)
Lemma dead_stays G n p p' : pinv n p → p_alive p = 0 → pstep G n p p' → p_alive p' = 0.
Proof. intros Hi Ha Hst. destruct Hst; cbn; try done. lia. Qed.
Lemma dead_idle n p : pinv n p → p_alive p = 0 → p_busy p = [].
Proof. intros Hi Ha. pose proof (q_busy _ _ Hi) as Hb. destruct (p_busy p); [done|cbn in Hb; lia]. Qed.
(** Where a call can be that was made after the workers returned. *)
Definition stranded (x : vthread PK) : Prop :=
  match th_pc x with PPop | PAuth _ | PRet REmpty | PDone REmpty => True | _ => False end.
Lemma dead_step G n p p' i : pinv n p → p_alive p = 0 → pstep G n p p' →
  (∀ x, v_thr (p_v p) !! i = Some x → stranded x) → ∀ x, v_thr (p_v p') !! i = Some x → stranded x.
Proof.
  intros Hi Ha Hst Hx x' Hx'. pose proof (dead_idle _ _ Hi Ha) as Hb.
  destruct Hst; cbn in Hx'; try (by apply Hx).
  - destruct H1 as [Ho _]. destruct H0; cbn in *;
      try (by apply Hx); (destruct (decide (i = i0)) as [<-|Hne]; [|rewrite lookup_insert_ne in Hx' by done; by apply Hx]);
      rewrite lookup_insert in Hx'; injection Hx' as <-;
      try (match goal with E : v_thr _ !! i = Some ?y |- _ => specialize (Hx y E); unfold stranded in Hx; cbn in Hx end);
      unfold stranded; cbn; try done;
      try (match goal with E : th_pc _ = _ |- _ => rewrite E in Hx; try done end).
    + by destruct (ob_cert v).
    + specialize (Ho i x ltac:(eassumption)). match goal with E : th_pc x = PAuth _ |- _ => rewrite E in Ho; specialize (Ho I) end.
      rewrite lookup_insert in Ho. injection Ho as E. apply (f_equal th_pc) in E. cbn in E. 
      match goal with E' : th_pc x = PAuth _ |- _ => rewrite E' in E end. by destruct (auth _ _ _ _).
  - destruct (decide (i = i0)) as [<-|Hne]; [|rewrite lookup_insert_ne in Hx' by done; by apply Hx].
    exfalso. specialize (Hx x H0). unfold stranded in Hx. by rewrite H1 in Hx.
  - rewrite Hb in H0. by destruct b1.
Qed.
Lemma dead_run G n p p' i : pinv n p → p_alive p = 0 → pool_execution H enc sigok G n p p' →
  (∀ x, v_thr (p_v p) !! i = Some x → stranded x) → ∀ x, v_thr (p_v p') !! i = Some x → stranded x.
Proof.
  intros Hi Ha Hr. induction Hr as [p|p p1 p2 Hst Hr IH]; [done|]. intros Hx. apply IH.
  - by eapply pinv_step.
  - by eapply dead_stays.
  - by eapply dead_step.
Qed.
(** A call at its auth task stays there. *)
Lemma dead_auth G n p p' i x c : pinv n p → p_alive p = 0 → pool_execution H enc sigok G n p p' →
  v_thr (p_v p) !! i = Some x → th_pc x = PAuth c → v_thr (p_v p') !! i = Some x.
Proof.
  intros Hi Ha Hr. induction Hr as [p|p p1 p2 Hst Hr IH]; [done|]. intros Hx Hp. apply IH; [by eapply pinv_step|by eapply dead_stays| |done].
  pose proof (dead_idle _ _ Hi Ha) as Hb. destruct Hst; cbn; try done.
  - destruct H1 as [Ho _]. apply Ho; [done|]. by rewrite Hp.
  - rewrite lookup_insert_ne; [done|]. intros ->. congruence.
  - rewrite Hb in H0. by destruct b1.
Qed.
(** A call waiting for a signature nobody has checked stays there, too. *)
Definition unchecked (s : vstate) (t : nat) : Prop := ∃ k, v_tasks s !! t = Some k ∧ ∀ ok, vt_st k ≠ TReady ok.
Lemma dead_unchecked G n p p' t : pinv n p → p_alive p = 0 → pstep G n p p' → unchecked (p_v p) t → unchecked (p_v p') t.
Proof.
  intros Hi Ha Hst (k & Hk & Hnr). pose proof (dead_idle _ _ Hi Ha) as Hb. destruct Hst; cbn; try (by exists k).
  - destruct H1 as [Ho Hq]. destruct H0; cbn in *; try (by exists k).
    + unfold unchecked; cbn. exists k. split; [|done]. rewrite lookup_insert_ne; [done|]. intros ->. congruence.
    + unfold unchecked; cbn. destruct (decide (t0 = t)) as [->|Hne]; [rewrite lookup_insert; eexists; split; [done|done]|rewrite lookup_insert_ne by done; eauto].
    + unfold unchecked; cbn. destruct (decide (t0 = t)) as [->|Hne]; [rewrite lookup_insert; eexists; split; [done|done]|rewrite lookup_insert_ne by done; eauto].
    + unfold unchecked; cbn. destruct (decide (t0 = t)) as [->|Hne]; [|rewrite lookup_insert_ne by done; eauto]. exfalso.
      specialize (Hq t k0 ltac:(eassumption) ltac:(eassumption)). rewrite lookup_insert in Hq. injection Hq as E.
      apply (f_equal vt_st) in E. cbn in E. congruence.
  - unfold unchecked; cbn. destruct (decide (t0 = t)) as [->|Hne]; [rewrite lookup_insert; eexists; split; [done|done]|rewrite lookup_insert_ne by done; eauto].
  - rewrite Hb in H0. by destruct b1.
Qed.
Definition waiting_on (x : vthread PK) (t : nat) : Prop :=
  match th_pc x with PCas _ t' | PSend _ t' | PWait _ t' _ => t' = t | _ => False end.
Lemma dead_wait G n p p' i x t : pinv n p → p_alive p = 0 → pool_execution H enc sigok G n p p' →
  v_thr (p_v p) !! i = Some x → waiting_on x t → unchecked (p_v p) t → ∃ x', v_thr (p_v p') !! i = Some x' ∧ waiting_on x' t.
Proof.
  intros Hi Ha Hr. revert x. induction Hr as [p|p p1 p2 Hst Hr IH]; intros x Hx Hp Hu; [by exists x|].
  assert (∃ x1, v_thr (p_v p1) !! i = Some x1 ∧ waiting_on x1 t) as (x1 & Hx1 & Hp1).
  { pose proof (dead_idle _ _ Hi Ha) as Hb. destruct Hu as (k & Hk & Hnr). unfold waiting_on in *.
    destruct Hst; cbn; try (by exists x).
    - destruct H1 as [Ho Hq]. destruct (v_thr s' !! i) as [x'|] eqn:Hx'.
      2:{ exfalso. destruct H0; cbn in Hx'; try congruence; apply lookup_insert_None in Hx' as [Hx' _]; congruence. }
      exists x'. split; [done|]. destruct H0; cbn in Hx'; try (by rewrite Hx in Hx'; injection Hx' as <-);
        (destruct (decide (i = i0)) as [<-|Hne]; [|rewrite lookup_insert_ne in Hx' by done; by rewrite Hx in Hx'; injection Hx' as <-]);
        rewrite lookup_insert in Hx'; injection Hx' as <-; try congruence;
        match goal with E : v_thr (p_v p) !! i = Some ?y |- _ => lazymatch y with x => fail | _ => rewrite Hx in E; injection E as <- end end;
        match goal with E : th_pc _ = _ |- _ => rewrite E in Hp; cbn; try done end.
      subst t0. match goal with E : v_tasks (p_v p) !! t = Some _, E' : vt_st _ = TReady _ |- _ => rewrite Hk in E; injection E as <- end. exfalso. by eapply Hnr.
    - destruct (decide (i = i0)) as [<-|Hne]; [|rewrite lookup_insert_ne by done; by exists x]. rewrite lookup_insert.
      eexists. split; [done|]. cbn. rewrite Hx in H0. injection H0 as <-. by rewrite H1 in Hp.
    - rewrite Hb in H0. by destruct b1. }
  eapply IH; [by eapply pinv_step|by eapply dead_stays|done|done|by eapply dead_unchecked].
Qed.

(** After Stop all workers can return, each finishing the task it works on. *)
Lemma stop_drains G n p : pinv n p → p_stopped p = true → ∃ p', pool_execution H enc sigok G n p p' ∧ p_alive p' = 0 ∧
  (∀ i, i ∉ p_sent p → v_thr (p_v p') !! i = v_thr (p_v p) !! i).
Proof.
  intros Hi Hs. remember (length (p_busy p) + p_alive p) as m eqn:Em. revert p Hi Hs Em.
  induction m as [m IH] using lt_wf_ind. intros p Hi Hs Em.
  destruct (p_busy p) as [|it b] eqn:Eb.
  - destruct (p_alive p) as [|a] eqn:Ea; [exists p; split; [apply rtc_refl|]; done|].
    assert (pstep G n p (mkPool (p_v p) (p_chan p) (p_sent p) (p_busy p) (p_alive p - 1) (p_stopped p))) as Hst by (apply P_exit; [done|rewrite Eb, Ea; cbn; lia]).
    destruct (IH (length (p_busy p) + (p_alive p - 1)) ltac:(rewrite Eb, Ea in *; cbn in *; lia) _ ltac:(by eapply pinv_step) Hs eq_refl) as (p' & H1 & H2 & H3).
    exists p'. split; [by eapply rtc_l|]. done.
  - destruct it as [j|t].
    + assert (j ∈ p_sent p) as Hj by (apply (q_auth _ _ Hi); rewrite Eb, elem_of_app; right; left).
      destruct (q_sent _ _ Hi j Hj) as (x & c & Hx & Hp). destruct (l_obj _ (q_linv _ _ Hi) _ _ Hx) as [v Hv].
      pose proof (P_auth H enc sigok G n p [] j b x c v Eb Hx Hp Hv) as Hst.
      edestruct (IH (length b + p_alive p) ltac:(cbn in *; lia) _ ltac:(by eapply pinv_step) Hs eq_refl) as (p' & H1 & H2 & H3).
      exists p'. split; [by eapply rtc_l|]. split; [done|]. intros i Hni. cbn in H3. rewrite H3; [|set_solver].
      rewrite lookup_insert_ne; [done|]. congruence.
    + assert (∃ k, v_tasks (p_v p) !! t = Some k ∧ vt_st k = TQueued) as (k & Hk & Hq) by (apply (q_sig _ _ Hi); rewrite Eb, elem_of_app; right; left).
      pose proof (P_sig H enc sigok G n p [] t b k Eb Hk Hq) as Hst.
      edestruct (IH (length b + p_alive p) ltac:(cbn in *; lia) _ ltac:(by eapply pinv_step) Hs eq_refl) as (p' & H1 & H2 & H3).
      exists p'. split; [by eapply rtc_l|]. done.
Qed.
End pool.
