(** C123: a robust call with a method name or id that is not UTF-8. *)
From stdpp Require Import gmap.
From Verif.Base Require Import Base.
From Verif.Model Require Import Wire RelayConn RelayUp.
From Verif.Properties Require Import P26_RelayConn.

Section proofs.
Context (n : nat) (methods : nat → string).
Notation run := (relays_up n methods).

Lemma run_csteps tr0 tr s s' : run tr0 tr s s' → csteps n tr s s'.
Proof using Type. induction 1; econstructor; done. Qed.
Lemma run_app tr1 tr2 s1 s2 s3 : run [] tr1 s1 s2 → run tr1 tr2 s2 s3 → run [] (tr1 ++ tr2) s1 s3.
Proof using Type.
  intros H1 H2. induction H2 as [|tr l a b c H2 IH Hl Hc]; [by rewrite app_nil_r|]. rewrite (assoc_L (++)). econstructor; [by apply IH|done|done].
Qed.

(** *** Facts about all runs *)
Lemma keeps l s s' k : cstep n l s s' → ca_phase (calls s k) ≠ PNone →
  ca_phase (calls s' k) ≠ PNone ∧ ca_uuid (calls s' k) = ca_uuid (calls s k).
Proof using Type.
  intros Hl Hk. destruct Hl; cbn [calls]; try done.
  all: destruct (decide (k0 = k)) as [->|]; [rewrite upd_eq; cbn; try done|by rewrite upd_ne].
  split; [by case_decide|done].
Qed.
Lemma keeps_run tr s s' k : csteps n tr s s' → ca_phase (calls s k) ≠ PNone →
  ca_phase (calls s' k) ≠ PNone ∧ ca_uuid (calls s' k) = ca_uuid (calls s k).
Proof using Type.
  intros Hs Hk. induction Hs as [|tr l a b c Hs IH Hl]; [done|]. destruct (IH Hk) as [H1 H2].
  destruct (keeps _ _ _ k Hl H1) as [? ?]. split; [done|congruence].
Qed.
Lemma started_once tr s s' k u : csteps n tr s s' → CStart k u ∈ tr →
  ca_phase (calls s k) = PNone ∧ ca_phase (calls s' k) ≠ PNone ∧ ca_uuid (calls s' k) = u.
Proof using Type.
  intros Hs Hk. induction Hs as [|tr l a b c Hs IH Hl]; [by apply elem_of_nil in Hk|].
  rewrite elem_of_app, elem_of_list_singleton in Hk. destruct Hk as [Hk|<-].
  - destruct (IH Hk) as (H0 & H1 & H2). destruct (keeps _ _ _ k Hl H1) as [? ?]. split; [done|]. split; [done|congruence].
  - inversion Hl; subst. cbn [calls]. rewrite upd_eq. cbn. split; [|done].
    assert (¬ ca_phase (calls a k) ≠ PNone) as Hn.
    { intros Hn. by destruct (keeps_run _ _ _ k Hs Hn) as [Hx _]. }
    destruct (ca_phase (calls a k)); first [done|by destruct Hn].
Qed.
Definition qinv (s : cst) : Prop :=
  (∀ k, okphase n (ca_phase (calls s k))) ∧
  (∀ i k, k ∈ rc_q (rcs s i) → i < n ∧ ca_phase (calls s k) ≠ PNone) ∧
  (∀ i u k, rc_live (rcs s i) !! u = Some k → ca_phase (calls s k) ≠ PNone ∧ ca_uuid (calls s k) = u) ∧
  (∀ i, length (rc_q (rcs s i)) ≤ 100).
Lemma qinv_all tr s : csteps n tr cinit s → qinv s.
Proof using Type.
  intros Hs. remember cinit as s0 eqn:E0. induction Hs as [|tr l a b c Hs IH Hl]; subst.
  { split_and!; cbn; try done; [intros i k Hk; by apply elem_of_nil in Hk|intros; lia]. }
  destruct (IH eq_refl) as (I1 & I2 & I3 & I4). pose proof (λ k, keeps l b c k Hl) as Hkeep.
  assert (∀ i k, k ∈ rc_q (rcs b i) → i < n ∧ ca_phase (calls c k) ≠ PNone) as I2'.
  { intros i k Hk. destruct (I2 i k Hk) as [? ?]. split; [done|by apply Hkeep]. }
  assert (∀ i u k, rc_live (rcs b i) !! u = Some k → ca_phase (calls c k) ≠ PNone ∧ ca_uuid (calls c k) = u) as I3'.
  { intros i u k Hk. destruct (I3 i u k Hk) as [H1 <-]. by apply Hkeep. }
  split_and!.
  - intros k. destruct Hl; cbn [calls]; try apply I1.
    all: destruct (decide (k0 = k)) as [->|]; [rewrite upd_eq; cbn; try done; try lia|rewrite upd_ne by done; apply I1].
    all: specialize (I1 k); try exact I1; rewrite H in I1; try case_decide; cbn in *; try exact I1; lia.
  - destruct Hl; cbn [rcs]; try exact I2'.
    all: intros i' k' Hk'; destruct (decide (i = i')) as [<-|]; [rewrite upd_eq in Hk'|rewrite upd_ne in Hk' by done; by apply I2']; cbn in Hk'.
    all: try (by apply I2').
    + rewrite elem_of_app, elem_of_list_singleton in Hk'. destruct Hk' as [?| ->]; [by apply I2'|].
      split; [specialize (I1 k); by rewrite H in I1|]. apply Hkeep. by rewrite H.
    + apply I2'. rewrite H0. by right.
    + apply I2'. rewrite H0. by right.
    + apply I2'. rewrite H0. by right.
  - destruct Hl; cbn [rcs]; try exact I3'.
    all: intros i' u' k' Hk'; destruct (decide (i = i')) as [<-|]; [rewrite upd_eq in Hk'|rewrite upd_ne in Hk' by done; by eapply I3']; cbn in Hk'.
    all: try (by eapply I3').
    + apply lookup_insert_Some in Hk' as [[<- <-]|[_ ?]]; [|by eapply I3']. apply Hkeep. by rewrite H.
    + apply lookup_delete_Some in Hk' as [_ ?]. by eapply I3'.
    + apply lookup_delete_Some in Hk' as [_ ?]. by eapply I3'.
  - intros i'. destruct Hl; cbn [rcs]; try apply I4.
    all: destruct (decide (i = i')) as [<-|]; [rewrite upd_eq; cbn|rewrite upd_ne by done; apply I4].
    all: try apply I4.
    + rewrite app_length. cbn. unfold qcap in *. lia.
    + specialize (I4 i). rewrite H0 in I4. cbn in I4. lia.
    + specialize (I4 i). rewrite H0 in I4. cbn in I4. lia.
    + specialize (I4 i). rewrite H0 in I4. cbn in I4. lia.
Qed.
Lemma id_of tr s k : csteps n tr cinit s → ca_phase (calls s k) ≠ PNone → CStart k (ca_uuid (calls s k)) ∈ tr.
Proof using Type. intros. by eapply id_started. Qed.
Lemma wired_started tr s i k : csteps n tr cinit s → CWire i k ∈ tr → i < n ∧ ca_phase (calls s k) ≠ PNone.
Proof using Type.
  intros Hs Hk. remember cinit as s0 eqn:E0. induction Hs as [|tr l a b c Hs IH Hl]; subst; [by apply elem_of_nil in Hk|].
  rewrite elem_of_app, elem_of_list_singleton in Hk. destruct Hk as [Hk|<-].
  - destruct (IH eq_refl Hk) as [? ?]. split; [done|by eapply keeps].
  - destruct (qinv_all _ _ Hs) as (_ & I2 & _). inversion Hl; subst. cbn [calls].
    apply (I2 i k). match goal with E : rc_q _ = _ |- _ => rewrite E end. by left.
Qed.

(** *** What a call reads *)
(** Relay i was sent a request of a call with this id. *)
Definition asked (tr : list clabel) (i : nat) (u : string) : Prop := ∃ k, CWire i k ∈ tr ∧ CStart k u ∈ tr.
Lemma asked_snoc tr l i u : asked tr i u → asked (tr ++ [l]) i u.
Proof using Type. intros (k & H1 & H2). exists k. rewrite !elem_of_app. auto. Qed.

Lemma ainv_all tr s : run [] tr cinit s →
  (∀ i k, rc_recv (rcs s i) = RvHold k → ca_phase (calls s k) ≠ PNone ∧ asked tr i (ca_uuid (calls s k))) ∧
  (∀ i k, (i, true) ∈ ca_buf (calls s k) → ca_phase (calls s k) ≠ PNone ∧ asked tr i (ca_uuid (calls s k))) ∧
  (∀ i k, CRead k (i, true) ∈ tr → ca_phase (calls s k) ≠ PNone ∧ asked tr i (ca_uuid (calls s k))).
Proof using Type.
  intros Hs. remember cinit as s0 eqn:E0. induction Hs as [|tr l a b c Hs IH Hl Hup]; subst.
  { split; [done|]. split; [intros i k Hk|intros i k Hk]; by apply elem_of_nil in Hk. }
  destruct (IH eq_refl) as (I1 & I2 & I3). pose proof (λ k, keeps l b c k Hl) as Hkeep. rewrite app_nil_l in Hup.
  destruct (qinv_all _ _ (run_csteps _ _ _ _ Hs)) as (_ & _ & Q3 & _).
  assert (∀ i k, ca_phase (calls b k) ≠ PNone ∧ asked tr i (ca_uuid (calls b k)) →
    ca_phase (calls c k) ≠ PNone ∧ asked (tr ++ [l]) i (ca_uuid (calls c k))) as Hgo.
  { intros i k [H1 H2]. destruct (Hkeep k H1) as [H3 ->]. split; [done|by apply asked_snoc]. }
  assert (∀ i k, rc_recv (rcs c i) = RvHold k → rc_recv (rcs b i) = RvHold k ∨ ∃ u, l = CRecv i u ∧ rc_live (rcs b i) !! u = Some k) as Hr.
  { intros i' k'. clear -Hl. destruct Hl; cbn [rcs]; try (by left).
    all: destruct (decide (i = i')) as [<-|]; [rewrite upd_eq; cbn|rewrite upd_ne by done; by left].
    all: try (by left); try done. intros [= <-]. right. by eexists. }
  assert (∀ m k, m ∈ ca_buf (calls c k) → m.2 = true → m ∈ ca_buf (calls b k) ∨ (l = CDeliver m.1 k ∧ rc_recv (rcs b m.1) = RvHold k)) as Hb.
  { intros m k'. clear -Hl. destruct Hl; cbn [calls]; try (by left).
    all: destruct (decide (k = k')) as [<-|]; [rewrite upd_eq; cbn|rewrite upd_ne by done; by left].
    all: try (by left).
    - intros Hm. by apply elem_of_nil in Hm.
    - rewrite elem_of_app, elem_of_list_singleton. intros [?| ->] ?; [by left|by right].
    - rewrite elem_of_app, elem_of_list_singleton. intros [?| ->] ?; [by left|done].
    - intros Hm _. left. match goal with E : ca_buf _ = _ :: _ |- _ => rewrite E end. by right. }
  split_and!.
  - intros i k Hk. destruct (Hr i k Hk) as [Hk'|(u & -> & Hu)]; [by apply Hgo, I1|].
    destruct (Q3 _ _ _ Hu) as [Hp <-]. apply Hgo. split; [done|exact Hup].
  - intros i k Hk. destruct (Hb _ _ Hk eq_refl) as [Hk'|[-> Hk']]; [by apply Hgo, I2|]. by apply Hgo, I1.
  - intros i k Hk. rewrite elem_of_app, elem_of_list_singleton in Hk. apply Hgo. destruct Hk as [Hk| <-]; [by apply I3|].
    apply I2. inversion Hl; subst. match goal with E : ca_buf _ = _ :: _ |- _ => rewrite E end. by left.
Qed.
(** Every response a call reads comes from a relay that was sent a request with its id. *)
Theorem C123_answers tr s k i u : run [] tr cinit s → CStart k u ∈ tr → CRead k (i, true) ∈ tr → asked tr i u.
Proof using Type.
  intros Hs Hst Hr. destruct (ainv_all _ _ Hs) as (_ & _ & I3). destruct (I3 _ _ Hr) as [_ Ha].
  by destruct (started_once _ _ _ _ _ (run_csteps _ _ _ _ Hs) Hst) as (_ & _ & <-).
Qed.

(** *** C123 *)
(** With method names and ids that are UTF-8 no send fails and no stream ends. *)
Theorem C123_utf8_is_safe tr s : run [] tr cinit s →
  (∀ k u, CStart k u ∈ tr → utf8 (methods k) = true ∧ utf8 u = true) →
  ∀ i k, CLost i k ∉ tr ∧ CEof i k ∉ tr ∧ CRecvEnd i ∉ tr.
Proof using Type.
  intros Hs. remember cinit as s0 eqn:E0. induction Hs as [|tr l a b c Hs IH Hl Hup]; subst; intros Hok i k.
  { split_and!; apply not_elem_of_nil. }
  assert (∀ k u, CStart k u ∈ tr → utf8 (methods k) = true ∧ utf8 u = true) as Hok'.
  { intros k0 u Hin. apply Hok. rewrite elem_of_app. by left. }
  pose proof (IH eq_refl Hok') as I. destruct (I i k) as (I1 & I2 & I3). rewrite app_nil_l in Hup.
  rewrite !not_elem_of_app, !elem_of_list_singleton. split_and!; try done; intros <-.
  - destruct Hup as [Hbad _]. pose proof (run_csteps _ _ _ _ Hs) as Hc.
    destruct (qinv_all _ _ Hc) as (_ & Q2 & _). inversion Hl; subst.
    assert (ca_phase (calls b k) ≠ PNone) as Hp by (eapply Q2; match goal with E : rc_q _ = _ |- _ => rewrite E end; by left).
    destruct (Hok' _ _ (id_of _ _ _ Hc Hp)) as [G1 G2]. unfold encodable in Hbad. by rewrite G1, G2 in Hbad.
  - destruct Hup as [k' Hk']. by destruct (I i k') as (? & _).
  - destruct Hup as [k' Hk']. by destruct (I i k') as (? & _).
Qed.
(** A call whose method name or id is not UTF-8 is sent to no relay, and (its id being its own) gets no
    response. *)
Theorem C123_not_sent tr s k u : run [] tr cinit s → CStart k u ∈ tr → utf8 (methods k) && utf8 u = false →
  (∀ i, CWire i k ∉ tr) ∧ ((∀ k', CStart k' u ∈ tr → k' = k) → ∀ i, CRead k (i, true) ∉ tr).
Proof using Type.
  intros Hs Hst Hbad. pose proof (run_csteps _ _ _ _ Hs) as Hc.
  destruct (started_once _ _ _ _ _ Hc Hst) as (_ & _ & Hu).
  assert (∀ i, CWire i k ∉ tr) as Hw.
  { intros i Hin. clear Hst. remember cinit as s0 eqn:E0. revert Hu Hin. induction Hs as [|tr l a b c Hs IH Hl Hup]; subst; intros Hu Hin; [by apply elem_of_nil in Hin|].
    pose proof (run_csteps _ _ _ _ Hs) as Hcb.
    assert (ca_phase (calls b k) ≠ PNone) as Hp.
    { rewrite elem_of_app, elem_of_list_singleton in Hin. destruct Hin as [Hin| <-]; [by eapply wired_started|].
      destruct (qinv_all _ _ Hcb) as (_ & Q2 & _). inversion Hl; subst. eapply Q2. match goal with E : rc_q _ = _ |- _ => rewrite E end. by left. }
    destruct (keeps _ _ _ k Hl Hp) as [_ Hid]. rewrite elem_of_app, elem_of_list_singleton in Hin. destruct Hin as [Hin| <-].
    - apply (IH eq_refl Hcb); [congruence|done].
    - destruct Hup as [Hgood _]. unfold encodable in Hgood. rewrite <- Hid, Hu in Hgood. congruence. }
  split; [done|]. intros Hown i Hr. destruct (C123_answers _ _ _ _ _ Hs Hst Hr) as (k' & Hk' & Hst').
  rewrite (Hown k' Hst') in Hk'. by eapply Hw.
Qed.
(** When its requests have been handed out and taken, the stream to every relay is finished. *)
Lemma passed_inv tr s i k : csteps n tr cinit s → i < n → passed (ca_phase (calls s k)) i →
  k ∈ rc_q (rcs s i) ∨ CWire i k ∈ tr ∨ CLost i k ∈ tr ∨ CEof i k ∈ tr.
Proof using methods.
  intros Hs Hi. remember cinit as s0 eqn:E0. induction Hs as [|tr l a b c Hs IH Hl]; subst; intros Hp; [done|]. rewrite !elem_of_app, !elem_of_list_singleton.
  specialize (IH eq_refl).
  assert (passed (ca_phase (calls b k)) i ∨ ¬ passed (ca_phase (calls b k)) i) as [Hb|Hb] by (destruct (ca_phase (calls b k)); cbn; lia || tauto).
  - destruct (IH Hb) as [Hq|Hq]; [|tauto]. clear -Hl Hq. destruct Hl; cbn [rcs]; try (by left).
    all: destruct (decide (i0 = i)) as [->|]; [rewrite upd_eq; cbn|rewrite upd_ne by done; by left]; try (by left).
    + left. rewrite elem_of_app. by left.
    + rewrite H0, elem_of_cons in Hq. destruct Hq as [->|?]; [|by left]. tauto.
    + rewrite H0, elem_of_cons in Hq. destruct Hq as [->|?]; [|by left]. tauto.
    + rewrite H0, elem_of_cons in Hq. destruct Hq as [->|?]; [|by left]. tauto.
  - destruct (passed_step n _ _ _ i k Hl Hi Hb) as [?|Hin]; [done|]. destruct Hl; cbn in Hin; try (by apply elem_of_nil in Hin).
    case_decide; [|by apply elem_of_nil in Hin]. apply elem_of_list_singleton in Hin as <-. subst. left. cbn [rcs]. rewrite upd_eq. cbn.
    rewrite elem_of_app, elem_of_list_singleton. by right.
Qed.
Lemma eof_lost tr s i k : run [] tr cinit s → CEof i k ∈ tr → ∃ k', CLost i k' ∈ tr.
Proof using Type.
  intros Hs Hin. remember cinit as s0 eqn:E0. induction Hs as [|tr l a b c Hs IH Hl Hup]; subst; [by apply elem_of_nil in Hin|].
  rewrite elem_of_app, elem_of_list_singleton in Hin. destruct Hin as [Hin| <-].
  - destruct (IH eq_refl Hin) as [k' ?]. exists k'. rewrite elem_of_app. by left.
  - destruct Hup as [k' ?]. exists k'. rewrite elem_of_app. by left.
Qed.
Theorem C123_finishes_streams tr s k u : run [] tr cinit s → CStart k u ∈ tr → utf8 (methods k) && utf8 u = false →
  ca_phase (calls s k) = PWait ∨ ca_phase (calls s k) = PDone → (∀ i, i < n → k ∉ rc_q (rcs s i)) →
  ∀ i, i < n → ∃ k', CLost i k' ∈ tr.
Proof using Type.
  intros Hs Hst Hbad Hp Hq i Hi. pose proof (run_csteps _ _ _ _ Hs) as Hc.
  destruct (C123_not_sent _ _ _ _ Hs Hst Hbad) as [Hw _].
  destruct (passed_inv _ _ i k Hc Hi) as [H1|[H1|[H1|H1]]].
  - destruct Hp as [-> | ->]; done.
  - by apply Hq in H1.
  - by apply Hw in H1.
  - by exists k.
  - by eapply eof_lost.
Qed.

(** From then on, for every call made later - to whichever server: nothing is sent to any relay; a call with a
    fresh id gets no response (all it can read are the timeouts of the cleanup); and at most 101 calls return
    at all. *)
Theorem C123_afterwards tr s tr' s' : run [] tr cinit s → (∀ i, i < n → ∃ k, CLost i k ∈ tr) → run tr tr' s s' →
  (∀ i k, CWire i k ∉ tr') ∧
  (∀ k u i, CStart k u ∈ tr' → (∀ k', CStart k' u ∉ tr) → CRead k (i, true) ∉ tr') ∧
  (∀ l, 0 < n → NoDup l → (∀ k, k ∈ l → (∃ u, CStart k u ∈ tr') ∧ CReturn k ∈ tr') → length l ≤ 101).
Proof using Type.
  intros Hs Hlost Hs'. pose proof (run_app _ _ _ _ _ Hs Hs') as Hall. pose proof (run_csteps _ _ _ _ Hs) as Hc.
  pose proof (run_csteps _ _ _ _ Hs') as Hc'. pose proof (run_csteps _ _ _ _ Hall) as Hca.
  assert (∀ i k, CWire i k ∉ tr') as Hw.
  { intros i k Hin. assert (i < n) as Hi by (eapply (wired_started _ _ i k Hca); rewrite elem_of_app; by right).
    clear -Hs' Hlost Hin Hi. induction Hs' as [|tr' l a b c Hs' IH Hl Hup]; [by apply elem_of_nil in Hin|].
    rewrite elem_of_app, elem_of_list_singleton in Hin. destruct Hin as [?| <-]; [by apply IH|].
    destruct Hup as [_ Hno]. destruct (Hlost i Hi) as [k' Hk']. apply (Hno k'). rewrite elem_of_app. by left. }
  split; [done|]. split.
  - intros k u i Hst Hfresh Hr.
    destruct (C123_answers _ _ k i u Hall) as (k' & Hk' & Hst'); [rewrite elem_of_app; by right..|].
    rewrite elem_of_app in Hk'. destruct Hk' as [Hk'|Hk']; [|by eapply Hw].
    destruct (wired_started _ _ _ _ Hc Hk') as [_ Hp]. rewrite elem_of_app in Hst'. destruct Hst' as [Hst'|Hst']; [by eapply Hfresh|].
    by destruct (started_once _ _ _ _ _ Hc' Hst') as [? _].
  - intros l Hn Hnd Hl.
    assert (length (rc_q (rcs s 0)) + length (passed_at 0 tr') ≤ length (rc_q (rcs s' 0)) + 1) as Hcount.
    { assert ((rc_send (rcs s' 0) = true → length (rc_q (rcs s 0)) + length (passed_at 0 tr') ≤ length (rc_q (rcs s' 0))) ∧
              length (rc_q (rcs s 0)) + length (passed_at 0 tr') ≤ length (rc_q (rcs s' 0)) + 1) as [_ ?]; [|done].
      clear -Hs' Hlost Hn Hw. destruct (Hlost 0 Hn) as [k0 Hk0]. induction Hs' as [|tr' l a b c Hs' IH Hl Hup]; [split; cbn; intros; lia|].
      destruct IH as [IA IB]; [intros i k Hin; apply (Hw i k); rewrite elem_of_app; by left|].
      unfold passed_at in *. rewrite omap_app, app_length.
      destruct Hl; cbn [rcs omap list_omap length]; try (by rewrite Nat.add_0_r).
      all: try (destruct (decide (i = 0)) as [->|]; [rewrite upd_eq; cbn|rewrite upd_ne by done; by rewrite ?Nat.add_0_r]; rewrite ?Nat.add_0_r).
      all: try (split; done).
      + rewrite app_length. cbn. split; [intros ?; specialize (IA ltac:(done)); lia|lia].
      + exfalso. apply (Hw 0 k). rewrite elem_of_app, elem_of_list_singleton. by right.
      + exfalso. destruct Hup as [_ Hno]. apply (Hno k0). rewrite elem_of_app. by left.
      + specialize (IA ltac:(done)). match goal with E : rc_q _ = _ |- _ => rewrite E in IA; cbn in IA end. split; [done|lia]. }
    destruct (qinv_all _ _ Hca) as (_ & _ & _ & Q4). specialize (Q4 0).
    assert (l ⊆ passed_at 0 tr') as Hsub.
    { intros k Hk. destruct (Hl k Hk) as [[u Hst] Hr]. destruct (started_once _ _ _ _ _ Hc' Hst) as (Hp & _ & _).
      eapply (passed_run n _ _ _ 0 k Hc' Hn); [rewrite Hp; cbn; tauto|].
      assert (k ∈ returned tr') as Hret.
      { unfold returned. apply elem_of_list_omap. by exists (CReturn k). }
      by rewrite (returned_done n _ _ _ _ Hc' Hret). }
    apply NoDup_submseteq, submseteq_length in Hsub; [lia|done].
Qed.
End proofs.

(** ** A run, by computation: two relays; call 0 is answered by both; call 1 has the byte 255 as method name;
    call 2 then gets only a timeout. *)
Definition exec_up (n : nat) (l : clabel) (s : cst) : option cst :=
  match l with
  | CLost i k => match rc_send (rcs s i), rc_q (rcs s i) with
      | true, k' :: q => if k =? k' then Some (mkCst (upd (rcs s) i (set_q (rcs s i) q true)) (calls s)) else None
      | _, _ => None end
  | CEof i k => match rc_send (rcs s i), rc_q (rcs s i) with
      | true, k' :: q => if k =? k' then Some (mkCst (upd (rcs s) i (set_q (rcs s i) q false)) (calls s)) else None
      | _, _ => None end
  | _ => exec n l s
  end.
Lemma exec_up_sound n l s s' : exec_up n l s = Some s' → cstep n l s s'.
Proof.
  destruct l; try apply exec_sound; cbn; intros E; destruct (rc_send _) eqn:E1; try done;
    destruct (rc_q _) as [|k' q] eqn:E2; try done; destruct (Nat.eqb_spec k k') as [->|]; try done; injection E as <-.
  - by apply cs_lost.
  - by apply cs_eof.
Qed.
Definition lost_in (i : nat) (tr : list clabel) : bool := existsb (λ l, match l with CLost j _ => i =? j | _ => false end) tr.
Lemma lost_in_true i tr : lost_in i tr = true → ∃ k, CLost i k ∈ tr.
Proof.
  intros (l & Hl & E)%existsb_exists. destruct l; try done. apply Nat.eqb_eq in E as ->. exists k. by apply elem_of_list_In.
Qed.
Lemma lost_in_false i tr : lost_in i tr = false → ∀ k, CLost i k ∉ tr.
Proof.
  intros E k Hk. assert (lost_in i tr = true) as E'; [|congruence]. apply existsb_exists. exists (CLost i k).
  split; [by apply elem_of_list_In|]. apply Nat.eqb_refl.
Qed.
Definition up_check (methods : nat → string) (tr : list clabel) (s : cst) (l : clabel) : bool :=
  match l with
  | CWire i k => encodable methods s k && negb (lost_in i tr)
  | CLost i k => negb (encodable methods s k) && negb (lost_in i tr)
  | CEof i _ | CRecvEnd i => lost_in i tr
  | CRecv i u => existsb (λ l, match l with
      | CWire j k => (i =? j) && existsb (λ l, match l with CStart k' u' => (k =? k') && bool_decide (u = u') | _ => false end) tr
      | _ => false end) tr
  | _ => true
  end.
Lemma up_check_sound methods tr s l : up_check methods tr s l = true → conn_up methods tr s l.
Proof.
  destruct l; cbn [up_check conn_up]; try done.
  - intros [H1 H2%negb_true_iff]%andb_true_iff. split; [done|by apply lost_in_false].
  - intros [H1%negb_true_iff H2%negb_true_iff]%andb_true_iff. split; [done|by apply lost_in_false].
  - apply lost_in_true.
  - intros (l & Hl & E)%existsb_exists. destruct l; try done. apply andb_true_iff in E as [->%Nat.eqb_eq E].
    apply existsb_exists in E as (l' & Hl' & E). destruct l'; try done. apply andb_true_iff in E as [->%Nat.eqb_eq ->%bool_decide_eq_true].
    eexists. split; by apply elem_of_list_In.
  - apply lost_in_true.
Qed.
Fixpoint run_up (n : nat) (methods : nat → string) (tr : list clabel) (ls : list clabel) (s : cst) : option cst :=
  match ls with
  | [] => Some s
  | l :: ls => if up_check methods tr s l then s' ← exec_up n l s; run_up n methods (tr ++ [l]) ls s' else None
  end.
Lemma run_up_sound n methods ls tr0 tr1 s0 s s' : relays_up n methods tr0 tr1 s0 s → run_up n methods (tr0 ++ tr1) ls s = Some s' →
  relays_up n methods tr0 (tr1 ++ ls) s0 s'.
Proof.
  revert tr1 s. induction ls as [|l ls IH]; cbn [run_up]; intros tr1 s Hs E; [injection E as <-; by rewrite app_nil_r|].
  destruct (up_check methods (tr0 ++ tr1) s l) eqn:E1; [|done]. destruct (exec_up n l s) as [s1|] eqn:E2; [|done]. cbn in E.
  replace (tr1 ++ l :: ls) with ((tr1 ++ [l]) ++ ls) by by rewrite <- (assoc_L (++)).
  eapply IH; [|by rewrite (assoc_L (++))]. econstructor; [done|by apply exec_up_sound|by apply up_check_sound].
Qed.
Definition ex_methods (k : nat) : string := if k =? 1 then String (Ascii.ascii_of_nat 255) "" else "/S/Do".
Definition ex_before : list clabel :=
  [CStart 0 "a"; CStore 0 0; CQueue 0 0; CStore 0 1; CQueue 0 1; CWire 0 0; CWire 1 0; CRecv 1 "a"; CRecv 0 "a"; CDeliver 0 0; CDeliver 1 0;
   CRead 0 (0, true); CRead 0 (1, true); CReturn 0;
   CStart 1 "b"; CStore 1 0; CQueue 1 0; CStore 1 1; CQueue 1 1; CLost 0 1; CLost 1 1].
Definition ex_after : list clabel :=
  [CStart 2 "c"; CStore 2 0; CQueue 2 0; CEof 0 2; CStore 2 1; CQueue 2 1; CEof 1 2; CPick 0 "c" 2; CNotify 0 2; CRead 2 (0, false); CReturn 2].
Lemma run_up_check n methods l1 l2 (P Q : cst → bool) :
  from_option (λ s, P s && from_option Q false (run_up n methods l1 l2 s)) false (run_up n methods [] l1 cinit) = true →
  ∃ s s', relays_up n methods [] l1 cinit s ∧ relays_up n methods l1 l2 s s' ∧ P s = true ∧ Q s' = true.
Proof.
  destruct (run_up n methods [] l1 cinit) as [s|] eqn:E1; [|done]. cbn. intros [HP E]%andb_true_iff.
  destruct (run_up n methods l1 l2 s) as [s'|] eqn:E2; [|done]. exists s, s'. split_and!; [|..|done|done].
  - apply (run_up_sound n methods l1 [] [] cinit cinit s); [constructor|done].
  - apply (run_up_sound n methods l2 l1 [] s s s'); [constructor|by rewrite app_nil_r].
Qed.
Example C123_example : ∃ s s', relays_up 2 ex_methods [] ex_before cinit s ∧ relays_up 2 ex_methods ex_before ex_after s s' ∧
  ca_phase (calls s 1) = PWait ∧ (∀ i, i < 2 → 1 ∉ rc_q (rcs s i)) ∧ utf8 (ex_methods 1) = false ∧
  (∀ i, i < 2 → ∃ k, CLost i k ∈ ex_before) ∧ ca_phase (calls s' 2) = PDone.
Proof.
  destruct (run_up_check 2 ex_methods ex_before ex_after
    (λ s, phase_eqb (ca_phase (calls s 1)) PWait && match rc_q (rcs s 0), rc_q (rcs s 1) with [], [] => true | _, _ => false end)
    (λ s, phase_eqb (ca_phase (calls s 2)) PDone)) as (s & s' & H1 & H2 & HP & HQ); [by vm_compute|].
  exists s, s'. apply andb_true_iff in HP as [HP1 HP2].
  split; [exact H1|]. split; [exact H2|]. split; [by apply phase_eqb_true|]. split.
  { intros i Hi. destruct (rc_q (rcs s 0)) eqn:E0; [|done]. destruct (rc_q (rcs s 1)) eqn:E1; [|done].
    assert (i = 0 ∨ i = 1) as [-> | ->] by lia; rewrite ?E0, ?E1; apply not_elem_of_nil. }
  split; [done|]. split; [|by apply phase_eqb_true].
  intros i Hi. apply lost_in_true. by assert (i = 0 ∨ i = 1) as [-> | ->] by lia.
Qed.

Print Assumptions C123_answers.
Print Assumptions C123_utf8_is_safe.
Print Assumptions C123_not_sent.
Print Assumptions C123_finishes_streams.
Print Assumptions C123_afterwards.
