(** C97: direct calls from end to end. *)
From stdpp Require Import gmap pretty.
From Verif.Base Require Import Base.
From Verif.Model Require Import DirectClient DirectNet.
From Verif.Properties Require Import P20_DirectClient.

(** Specification vocabulary, on the labels of a run. *)
(** The calls whose handlers ran, in order. *)
Definition runs (ls : list dlabel) : list nat := omap (λ l, match l with DRun k => Some k | _ => None end) ls.
(** New calls and the passing of time; everything else is work. *)
Definition from_outside (l : dlabel) : bool := match l with DClient LCall | DClient LTick => true | _ => false end.
Definition work (ls : list dlabel) : nat := length (filter (λ l, from_outside l = false) ls).
Definition is_call (l : dlabel) : bool := match l with DClient LCall => true | _ => false end.
Definition made (ls : list dlabel) : nat := length (filter (λ l, is_call l = true) ls).
(** No stream.Send fails and no call gets as old as the ttl. *)
Definition dhealthy (l : dlabel) : Prop := match l with DClient l => healthy l | _ => True end.

Ltac dn := cbn [d_cl d_up d_srv d_down d_sent d_ran] in *.
Ltac cn := cbn [now calls waiting queue sender receiver cln got crashed] in *.

Local Instance label_eqd : EqDecision label.
Proof. solve_decision. Defined.

Section net.
Context (ttl : Z) (wire : nat).
Notation step := (dstep ttl wire).
Notation steps := (dsteps ttl wire).
Implicit Types s : dnet.

(** Nothing but new calls, time, a failing send or an expiry can happen. *)
Definition settled s : Prop := ∀ l s', step l s s' → from_outside l = true ∨ l = DClient LSendErr ∨ l = DClient LExpire.
(** Two calls have different ids. *)
Definition distinct_ids s : Prop := ∀ k k' c c', calls (d_cl s) !! k = Some c → calls (d_cl s) !! k' = Some c' → k_uuid c = k_uuid c' → k = k'.

(** ** The client's part of a run is a run of the client. *)
Lemma step_client l s s' : step l s s' → d_cl s' = d_cl s ∨ ∃ l', l = DClient l' ∧ cstep ttl l' (d_cl s) (d_cl s').
Proof. destruct 1; dn; eauto. Qed.
Lemma steps_reachable ls s : steps ls dinit s → reachable ttl (d_cl s).
Proof.
  intros Hs. remember dinit as s0 eqn:E0. induction Hs as [|ls l s1 s2 s3 Hs IH Hl]; [subst; by exists []; constructor|].
  destruct (IH E0) as [ls' Hc]. destruct (step_client _ _ _ Hl) as [->|(l' & _ & Hst)]; [by exists ls'|].
  exists (ls' ++ [l']). by eapply steps_snoc.
Qed.
Lemma steps_hinv ls s : steps ls dinit s → Forall dhealthy ls → hinv (d_cl s).
Proof.
  intros Hs. remember dinit as s0 eqn:E0. induction Hs as [|ls l s1 s2 s3 Hs IH Hl]; intros Hh; [subst; apply hinv_init|].
  apply Forall_app in Hh as [Hh Hh1]. apply Forall_inv in Hh1. specialize (IH E0 Hh).
  destruct (step_client _ _ _ Hl) as [->|(l' & -> & Hst)]; [done|]. by eapply hinv_step.
Qed.
Lemma cstep_calls l (c c' : cstate nat) k x : cstep ttl l c c' → calls c !! k = Some x → ∃ x', calls c' !! k = Some x' ∧ k_uuid x' = k_uuid x.
Proof.
  intros Hst Hc. destruct (calls_grow ttl c c' [l] k x) as (x' & ? & ? & _); [|done|by exists x'].
  econstructor; [exact Hst|constructor].
Qed.
Lemma step_calls l s s' k x : step l s s' → calls (d_cl s) !! k = Some x → ∃ x', calls (d_cl s') !! k = Some x' ∧ k_uuid x' = k_uuid x.
Proof.
  intros Hst Hc. destruct (step_client _ _ _ Hst) as [->|(l' & -> & Hl)]; [by exists x|]. by eapply cstep_calls.
Qed.

(** ** Invariant of all runs *)
Definition srv_list s : list (msg nat) := match d_srv s with Some m => [m] | None => [] end.
Definition out s : list nat := d_sent s ++ queue (d_cl s).
Record dinv s : Prop := DInv {
  v_up : d_ran s ++ (m_body <$> d_up s) = d_sent s;
  v_down : (m_body <$> got (d_cl s)) ++ (m_body <$> d_down s) ++ (m_body <$> srv_list s) = d_ran s;
  v_nodup : NoDup (out s);
  v_mem : ∀ k, k ∈ out s → ∃ c, calls (d_cl s) !! k = Some c ∧ k_caller c ≠ KQueue ∧ k_caller c ≠ KDone RSendErr;
  v_sender : ∀ k, sender (d_cl s) = Some k → k ∉ out s ∧ ∃ c, calls (d_cl s) !! k = Some c ∧ k_caller c ≠ KQueue;
  v_out : ∀ k c, calls (d_cl s) !! k = Some c → k_caller c ≠ KQueue → k ∈ out s ∨ sender (d_cl s) = Some k ∨ k_caller c = KDone RSendErr;
  v_msg : ∀ m, m ∈ got (d_cl s) ++ d_down s ++ srv_list s ++ d_up s → ∃ c, calls (d_cl s) !! m_body m = Some c ∧ k_uuid c = m_uuid m }.
Lemma dinv_init : dinv dinit.
Proof. split; try done; try (by intros k; rewrite elem_of_nil); constructor. Qed.

(** A step of the client that leaves the queue, the sender and the received messages alone. *)
Lemma dinv_same s c : dinv s → queue c = queue (d_cl s) → sender c = sender (d_cl s) → got c = got (d_cl s) →
  (∀ k x, calls (d_cl s) !! k = Some x → ∃ x', calls c !! k = Some x' ∧ k_uuid x' = k_uuid x ∧
     (k_caller x ≠ KQueue → k_caller x' ≠ KQueue) ∧ (k_caller x' = KDone RSendErr → k_caller x = KDone RSendErr)) →
  (∀ k x', calls c !! k = Some x' → k_caller x' ≠ KQueue → ∃ x, calls (d_cl s) !! k = Some x ∧ k_caller x ≠ KQueue ∧
     (k_caller x = KDone RSendErr → k_caller x' = KDone RSendErr)) →
  dinv (mkD c (d_up s) (d_srv s) (d_down s) (d_sent s) (d_ran s)).
Proof.
  intros [I1 I2 I3 I4 I5 I6 I7] Eq Es Eg Hf Hb. split; unfold out, srv_list in *; dn; rewrite ?Eq, ?Es, ?Eg; try done.
  - intros k Hk. destruct (I4 k Hk) as (x & Hx & Hn & Hne). destruct (Hf k x Hx) as (x' & Hx' & _ & Ha & Hbb). exists x'.
    split; [done|]. split; [by apply Ha|]. intros E. by apply Hne, Hbb.
  - intros k Hk. destruct (I5 k Hk) as (Hnot & x & Hx & Hn). split; [done|]. destruct (Hf k x Hx) as (x' & Hx' & _ & Ha & _).
    exists x'. split; [done|by apply Ha].
  - intros k x' Hx' Hn. destruct (Hb k x' Hx' Hn) as (x & Hx & Hn' & Hr). destruct (I6 k x Hx Hn') as [?|[?|?]]; auto.
  - intros m Hm. destruct (I7 m Hm) as (x & Hx & Hu). destruct (Hf _ x Hx) as (x' & Hx' & Hu' & _). exists x'. split; [done|congruence].
Qed.
(** The table with one caller moved on. *)
Lemma upd_fwd (m : gmap nat (call nat)) k x x' : m !! k = Some x → k_uuid x' = k_uuid x → k_caller x ≠ KQueue →
  k_caller x ≠ KDone RSendErr → k_caller x' ≠ KQueue → k_caller x' ≠ KDone RSendErr →
  (∀ k0 y, m !! k0 = Some y → ∃ y', <[k := x']> m !! k0 = Some y' ∧ k_uuid y' = k_uuid y ∧
     (k_caller y ≠ KQueue → k_caller y' ≠ KQueue) ∧ (k_caller y' = KDone RSendErr → k_caller y = KDone RSendErr)) ∧
  (∀ k0 y', <[k := x']> m !! k0 = Some y' → k_caller y' ≠ KQueue → ∃ y, m !! k0 = Some y ∧ k_caller y ≠ KQueue ∧
     (k_caller y = KDone RSendErr → k_caller y' = KDone RSendErr)).
Proof.
  intros Hk Hu H1 H2 H3 H4. split; intros k0 y Hy.
  - destruct (decide (k = k0)) as [<-|Hne].
    + exists x'. rewrite lookup_insert. rewrite Hk in Hy. injection Hy as <-. done.
    + exists y. by rewrite lookup_insert_ne.
  - intros Hn. destruct (decide (k = k0)) as [<-|Hne].
    + exists x. rewrite lookup_insert in Hy. injection Hy as <-. done.
    + exists y. by rewrite lookup_insert_ne in Hy.
Qed.
Lemma same_fwd (m : gmap nat (call nat)) :
  (∀ k0 y, m !! k0 = Some y → ∃ y', m !! k0 = Some y' ∧ k_uuid y' = k_uuid y ∧
     (k_caller y ≠ KQueue → k_caller y' ≠ KQueue) ∧ (k_caller y' = KDone RSendErr → k_caller y = KDone RSendErr)) ∧
  (∀ k0 y', m !! k0 = Some y' → k_caller y' ≠ KQueue → ∃ y, m !! k0 = Some y ∧ k_caller y ≠ KQueue ∧
     (k_caller y = KDone RSendErr → k_caller y' = KDone RSendErr)).
Proof. split; intros k y Hy; by exists y. Qed.

Lemma dinv_step l s s' : dinv s → step l s s' → dinv s'.
Proof.
  intros Hi Hst. pose proof Hi as [I1 I2 I3 I4 I5 I6 I7]. destruct Hst as [l s c Hl1 Hl2 Hst|s c k q x Hst Hq Hx Hw|s m up Hu Hs|s m Hs Hw|s c m down Hd Hst Hg].
  - remember (d_cl s) as cs eqn:Ecs; destruct Hst; rewrite Ecs in *; clear Ecs.
    + (* call *) apply dinv_same; try done; cn.
      * intros k0 y Hy. exists y. rewrite lookup_insert_ne; [done|]. congruence.
      * intros k0 y Hy Hn. apply lookup_insert_Some in Hy as [[_ <-]|[Hne Hy]]; [done|]. by exists y.
    + (* push *)
      match goal with Hc : calls _ !! _ = Some _, Hq : k_caller _ = KQueue |- _ => rename Hc into Hk; rename Hq into Hkq end.
      assert (k ∉ out s) as Hnot. { intros Hin. destruct (I4 k Hin) as (c' & Hc' & Hn & _). congruence. }
      split; unfold out, srv_list in *; dn; cn.
      * done.
      * done.
      * rewrite app_assoc. apply NoDup_app. split; [done|]. split; [|apply NoDup_singleton].
        intros j Hj ->%elem_of_list_singleton. done.
      * intros j. rewrite app_assoc, elem_of_app. intros [Hj| ->%elem_of_list_singleton].
        -- destruct (I4 j Hj) as (c' & Hc' & Hn). exists c'. rewrite lookup_insert_ne; [done|congruence].
        -- eexists. rewrite lookup_insert. split; [done|]. done.
      * intros j Hj. destruct (I5 j Hj) as (Hnj & c' & Hc' & Hn). split.
        -- rewrite app_assoc, elem_of_app. intros [?| ->%elem_of_list_singleton]; [done|congruence].
        -- exists c'. rewrite lookup_insert_ne; [done|congruence].
      * intros j c' Hj Hn. rewrite app_assoc, elem_of_app. apply lookup_insert_Some in Hj as [[-> <-]|[Hne Hj]].
        -- left. right. left.
        -- destruct (I6 j c' Hj Hn) as [?|?]; auto.
      * intros m Hm. destruct (I7 m Hm) as (c' & Hc' & Hu). destruct (decide (k = m_body m)) as [->|Hne].
        -- eexists. rewrite lookup_insert. split; [done|]. cbn [set_caller k_uuid]. congruence.
        -- exists c'. by rewrite lookup_insert_ne.
    + done.
    + (* send error *)
      match goal with Hq : queue _ = _ :: _ |- _ => rename Hq into Eq end.
      assert (∀ j, j ∈ d_sent s ++ q → j ∈ out s) as Hsub.
      { intros j. unfold out. rewrite Eq, !elem_of_app, elem_of_cons. tauto. }
      assert (k ∉ d_sent s ++ q ∧ NoDup (d_sent s ++ q)) as [Hnk Hnd].
      { unfold out in I3. rewrite Eq in I3. assert (d_sent s ++ k :: q ≡ₚ k :: d_sent s ++ q) as Hp by by rewrite Permutation_middle.
        rewrite Hp in I3. apply NoDup_cons in I3. exact I3. }
      assert (k ∈ out s) as Hin. { unfold out. rewrite Eq. apply elem_of_app. right. left. }
      split; unfold out, srv_list in *; dn; cn.
      * done.
      * done.
      * done.
      * intros j Hj. by apply I4, Hsub.
      * intros j [= <-]. split; [done|]. destruct (I4 k Hin) as (c' & ? & ? & _). by exists c'.
      * intros j c' Hj Hn. destruct (I6 j c' Hj Hn) as [Hjo|[Hjo|?]]; [|congruence|by auto].
        rewrite Eq in Hjo. apply elem_of_app in Hjo as [?|Hjo]; [left; apply elem_of_app; auto|].
        apply elem_of_cons in Hjo as [->|?]; [by auto|left; apply elem_of_app; auto].
      * done.
    + (* the caller learns it *)
      match goal with Hs : sender _ = Some _ |- _ => rename Hs into Es end.
      match goal with Hc : calls _ !! _ = Some _ |- _ => rename Hc into Hk end.
      destruct (I5 k Es) as (Hnk & _).
      split; unfold out, srv_list in *; dn; cn.
      * done.
      * done.
      * done.
      * intros j Hj. destruct (I4 j Hj) as (c' & Hc' & Hn). exists c'. rewrite lookup_insert_ne; [done|congruence].
      * done.
      * intros j c' Hj Hn. apply lookup_insert_Some in Hj as [[-> <-]|[Hne Hj]]; [by auto|].
        destruct (I6 j c' Hj Hn) as [?|[?|?]]; [by auto|congruence|by auto].
      * intros m Hm. destruct (I7 m Hm) as (c' & Hc' & Hu). destruct (decide (k = m_body m)) as [->|Hne].
        -- eexists. rewrite lookup_insert. split; [done|]. cbn [set_caller k_uuid]. congruence.
        -- exists c'. by rewrite lookup_insert_ne.
    + done.
    + done.
    + (* deliver *) apply dinv_same; try done; cn; eapply upd_fwd; try done; congruence.
    + apply dinv_same; try done; apply same_fwd.
    + apply dinv_same; try done; cn; eapply upd_fwd; try done; congruence.
    + apply dinv_same; try done; apply same_fwd.
    + apply dinv_same; try done; apply same_fwd.
    + apply dinv_same; try done; apply same_fwd.
  - (* send *) inversion Hst; subst; cn.
    match goal with Hq' : queue _ = ?k0 :: ?q0 |- _ => assert (k0 = k ∧ q0 = q) as [-> ->] by (split; congruence) end.
    split; unfold out, srv_list in *; dn; cn.
    + rewrite fmap_app, app_assoc, I1. done.
    + done.
    + rewrite Hq in I3. by rewrite <-app_assoc.
    + intros j. rewrite <-app_assoc. cbn [app]. rewrite <-Hq. apply I4.
    + done.
    + intros j c' Hj Hn. rewrite <-app_assoc. cbn [app]. rewrite <-Hq. destruct (I6 j c' Hj Hn) as [?|[?|?]]; [auto|congruence|auto].
    + intros m. rewrite !app_assoc, elem_of_app, <-!app_assoc. intros [Hm| ->%elem_of_list_singleton]; [by apply I7|]. by exists x.
  - split; unfold out, srv_list in *; dn; rewrite Hu in *; try rewrite Hs in *; try done.
    + rewrite <-I1, <-app_assoc. done.
    + rewrite <-I2, !fmap_nil, app_nil_r, <-!app_assoc. done.
  - split; unfold out, srv_list in *; dn; rewrite ?Hs in *; try done.
    + rewrite <-I2, fmap_app, !fmap_nil, app_nil_r. done.
    + intros m0 Hm. apply I7. revert Hm. rewrite !elem_of_app, elem_of_nil. tauto.
  - assert (queue c = queue (d_cl s) ∧ sender c = sender (d_cl s) ∧ calls c = calls (d_cl s)) as (Eq & Es & Ec) by (inversion Hst; done).
    split; unfold out, srv_list in *; dn; rewrite ?Eq, ?Es, ?Ec, ?Hg, ?Hd in *; try done.
    + rewrite <-I2, fmap_app, <-app_assoc. done.
    + intros m0 Hm. apply I7. revert Hm. rewrite !elem_of_app, !elem_of_cons, elem_of_nil. tauto.
Qed.
Lemma steps_dinv ls s : steps ls dinit s → dinv s.
Proof.
  intros Hs. remember dinit as s0 eqn:E0. induction Hs as [|ls l s1 s2 s3 Hs IH Hl]; [subst; apply dinv_init|].
  eapply dinv_step; [by apply IH|done].
Qed.
Lemma steps_runs ls s : steps ls dinit s → runs ls = d_ran s.
Proof.
  intros Hs. remember dinit as s0 eqn:E0. induction Hs as [|ls l s1 s2 s3 Hs IH Hl]; [by subst|].
  unfold runs in *. rewrite omap_app, IH by done. destruct Hl; dn; cbn [omap list_omap]; by rewrite ?app_nil_r.
Qed.
Lemma steps_made ls s : steps ls dinit s → made ls = size (calls (d_cl s)).
Proof.
  intros Hs. remember dinit as s0 eqn:E0. induction Hs as [|ls l s1 s2 s3 Hs IH Hl]; [subst; unfold dinit, cinit; cbn; by rewrite map_size_empty|].
  unfold made in *. rewrite filter_app, app_length, IH by done. clear Hs IH E0.
  assert (∀ l' c c', cstep ttl l' c c' → l' ≠ LCall → size (calls c') = size (calls (B:=nat) c)) as Hsame.
  { clear. intros l' c c' Hst Hne. destruct Hst; try done; cn; rewrite map_size_insert_Some; done. }
  destruct Hl as [l s c Hl1 Hl2 Hst|s c k q x Hst Hq Hx Hw|s m up Hu Hs|s m Hs Hw|s c m down Hd Hst Hg]; dn.
  - destruct (decide (l = LCall)) as [->|Hne].
    + inversion Hst; subst; cn. rewrite map_size_insert_None by done. rewrite filter_cons_True by done. cbn [length filter list_filter]. rewrite Nat.add_comm. done.
    + rewrite (Hsame _ _ _ Hst Hne). rewrite filter_cons_False; [simpl; lia|by destruct l].
  - rewrite (Hsame _ _ _ Hst) by done. rewrite filter_cons_False by done. simpl. lia.
  - rewrite filter_cons_False by done. simpl. lia.
  - rewrite filter_cons_False by done. simpl. lia.
  - rewrite (Hsame _ _ _ Hst) by done. rewrite filter_cons_False by done. simpl. lia.
Qed.

(** ** C97 *)

(** A handler runs at most once for a call, only for calls that were made, and handlers run in the order in which the
    requests went out. *)
Theorem C97_once ls s : steps ls dinit s →
  NoDup (runs ls) ∧ (∀ k, k ∈ runs ls → is_Some (calls (d_cl s) !! k)) ∧ runs ls `prefix_of` d_sent s ∧ NoDup (d_sent s).
Proof.
  intros Hs. rewrite (steps_runs _ _ Hs). destruct (steps_dinv _ _ Hs) as [I1 _ I3 I4 _ _ _]. unfold out in *.
  apply NoDup_app in I3 as (I3 & _ & _). split_and!.
  - rewrite <-I1 in I3. apply NoDup_app in I3. apply I3.
  - intros k Hk. destruct (I4 k) as (c & Hc & _); [|by eexists]. apply elem_of_app. left. rewrite <-I1. apply elem_of_app. by left.
  - rewrite <-I1. by apply prefix_app_r.
  - done.
Qed.
(** A call that returned with a response returned with one with its id, which a handler made that ran (once); if no other
    call has the id, the handler ran for this very call. *)
Theorem C97_own ls s k c n m : steps ls dinit s → calls (d_cl s) !! k = Some c → k_caller c = KDone (RResp n m) →
  m_uuid m = k_uuid c ∧ m_body m ∈ runs ls ∧
  (∃ c0, calls (d_cl s) !! m_body m = Some c0 ∧ k_uuid c0 = k_uuid c) ∧
  (∀ k' m', returned (d_cl s) k' (RResp n m') → k' = k) ∧
  ((∀ k' c', calls (d_cl s) !! k' = Some c' → k_uuid c' = k_uuid c → k' = k) → m_body m = k).
Proof.
  intros Hs Hc Hd. destruct (C56_own_response ttl _ k c n m (steps_reachable _ _ Hs) Hc Hd) as (Hg & Hu & _ & Huniq).
  destruct (steps_dinv _ _ Hs) as [_ I2 _ _ _ _ I7]. rewrite (steps_runs _ _ Hs).
  assert (m ∈ got (d_cl s)) as Hin by (by eapply elem_of_list_lookup_2).
  destruct (I7 m) as (c0 & Hc0 & Hu0). { apply elem_of_app. by left. }
  split; [done|]. split; [rewrite <-I2; apply elem_of_app; left; apply elem_of_list_fmap; by exists m|].
  split; [exists c0; split; [done|congruence]|]. split; [done|]. intros Huq. apply (Huq _ c0); [done|congruence].
Qed.
(** The handler of a call that failed with a send error has not run and never will. *)
Theorem C97_send_error ls s k : steps ls dinit s → returned (d_cl s) k RSendErr → k ∉ runs ls.
Proof.
  intros Hs (c & Hc & Hd) Hk. rewrite (steps_runs _ _ Hs) in Hk. destruct (steps_dinv _ _ Hs) as [I1 _ _ I4 _ _ _].
  destruct (I4 k) as (c' & Hc' & _ & Hn); [|congruence]. unfold out. apply elem_of_app. left. rewrite <-I1. apply elem_of_app. by left.
Qed.

(** While no send fails and no call expires: at most six steps for each call made. *)
Lemma work_potential ls s : steps ls dinit s → Forall dhealthy ls →
  work ls + (if receiver (d_cl s) then 1 else 0) ≤
  length (out s) + length (d_sent s) + length (d_ran s) + length (d_down s) + 3 * length (got (d_cl s)).
Proof.
  intros Hs. remember dinit as s0 eqn:E0. induction Hs as [|ls l s1 s2 s3 Hs IH Hl]; intros Hh; [subst; cbn; lia|].
  apply Forall_app in Hh as [Hh Hh1]. apply Forall_inv in Hh1. specialize (IH E0 Hh). subst s1.
  pose proof (steps_hinv _ _ Hs Hh) as Hhi.
  unfold work in *. rewrite filter_app, app_length. unfold out in *. rewrite !app_length in *.
  destruct Hl as [l s c Hl1 Hl2 Hst|s c k q x Hst Hq Hx Hw|s m up Hu Hsr|s m Hsr Hw|s c m down Hd Hst Hg]; dn.
  - remember (d_cl s) as cs eqn:Ecs; destruct Hst; rewrite Ecs in *; clear Ecs; cn; try done; try (rewrite filter_cons_False by done; cbn [filter list_filter length]; lia);
      try (rewrite filter_cons_True by done; cbn [filter list_filter length]).
    all: try (destruct Hhi as [Hcr Hse Hcl Hclo Hwa Hre]; congruence).
    + rewrite app_length. simpl. lia.
    + by destruct Hh1.
    + rewrite H0 in IH. lia.
    + by destruct Hh1.
    + exfalso. destruct Hhi as [Hcr Hse Hcl Hclo Hwa Hre]. destruct H0 as [[u Hu]|[?|[x Hx]]]; [congruence|congruence|].
      destruct (Hre _ _ Hx) as [(c0 & Hc0 & Hn) _]. destruct (Hclo _ _ H1 H2) as [r Hr]. apply (Hn r). congruence.
  - inversion Hst; subst; cn. rewrite filter_cons_True by done. cbn [filter list_filter length]. rewrite app_length. simpl.
    match goal with Hq' : queue _ = ?k0 :: ?q0 |- _ => rewrite Hq' in IH end. simpl in IH. lia.
  - rewrite filter_cons_True by done. cbn [filter list_filter length]. rewrite app_length. simpl. lia.
  - rewrite filter_cons_True by done. cbn [filter list_filter length]. rewrite app_length. simpl. lia.
  - rewrite filter_cons_True by done. cbn [filter list_filter length]. rewrite Hd in IH. rewrite Hg, app_length. simpl in *.
    assert (receiver (d_cl s) = None ∧ queue c = queue (d_cl s)) as [Er Eq] by (inversion Hst; done). rewrite Er in IH. rewrite Eq.
    destruct (receiver c); lia.
Qed.
Theorem C97_bounded ls s : steps ls dinit s → Forall dhealthy ls → work ls ≤ 6 * made ls.
Proof.
  intros Hs Hh. pose proof (work_potential _ _ Hs Hh) as Hp. rewrite (steps_made _ _ Hs).
  destruct (steps_dinv _ _ Hs) as [I1 I2 I3 I4 _ _ _].
  assert (length (out s) ≤ size (calls (d_cl s))) as Ho.
  { rewrite <-(size_list_to_set (C:=gset nat)) by done. rewrite <-size_dom. apply subseteq_size.
    intros k. rewrite elem_of_list_to_set. intros Hk. destruct (I4 k Hk) as (c & Hc & _). by eapply elem_of_dom_2. }
  apply (f_equal length) in I1. apply (f_equal length) in I2. rewrite !app_length, !fmap_length in *.
  unfold out in *. rewrite !app_length in *. lia.
Qed.

(** ... and where nothing more can happen every call has returned, with the answer of its own handler run. *)
Lemma steps_waits ls s : steps ls dinit s → Forall dhealthy ls → distinct_ids s →
  ∀ k c, calls (d_cl s) !! k = Some c → (∃ r, k_caller c = KDone r) ∨ waiting (d_cl s) !! k_uuid c = Some k ∨ ∃ x, receiver (d_cl s) = Some (k, x).
Proof.
  intros Hs. remember dinit as s0 eqn:E0. induction Hs as [|ls l s1 s2 s3 Hs IH Hl]; intros Hh Hd; [subst; intros k c Hc; cbn in Hc; by rewrite lookup_empty in Hc|].
  apply Forall_app in Hh as [Hh Hh1]. apply Forall_inv in Hh1. subst s1. specialize (IH eq_refl Hh).
  assert (distinct_ids s2) as Hd2.
  { intros k k' c c' Hc Hc' Hu. destruct (step_calls _ _ _ _ _ Hl Hc) as (x & Hx & Ex). destruct (step_calls _ _ _ _ _ Hl Hc') as (x' & Hx' & Ex').
    eapply Hd; [exact Hx|exact Hx'|congruence]. }
  specialize (IH Hd2). pose proof (steps_hinv _ _ Hs Hh) as Hhi.
  destruct (step_client _ _ _ Hl) as [->|(l' & -> & Hst)]; [done|]. simpl in Hh1. destruct Hh1 as [Hh1 Hh2].
  clear Hl Hs. unfold distinct_ids in Hd. destruct Hhi as [Hcr Hse Hcl Hclo Hwa Hre].
  remember (d_cl s2) as cs eqn:Ecs; remember (d_cl s3) as cs' eqn:Ecs'; destruct Hst; rewrite Ecs in *; clear Ecs; cn; try done; try congruence.
  - intros j c Hj. apply lookup_insert_Some in Hj as [[<- <-]|[Hne Hj]]; [right; left; by rewrite lookup_insert|].
    destruct (IH j c Hj) as [?|[Hw|?]]; [by left| |by right; right]. right. left. rewrite lookup_insert_ne; [done|].
    intros ->. apply Hne. eapply (Hd k j); [by rewrite lookup_insert|by rewrite lookup_insert_ne by done|done].
  - intros j c' Hj. apply lookup_insert_Some in Hj as [[<- <-]|[Hne Hj]]; [|by apply IH].
    destruct (IH k c H0) as [[r ?]|?]; [congruence|by right].
  - intros j c Hj. destruct (IH j c Hj) as [?|[?|[x Hx]]]; [by left|by right; left|congruence].
  - intros j c Hj. destruct (IH j c Hj) as [?|[Hw|[x Hx]]]; [by left| |congruence].
    destruct (decide (k_uuid c = m_uuid m)) as [E|E]; [right; right; rewrite E in Hw; assert (k = j) as -> by congruence; by eexists|].
    right. left. by rewrite lookup_delete_ne.
  - intros j c' Hj. apply lookup_insert_Some in Hj as [[<- <-]|[Hne Hj]]; [left; by eexists|].
    destruct (IH j c' Hj) as [?|[?|[x Hx]]]; [by left|by right; left|congruence].
Qed.
Theorem C97_returns ls s : steps ls dinit s → Forall dhealthy ls → distinct_ids s → 1 ≤ wire → settled s →
  ∀ k c, calls (d_cl s) !! k = Some c → k ∈ runs ls ∧ ∃ n m, k_caller c = KDone (RResp n m) ∧ m_body m = k.
Proof.
  intros Hs Hh Hd Hw Hset. pose proof (steps_dinv _ _ Hs) as Hi. pose proof (steps_hinv _ _ Hs Hh) as [Hcr Hse Hcl Hclo Hwa Hre].
  destruct Hi as [I1 I2 I3 I4 I5 I6 I7].
  assert (receiver (d_cl s) = None) as Er.
  { destruct (receiver (d_cl s)) as [[k [n m]]|] eqn:Er; [|done]. exfalso.
    destruct (Hre _ _ eq_refl) as [(c & Hc & Hn) _].
    destruct (i_recv _ _ (reachable_inv _ _ (steps_reachable _ _ Hs)) _ _ _ Er) as (c' & Hc' & Hu & _ & Hg).
    assert (c' = c) as -> by congruence.
    assert (m ∈ got (d_cl s)) as Hm by (by eapply elem_of_list_lookup_2).
    destruct (I7 m) as (c0 & Hc0 & Hu0). { apply elem_of_app. by left. }
    assert (m_body m = k) as Eb by (eapply Hd; [exact Hc0|exact Hc|congruence]).
    destruct (I4 k) as (c1 & Hc1 & Hq & _).
    { unfold out. apply elem_of_app. left. rewrite <-I1. apply elem_of_app. left. rewrite <-I2. apply elem_of_app. left.
      apply elem_of_list_fmap. by exists m. }
    assert (c1 = c) as -> by congruence.
    assert (k_caller c = KWait) as Ek by (destruct (k_caller c) as [| |r]; [done|done|by destruct (Hn r)]).
    assert (k_closed c = false) as Ec. { destruct (k_closed c) eqn:E; [|done]. destruct (Hclo _ _ Hc E) as [r ?]. congruence. }
    destruct (Hset (DClient LRecvDeliver) _ (D_client ttl wire LRecvDeliver s _ ltac:(done) ltac:(done) (st_recv_deliver ttl (d_cl s) k n m c Hcr Er Hc Ek Ec))) as [?|[?|?]]; done. }
  assert (d_down s = []) as Ed.
  { destruct (d_down s) as [|m down] eqn:Ed; [done|]. exfalso.
    destruct (waiting (d_cl s) !! m_uuid m) as [k|] eqn:Ew.
    - destruct (Hset _ _ (D_recv ttl wire s _ m down Ed (st_recv ttl (d_cl s) m k Hcr Er Ew) eq_refl)) as [?|[?|?]]; done.
    - destruct (Hset _ _ (D_recv ttl wire s _ m down Ed (st_recv_unknown ttl (d_cl s) m Hcr Er Ew) eq_refl)) as [?|[?|?]]; done. }
  assert (d_srv s = None) as Es.
  { destruct (d_srv s) as [m|] eqn:Es; [|done]. exfalso.
    destruct (Hset _ _ (D_reply ttl wire s m Es ltac:(rewrite Ed; simpl; lia))) as [?|[?|?]]; done. }
  assert (d_up s = []) as Eu.
  { destruct (d_up s) as [|m up] eqn:Eu; [done|]. exfalso.
    destruct (Hset _ _ (D_run ttl wire s m up Eu Es)) as [?|[?|?]]; done. }
  assert (queue (d_cl s) = []) as Eq.
  { destruct (queue (d_cl s)) as [|k q] eqn:Eq; [done|]. exfalso.
    destruct (I4 k) as (c & Hc & _). { unfold out. rewrite Eq. apply elem_of_app. right. left. }
    destruct (Hset _ _ (D_send ttl wire s _ k q c (st_send_ok ttl (d_cl s) k q Hcr Eq Hse) Eq Hc ltac:(rewrite Eu; simpl; lia))) as [?|[?|?]]; done. }
  intros k c Hc.
  assert (k_caller c ≠ KQueue) as Hnq.
  { intros Ek. destruct (Hset _ _ (D_client ttl wire LPush s _ ltac:(done) ltac:(done) (st_push ttl (d_cl s) k c Hcr Hc Ek ltac:(rewrite Eq; simpl; lia)))) as [?|[?|?]]; done. }
  unfold srv_list in I2. rewrite Ed, Es in I2. rewrite Eu in I1. cbn [fmap list_fmap] in I1, I2. rewrite !app_nil_r in I1, I2.
  assert (returned (d_cl s) k RSendErr → False) as Hnse.
  { (* nothing failed *)
    intros (c' & Hc' & Hd'). clear - Hs Hh Hc' Hd'. revert c' Hc' Hd'. remember dinit as s0 eqn:E0.
    induction Hs as [|ls l s1 s2 s3 Hs IH Hl]; [subst; intros c' Hc'; cbn in Hc'; by rewrite lookup_empty in Hc'|].
    apply Forall_app in Hh as [Hh Hh1]. apply Forall_inv in Hh1. subst s1. specialize (IH eq_refl Hh). pose proof (steps_hinv _ _ Hs Hh) as Hhi.
    destruct (step_client _ _ _ Hl) as [->|(l' & -> & Hst)]; [done|]. destruct Hhi as [Hcr Hse _ _ _ _]. clear Hl.
    remember (d_cl s2) as cs eqn:Ecs; remember (d_cl s3) as cs' eqn:Ecs'; destruct Hst; rewrite Ecs in *; clear Ecs; cn; try done; try congruence; intros c' Hc' Hd';
      (apply lookup_insert_Some in Hc' as [[<- <-]|[Hne Hc']]; [done|by eapply IH]). }
  assert (k ∈ d_sent s) as Hk.
  { destruct (I6 k c Hc Hnq) as [Hk|[?|?]]; [unfold out in Hk; by rewrite Eq, app_nil_r in Hk|congruence|].
    destruct Hnse. by exists c. }
  rewrite (steps_runs _ _ Hs). rewrite <-I1 in Hk. split; [done|].
  rewrite <-I2 in Hk. apply elem_of_list_fmap in Hk as (m & Em & Hm). apply elem_of_list_lookup in Hm as [n Hn].
  destruct (steps_waits _ _ Hs Hh Hd k c Hc) as [[r Hr]|[Hwk|[x Hx]]]; [| |congruence].
  - destruct r as [n' m'| |].
    + exists n', m'. split; [done|]. eapply C97_own; [exact Hs|exact Hc|exact Hr|]. intros k' c' Hc' Hu. by eapply Hd.
    + destruct Hnse. by exists c.
    + exfalso. (* no timeouts *)
      clear - Hs Hh Hc Hr. revert c Hc Hr. remember dinit as s0 eqn:E0.
      induction Hs as [|ls l s1 s2 s3 Hs IH Hl]; [subst; intros c' Hc'; cbn in Hc'; by rewrite lookup_empty in Hc'|].
      apply Forall_app in Hh as [Hh Hh1]. apply Forall_inv in Hh1. subst s1. specialize (IH eq_refl Hh). pose proof (steps_hinv _ _ Hs Hh) as Hhi.
      destruct (step_client _ _ _ Hl) as [->|(l' & -> & Hst)]; [done|]. destruct Hhi as [Hcr _ Hcl _ _ _]. clear Hl.
      remember (d_cl s2) as cs eqn:Ecs; remember (d_cl s3) as cs' eqn:Ecs'; destruct Hst; rewrite Ecs in *; clear Ecs; cn; try done; try congruence; intros c' Hc' Hd';
        (apply lookup_insert_Some in Hc' as [[<- <-]|[Hne Hc']]; [done|by eapply IH]).
  - (* its answer has been received, so it is not waiting *)
    exfalso. assert (m ∈ got (d_cl s)) as Hm by (by eapply elem_of_list_lookup_2).
    destruct (I7 m) as (c0 & Hc0 & Hu0). { apply elem_of_app. by left. }
    assert (c0 = c) as -> by congruence.
    assert (∀ m k, m ∈ got (d_cl s) → waiting (d_cl s) !! m_uuid m = Some k → m_body m = k → False) as Hkey; [|eapply Hkey; [exact Hm| |done]; by rewrite <-Hu0].
    clear - Hs Hh Hd. intros m k. revert Hd. remember dinit as s0 eqn:E0.
    induction Hs as [|ls l s1 s2 s3 Hs IH Hl]; [subst; intros _ Hm; by rewrite elem_of_nil in Hm|].
    intros Hd. apply Forall_app in Hh as [Hh _]. subst s1. specialize (IH eq_refl Hh).
    pose proof (steps_dinv _ _ Hs) as Hi2.
    assert (distinct_ids s2) as Hd2.
    { intros k1 k' c c' Hc Hc' Hu. destruct (step_calls _ _ _ _ _ Hl Hc) as (x & Hx & Ex). destruct (step_calls _ _ _ _ _ Hl Hc') as (x' & Hx' & Ex').
      eapply Hd; [exact Hx|exact Hx'|congruence]. }
    specialize (IH Hd2). destruct Hl as [l s c Hl1 Hl2 Hst|s c k0 q x Hst Hq Hx Hw|s m0 up Hu Hsr|s m0 Hsr Hw|s c m0 down Hdn Hst Hg]; dn; try done.
    + remember (d_cl s) as cs eqn:Ecs; destruct Hst; rewrite Ecs in *; clear Ecs; cn; try done.
      * intros Hm Hk Eb. apply lookup_insert_Some in Hk as [[_ <-]|[Hne Hk]]; [|by eapply IH].
        destruct (v_msg _ Hi2 m) as (c0 & Hc0 & _); [apply elem_of_app; by left|]. congruence.
      * intros Hm Hk Eb. apply lookup_delete_Some in Hk as [_ Hk]. by eapply IH.
    + inversion Hst; subst; cn; try done.
    + intros Hm Hk Eb. rewrite Hg in Hm. apply elem_of_app in Hm as [Hm|Hm%elem_of_list_singleton].
      * eapply IH; [exact Hm| |done]. inversion Hst; subst; cn; [done|]. by apply lookup_delete_Some in Hk as [_ Hk].
      * subst m0. inversion Hst; subst; cn.
        -- apply app_inv_head in Hg. injection Hg as ->. congruence.
        -- apply app_inv_head in Hg. injection Hg as ->. by rewrite lookup_delete in Hk.
Qed.

(** ** Two calls with the same id *)
(** FINDING.  The response to the first of two pending calls with one id goes to the second.  If that has not yet put its
    request into the send channel and the channel is full, the receiving goroutine waits for its caller, its caller for
    the sending goroutine, that for the server to read, and the server for the receiving goroutine.  From then on, as
    long as no send fails, no handler runs, no request goes out and no call returns with a response. *)
Definition jammed k s : Prop :=
  (∃ x, receiver (d_cl s) = Some (k, x)) ∧ (∃ c, calls (d_cl s) !! k = Some c ∧ k_caller c = KQueue) ∧
  10 ≤ length (queue (d_cl s)) ∧ wire ≤ length (d_up s) ∧ is_Some (d_srv s) ∧ wire ≤ length (d_down s).
Lemma jammed_step k l s s' : jammed k s → step l s s' → l ≠ DClient LSendErr →
  jammed k s' ∧ (∀ j, l ≠ DRun j) ∧ d_sent s' = d_sent s ∧ got (d_cl s') = got (d_cl s) ∧
  (∀ k' n m, returned (d_cl s') k' (RResp n m) → returned (d_cl s) k' (RResp n m)).
Proof.
  intros ([x Hx] & (c & Hc & Hk) & Hq & Hu & [m Hm] & Hd) Hst Hl. unfold jammed.
  destruct Hst as [l s c' Hl1 Hl2 Hst|s c' k' q y Hst Hq' Hy Hw|s m' up Hu' Hs|s m' Hs Hw|s c' m' down Hd' Hst Hg]; dn; [|lia|congruence|lia|inversion Hst; congruence].
  remember (d_cl s) as cs eqn:Ecs; destruct Hst; rewrite Ecs in *; clear Ecs; cn; try done; try congruence; try lia.
  all: repeat split; try done; try (by exists x); try (by exists c); try (by exists m).
  all: try (intros k' n0 m0 (cx & Hcx & Hdx); exists cx; cn; apply lookup_insert_Some in Hcx as [[<- <-]|[_ Hcx]]; [done|by split]).
  all: try (match goal with |- ∃ _, <[?k0 := _]> _ !! _ = _ ∧ _ => destruct (decide (k0 = k)) as [->|Hne]; [congruence|exists c; by rewrite lookup_insert_ne] end).
Qed.
Theorem C97_jam k s ls s' : jammed k s → steps ls s s' → DClient LSendErr ∉ ls →
  runs ls = [] ∧ d_sent s' = d_sent s ∧ (∀ k' n m, returned (d_cl s') k' (RResp n m) → returned (d_cl s) k' (RResp n m)) ∧
  (∀ r, ¬ returned (d_cl s') k r).
Proof.
  intros Hj Hs. assert (DClient LSendErr ∉ ls → jammed k s' ∧ runs ls = [] ∧ d_sent s' = d_sent s ∧
    (∀ k' n m, returned (d_cl s') k' (RResp n m) → returned (d_cl s) k' (RResp n m))) as Hgen.
  { induction Hs as [|ls l s1 s2 s3 Hs IH Hl]; [done|]. rewrite not_elem_of_app, not_elem_of_cons. intros (Hn1 & Hn2 & _).
    destruct (IH Hj Hn1) as (Hj2 & Hr & Hse & Hret). destruct (jammed_step _ _ _ _ Hj2 Hl) as (Hj3 & Hnr & Hse3 & _ & Hret3); [congruence|].
    split; [done|]. split; [unfold runs in *; rewrite omap_app, Hr; destruct l as [|j|]; try done; by destruct (Hnr j)|].
    split; [congruence|]. eauto. }
  intros Hn. destruct (Hgen Hn) as ((_ & (c & Hc & Hk) & _) & ? & ? & ?). split_and!; try done.
  intros r (c' & Hc' & Hd'). congruence.
Qed.
Lemma dsteps_app ls ls' s1 s2 s3 : steps ls s1 s2 → steps ls' s2 s3 → steps (ls ++ ls') s1 s3.
Proof.
  intros H1 H2. induction H2 as [|ls' l a b c H2 IH Hl]; [by rewrite app_nil_r|]. rewrite app_assoc. econstructor; [by apply IH|done].
Qed.
Lemma settled_if s : receiver (d_cl s) = None → sender (d_cl s) = None → cln (d_cl s) = CIdle → queue (d_cl s) = [] →
  map_Forall (λ _ c, k_caller c ≠ KQueue) (calls (d_cl s)) → d_up s = [] → d_srv s = None → d_down s = [] → settled s.
Proof.
  intros H1 H2 H3 H4 H5 H6 H7 H8 l s' Hst.
  destruct Hst as [l s c' Hl1 Hl2 Hst|s c' k' q y Hst Hq' Hy Hw|s m' up Hu' Hs|s m' Hs Hw|s c' m' down Hd' Hst Hg]; dn; try congruence.
  remember (d_cl s) as cs eqn:Ecs; destruct Hst; rewrite Ecs in *; clear Ecs; try congruence; auto.
  - exfalso. eapply H5; eassumption.
  - exfalso. match goal with Hx : _ ∨ _ ∨ _ |- _ => destruct Hx as [[u Hu]|[Hu|[x Hu]]]; congruence end.
Qed.
End net.

(** ** Runs *)
Inductive dcmd := XCall (u : string) (k : nat) | XPush (k : nat) | XSend | XRun | XReply | XRecv | XDeliver
                | XTick (t : Z) | XExpire (u : string) | XTimeout | XClean.
Section exec.
Context (ttl : Z) (wire : nat).
Definition with_cl (s : dnet) (c : cstate nat) : dnet := mkD c (d_up s) (d_srv s) (d_down s) (d_sent s) (d_ran s).
Definition dexec (x : dcmd) (s : dnet) : option (dlabel * dnet) :=
  let c := d_cl s in
  if crashed c then None else
  match x with
  | XCall u k => match calls c !! k with
      | None => Some (DClient LCall, with_cl s (mkCS (now c) (<[k := mkCall u (now c) (length (got c)) KQueue false]> (calls c))
                  (<[u := k]> (waiting c)) (queue c) (sender c) (receiver c) (cln c) (got c) false))
      | _ => None end
  | XPush k => match calls c !! k with
      | Some y => match k_caller y with
          | KQueue => if decide (length (queue c) < 10) then Some (DClient LPush, with_cl s (mkCS (now c) (<[k := set_caller y KWait]> (calls c))
                        (waiting c) (queue c ++ [k]) (sender c) (receiver c) (cln c) (got c) false)) else None
          | _ => None end
      | None => None end
  | XSend => match queue c, sender c with
      | k :: q, None => match calls c !! k with
          | Some y => if decide (length (d_up s) < wire) then
              Some (DClient LSendOk, mkD (mkCS (now c) (calls c) (waiting c) q None (receiver c) (cln c) (got c) false)
                (d_up s ++ [mkMsg (k_uuid y) k]) (d_srv s) (d_down s) (d_sent s ++ [k]) (d_ran s)) else None
          | None => None end
      | _, _ => None end
  | XRun => match d_up s, d_srv s with
      | m :: up, None => Some (DRun (m_body m), mkD c up (Some m) (d_down s) (d_sent s) (d_ran s ++ [m_body m]))
      | _, _ => None end
  | XReply => match d_srv s with
      | Some m => if decide (length (d_down s) < wire) then Some (DReply (m_body m), mkD c (d_up s) None (d_down s ++ [m]) (d_sent s) (d_ran s)) else None
      | None => None end
  | XRecv => match d_down s, receiver c with
      | m :: down, None =>
          let r := match waiting c !! m_uuid m with Some k => Some (k, (length (got c), m)) | None => None end in
          let w := match waiting c !! m_uuid m with Some k => delete (m_uuid m) (waiting c) | None => waiting c end in
          Some (DClient LRecv, mkD (mkCS (now c) (calls c) w (queue c) (sender c) r (cln c) (got c ++ [m]) false)
            (d_up s) (d_srv s) down (d_sent s) (d_ran s))
      | _, _ => None end
  | XDeliver => match receiver c with
      | Some (k, (n, m)) => match calls c !! k with
          | Some y => match k_caller y, k_closed y with
              | KWait, false => Some (DClient LRecvDeliver, with_cl s (mkCS (now c) (<[k := closed_done y (RResp n m)]> (calls c)) (waiting c)
                                  (queue c) (sender c) None (cln c) (got c) false))
              | _, _ => None end
          | None => None end
      | None => None end
  | XTick t => if decide (now c ≤ t)%Z then Some (DClient LTick, with_cl s (mkCS t (calls c) (waiting c) (queue c) (sender c) (receiver c) (cln c) (got c) false)) else None
  | XExpire u => match cln c, waiting c !! u with
      | CIdle, Some k => match calls c !! k with
          | Some y => if decide (ttl ≤ now c - k_start y)%Z then
              Some (DClient LExpire, with_cl s (mkCS (now c) (calls c) (waiting c) (queue c) (sender c) (receiver c) (CHold u k) (got c) false)) else None
          | None => None end
      | _, _ => None end
  | XTimeout => match cln c with
      | CHold u k => match calls c !! k with
          | Some y => match k_caller y, k_closed y with
              | KWait, false => Some (DClient LTimeout, with_cl s (mkCS (now c) (<[k := set_caller y (KDone RTimeout)]> (calls c)) (waiting c)
                                  (queue c) (sender c) (receiver c) (CDel u) (got c) false))
              | _, _ => None end
          | None => None end
      | _ => None end
  | XClean => match cln c with
      | CDel u => Some (DClient LClean, with_cl s (mkCS (now c) (calls c) (delete u (waiting c)) (queue c) (sender c) (receiver c) CIdle (got c) false))
      | _ => None end
  end.
Lemma dexec_sound x s l s' : dexec x s = Some (l, s') → dstep ttl wire l s s'.
Proof.
  unfold dexec. destruct (crashed (d_cl s)) eqn:Hcr; [done|]. destruct x as [u k|k| | | | | |t|u| | ].
  - destruct (calls (d_cl s) !! k) eqn:E; [done|]. intros [= <- <-]. apply D_client; [done|done|]. by apply st_call.
  - destruct (calls (d_cl s) !! k) as [y|] eqn:E; [|done]. destruct (k_caller y) eqn:Ek; try done. case_decide; [|done].
    intros [= <- <-]. apply D_client; [done|done|]. by apply st_push.
  - destruct (queue (d_cl s)) as [|k q] eqn:Eq; [done|]. destruct (sender (d_cl s)) eqn:Es; [done|].
    destruct (calls (d_cl s) !! k) as [y|] eqn:E; [|done]. case_decide; [|done]. intros [= <- <-].
    eapply D_send; [by eapply st_send_ok|done|done|done].
  - destruct (d_up s) as [|m up] eqn:Eu; [done|]. destruct (d_srv s) eqn:Es; [done|]. intros [= <- <-]. by apply D_run.
  - destruct (d_srv s) eqn:Es; [|done]. case_decide; [|done]. intros [= <- <-]. by apply D_reply.
  - destruct (d_down s) as [|m down] eqn:Ed; [done|]. destruct (receiver (d_cl s)) eqn:Er; [done|]. intros [= <- <-].
    eapply (D_recv _ _ _ _ m); [done| |done]. destruct (waiting (d_cl s) !! m_uuid m) eqn:Ew; [by apply st_recv|by apply st_recv_unknown].
  - destruct (receiver (d_cl s)) as [[k [n m]]|] eqn:Er; [|done]. destruct (calls (d_cl s) !! k) as [y|] eqn:E; [|done].
    destruct (k_caller y) eqn:Ek; try done. destruct (k_closed y) eqn:Ec; [done|]. intros [= <- <-]. apply D_client; [done|done|]. by apply st_recv_deliver.
  - case_decide; [|done]. intros [= <- <-]. apply D_client; [done|done|]. by apply st_tick.
  - destruct (cln (d_cl s)) eqn:El; try done. destruct (waiting (d_cl s) !! u) as [k|] eqn:Ew; [|done].
    destruct (calls (d_cl s) !! k) as [y|] eqn:E; [|done]. case_decide; [|done]. intros [= <- <-]. apply D_client; [done|done|]. by eapply st_expire.
  - destruct (cln (d_cl s)) as [|u k|] eqn:El; try done. destruct (calls (d_cl s) !! k) as [y|] eqn:E; [|done].
    destruct (k_caller y) eqn:Ek; try done. destruct (k_closed y) eqn:Ec; [done|]. intros [= <- <-]. apply D_client; [done|done|]. by apply st_timeout.
  - destruct (cln (d_cl s)) as [| |u] eqn:El; try done. intros [= <- <-]. apply D_client; [done|done|]. by apply st_clean.
Qed.
Fixpoint dexecs (xs : list dcmd) (ls : list dlabel) (s : dnet) : option (list dlabel * dnet) :=
  match xs with
  | [] => Some (ls, s)
  | x :: xs => match dexec x s with Some (l, s') => dexecs xs (ls ++ [l]) s' | None => None end
  end.
Lemma dexecs_sound xs s0 ls s ls' s' : dsteps ttl wire ls s0 s → dexecs xs ls s = Some (ls', s') → dsteps ttl wire ls' s0 s'.
Proof.
  revert ls s. induction xs as [|x xs IH]; intros ls s Hs; cbn [dexecs]; [by intros [= <- <-]|].
  destruct (dexec x s) as [[l s1]|] eqn:E; [|done]. apply IH. econstructor; [done|]. by eapply dexec_sound.
Qed.
Lemma witness xs (P : list dlabel → dnet → Prop) `{∀ ls s, Decision (P ls s)} :
  match dexecs xs [] dinit with Some (ls, s) => bool_decide (P ls s) | None => false end = true →
  ∃ ls s, dsteps ttl wire ls dinit s ∧ P ls s.
Proof.
  destruct (dexecs xs [] dinit) as [[ls s]|] eqn:E; [|done]. intros Hp%bool_decide_eq_true. exists ls, s. split; [|done].
  eapply dexecs_sound; [constructor|exact E].
Qed.
End exec.

(** ** C97_jam is met, however much the stream holds, with two calls of one id and nothing failing or expiring. *)
Definition jam_id (k : nat) : string := pretty (if decide (k = 1) then 0 else k).
Record J (nxt q up : nat) (srv : bool) (down : nat) s : Prop := MkJ {
  j_crash : crashed (d_cl s) = false; j_sender : sender (d_cl s) = None; j_recv : ∃ x, receiver (d_cl s) = Some (1, x);
  j_one : ∃ c, calls (d_cl s) !! 1 = Some c ∧ k_caller c = KQueue;
  j_zero : is_Some (calls (d_cl s) !! 0); j_free : ∀ k, nxt ≤ k → calls (d_cl s) !! k = None; j_nxt : 2 ≤ nxt;
  j_ids : ∀ k c, calls (d_cl s) !! k = Some c → k_uuid c = jam_id k;
  j_queue : length (queue (d_cl s)) = q; j_known : ∀ k, k ∈ queue (d_cl s) → is_Some (calls (d_cl s) !! k);
  j_up : length (d_up s) = up; j_srv : (if srv then is_Some (d_srv s) else d_srv s = None); j_down : length (d_down s) = down }.
Definition dhealthyb (l : dlabel) : bool := match l with DClient LSendErr | DClient LExpire => false | _ => true end.
Lemma dhealthyb_spec ls : Forall (λ l, dhealthyb l = true) ls → Forall dhealthy ls.
Proof. intros Hl. eapply Forall_impl; [exact Hl|]. intros [l| |] H; [|done|done]. by destruct l. Qed.
Definition is_none {A} (o : option A) : bool := match o with None => true | Some _ => false end.
Definition caller_at (s : dnet) (k : nat) : option (caller nat) := k_caller <$> calls (d_cl s) !! k.
Definition queued (s : dnet) (k : nat) : bool := match caller_at s k with Some KQueue => true | _ => false end.
Lemma queued_spec s k : queued s k = true → ∃ c, calls (d_cl s) !! k = Some c ∧ k_caller c = KQueue.
Proof.
  unfold queued, caller_at. destruct (calls (d_cl s) !! k) as [c|]; [|done]. cbn [fmap option_fmap option_map].
  destruct (k_caller c) eqn:E; try done. by exists c.
Qed.
Lemma J_first ttl w : ∃ ls s, dsteps ttl (S w) ls dinit s ∧ Forall dhealthy ls ∧ J 2 0 0 false 0 s.
Proof.
  destruct (witness ttl (S w) [XCall (jam_id 0) 0; XPush 0; XSend; XRun; XReply; XCall (jam_id 1) 1; XRecv]
    (λ ls s, Forall (λ l, dhealthyb l = true) ls ∧ crashed (d_cl s) = false ∧ is_none (sender (d_cl s)) = true ∧
      fst <$> receiver (d_cl s) = Some 1 ∧ queued s 1 = true ∧ dom (calls (d_cl s)) = ({[0; 1]} : gset nat) ∧
      map_Forall (λ k c, k_uuid c = jam_id k) (calls (d_cl s)) ∧ queue (d_cl s) = [] ∧ length (d_up s) = 0 ∧ is_none (d_srv s) = true ∧
      length (d_down s) = 0)) as (ls & s & Hs & H1 & H2 & H3 & H4 & H5 & H6 & H7 & H8 & H9 & H10 & H11); [vm_compute; reflexivity|].
  exists ls, s. split; [done|]. split; [by apply dhealthyb_spec|]. constructor; try done.
  - by destruct (sender (d_cl s)).
  - destruct (receiver (d_cl s)) as [[k x]|]; [|done]. injection H4 as ->. by exists x.
  - by apply queued_spec.
  - apply elem_of_dom. rewrite H6. apply elem_of_union_l. by apply elem_of_singleton.
  - intros k Hk. apply not_elem_of_dom. rewrite H6, not_elem_of_union, !not_elem_of_singleton. lia.
  - by rewrite H8.
  - intros k. rewrite H8. intros Hk. by apply elem_of_nil in Hk.
  - by destruct (d_srv s).
Qed.
Section jam.
Context (ttl : Z) (wire : nat).
Definition reach s s' : Prop := ∃ ls, dsteps ttl wire ls s s' ∧ Forall dhealthy ls.
Lemma reach_trans s1 s2 s3 : reach s1 s2 → reach s2 s3 → reach s1 s3.
Proof.
  intros (ls & H1 & F1) (ls' & H2 & F2). exists (ls ++ ls'). split; [by eapply dsteps_app|by apply Forall_app].
Qed.
Lemma reach_exec x s l s' : dexec ttl wire x s = Some (l, s') → dhealthy l → reach s s'.
Proof.
  intros Hx%dexec_sound Hh. exists [l]. split; [|by repeat constructor]. apply (ds_snoc ttl wire [] l s s); [constructor|done].
Qed.
Lemma J_call nxt q up srv down s : J nxt q up srv down s → q < 10 → ∃ s', reach s s' ∧ J (S nxt) (S q) up srv down s'.
Proof.
  intros [Hcr Hse Hre (c1 & Hc1 & Hk1) Hz Hfr Hn Hid Hq Hkn Hu Hs Hd] Hlt. set (c := d_cl s) in *.
  set (y := mkCall (B:=nat) (jam_id nxt) (now c) (length (got c)) KQueue false).
  set (s1 := with_cl s (mkCS (now c) (<[nxt := y]> (calls c)) (<[jam_id nxt := nxt]> (waiting c)) (queue c) (sender c) (receiver c) (cln c) (got c) false)).
  set (s2 := with_cl s (mkCS (now c) (<[nxt := set_caller y KWait]> (<[nxt := y]> (calls c))) (<[jam_id nxt := nxt]> (waiting c)) (queue c ++ [nxt]) (sender c) (receiver c) (cln c) (got c) false)).
  exists s2. split.
  - apply (reach_trans _ s1).
    + apply (reach_exec (XCall (jam_id nxt) nxt) _ (DClient LCall)); [|done]. unfold dexec. fold c. rewrite Hcr, Hfr by lia. done.
    + apply (reach_exec (XPush nxt) _ (DClient LPush)); [|done]. unfold dexec, s1, with_cl. cn. dn. cn. rewrite lookup_insert. cbn [y k_caller].
      rewrite decide_True by lia. done.
  - constructor; unfold s2, with_cl; dn; cn; try done.
    + exists c1. rewrite !lookup_insert_ne by lia. done.
    + by rewrite !lookup_insert_ne by lia.
    + intros k Hk. rewrite !lookup_insert_ne by lia. apply Hfr. lia.
    + lia.
    + intros k c0 Hk. apply lookup_insert_Some in Hk as [[<- <-]|[Hne Hk]]; [done|]. rewrite lookup_insert_ne in Hk by done. by apply Hid.
    + rewrite app_length, Hq. simpl. lia.
    + intros k. rewrite elem_of_app. intros [Hk| ->%elem_of_list_singleton]; [|rewrite lookup_insert; by eexists].
      apply lookup_insert_is_Some'; right; apply lookup_insert_is_Some'; right; by apply Hkn.
Qed.
Lemma J_send nxt q up srv down s : J nxt (S q) up srv down s → up < wire → ∃ s', reach s s' ∧ J nxt q (S up) srv down s'.
Proof.
  intros [Hcr Hse Hre Hone Hz Hfr Hn Hid Hq Hkn Hu Hs Hd] Hlt.
  destruct (queue (d_cl s)) as [|k l] eqn:Eq; [done|]. destruct (Hkn k) as [y Hy]; [left|].
  eexists. split.
  - apply (reach_exec XSend _ (DClient LSendOk)); [|done]. unfold dexec. rewrite Hcr, Eq, Hse, Hy. rewrite decide_True by lia. reflexivity.
  - constructor; dn; cn; try done.
    + simpl in Hq. lia.
    + intros k' Hk. apply Hkn. by right.
    + rewrite app_length. simpl. lia.
Qed.
Lemma J_run nxt q up down s : J nxt q (S up) false down s → ∃ s', reach s s' ∧ J nxt q up true down s'.
Proof.
  intros [Hcr Hse Hre Hone Hz Hfr Hn Hid Hq Hkn Hu Hs Hd].
  destruct (d_up s) as [|m l] eqn:Eu; [done|]. eexists. split.
  - apply (reach_exec XRun _ (DRun (m_body m))); [|done]. unfold dexec. rewrite Hcr, Eu, Hs. reflexivity.
  - constructor; dn; cn; try done. simpl in Hu. lia.
Qed.
Lemma J_reply nxt q up down s : J nxt q up true down s → down < wire → ∃ s', reach s s' ∧ J nxt q up false (S down) s'.
Proof.
  intros [Hcr Hse Hre Hone Hz Hfr Hn Hid Hq Hkn Hu [m Hs] Hd] Hlt. eexists. split.
  - apply (reach_exec XReply _ (DReply (m_body m))); [|done]. unfold dexec. rewrite Hcr, Hs. rewrite decide_True by lia. reflexivity.
  - constructor; dn; cn; try done. rewrite app_length. simpl. lia.
Qed.
Lemma J_start : 1 ≤ wire → ∃ s, reach dinit s ∧ J 2 0 0 false 0 s.
Proof using Type.
  intros Hw. destruct (J_first ttl (wire - 1)) as (ls & s & Hs & Hh & Hj). replace (S (wire - 1)) with wire in Hs by lia.
  exists s. split; [by exists ls|done].
Qed.
Theorem C97_jam_reached : 1 ≤ wire → ∃ ls s, dsteps ttl wire ls dinit s ∧ Forall dhealthy ls ∧ jammed wire 1 s ∧
  (∀ k c, calls (d_cl s) !! k = Some c → k_uuid c = jam_id k) ∧ is_Some (calls (d_cl s) !! 0).
Proof.
  intros Hw. destruct (J_start Hw) as (s0 & R0 & J0).
  assert (∀ n, n ≤ wire → ∃ s nxt, reach dinit s ∧ J nxt 0 0 false n s) as Hdown.
  { induction n as [|n IH]; intros Hn; [by exists s0, 2|]. destruct IH as (s & nxt & R & Hj); [lia|].
    destruct (J_call _ _ _ _ _ _ Hj) as (s1 & R1 & J1); [lia|]. destruct (J_send _ _ _ _ _ _ J1) as (s2 & R2 & J2); [lia|].
    destruct (J_run _ _ _ _ _ J2) as (s3 & R3 & J3). destruct (J_reply _ _ _ _ _ J3) as (s4 & R4 & J4); [lia|].
    exists s4, (S nxt). split; [|done]. exact (reach_trans _ _ _ R (reach_trans _ _ _ R1 (reach_trans _ _ _ R2 (reach_trans _ _ _ R3 R4)))). }
  destruct (Hdown wire) as (s1 & nxt1 & R1 & J1); [done|].
  destruct (J_call _ _ _ _ _ _ J1) as (s2 & R2 & J2); [lia|]. destruct (J_send _ _ _ _ _ _ J2) as (s3 & R3 & J3); [lia|].
  destruct (J_run _ _ _ _ _ J3) as (s4 & R4 & J4).
  assert (∀ n, n ≤ wire → ∃ s nxt, reach s4 s ∧ J nxt 0 n true wire s) as Hup.
  { induction n as [|n IH]; intros Hn; [exists s4, (S nxt1); split; [|done]; exists []; split; constructor|]. destruct IH as (s & nxt & R & Hj); [lia|].
    destruct (J_call _ _ _ _ _ _ Hj) as (s5 & R5 & J5); [lia|]. destruct (J_send _ _ _ _ _ _ J5) as (s6 & R6 & J6); [lia|].
    exists s6, (S nxt). split; [|done]. exact (reach_trans _ _ _ R (reach_trans _ _ _ R5 R6)). }
  destruct (Hup wire) as (s5 & nxt5 & R5 & J5); [done|].
  assert (∀ n, n ≤ 10 → ∃ s nxt, reach s5 s ∧ J nxt n wire true wire s) as Hq.
  { induction n as [|n IH]; intros Hn; [exists s5, nxt5; split; [|done]; exists []; split; constructor|]. destruct IH as (s & nxt & R & Hj); [lia|].
    destruct (J_call _ _ _ _ _ _ Hj) as (s6 & R6 & J6); [lia|]. exists s6, (S nxt). split; [|done]. by eapply reach_trans. }
  destruct (Hq 10) as (s6 & nxt6 & R6 & [_ _ Hre Hone Hz _ _ Hid Hql _ Hul Hsr Hdl]); [done|].
  assert (reach dinit s6) as R by exact (reach_trans _ _ _ R1 (reach_trans _ _ _ R2 (reach_trans _ _ _ R3 (reach_trans _ _ _ R4 (reach_trans _ _ _ R5 R6))))).
  destruct R as (ls & Hs & Hh). exists ls, s6. split; [done|]. split; [done|]. split; [|split; [done|]].
  - unfold jammed. split; [done|]. split; [done|]. rewrite Hql, Hul, Hdl. split; [lia|]. split; [lia|]. split; [done|lia].
  - done.
Qed.
End jam.

(** ** Examples *)
(** C97_returns, C97_bounded: three calls, all requests and responses in their own time; the end is settled. *)
Definition result_of (s : dnet) (k : nat) : option nat :=
  match caller_at s k with Some (KDone (RResp _ m)) => Some (m_body m) | _ => None end.
Lemma result_of_spec s k b : result_of s k = Some b → ∃ n m, returned (d_cl s) k (RResp n m) ∧ m_body m = b.
Proof.
  unfold result_of, caller_at. destruct (calls (d_cl s) !! k) as [c|] eqn:Ec; [|done]. cbn [fmap option_fmap option_map].
  destruct (k_caller c) as [| |[n m| |]] eqn:E; try done. intros [= <-]. exists n, m. split; [by exists c|done].
Qed.
Definition timed_out (s : dnet) (k : nat) : bool := match caller_at s k with Some (KDone RTimeout) => true | _ => false end.
Lemma timed_out_spec s k : timed_out s k = true → returned (d_cl s) k RTimeout.
Proof.
  unfold timed_out, caller_at. destruct (calls (d_cl s) !! k) as [c|] eqn:Ec; [|done]. cbn [fmap option_fmap option_map].
  destruct (k_caller c) as [| |[n m| |]] eqn:E; try done. by exists c.
Qed.
Example C97_returns_example : ∃ ls s, dsteps 10 1 ls dinit s ∧ Forall dhealthy ls ∧ settled 10 1 s ∧ distinct_ids s ∧ made ls = 3 ∧
  runs ls = [1; 0; 2] ∧ Forall (λ k, ∃ n m, returned (d_cl s) k (RResp n m) ∧ m_body m = k) [0; 1; 2].
Proof.
  destruct (witness 10 1 [XCall "a" 0; XCall "b" 1; XPush 1; XPush 0; XSend; XRun; XSend; XTick 5; XReply; XCall "c" 2; XPush 2; XRecv; XRun; XSend; XDeliver;
      XReply; XRun; XRecv; XReply; XDeliver; XRecv; XDeliver]
    (λ ls s, Forall (λ l, dhealthyb l = true) ls ∧ is_none (receiver (d_cl s)) = true ∧ is_none (sender (d_cl s)) = true ∧
      (match cln (d_cl s) with CIdle => true | _ => false end) = true ∧ queue (d_cl s) = [] ∧
      map_Forall (λ _ c, (match k_caller c with KQueue => true | _ => false end) = false) (calls (d_cl s)) ∧ length (d_up s) = 0 ∧ is_none (d_srv s) = true ∧
      length (d_down s) = 0 ∧ dom (calls (d_cl s)) = ({[0; 1; 2]} : gset nat) ∧
      map_Forall (λ k c, k_uuid c = (["a"; "b"; "c"]%string) !!! k) (calls (d_cl s)) ∧ made ls = 3 ∧ runs ls = [1; 0; 2] ∧
      Forall (λ k, result_of s k = Some k) [0; 1; 2])) as
    (ls & s & Hs & H1 & H2 & H3 & H4 & H5 & H6 & H7 & H8 & H9 & H10 & H11 & H12 & H13 & H14); [vm_compute; reflexivity|].
  exists ls, s. split; [done|]. split; [by apply dhealthyb_spec|]. split; [|split; [|split; [done|split; [done|]]]].
  - apply settled_if; try done.
    + by destruct (receiver (d_cl s)).
    + by destruct (sender (d_cl s)).
    + by destruct (cln (d_cl s)).
    + intros k c Hc E. specialize (H6 k c Hc). cbn beta in H6. by rewrite E in H6.
    + by destruct (d_up s).
    + by destruct (d_srv s).
    + by destruct (d_down s).
  - intros k k' c c' Hc Hc' Hu. pose proof (H11 k c Hc) as E. pose proof (H11 k' c' Hc') as E'. cbn beta in E, E'.
    assert (k ∈ ({[0; 1; 2]} : gset nat) ∧ k' ∈ ({[0; 1; 2]} : gset nat)) as [Hk Hk'] by (rewrite <-H10; split; by eapply elem_of_dom_2).
    rewrite E, E' in Hu. rewrite !elem_of_union, !elem_of_singleton in Hk, Hk'.
    destruct Hk as [[->| ->]| ->], Hk' as [[->| ->]| ->]; try done.
  - eapply Forall_impl; [exact H14|]. intros k Hk. by apply result_of_spec.
Qed.
(** FINDING.  A call that has timed out may be sent and its handler run afterwards. *)
Theorem C97_late_run : ∃ ls1 ls2 s1 s2, dsteps 10 1 ls1 dinit s1 ∧ returned (d_cl s1) 0 RTimeout ∧ runs ls1 = [] ∧
  dsteps 10 1 (ls1 ++ ls2) dinit s2 ∧ runs ls2 = [0].
Proof.
  destruct (dexecs 10 1 [XCall "a" 0; XPush 0; XTick 10; XExpire "a"; XTimeout] [] dinit) as [[ls1 s1]|] eqn:E1; [|vm_compute in E1; discriminate E1].
  destruct (dexecs 10 1 [XSend; XRun] [] s1) as [[ls2 s2]|] eqn:E2.
  - exists ls1, ls2, s1, s2. assert (dsteps 10 1 ls1 dinit s1) as Hs1 by (eapply dexecs_sound; [constructor|exact E1]).
    split; [done|]. assert (timed_out s1 0 = true ∧ runs ls1 = [] ∧ runs ls2 = [0]) as (Ht & Hr1 & Hr2).
    { clear Hs1. vm_compute in E1. injection E1 as <- <-. vm_compute in E2. injection E2 as <- <-. split_and!; vm_compute; reflexivity. }
    split; [by apply timed_out_spec|]. split; [done|]. split; [|done]. eapply dsteps_app; [exact Hs1|].
    eapply dexecs_sound; [constructor|exact E2].
  - exfalso. vm_compute in E1. injection E1 as <- <-. vm_compute in E2. discriminate E2.
Qed.
(** FINDING.  A call with the id of a call that has timed out returns with the answer to that call; its own handler has not
    run. *)
Theorem C97_other_answer : ∃ ls s, dsteps 10 1 ls dinit s ∧ returned (d_cl s) 0 RTimeout ∧
  (∃ n m, returned (d_cl s) 1 (RResp n m) ∧ m_body m = 0) ∧ runs ls = [0].
Proof.
  destruct (witness 10 1 [XCall "a" 0; XPush 0; XSend; XRun; XTick 10; XExpire "a"; XTimeout; XClean; XCall "a" 1; XPush 1; XReply; XRecv; XDeliver]
    (λ ls s, timed_out s 0 = true ∧ result_of s 1 = Some 0 ∧ runs ls = [0])) as (ls & s & Hs & H1 & H2 & H3); [vm_compute; reflexivity|].
  exists ls, s. split; [done|]. split; [by apply timed_out_spec|]. split; [by apply result_of_spec|done].
Qed.
(** C97_send_error is met. *)
Example C97_send_error_example : ∃ ls s, dsteps 10 1 ls dinit s ∧ returned (d_cl s) 0 RSendErr.
Proof.
  destruct (C67_example nat) as (c & c' & Hc & Hse & _ & _ & _ & Hst).
  exists (DClient <$> [LCall; LPush; LSendErr; LSendDeliver]), (mkD c' [] None [] [] []). split.
  - change (DClient <$> [LCall; LPush; LSendErr; LSendDeliver]) with ((DClient <$> [LCall; LPush; LSendErr]) ++ [DClient LSendDeliver]).
    eapply ds_snoc; [|apply (D_client 10 1 LSendDeliver (mkD c [] None [] [] [])); [done|done|exact Hst]].
    assert (∀ ls (a b : cstate nat), csteps 10 ls a b → Forall (λ l, l ≠ LSendOk ∧ l ≠ LRecv) ls →
      dsteps 10 1 (DClient <$> ls) (mkD a [] None [] [] []) (mkD b [] None [] [] [])) as Hlift.
    { clear. intros ls a b Hs Hf. induction Hs as [|l ls a b c Hl Hs IH]; [constructor|]. apply Forall_cons in Hf as [[? ?] Hf].
      change (DClient <$> l :: ls) with ([DClient l] ++ (DClient <$> ls)). eapply dsteps_app; [|by apply IH].
      apply (ds_snoc 10 1 [] _ _ (mkD a [] None [] [] [])); [constructor|]. by apply (D_client 10 1 l (mkD a [] None [] [] [])). }
    apply (Hlift _ cinit); [exact Hc|]. by repeat constructor.
  - inversion Hst; subst. assert (k = 0) as -> by congruence. cn. dn. unfold returned. cn. eexists. rewrite lookup_insert. split; [done|]. done.
Qed.
