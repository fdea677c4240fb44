(** C98: publishing the notes of direct responses (proofs) to the relays. *)
From stdpp Require Import gmap.
From Verif.Base Require Import Base.
From Verif.Model Require Import ProofPub.

(** * Specification: what can be read off a history (a list of labels) *)
Section spec.
Context {N B : Type} (verify : string → N → bool).
(** Proofs offered by client [i] to relay [r], in order. *)
Definition offered (i : nat) (r : string) (ls : list (label N B)) : list (proof N) :=
  omap (λ l, match l with LVisit i' r' _ p => if decide (i' = i ∧ r' = r) then Some p else None | _ => None end) ls.
(** Proofs accepted for relay [r], with the client that offered them, in order. *)
Definition accepted (r : string) (ls : list (label N B)) : list (nat * proof N) :=
  omap (λ l, match l with LVisit i r' VEnqueue p => if decide (r' = r) then Some (i, p) else None | _ => None end) ls.
(** Proofs given to the stream of relay [r], in order. *)
Definition sent (r : string) (ls : list (label N B)) : list (proof N) :=
  omap (λ l, match l with LSent r' p _ => if decide (r' = r) then Some p else None | _ => None end) ls.
(** The responses client [i] (of server [host]) received that should be published: all but those which
    answer a pending call and do not verify under the server's key. *)
Definition publishable (host : string) (i : nat) (ls : list (label N B)) : list (proof N) :=
  omap (λ l, match l with
    | LMsg i' m known _ =>
      if decide (i' = i ∧ (known = true → verify host (d_note m) = true)) then Some (mkProof host (d_note m)) else None
    | _ => None end) ls.
(** Before anything happened. *)
Definition fresh (s : state N) : Prop :=
  map_Forall (λ _ c, c = mkConn [] false SSelect) (conns s) ∧
  map_Forall (λ _ k, k_tasks k = ∅ ∧ k_pub k = None) (clients s).
(** The steps of client [i] inside PublishProof. *)
Definition own (i : nat) (l : label N B) : bool :=
  match l with LVisit j _ _ _ | LReturn j => bool_decide (j = i) | _ => false end.
End spec.

Section props.
Context {N B : Type} `{EqDecision N} (uuid : N → string) (verify : string → N → bool).
Notation step := (step (N:=N) (B:=B) uuid verify).
Notation run := (run (N:=N) (B:=B) uuid verify).
Notation state := (state N).
Notation label := (label N B).
Notation publishable := (publishable (B:=B) verify).
Notation offered := (offered (N:=N) (B:=B)).
Notation accepted := (accepted (N:=N) (B:=B)).
Notation sent := (sent (N:=N) (B:=B)).

Lemma run_app ls1 ls2 s : run (ls1 ++ ls2) s = match run ls1 s with Some s' => run ls2 s' | None => None end.
Proof using. revert s; induction ls1 as [|l ls1 IH]; intros s; simpl; [done|]. destruct (step l s); [apply IH|done]. Qed.
Lemma run_snoc ls l s s' : run (ls ++ [l]) s = Some s' → ∃ s1, run ls s = Some s1 ∧ step l s1 = Some s'.
Proof using.
  rewrite run_app. destruct (run ls s) as [s1|]; [|done]. simpl. destruct (step l s1) eqn:E; [|done].
  intros [= <-]. eauto.
Qed.
Lemma run_cons l ls s s' : run (l :: ls) s = Some s' → ∃ s1, step l s = Some s1 ∧ run ls s1 = Some s'.
Proof using. cbn [ProofPub.run]. destruct (step l s) as [s1|]; [eauto|done]. Qed.
Lemma cons_run l ls s s1 : step l s = Some s1 → run (l :: ls) s = run ls s1.
Proof using. cbn [ProofPub.run]. by intros ->. Qed.

Definition cur (c : conn N) : list (proof N) := match c_go c with SSend p => [p] | _ => [] end.

Record inv (s0 : state) (ls : list label) (s : state) : Prop := mkInv {
  i_dom : dom (conns s) = dom (conns s0);
  i_host : k_host <$> clients s = k_host <$> clients s0;
  i_conn : ∀ r c, conns s !! r = Some c →
     snd <$> accepted r ls = sent r ls ++ cur c ++ c_chan c ∧ length (c_chan c) ≤ 100 ∧
     (c_go c = SExit → c_done c = true) ∧ (c_done c = true ↔ LCancel r ∈ ls);
  i_client : ∀ i k, clients s !! i = Some k →
     match k_pub k with
     | None => ∀ r, r ∈ dom (conns s0) → offered i r ls = publishable (k_host k) i ls
     | Some (p, rest) => NoDup rest ∧ (∀ r, r ∈ rest → r ∈ dom (conns s0)) ∧
         ∃ ps, publishable (k_host k) i ls = ps ++ [p] ∧
         ∀ r, r ∈ dom (conns s0) → offered i r ls = if decide (r ∈ rest) then ps else ps ++ [p]
     end }.

Lemma offered_snoc i r ls l : offered i r (ls ++ [l]) = offered i r ls ++ offered i r [l].
Proof using. apply omap_app. Qed.
Lemma accepted_snoc r ls l : accepted r (ls ++ [l]) = accepted r ls ++ accepted r [l].
Proof using. apply omap_app. Qed.
Lemma sent_snoc r ls l : sent r (ls ++ [l]) = sent r ls ++ sent r [l].
Proof using. apply omap_app. Qed.
Lemma publishable_snoc h i ls l : publishable h i (ls ++ [l]) = publishable h i ls ++ publishable h i [l].
Proof using. apply omap_app. Qed.

Lemma dom_set (m : gmap string (conn N)) r c c' : m !! r = Some c → dom (<[r:=c']> m) = dom m.
Proof using. intros H. apply dom_insert_lookup_L. eauto. Qed.
Lemma host_set (m : gmap nat (client N)) i k k' : m !! i = Some k → k_host k' = k_host k →
  k_host <$> <[i:=k']> m = k_host <$> m.
Proof using.
  intros H E. rewrite fmap_insert, E. apply insert_id. by rewrite lookup_fmap, H.
Qed.

(** A step that leaves what the clients and connections show unchanged. *)
Lemma conn_frame s0 ls l s r c :
  inv s0 ls s → conns s !! r = Some c → accepted r [l] = [] → sent r [l] = [] → l ≠ LCancel r →
  snd <$> accepted r (ls ++ [l]) = sent r (ls ++ [l]) ++ cur c ++ c_chan c ∧ length (c_chan c) ≤ 100 ∧
     (c_go c = SExit → c_done c = true) ∧ (c_done c = true ↔ LCancel r ∈ ls ++ [l]).
Proof using.
  intros I H Ha Hs Hl. destruct (i_conn _ _ _ I r c H) as (E & L & X & D).
  rewrite accepted_snoc, sent_snoc, Ha, Hs, !app_nil_r. split_and!; try done.
  rewrite D, elem_of_app, elem_of_list_singleton. split; [auto|]. intros [?|E2]; [done|]. by destruct Hl.
Qed.
Lemma client_frame s0 ls l s i k :
  inv s0 ls s → clients s !! i = Some k → (∀ r, offered i r [l] = []) → (∀ h, publishable h i [l] = []) →
     match k_pub k with
     | None => ∀ r, r ∈ dom (conns s0) → offered i r (ls ++ [l]) = publishable (k_host k) i (ls ++ [l])
     | Some (p, rest) => NoDup rest ∧ (∀ r, r ∈ rest → r ∈ dom (conns s0)) ∧
         ∃ ps, publishable (k_host k) i (ls ++ [l]) = ps ++ [p] ∧
         ∀ r, r ∈ dom (conns s0) → offered i r (ls ++ [l]) = if decide (r ∈ rest) then ps else ps ++ [p]
     end.
Proof using.
  intros I H Ho Hp. pose proof (i_client _ _ _ I i k H) as C. rewrite publishable_snoc, Hp, app_nil_r.
  destruct (k_pub k) as [[p rest]|].
  - destruct C as (nd & sub & ps & E & V). split_and!; [done|done|]. exists ps. split; [done|].
    intros r Hr. rewrite offered_snoc, Ho, app_nil_r. by apply V.
  - intros r Hr. rewrite offered_snoc, Ho, app_nil_r. by apply C.
Qed.

Lemma step_inv s0 ls l s s' : inv s0 ls s → step l s = Some s' → inv s0 (ls ++ [l]) s'.
Proof using.
  intros I Hst. destruct l as [i u|i u|i m known order|i r v p|i|r|r p ok|r|r]; simpl in Hst.
  - destruct (clients s !! i) as [k|] eqn:Hk; simpl in Hst; [|done]. injection Hst as <-. split; simpl.
    + apply I.
    + erewrite host_set; [apply I|exact Hk|done].
    + intros r c Hc. apply (conn_frame s0 ls _ s r c I Hc); done.
    + intros j kj [[<- <-]|[ne Hj]]%lookup_insert_Some; simpl; [|by apply (client_frame s0 ls _ s j kj I Hj)].
      by apply (client_frame s0 ls _ s i k I Hk).
  - destruct (clients s !! i) as [k|] eqn:Hk; simpl in Hst; [|done]. injection Hst as <-. split; simpl.
    + apply I.
    + erewrite host_set; [apply I|exact Hk|done].
    + intros r c Hc. apply (conn_frame s0 ls _ s r c I Hc); done.
    + intros j kj [[<- <-]|[ne Hj]]%lookup_insert_Some; simpl; [|by apply (client_frame s0 ls _ s j kj I Hj)].
      by apply (client_frame s0 ls _ s i k I Hk).
  - destruct (clients s !! i) as [k|] eqn:Hk; simpl in Hst; [|done].
    pose proof (i_client _ _ _ I i k Hk) as C. destruct (k_pub k) as [?|] eqn:Hp; [done|].
    case_bool_decide as Hkn; [|done]. unfold dispatched_ok in Hst.
    assert ((if known then verify (k_host k) (d_note m) else true) = true ↔
      (known = true → verify (k_host k) (d_note m) = true)) as Ho.
    { destruct known; split; auto. intros _ [=]. }
    remember (if known then verify (k_host k) (d_note m) else true) as okk eqn:Eok. clear Eok.
    assert (∀ j, j ≠ i → ∀ h, publishable h j [LMsg i m known order] = []) as Pj.
    { intros j ne h. unfold P43_ProofPub.publishable; simpl. rewrite decide_False; [done|]. intros [? _]; congruence. }
    destruct okk.
    + clear Hkn. case_bool_decide as Hor; [|done]. injection Hst as <-. split; simpl.
      * apply I.
      * erewrite host_set; [apply I|exact Hk|done].
      * intros r c Hc. apply (conn_frame s0 ls _ s r c I Hc); done.
      * intros j kj [[<- <-]|[ne Hj]]%lookup_insert_Some; simpl;
          [|apply (client_frame s0 ls _ s j kj I Hj); [done|by apply Pj]].
        assert (∀ r, r ∈ order ↔ r ∈ dom (conns s0)) as Hord.
        { intros r. rewrite Hor, elem_of_elements, (i_dom _ _ _ I). done. }
        split_and!; [rewrite Hor; apply NoDup_elements|intros r; apply Hord|].
        exists (publishable (k_host k) i ls). rewrite publishable_snoc. split.
        { f_equal. unfold P43_ProofPub.publishable; simpl. rewrite decide_True; [done|]. split; [done|]. by apply Ho. }
        intros r Hr. rewrite offered_snoc. try unfold P43_ProofPub.offered at 2; simpl. rewrite app_nil_r.
        rewrite decide_True by (by apply Hord). by apply C.
    + injection Hst as <-. split; simpl.
      * apply I.
      * erewrite host_set; [apply I|exact Hk|done].
      * intros r c Hc. apply (conn_frame s0 ls _ s r c I Hc); done.
      * intros j kj [[<- <-]|[ne Hj]]%lookup_insert_Some; simpl;
          [|apply (client_frame s0 ls _ s j kj I Hj); [done|by apply Pj]].
        intros r Hr. rewrite offered_snoc, publishable_snoc.
        replace (publishable (k_host k) i [LMsg i m known order]) with (@nil (proof N)).
        { try unfold P43_ProofPub.offered at 2; simpl. rewrite !app_nil_r. by apply C. }
        unfold P43_ProofPub.publishable; simpl. rewrite decide_False; [done|]. intros [_ h].
        apply Ho in h. done.
  - destruct (clients s !! i) as [k|] eqn:Hk; simpl in Hst; [|done].
    pose proof (i_client _ _ _ I i k Hk) as C. destruct (k_pub k) as [[q [|r' rest]]|] eqn:Hp; [done| |done].
    case_bool_decide as Hq; [|done]. destruct Hq as [-> ->].
    destruct (conns s !! r) as [c|] eqn:Hc; simpl in Hst; [|done].
    destruct (send_proof v p c) as [c'|] eqn:Hv; [|done]. injection Hst as <-.
    destruct C as (nd & sub & ps & E & V). apply NoDup_cons in nd as [nin nd]. split; simpl.
    + rewrite (dom_set _ _ _ _ Hc). apply I.
    + erewrite host_set; [apply I|exact Hk|done].
    + intros r2 c2 [[<- <-]|[ne Hj]]%lookup_insert_Some.
      * destruct (i_conn _ _ _ I r c Hc) as (Ea & L & X & D).
        assert (∀ D' : Prop, (D' ↔ LCancel r ∈ ls) → (D' ↔ LCancel r ∈ ls ++ [LVisit i r v p])) as HD.
        { intros D' ->. rewrite elem_of_app, elem_of_list_singleton. split; [auto|]. by intros [?|[=]]. }
        rewrite accepted_snoc, sent_snoc. try unfold P43_ProofPub.sent at 2; simpl. rewrite app_nil_r.
        try unfold P43_ProofPub.accepted at 2; simpl.
        destruct v; simpl in Hv.
        -- case_bool_decide; [|done]. injection Hv as <-. rewrite decide_True by done.
           rewrite fmap_app, Ea. unfold cur; simpl. rewrite app_length; simpl.
           split_and!; [by rewrite <- !app_assoc|lia|done|by apply HD].
        -- destruct (c_done c) eqn:Hd; [|done]. injection Hv as <-. rewrite app_nil_r, Hd. split_and!; try done.
           by apply HD.
        -- case_bool_decide; simpl in Hv; [done|]. destruct (c_done c) eqn:Hd; [done|]. injection Hv as <-.
           rewrite app_nil_r, Hd. split_and!; try done. by apply HD.
      * apply (conn_frame s0 ls _ s r2 c2 I Hj); [|done|done].
        unfold P43_ProofPub.accepted; simpl. destruct v; [|done|done]. by rewrite decide_False.
    + intros j kj [[<- <-]|[ne Hj]]%lookup_insert_Some; simpl.
      2: { apply (client_frame s0 ls _ s j kj I Hj); [|done]. intros r2. unfold P43_ProofPub.offered; simpl.
           rewrite decide_False; [done|]. intros [? _]; congruence. }
      split_and!; [done|intros r2 ?; apply sub; by right|]. exists ps. rewrite publishable_snoc.
      try unfold P43_ProofPub.publishable at 2; simpl. rewrite app_nil_r. split; [done|].
      intros r2 Hr2. rewrite offered_snoc, (V r2 Hr2). unfold P43_ProofPub.offered; simpl.
      destruct (decide (r2 = r)) as [->|ne].
      * rewrite decide_True by (by left). rewrite decide_True by done. by rewrite decide_False.
      * rewrite (decide_False (P := i = i ∧ r = r2)); [|intros [_ ?]; congruence]. rewrite app_nil_r.
        destruct (decide (r2 ∈ rest)).
        -- by rewrite decide_True by (by right).
        -- rewrite decide_False; [done|]. by intros [?|?]%elem_of_cons.
  - destruct (clients s !! i) as [k|] eqn:Hk; simpl in Hst; [|done].
    pose proof (client_frame s0 ls (LReturn i) s i k I Hk) as C.
    destruct (k_pub k) as [[q [|r' rest]]|] eqn:Hp; [|done|done]. injection Hst as <-. split; simpl.
    + apply I.
    + erewrite host_set; [apply I|exact Hk|done].
    + intros r c Hc. apply (conn_frame s0 ls _ s r c I Hc); done.
    + intros j kj [[<- <-]|[ne Hj]]%lookup_insert_Some; simpl; [|by apply (client_frame s0 ls _ s j kj I Hj)].
      destruct C as (_ & _ & ps & E & V); [done|done|]. intros r Hr. rewrite (V r Hr), E. by rewrite decide_False by apply not_elem_of_nil.
  - destruct (conns s !! r) as [c|] eqn:Hc; simpl in Hst; [|done].
    destruct (i_conn _ _ _ I r c Hc) as (Ea & L & X & D).
    destruct (c_go c) eqn:Hg; [|done|done]. destruct (c_chan c) as [|p0 pq] eqn:Hch; [done|]. injection Hst as <-.
    split; simpl.
    + rewrite (dom_set _ _ _ _ Hc). apply I.
    + apply I.
    + intros r2 c2 [[<- <-]|[ne Hj]]%lookup_insert_Some; simpl.
      2: { apply (conn_frame s0 ls _ s r2 c2 I Hj); [done| |congruence].
           unfold P43_ProofPub.sent; simpl; rewrite ?decide_False by done; done. }
      rewrite accepted_snoc, sent_snoc, elem_of_app, elem_of_list_singleton. try unfold P43_ProofPub.accepted at 2; simpl.
      try unfold P43_ProofPub.sent at 2; simpl. rewrite app_nil_r, Ea. unfold cur; simpl.
      rewrite Hg; simpl in *. rewrite app_nil_r. split_and!; [done|lia|done|]. rewrite D. split; [auto|]. by intros [?|[=]].
    + intros j kj Hj. by apply (client_frame s0 ls _ s j kj I Hj).
  - destruct (conns s !! r) as [c|] eqn:Hc; simpl in Hst; [|done].
    destruct (i_conn _ _ _ I r c Hc) as (Ea & L & X & D).
    destruct (c_go c) as [|q|] eqn:Hg; [done| |done]. case_bool_decide as Hq; [|done]. subst q. injection Hst as <-.
    split; simpl.
    + rewrite (dom_set _ _ _ _ Hc). apply I.
    + apply I.
    + intros r2 c2 [[<- <-]|[ne Hj]]%lookup_insert_Some; simpl.
      2: { apply (conn_frame s0 ls _ s r2 c2 I Hj); [done| |congruence].
           unfold P43_ProofPub.sent; simpl; rewrite ?decide_False by done; done. }
      rewrite accepted_snoc, sent_snoc, elem_of_app, elem_of_list_singleton. try unfold P43_ProofPub.accepted at 2; simpl.
      try unfold P43_ProofPub.sent at 2; simpl. rewrite app_nil_r, Ea. unfold cur; simpl.
      rewrite Hg; simpl in *. rewrite decide_True by done. rewrite <- app_assoc. split_and!; [done|done|done|]. rewrite D. split; [auto|]. by intros [?|[=]].
    + intros j kj Hj. by apply (client_frame s0 ls _ s j kj I Hj).
  - destruct (conns s !! r) as [c|] eqn:Hc; simpl in Hst; [|done].
    destruct (i_conn _ _ _ I r c Hc) as (Ea & L & X & D).
    injection Hst as <-.
    split; simpl.
    + rewrite (dom_set _ _ _ _ Hc). apply I.
    + apply I.
    + intros r2 c2 [[<- <-]|[ne Hj]]%lookup_insert_Some; simpl.
      2: { apply (conn_frame s0 ls _ s r2 c2 I Hj); [done| |congruence].
           unfold P43_ProofPub.sent; simpl; rewrite ?decide_False by done; done. }
      rewrite accepted_snoc, sent_snoc, elem_of_app, elem_of_list_singleton. try unfold P43_ProofPub.accepted at 2; simpl.
      try unfold P43_ProofPub.sent at 2; simpl. rewrite app_nil_r, Ea. unfold cur; simpl.
      rewrite app_nil_r. split_and!; [done|done|done|]. split; [by right|done].
    + intros j kj Hj. by apply (client_frame s0 ls _ s j kj I Hj).
  - destruct (conns s !! r) as [c|] eqn:Hc; simpl in Hst; [|done].
    destruct (i_conn _ _ _ I r c Hc) as (Ea & L & X & D).
    destruct (c_go c) eqn:Hg; [|done|done]. destruct (c_done c) eqn:Hd; [|done]. injection Hst as <-.
    split; simpl.
    + rewrite (dom_set _ _ _ _ Hc). apply I.
    + apply I.
    + intros r2 c2 [[<- <-]|[ne Hj]]%lookup_insert_Some; simpl.
      2: { apply (conn_frame s0 ls _ s r2 c2 I Hj); [done| |congruence].
           unfold P43_ProofPub.sent; simpl; rewrite ?decide_False by done; done. }
      rewrite accepted_snoc, sent_snoc, elem_of_app, elem_of_list_singleton. try unfold P43_ProofPub.accepted at 2; simpl.
      try unfold P43_ProofPub.sent at 2; simpl. rewrite app_nil_r, Ea. unfold cur; simpl.
      rewrite Hg; simpl. rewrite app_nil_r. split_and!; [done|done|done|]. split; [|done]. intros _. left. by apply D.
    + intros j kj Hj. by apply (client_frame s0 ls _ s j kj I Hj).
Qed.

Lemma run_inv s0 ls s : fresh s0 → run ls s0 = Some s → inv s0 ls s.
Proof using.
  intros [F1 F2]. revert s; induction ls as [|l ls IH] using rev_ind; intros s Hr.
  - injection Hr as <-. split; [done|done| |].
    + intros r c Hc. rewrite (F1 _ _ Hc); simpl. split_and!; [done|lia|done|]. by rewrite elem_of_nil.
    + intros i k Hk. destruct (F2 _ _ Hk) as [_ ->]. done.
  - apply run_snoc in Hr as (s1 & H1 & H2). eapply step_inv; [by apply IH|exact H2].
Qed.

(** * C98 *)
(** A client that is not publishing has offered every publishable response it received to every relay,
    once, in the order received; one that is publishing has so far offered its last one to the relays it
    has visited. *)
Theorem C98_every_relay s0 ls s i k r : fresh s0 → run ls s0 = Some s → clients s !! i = Some k →
  r ∈ dom (conns s0) →
  match k_pub k with
  | None => offered i r ls = publishable (k_host k) i ls
  | Some (p, rest) => ∃ ps, publishable (k_host k) i ls = ps ++ [p] ∧
      offered i r ls = if decide (r ∈ rest) then ps else ps ++ [p]
  end.
Proof using.
  intros F R Hk Hr. pose proof (i_client _ _ _ (run_inv _ _ _ F R) i k Hk) as C.
  destruct (k_pub k) as [[p rest]|]; [|by apply C]. destruct C as (_ & _ & ps & E & V). exists ps. auto.
Qed.

(** The hosts do not change. *)
Theorem C98_host s0 ls s i k : fresh s0 → run ls s0 = Some s → clients s !! i = Some k →
  ∃ k0, clients s0 !! i = Some k0 ∧ k_host k = k_host k0.
Proof using.
  intros F R Hk. pose proof (i_host _ _ _ (run_inv _ _ _ F R)) as E.
  assert ((k_host <$> clients s) !! i = Some (k_host k)) as H by (by rewrite lookup_fmap, Hk).
  rewrite E, lookup_fmap in H. destruct (clients s0 !! i) as [k0|]; [|done]. injection H as H. eauto.
Qed.

(** Whatever is offered to a relay is the note of a response received before by that client, under its
    server's name; if a call was waiting for that response, the note verified. *)
Theorem C98_source s0 ls s i r v p k : fresh s0 → run ls s0 = Some s → LVisit i r v p ∈ ls →
  clients s !! i = Some k →
  ∃ m known order, LMsg i m known order ∈ ls ∧ p = mkProof (k_host k) (d_note m) ∧
    (known = true → verify (k_host k) (d_note m) = true).
Proof using.
  intros F R Hin Hk. pose proof (run_inv _ _ _ F R) as I.
  assert (p ∈ offered i r ls) as Ho.
  { apply elem_of_list_omap. eexists; split; [exact Hin|]. simpl. by rewrite decide_True. }
  assert (r ∈ dom (conns s0)) as Hd.
  { apply elem_of_list_split in Hin as (l1 & l2 & ->). rewrite run_app in R.
    destruct (run l1 s0) as [s1|] eqn:R1; [|done]. apply run_cons in R as (s2 & Hs & _). pose proof (run_inv _ _ _ F R1) as I1.
    simpl in Hs.
    destruct (clients s1 !! i) as [k1|]; simpl in Hs; [|done].
    destruct (k_pub k1) as [[q [|r' rest]]|]; [done| |done]. case_bool_decide; [|done].
    destruct (conns s1 !! r) as [c|] eqn:Hc; [|done]. rewrite <- (i_dom _ _ _ I1). apply elem_of_dom. eauto. }
  assert (p ∈ publishable (k_host k) i ls) as Hp.
  { pose proof (C98_every_relay _ _ _ _ _ r F R Hk Hd) as E. destruct (k_pub k) as [[q rest]|].
    - destruct E as (ps & -> & E). rewrite E in Ho. destruct (decide (r ∈ rest)); [|done].
      apply elem_of_app. by left.
    - by rewrite <- E. }
  apply elem_of_list_omap in Hp as (l & Hl & El). destruct l as [| |j m known order| | | | | |]; try done.
  destruct (decide _) as [[-> Hv]|]; [|done]. injection El as <-. exists m, known, order. done.
Qed.

(** Per relay: what has been accepted is, in order, what was given to its stream, the proof being sent, and
    what is waiting; at most 100 are waiting. *)
Theorem C98_fifo s0 ls s r c : fresh s0 → run ls s0 = Some s → conns s !! r = Some c →
  snd <$> accepted r ls = sent r ls ++ match c_go c with SSend p => [p] | _ => [] end ++ c_chan c ∧
  length (c_chan c) ≤ 100.
Proof using. intros F R H. destruct (i_conn _ _ _ (run_inv _ _ _ F R) r c H) as (E & L & _). done. Qed.

(** A proof is refused only by a connection whose context has ended or with 100 proofs waiting, and this
    changes nothing about the connection. *)
Theorem C98_refused s0 ls1 ls2 s i r v p : fresh s0 → run (ls1 ++ LVisit i r v p :: ls2) s0 = Some s →
  v ≠ VEnqueue →
  LCancel r ∈ ls1 ∨
  ∃ s1 c, run ls1 s0 = Some s1 ∧ conns s1 !! r = Some c ∧ length (c_chan c) = 100.
Proof using.
  intros F R ne. rewrite run_app in R. destruct (run ls1 s0) as [s1|] eqn:R1; [|done].
  pose proof (run_inv _ _ _ F R1) as I. apply run_cons in R as (s2 & R & _). simpl in R.
  destruct (clients s1 !! i) as [k1|]; simpl in R; [|done].
  destruct (k_pub k1) as [[q [|r' rest]]|]; [done| |done]. case_bool_decide as Hq; [|done].
  destruct (conns s1 !! r) as [c|] eqn:Hc; [|done]; simpl in R.
  destruct (i_conn _ _ _ I r c Hc) as (_ & L & _ & D).
  destruct v; [done| |]; simpl in R.
  - left. apply D. by destruct (c_done c).
  - right. case_bool_decide; simpl in R; [done|]. exists s1, c. split_and!; [done|done|lia].
Qed.

(** Publishing never blocks: whatever the relays do, a client inside PublishProof can take its next step. *)
Theorem C98_never_blocks s0 ls s i k p rest : fresh s0 → run ls s0 = Some s → clients s !! i = Some k →
  k_pub k = Some (p, rest) → ∃ l s', own i l = true ∧ step l s = Some s'.
Proof using.
  intros F R Hk Hp. pose proof (run_inv _ _ _ F R) as I.
  destruct rest as [|r rest].
  - exists (LReturn i). simpl. rewrite Hk; simpl. rewrite Hp. rewrite bool_decide_true by done. eauto.
  - pose proof (i_client _ _ _ I i k Hk) as C. rewrite Hp in C. destruct C as (_ & sub & _).
    assert (r ∈ dom (conns s)) as [c Hc]%elem_of_dom. { rewrite (i_dom _ _ _ I). apply sub. by left. }
    destruct (decide (length (c_chan c) < 100)).
    + exists (LVisit i r VEnqueue p). simpl. rewrite Hk; simpl. rewrite Hp, bool_decide_true by done.
      rewrite bool_decide_true by done. rewrite Hc; simpl. rewrite bool_decide_true by done. eauto.
    + destruct (c_done c) eqn:Hd.
      * exists (LVisit i r VDone p). simpl. rewrite Hk; simpl. rewrite Hp, bool_decide_true by done.
        rewrite bool_decide_true by done. rewrite Hc; simpl. rewrite Hd. eauto.
      * exists (LVisit i r VDefault p). simpl. rewrite Hk; simpl. rewrite Hp, bool_decide_true by done.
        rewrite bool_decide_true by done. rewrite Hc; simpl. rewrite Hd, bool_decide_false by done. eauto.
Qed.

(** ... and is over after one step per relay and its return, whatever happens in between. *)
Lemma other_steps i l s s' k : step l s = Some s' → own i l = false → clients s !! i = Some k →
  is_Some (k_pub k) → ∃ k', clients s' !! i = Some k' ∧ k_pub k' = k_pub k.
Proof using.
  intros Hst Ho Hk [q Hq]. destruct l as [j u|j u|j m known order|j r v p|j|r|r p ok|r|r]; simpl in Hst, Ho.
  1,2: destruct (clients s !! j) as [kj|] eqn:Hj; simpl in Hst; [|done]; injection Hst as <-; simpl;
       destruct (decide (i = j)) as [<-|ne];
       [rewrite lookup_insert; eexists; split; [done|]; simpl; congruence|rewrite lookup_insert_ne by done; eauto].
  - destruct (clients s !! j) as [kj|] eqn:Hj; simpl in Hst; [|done]. destruct (k_pub kj) eqn:Hpj; [done|].
    assert (j ≠ i) by congruence.
    case_bool_decide; [|done]. destruct (dispatched_ok _ _ _ _); [destruct (bool_decide (order ≡ₚ _)); [|done]|];
      injection Hst as <-; simpl; rewrite lookup_insert_ne by done; eauto.
  - rewrite bool_decide_eq_false in Ho. destruct (clients s !! j) as [kj|] eqn:Hj; simpl in Hst; [|done].
    destruct (k_pub kj) as [[q' [|r' rest]]|]; [done| |done]. case_bool_decide; [|done].
    destruct (conns s !! r) as [c|]; simpl in Hst; [|done]. destruct (send_proof v q' c); [|done].
    injection Hst as <-; simpl; rewrite lookup_insert_ne by done; eauto.
  - rewrite bool_decide_eq_false in Ho. destruct (clients s !! j) as [kj|] eqn:Hj; simpl in Hst; [|done].
    destruct (k_pub kj) as [[q' [|r' rest]]|]; [|done|done]. 
    injection Hst as <-; simpl; rewrite lookup_insert_ne by done; eauto.
  - destruct (conns s !! r) as [c|]; simpl in Hst; [|done]. destruct (c_go c); [|done|done].
    destruct (c_chan c); [done|]. injection Hst as <-; eauto.
  - destruct (conns s !! r) as [c|]; simpl in Hst; [|done]. destruct (c_go c); [done| |done].
    case_bool_decide; [|done]. injection Hst as <-; eauto.
  - destruct (conns s !! r) as [c|]; simpl in Hst; [|done]. injection Hst as <-; eauto.
  - destruct (conns s !! r) as [c|]; simpl in Hst; [|done]. destruct (c_go c); [|done|done].
    destruct (c_done c); [|done]. injection Hst as <-; eauto.
Qed.

Theorem C98_short s i k p rest ls s' : clients s !! i = Some k → k_pub k = Some (p, rest) →
  run ls s = Some s' → length (filter (λ l, own i l = true) ls) > length rest →
  ∃ ls1 ls2 s1 k1, ls = ls1 ++ ls2 ∧ run ls1 s = Some s1 ∧ clients s1 !! i = Some k1 ∧ k_pub k1 = None ∧
    length (filter (λ l, own i l = true) ls1) = S (length rest).
Proof using.
  revert s k rest. induction ls as [|l ls IH]; intros s k rest Hk Hp R Hlen; [simpl in Hlen; lia|].
  apply run_cons in R as (s1 & Hst & R). rewrite filter_cons in Hlen.
  destruct (own i l) eqn:Ho.
  - rewrite decide_True in Hlen by done. simpl in Hlen. pose proof Hst as Hst0.
    destruct l as [j u|j u|j m known order|j r v q|j|r|r q ok|r|r]; simpl in Ho, Hst; try done.
    + apply bool_decide_eq_true in Ho as ->. rewrite Hk in Hst; simpl in Hst. rewrite Hp in Hst.
      destruct rest as [|r' rest]; [done|]. case_bool_decide; [|done].
      destruct (conns s !! r) as [c|]; simpl in Hst; [|done]. destruct (send_proof v p c) as [c'|]; [|done].
      injection Hst as <-. simpl in Hlen.
      destruct (IH (set_conn (set_client s i (mkClient (k_host k) (k_tasks k) (Some (p, rest)))) r c') (mkClient (k_host k) (k_tasks k) (Some (p, rest))) rest) as (ls1 & ls2 & s2 & k2 & -> & R1 & Hk2 & Hp2 & L2);
        [by apply lookup_insert|done|exact R|lia|].
      exists (LVisit i r v q :: ls1), ls2, s2, k2. split_and!; [done| |done|done|].
      * by rewrite (cons_run _ _ _ _ Hst0).
      * rewrite filter_cons, decide_True; [simpl; lia|]. simpl. by apply bool_decide_eq_true.
    + apply bool_decide_eq_true in Ho as ->. rewrite Hk in Hst; simpl in Hst. rewrite Hp in Hst.
      destruct rest as [|r' rest]; [|done]. exists [LReturn i], ls. injection Hst as <-.
      eexists _, _. split_and!; [done|by rewrite (cons_run _ _ _ _ Hst0)|simpl; by apply lookup_insert|done|].
      rewrite filter_cons, decide_True; [done|]. simpl. by apply bool_decide_eq_true.
  - rewrite decide_False in Hlen by done.
    destruct (other_steps i l s s1 k Hst Ho Hk) as (k1 & Hk1 & Hp1); [by rewrite Hp; eauto|].
    edestruct (IH s1 k1 rest) as (ls1 & ls2 & s2 & k2 & -> & R1 & Hk2 & Hp2 & L2); [done|congruence|done|done|].
    exists (l :: ls1), ls2, s2, k2. split_and!; [done|by rewrite (cons_run _ _ _ _ Hst)|done|done|].
    rewrite filter_cons, decide_False; [done|]. by rewrite Ho.
Qed.

(** Once the sending goroutine of a connection has returned nothing more is sent on it; it returns only
    after the connection's context ended. *)
Theorem C98_exit_only s0 ls s r c : fresh s0 → run ls s0 = Some s → conns s !! r = Some c →
  c_go c = SExit → LCancel r ∈ ls.
Proof using.
  intros F R H E. destruct (i_conn _ _ _ (run_inv _ _ _ F R) r c H) as (_ & _ & X & D). by apply D, X.
Qed.

Lemma exit_stays l s s' r c : step l s = Some s' → conns s !! r = Some c → c_go c = SExit →
  sent r [l] = [] ∧ ∃ c', conns s' !! r = Some c' ∧ c_go c' = SExit.
Proof using.
  intros Hst Hc Hx. destruct l as [j u|j u|j m known order|j r2 v q|j|r2|r2 q ok|r2|r2]; simpl in Hst.
  1,2: destruct (clients s !! j); simpl in Hst; [|done]; injection Hst as <-; eauto.
  - destruct (clients s !! j) as [k|]; simpl in Hst; [|done]. destruct (k_pub k); [done|].
    case_bool_decide; [|done]. destruct (dispatched_ok _ _ _ _); [destruct (bool_decide (order ≡ₚ _)); [|done]|];
      injection Hst as <-; eauto.
  - destruct (clients s !! j) as [k|]; simpl in Hst; [|done]. destruct (k_pub k) as [[q' [|r' rest]]|]; [done| |done].
    case_bool_decide; [|done]. destruct (conns s !! r2) as [c2|] eqn:H2; simpl in Hst; [|done].
    destruct (send_proof v q' c2) as [c'|] eqn:Hv; [|done]. injection Hst as <-; simpl. split; [done|].
    destruct (decide (r2 = r)) as [->|ne]; [|rewrite lookup_insert_ne by done; eauto].
    rewrite lookup_insert. eexists; split; [done|]. assert (c2 = c) as -> by congruence.
    destruct v; simpl in Hv.
    + case_bool_decide; [|done]. by injection Hv as <-.
    + destruct (c_done c); [|done]. by injection Hv as <-.
    + destruct (bool_decide _ || c_done c); [done|]. by injection Hv as <-.
  - destruct (clients s !! j) as [k|]; simpl in Hst; [|done]. destruct (k_pub k) as [[q' [|r' rest]]|]; [|done|done].
    injection Hst as <-; eauto.
  - destruct (decide (r2 = r)) as [->|ne].
    + rewrite Hc in Hst; simpl in Hst. by rewrite Hx in Hst.
    + destruct (conns s !! r2) as [c2|]; simpl in Hst; [|done]. destruct (c_go c2); [|done|done].
      destruct (c_chan c2); [done|]. injection Hst as <-; simpl. rewrite lookup_insert_ne by done; eauto.
  - destruct (decide (r2 = r)) as [->|ne].
    + rewrite Hc in Hst; simpl in Hst. by rewrite Hx in Hst.
    + destruct (conns s !! r2) as [c2|]; simpl in Hst; [|done]. destruct (c_go c2); [done| |done].
      case_bool_decide; [|done]. injection Hst as <-; simpl. rewrite decide_False by done.
      rewrite lookup_insert_ne by done; eauto.
  - destruct (decide (r2 = r)) as [->|ne].
    + rewrite Hc in Hst; simpl in Hst. injection Hst as <-; simpl. rewrite lookup_insert. eauto.
    + destruct (conns s !! r2) as [c2|]; simpl in Hst; [|done].
      injection Hst as <-; simpl. rewrite lookup_insert_ne by done; eauto.
  - destruct (decide (r2 = r)) as [->|ne].
    + rewrite Hc in Hst; simpl in Hst. by rewrite Hx in Hst.
    + destruct (conns s !! r2) as [c2|]; simpl in Hst; [|done]. destruct (c_go c2); [|done|done].
      destruct (c_done c2); [|done]. injection Hst as <-; simpl. rewrite lookup_insert_ne by done; eauto.
Qed.
Theorem C98_exit_final s r c ls s' : conns s !! r = Some c → c_go c = SExit → run ls s = Some s' →
  sent r ls = [].
Proof using.
  revert s c. induction ls as [|l ls IH]; intros s c Hc Hx R; [done|].
  apply run_cons in R as (s1 & Hst & R). destruct (exit_stays l s s1 r c Hst Hc Hx) as (E & c' & Hc' & Hx').
  change (l :: ls) with ([l] ++ ls). unfold P43_ProofPub.sent. rewrite omap_app.
  fold (sent r [l]) (sent r ls). rewrite E. by apply (IH s1 c').
Qed.

Lemma accepted_visit r j r2 v p ls :
  accepted r (LVisit j r2 v p :: ls) = (if decide (r2 = r) then match v with VEnqueue => [(j, p)] | _ => [] end else []) ++ accepted r ls.
Proof using. unfold P43_ProofPub.accepted; cbn [omap list_omap]. by destruct v, (decide (r2 = r)). Qed.
Lemma offered_visit i r j r2 v p ls :
  offered i r (LVisit j r2 v p :: ls) = (if decide (j = i ∧ r2 = r) then [p] else []) ++ offered i r ls.
Proof using. unfold P43_ProofPub.offered; cbn [omap list_omap]. by destruct (decide (j = i ∧ r2 = r)). Qed.

(** When everything has settled, no connection was ended and no queue was full: every relay has been sent
    every publishable response of every client exactly once, those of one client in the order in which
    they were received. *)
Theorem C98_complete s0 ls s r c : fresh s0 → run ls s0 = Some s → conns s !! r = Some c →
  c_go c = SSelect → c_chan c = [] →
  (∀ i v p, LVisit i r v p ∈ ls → v = VEnqueue) →
  sent r ls = snd <$> accepted r ls ∧
  ∀ i k, clients s !! i = Some k → k_pub k = None →
    omap (λ ip, if decide (ip.1 = i) then Some ip.2 else None) (accepted r ls) = publishable (k_host k) i ls.
Proof using.
  intros F R Hc Hg Hch Hv. destruct (C98_fifo _ _ _ _ _ F R Hc) as [E _]. rewrite Hg, Hch in E.
  split; [by rewrite E, !app_nil_r|]. intros i k Hk Hp.
  assert (r ∈ dom (conns s0)) as Hd.
  { rewrite <- (i_dom _ _ _ (run_inv _ _ _ F R)). apply elem_of_dom. eauto. }
  pose proof (C98_every_relay _ _ _ _ _ r F R Hk Hd) as E2. rewrite Hp in E2. rewrite <- E2.
  clear -Hv. induction ls as [|l ls IH]; [done|].
  assert (∀ i v p, LVisit i r v p ∈ ls → v = VEnqueue) as Hv2 by (intros; eapply Hv; by right).
  specialize (IH Hv2). destruct l as [| | |j r2 v q| | | | |]; try exact IH.
  rewrite accepted_visit, offered_visit, omap_app. destruct (decide (r2 = r)) as [->|ne].
  - assert (v = VEnqueue) as -> by (eapply Hv; by left). rewrite IH. f_equal. simpl.
    destruct (decide (j = i)) as [->|ne].
    + by rewrite (decide_True (P := i = i ∧ r = r)) by done.
    + by rewrite (decide_False (P := j = i ∧ r = r)) by (intros [? ?]; done).
  - rewrite (decide_False (P := j = i ∧ r2 = r)) by (intros [? ?]; done).
    rewrite IH. by destruct v.
Qed.

(** A proof is dropped for want of room only when at least 100 of the proofs accepted for that relay before it have
    not been sent. *)
Theorem C98_room s0 ls1 ls2 s i r p : fresh s0 → run (ls1 ++ LVisit i r VDefault p :: ls2) s0 = Some s →
  100 ≤ length (accepted r ls1) - length (sent r ls1).
Proof using.
  intros F R. rewrite run_app in R. destruct (run ls1 s0) as [s1|] eqn:R1; [|done].
  apply run_cons in R as (s2 & R & _). simpl in R.
  destruct (clients s1 !! i) as [k1|]; simpl in R; [|done].
  destruct (k_pub k1) as [[q [|r' rest]]|]; [done| |done]. case_bool_decide as Hq; [|done].
  destruct (conns s1 !! r) as [c|] eqn:Hc; [|done]; simpl in R.
  destruct (C98_fifo _ _ _ _ _ F R1 Hc) as [E _].
  apply (f_equal length) in E. rewrite fmap_length, !app_length in E.
  case_bool_decide; simpl in R; [done|]. destruct (c_go c); simpl in E; lia.
Qed.
End props.

(** * Concrete runs: notes are (uuid, genuine?), two relays, two clients *)
Section ex.
Notation note := (string * bool)%type (only parsing).
Definition vf (_ : string) (n : string * bool) : bool := snd n.
Definition ex0 : state note :=
  mkState (<["r1" := mkConn [] false SSelect]> (<["r2" := mkConn [] false SSelect]> ∅))
    (<[0 := mkClient "srv" ∅ None]> (<[1 := mkClient "other" ∅ None]> ∅)).
Definition pa : proof note := mkProof "srv" ("a", true).
Definition pz : proof note := mkProof "other" ("z", false).
Lemma ex0_fresh : fresh ex0.
Proof. split; apply map_Forall_insert_2; try done; apply map_Forall_insert_2; try done; apply map_Forall_empty. Qed.

(** Client 0 made a call and got its response, client 1 received a response nobody asked for and a bad one. *)
Definition ex_run : list (label note unit) :=
  [LAsk 0 "a"; LAsk 1 "b"; LMsg 0 (mkDmsg ("a", true) tt) true ["r2"; "r1"]; LVisit 0 "r2" VEnqueue pa;
   LMsg 1 (mkDmsg ("z", false) tt) false ["r1"; "r2"]; LVisit 1 "r1" VEnqueue pz; LVisit 0 "r1" VEnqueue pa;
   LReturn 0; LTake "r1"; LSent "r1" pz true; LVisit 1 "r2" VEnqueue pz; LReturn 1;
   LMsg 1 (mkDmsg ("b", false) tt) true []; LTake "r1"; LSent "r1" pa false; LTake "r2"; LSent "r2" pa true;
   LTake "r2"; LSent "r2" pz true].
Definition settled (s : state note) : bool :=
  bool_decide (map_Forall (λ _ c, c_chan c = [] ∧ c_done c = false) (conns s)) &&
  bool_decide (map_Forall (λ _ k, k_pub k = None) (clients s)).
Example C98_ex : ∃ s, run fst vf ex_run ex0 = Some s ∧ settled s = true ∧
  sent "r1" ex_run = [pz; pa] ∧ sent "r2" ex_run = [pa; pz] ∧ publishable vf "srv" 0 ex_run = [pa] ∧
  publishable vf "other" 1 ex_run = [pz].
Proof.
  destruct (run fst vf ex_run ex0) as [s|] eqn:E; [|exfalso; vm_compute in E; discriminate E]. exists s. split; [reflexivity|].
  split; [|vm_compute; repeat split; reflexivity]. assert (match run fst vf ex_run ex0 with Some s => settled s | None => false end = true) as H by (vm_compute; repeat split; reflexivity).
  by rewrite E in H.
Qed.

(** A response that no call ever waited for is published to every relay although its note is not
    genuine. *)
Theorem C98_unverified_published :
  ∃ ls s, run fst vf ls ex0 = Some s ∧ (∀ u, LAsk 1 u ∉ (ls : list (label note unit))) ∧
    vf "other" (p_note pz) = false ∧ sent "r1" ls = [pz] ∧ sent "r2" ls = [pz].
Proof.
  set (ls := [LMsg 1 (mkDmsg ("z", false) tt) false ["r1"; "r2"]; LVisit 1 "r1" VEnqueue pz; LVisit 1 "r2" VEnqueue pz;
     LTake "r1"; LSent "r1" pz true; LTake "r2"; LSent "r2" pz true] : list (label note unit)).
  destruct (run fst vf ls ex0) as [s|] eqn:E; [|exfalso; vm_compute in E; discriminate E].
  exists ls, s. split; [exact E|]. split; [|vm_compute; repeat split; reflexivity].
  intros u. unfold ls. rewrite !elem_of_cons, elem_of_nil. intuition done.
Qed.

(** Closing a connection loses the proofs waiting in it. *)
Theorem C98_close_loses :
  ∃ ls s, run fst vf ls ex0 = Some s ∧ accepted "r1" (ls : list (label note unit)) = [(1, pz)] ∧
    ∀ ls' s', run fst vf ls' s = Some s' → sent "r1" (ls ++ ls' : list (label note unit)) = [].
Proof.
  set (ls := [LMsg 1 (mkDmsg ("z", false) tt) false ["r1"; "r2"]; LVisit 1 "r1" VEnqueue pz;
     LCancel "r1"; LExit "r1"] : list (label note unit)).
  destruct (run fst vf ls ex0) as [s|] eqn:E; [|exfalso; vm_compute in E; discriminate E].
  exists ls, s. split; [exact E|]. split; [vm_compute; repeat split; reflexivity|]. intros ls' s' R.
  assert (match run fst vf ls ex0 with Some s => c_go <$> conns s !! "r1" | None => None end = Some SExit) as H by (vm_compute; repeat split; reflexivity).
  rewrite E in H. destruct (conns s !! "r1") as [c|] eqn:Hc; [|done]. injection H as H.
  unfold sent. rewrite omap_app. fold (sent "r1" ls) (sent "r1" ls').
  by rewrite (C98_exit_final fst vf s "r1" c ls' s' Hc H R).
Qed.

(** A relay that does not read: the hundred-and-first (here even of one client) is dropped. *)
Definition offer (v : visit) : list (label note unit) :=
  [LMsg 1 (mkDmsg ("z", false) tt) false ["r1"; "r2"]; LVisit 1 "r1" v pz; LVisit 1 "r2" VEnqueue pz;
   LTake "r2"; LSent "r2" pz true; LReturn 1].
Theorem C98_full_drops :
  ∃ ls s, run fst vf ls ex0 = Some s ∧ length (offered 1 "r1" (ls : list (label note unit))) = 101 ∧
    length (accepted "r1" ls) = 100 ∧ length (sent "r2" ls) = 101 ∧ (∀ r, LCancel r ∉ ls).
Proof.
  set (ls := mjoin (replicate 100 (offer VEnqueue)) ++ offer VDefault).
  assert (is_Some (run fst vf ls ex0)) as [s E].
  { assert (match run fst vf ls ex0 with Some _ => true | None => false end = true) as H by (vm_compute; reflexivity).
    destruct (run fst vf ls ex0); [eauto|discriminate H]. }
  exists ls, s. split; [exact E|]. split; [vm_compute; repeat split; reflexivity|]. split; [vm_compute; repeat split; reflexivity|]. split; [vm_compute; repeat split; reflexivity|].
  intros r. assert (Forall (λ l, match l with LCancel _ => false | _ => true end = true) ls) as Hf.
  { apply Forall_app. split; [|repeat constructor]. apply Forall_join, Forall_replicate. repeat constructor. }
  intros Hin. rewrite Forall_forall in Hf. by specialize (Hf _ Hin).
Qed.
End ex.
