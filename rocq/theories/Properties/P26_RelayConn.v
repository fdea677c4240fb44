(** C80, C81: robust calls and the client's connections to its relays. *)
From stdpp Require Import gmap.
From Verif.Base Require Import Base.
From Verif.Model Require Import RelayConn.

(** ** Specification: read off a history. *)
(** The relays whose response (notice of the cleanup) reached call k, in order. *)
Definition responded (k : nat) : list clabel → list nat :=
  omap (λ l, match l with CDeliver i k' => if decide (k = k') then Some i else None | _ => None end).
(** The calls for which the request of relay j was accepted; the calls that returned; were made. *)
Definition passed_at (j : nat) : list clabel → list nat :=
  omap (λ l, match l with CQueue k i => if decide (i = j) then Some k else None | _ => None end).
Definition returned : list clabel → list nat := omap (λ l, match l with CReturn k => Some k | _ => None end).
Definition started_in : list clabel → list nat := omap (λ l, match l with CStart k _ => Some k | _ => None end).
Definition sent_to (j : nat) : list clabel → list nat :=
  omap (λ l, match l with CWire i k => if decide (i = j) then Some k else None | _ => None end).
(** No cleanup round found a call under way. *)
Definition no_pick (ls : list clabel) : Prop := ∀ i u k, CPick i u k ∉ ls.

Section proofs.
Context (n : nat).

Lemma upd_eq {A} (f : nat → A) i x : upd f i x i = x.
Proof. unfold upd. by rewrite decide_True. Qed.
Lemma upd_ne {A} (f : nat → A) i j x : i ≠ j → upd f i x j = f j.
Proof. intros. unfold upd. by rewrite decide_False. Qed.

(** Relay i's entry for the call has been stored. *)
Definition reached (p : cphase) (i : nat) : Prop :=
  match p with PNone => False | PStore j => i < j | PQueue j => i ≤ j | PWait | PDone => i < n end.
Definition okphase (p : cphase) : Prop := match p with PStore j | PQueue j => j < n | _ => True end.

Record inv (ls : list clabel) (s : cst) : Prop := {
  i_phase : ∀ k, okphase (ca_phase (calls s k));
  i_nodup : ∀ k, NoDup (responded k ls);
  i_buf : ∀ k, (ca_buf (calls s k)).*1 `suffix_of` responded k ls;
  i_resp : ∀ k i, i ∈ responded k ls → reached (ca_phase (calls s k)) i ∧ rc_recv (rcs s i) ≠ RvHold k ∧ ∀ u, rc_live (rcs s i) !! u ≠ Some k;
  i_hold : ∀ k i, rc_recv (rcs s i) = RvHold k → reached (ca_phase (calls s k)) i ∧ ∀ u, rc_live (rcs s i) !! u ≠ Some k;
  i_live : ∀ k i u, rc_live (rcs s i) !! u = Some k → u = ca_uuid (calls s k) ∧ reached (ca_phase (calls s k)) i;
  i_none : ∀ k, ca_phase (calls s k) = PNone → responded k ls = [] ;
  i_clean : ∀ i, rc_clean (rcs s i) = ClIdle }.

Lemma inv_init : inv [] cinit.
Proof.
  split; cbn; try done.
  - intros k. constructor.
  - intros k i Hi. by apply elem_of_nil in Hi.
Qed.

Lemma responded_snoc k ls l : responded k (ls ++ [l]) = responded k ls ++ responded k [l].
Proof. apply omap_app. Qed.

Lemma reached_lt p i : okphase p → reached p i → i < n.
Proof. destruct p; cbn; lia. Qed.

(** Steps that do not concern the responses: entries only go away, calls only go on. *)
Lemma inv_keep ls l s s' : inv ls s → (∀ k, responded k [l] = []) →
  (∀ k, okphase (ca_phase (calls s' k))) →
  (∀ k, (ca_buf (calls s' k)) `suffix_of` ca_buf (calls s k)) →
  (∀ k i, reached (ca_phase (calls s k)) i → reached (ca_phase (calls s' k)) i) →
  (∀ k, ca_uuid (calls s' k) = ca_uuid (calls s k)) →
  (∀ k, ca_phase (calls s' k) = PNone → ca_phase (calls s k) = PNone) →
  (∀ i k, rc_recv (rcs s' i) = RvHold k → rc_recv (rcs s i) = RvHold k) →
  (∀ i, rc_live (rcs s' i) = rc_live (rcs s i)) →
  (∀ i, rc_clean (rcs s' i) = rc_clean (rcs s i)) →
  inv (ls ++ [l]) s'.
Proof.
  intros [Iph Ind Ibuf Iresp Ihold Ilive Inone Icl] Hr H1 H2 H3 H4 H5 H6 H7 H8.
  assert (∀ k, responded k (ls ++ [l]) = responded k ls) as ER by (intros; rewrite responded_snoc, Hr; by rewrite app_nil_r).
  split.
  - done.
  - intros k. by rewrite ER.
  - intros k. rewrite ER. etrans; [|apply Ibuf]. destruct (H2 k) as [b ->]. exists (b.*1). by rewrite fmap_app.
  - intros k i. rewrite ER, H7. intros Hi. destruct (Iresp k i Hi) as (? & Hh & ?). split; [by apply H3|]. split; [|done].
    intros E. by apply H6 in E.
  - intros k i Hh. rewrite H7. apply H6, Ihold in Hh as [? ?]. split; [by apply H3|done].
  - intros k i u. rewrite H7, H4. intros Hi. apply Ilive in Hi as [? ?]. split; [done|by apply H3].
  - intros k Hk. rewrite ER. by apply Inone, H5.
  - intros i. by rewrite H8.
Qed.

Ltac updc := repeat match goal with
  | |- context [upd _ ?i _ ?j] => first [rewrite (upd_eq _ i) | destruct (decide (i = j)) as [->|]; [rewrite !upd_eq|rewrite !upd_ne by done]]
  end.

Lemma inv_step ls l s s' : cstep n l s s' → (∀ i u k, l ≠ CPick i u k) → inv ls s → inv (ls ++ [l]) s'.
Proof.
  intros Hl Hnp I. pose proof I as [Iph Ind Ibuf Iresp Ihold Ilive Inone Icl].
  destruct Hl as [s k0 u0 Hp Hn|s k0 i0 Hp|s k0 i0 Hp Hq|s i0 k0 q Hs Hq|s i0 k0 q Hs Hq|s i0 k0 q Hs Hq
    |s i0 u0 k0 Hi Hr Hlv|s i0 u0 Hi Hr Hlv|s i0 Hr|s i0 k0 Hr Hb|s i0 u0 k0 Hc Hlv|s i0 u0 k0 Hc Hb|s i0 u0 Hc|s k0 m b Hp Hb|s k0 Hp].
  - (* start *)
    assert (∀ k, responded k (ls ++ [CStart k0 u0]) = responded k ls) as ER by (intros; rewrite responded_snoc; cbn; by rewrite app_nil_r).
    split; cbn [rcs calls].
    + intros k. updc; [done|apply Iph].
    + intros k. by rewrite ER.
    + intros k. rewrite ER. updc; [cbn; apply suffix_nil|apply Ibuf].
    + intros k i. rewrite ER. intros Hi. destruct (decide (k0 = k)) as [->|]; [rewrite Inone in Hi by done; by apply elem_of_nil in Hi|].
      rewrite upd_ne by done. by apply Iresp.
    + intros k i Hi. destruct (decide (k0 = k)) as [->|]; [apply Ihold in Hi as [Hi _]; by rewrite Hp in Hi|].
      rewrite upd_ne by done. by apply Ihold.
    + intros k i u Hi. destruct (decide (k0 = k)) as [->|]; [apply Ilive in Hi as [_ Hi]; by rewrite Hp in Hi|].
      rewrite upd_ne by done. by apply Ilive.
    + intros k. rewrite ER. updc; [done|apply Inone].
    + apply Icl.
  - (* store *)
    assert (∀ k, responded k (ls ++ [CStore k0 i0]) = responded k ls) as ER by (intros; rewrite responded_snoc; cbn; by rewrite app_nil_r).
    assert (∀ k i, reached (ca_phase (calls s k)) i → reached (ca_phase (upd (calls s) k0 (set_phase (calls s k0) (PQueue i0)) k)) i) as Hreach.
    { intros k i. destruct (decide (k0 = k)) as [->|]; [rewrite upd_eq, Hp; cbn; lia|by rewrite upd_ne]. }
    pose proof (Iph k0) as Hk0. rewrite Hp in Hk0. cbn in Hk0.
    assert (∀ u, rc_live (rcs s i0) !! u ≠ Some k0) as Hno.
    { intros u Hu. apply Ilive in Hu as [_ Hu]. rewrite Hp in Hu. cbn in Hu. lia. }
    assert (∀ i, rc_recv (upd (rcs s) i0 (set_live (rcs s i0) (<[ca_uuid (calls s k0):=k0]> (rc_live (rcs s i0)))) i) = rc_recv (rcs s i)) as Erv.
    { intros i. updc; done. }
    assert (∀ i k u, i ≠ i0 ∨ k ≠ k0 → rc_live (rcs s i) !! u ≠ Some k →
      rc_live (upd (rcs s) i0 (set_live (rcs s i0) (<[ca_uuid (calls s k0):=k0]> (rc_live (rcs s i0)))) i) !! u ≠ Some k) as Hlv.
    { intros i k u Hor Hu. destruct (decide (i0 = i)) as [->|]; [|by rewrite upd_ne]. rewrite upd_eq; cbn.
      intros [[<- <-]|[_ ?]]%lookup_insert_Some; [naive_solver|done]. }
    split; cbn [rcs calls].
    + intros k. updc; [done|apply Iph].
    + intros k. by rewrite ER.
    + intros k. rewrite ER. updc; cbn; apply Ibuf.
    + intros k i. rewrite ER, Erv. intros Hi. destruct (Iresp k i Hi) as (H1 & H2 & H3). split; [by apply Hreach|]. split; [done|]. intros u. apply Hlv; [|done].
      destruct (decide (i = i0)) as [->|]; [|by left]. right. intros ->. rewrite Hp in H1. cbn in H1. lia.
    + intros k i. rewrite Erv. intros Hi. destruct (Ihold k i Hi) as (H1 & H3). split; [by apply Hreach|]. intros u. apply Hlv; [|done].
      destruct (decide (i = i0)) as [->|]; [|by left]. right. intros ->. rewrite Hp in H1. cbn in H1. lia.
    + intros k i u Hu. assert (rc_live (rcs s i) !! u = Some k ∨ (i = i0 ∧ k = k0 ∧ u = ca_uuid (calls s k0))) as [H1|(-> & -> & ->)].
      { destruct (decide (i0 = i)) as [->|]; [|rewrite upd_ne in Hu by done; by left]. rewrite upd_eq in Hu. cbn in Hu.
        apply lookup_insert_Some in Hu as [[<- <-]|[_ Hu]]; [by right|by left]. }
      * destruct (Ilive _ _ _ H1) as [-> H2]. split; [|by apply Hreach].
        updc; done.
      * rewrite upd_eq. cbn. split; [done|lia].
    + intros k. rewrite ER. updc; [done|apply Inone].
    + intros i. updc; apply Icl.
  - (* queue *)
    pose proof (Iph k0) as Hk0. rewrite Hp in Hk0. cbn in Hk0.
    eapply inv_keep; [exact I|..]; cbn [rcs calls]; try (intros; updc; done).
    + intros k. updc; [cbn; case_decide; done|apply Iph].
    + intros k i. updc; [rewrite Hp; cbn; case_decide; cbn; lia|done].
    + intros k. updc; [cbn; case_decide; done|done].
    + intros i k. updc; done.
  - eapply inv_keep; [exact I|..]; cbn [rcs calls]; try (intros; updc; done). intros i k. updc; done.
  - eapply inv_keep; [exact I|..]; cbn [rcs calls]; try (intros; updc; done). intros i k. updc; done.
  - eapply inv_keep; [exact I|..]; cbn [rcs calls]; try (intros; updc; done). intros i k. updc; done.
  - (* recv *)
    assert (∀ k, responded k (ls ++ [CRecv i0 u0]) = responded k ls) as ER by (intros; rewrite responded_snoc; cbn; by rewrite app_nil_r).
    assert (∀ k i u, rc_live (upd (rcs s) i0 (set_recv (set_live (rcs s i0) (delete u0 (rc_live (rcs s i0)))) (RvHold k0)) i) !! u = Some k →
      rc_live (rcs s i) !! u = Some k ∧ (i = i0 → u ≠ u0)) as Hsub.
    { intros k i u. destruct (decide (i0 = i)) as [->|]; [rewrite upd_eq|rewrite upd_ne by done; naive_solver].
      cbn. rewrite lookup_delete_Some. naive_solver. }
    split; cbn [rcs calls].
    + done.
    + intros k. by rewrite ER.
    + intros k. rewrite ER. apply Ibuf.
    + intros k i. rewrite ER. intros Hi'. destruct (Iresp k i Hi') as (H1 & H2 & H3). split; [done|]. split.
      * destruct (decide (i0 = i)) as [->|]; [rewrite upd_eq; cbn|by rewrite upd_ne]. intros [= ->]. by eapply H3.
      * intros u Hu. apply Hsub in Hu as [Hu _]. by eapply H3.
    + intros k i Hh. destruct (decide (i0 = i)) as [->|].
      * rewrite upd_eq in Hh. cbn in Hh. injection Hh as <-. split; [by apply Ilive in Hlv as [_ ?]|].
        intros u Hu. apply Hsub in Hu as [Hu Hne]. apply Ilive in Hu as [-> _]. apply Ilive in Hlv as [-> _]. by apply Hne.
      * rewrite upd_ne in Hh by done. apply Ihold in Hh as [H1 H2]. split; [done|]. intros u Hu. apply Hsub in Hu as [Hu _]. by eapply H2.
    + intros k i u Hu. apply Hsub in Hu as [Hu _]. by apply Ilive.
    + intros k. rewrite ER. apply Inone.
    + intros i. updc; apply Icl.
  - eapply inv_keep; [exact I|..]; done.
  - eapply inv_keep; [exact I|..]; cbn [rcs calls]; try (intros; updc; done). intros i k. updc; done.
  - (* deliver *)
    assert (∀ k, responded k (ls ++ [CDeliver i0 k0]) = responded k ls ++ (if decide (k = k0) then [i0] else [])) as ER.
    { intros k. rewrite responded_snoc. cbn. by case_decide. }
    assert (∀ i, rc_live (upd (rcs s) i0 (set_recv (rcs s i0) RvIdle) i) = rc_live (rcs s i)) as El by (intros i; updc; done).
    assert (∀ k, ca_phase (upd (calls s) k0 (set_buf (calls s k0) (ca_buf (calls s k0) ++ [(i0, true)])) k) = ca_phase (calls s k)) as Ep by (intros k; updc; done).
    assert (∀ i k, rc_recv (upd (rcs s) i0 (set_recv (rcs s i0) RvIdle) i) = RvHold k → rc_recv (rcs s i) = RvHold k) as Erv by (intros i k; updc; done).
    split; cbn [rcs calls].
    + intros k. rewrite Ep. done.
    + intros k. rewrite ER. case_decide; [subst|by rewrite app_nil_r]. apply NoDup_app. split; [done|]. split; [|apply NoDup_singleton].
      intros i Hi ->%elem_of_list_singleton. apply Iresp in Hi as (_ & Hi & _). done.
    + intros k. rewrite ER. updc.
      * rewrite decide_True by done. cbn. rewrite fmap_app. cbn. destruct (Ibuf k) as [b ->]. exists b. by rewrite app_assoc.
      * rewrite decide_False by done. rewrite app_nil_r. apply Ibuf.
    + intros k i. rewrite ER, Ep, El. rewrite elem_of_app. intros [Hi|Hi].
      * destruct (Iresp k i Hi) as (? & ? & ?). split; [done|]. split; [|done]. intros E. by apply Erv in E.
      * case_decide as Hk; [subst|by apply elem_of_nil in Hi]. apply elem_of_list_singleton in Hi as ->.
        destruct (Ihold _ _ Hr) as [? ?]. split; [done|]. split; [|done]. rewrite upd_eq. done.
    + intros k i Hh. apply Erv in Hh. rewrite Ep, El. by apply Ihold.
    + intros k i u. rewrite Ep, El. intros Hu. apply Ilive in Hu as [-> ?]. split; [|done]. updc; done.
    + intros k. rewrite ER, Ep. intros Hk. rewrite Inone by done. case_decide; [|done]. subst.
      destruct (Ihold _ _ Hr) as [E _]. by rewrite Hk in E.
    + intros i. updc; apply Icl.
  - by destruct (Hnp i0 u0 k0).
  - by rewrite Icl in Hc.
  - by rewrite Icl in Hc.
  - (* read *)
    eapply inv_keep; [exact I|..]; cbn [rcs calls]; try (intros; updc; done).
    + intros k. updc; apply Iph.
    + intros k. updc; [|done]. cbn. rewrite Hb. by exists [m].
    + intros k. updc; cbn; rewrite ?Hp; done.
  - eapply inv_keep; [exact I|..]; cbn [rcs calls]; try (intros; updc; done).
    + intros k i. updc; [by rewrite Hp|done].
    + intros k. updc; done.
Qed.

Lemma inv_run ls s : csteps n ls cinit s → no_pick ls → inv ls s.
Proof.
  intros Hs Hn. remember cinit as s0 eqn:E0. induction Hs as [|ls l s1 s2 s3 Hs IH Hl]; subst.
  - apply inv_init.
  - eapply inv_step; [exact Hl| |].
    + intros i u k ->. apply (Hn i u k). rewrite elem_of_app. right. by left.
    + apply IH; [done|]. intros i u k Hin. apply (Hn i u k). rewrite elem_of_app. by left.
Qed.

(** ** C80 *)
(** Each relay gives a call at most one response, whatever is repeated on the wire and whatever ids are in
    use, and a response never waits: the call's channel has room for it. *)
Theorem C80_once ls s : csteps n ls cinit s → no_pick ls →
  (∀ k, NoDup (responded k ls) ∧ ∀ i, i ∈ responded k ls → i < n) ∧
  ∀ i k, rc_recv (rcs s i) = RvHold k → ∃ s', cstep n (CDeliver i k) s s'.
Proof.
  intros Hs Hn. pose proof (inv_run _ _ Hs Hn) as I. destruct I as [Iph Ind Ibuf Iresp Ihold Ilive Inone Icl].
  split.
  - intros k. split; [apply Ind|]. intros i Hi. apply Iresp in Hi as [Hi _]. by eapply reached_lt.
  - intros i k Hh. eexists. apply cs_deliver; [done|].
    assert (i ∉ responded k ls) as Hni by (intros Hi; by apply Iresp in Hi as (_ & ? & _)).
    destruct (Ihold _ _ Hh) as [Hr _]. apply reached_lt in Hr; [|apply Iph].
    rewrite <- (fmap_length fst). destruct (Ibuf k) as [b Hb].
    assert (NoDup (i :: (ca_buf (calls s k)).*1)) as Hnd.
    { constructor.
      - intros Hi. apply Hni. rewrite Hb. rewrite elem_of_app. by right.
      - pose proof (Ind k) as Hd. rewrite Hb in Hd. by apply NoDup_app in Hd as (_ & _ & ?). }
    assert (i :: (ca_buf (calls s k)).*1 ⊆ seq 0 n) as Hsub.
    { intros j Hj. apply elem_of_seq. apply elem_of_cons in Hj as [->|Hj]; [lia|].
      assert (j ∈ responded k ls) as Hj' by (rewrite Hb; rewrite elem_of_app; by right).
      apply Iresp in Hj' as [Hj' _]. apply reached_lt in Hj'; [lia|apply Iph]. }
    apply NoDup_submseteq, submseteq_length in Hsub; [|done]. rewrite seq_length in Hsub. cbn in Hsub. unfold lt. exact Hsub.
Qed.

(** A finished call whose channel is full stays so, and what waits to put something in waits for ever. *)
Definition clogged (s : cst) (k : nat) : Prop := ca_phase (calls s k) = PDone ∧ length (ca_buf (calls s k)) = n.
(** The receiving (cleanup) goroutine of relay i is at the channel of call k. *)
Definition recv_waits (s : cst) (i k : nat) : Prop := rc_recv (rcs s i) = RvHold k.
Definition clean_waits (s : cst) (i k : nat) : Prop := ∃ u, rc_clean (rcs s i) = ClNotify u k.

Lemma clogged_step l s s' k : cstep n l s s' → clogged s k → clogged s' k ∧ (∀ i, l ≠ CDeliver i k) ∧ (∀ i, l ≠ CNotify i k).
Proof.
  intros Hl [Hd Hb].
  destruct Hl as [s k0 u0 Hp Hn|s k0 i0 Hp|s k0 i0 Hp Hq|s i0 k0 q Hs Hq|s i0 k0 q Hs Hq|s i0 k0 q Hs Hq
    |s i0 u0 k0 Hi Hr Hlv|s i0 u0 Hi Hr Hlv|s i0 Hr|s i0 k0 Hr Hb'|s i0 u0 k0 Hc Hlv|s i0 u0 k0 Hc Hb'|s i0 u0 Hc|s k0 m b Hp Hb'|s k0 Hp];
    try (split; [exact (conj Hd Hb)|done]).
  all: assert (k0 ≠ k) as Hne by (intros ->; first [congruence|lia]).
  all: split; [split; cbn; by rewrite upd_ne|split; intros; congruence].
Qed.

Lemma recv_waits_step l s s' i k : cstep n l s s' → recv_waits s i k → (∀ i, l ≠ CDeliver i k) →
  recv_waits s' i k ∧ ∀ u, l ≠ CRecv i u.
Proof.
  unfold recv_waits. intros Hl Hh Hn.
  destruct Hl as [s k0 u0 Hp Hn0|s k0 i0 Hp|s k0 i0 Hp Hq|s i0 k0 q Hs Hq|s i0 k0 q Hs Hq|s i0 k0 q Hs Hq
    |s i0 u0 k0 Hi Hr Hlv|s i0 u0 Hi Hr Hlv|s i0 Hr|s i0 k0 Hr Hb'|s i0 u0 k0 Hc Hlv|s i0 u0 k0 Hc Hb'|s i0 u0 Hc|s k0 m b Hp Hb'|s k0 Hp];
    cbn [rcs]; try (split; [done|congruence]).
  all: try (split; [destruct (decide (i0 = i)) as [->|]; [rewrite upd_eq; exact Hh|by rewrite upd_ne]|congruence]).
  - assert (i0 ≠ i) by congruence. rewrite upd_ne by done. split; [done|congruence].
  - assert (i0 ≠ i) by congruence. rewrite upd_ne by done. split; [done|congruence].
  - assert (i0 ≠ i) by (intros ->; apply (Hn i); congruence). rewrite upd_ne by done. split; [done|congruence].
Qed.

Lemma clean_waits_step l s s' i k : cstep n l s s' → clean_waits s i k → (∀ i, l ≠ CNotify i k) →
  clean_waits s' i k ∧ ∀ u k', l ≠ CPick i u k'.
Proof.
  unfold clean_waits. intros Hl [v Hh] Hn.
  destruct Hl as [s k0 u0 Hp Hn0|s k0 i0 Hp|s k0 i0 Hp Hq|s i0 k0 q Hs Hq|s i0 k0 q Hs Hq|s i0 k0 q Hs Hq
    |s i0 u0 k0 Hi Hr Hlv|s i0 u0 Hi Hr Hlv|s i0 Hr|s i0 k0 Hr Hb'|s i0 u0 k0 Hc Hlv|s i0 u0 k0 Hc Hb'|s i0 u0 Hc|s k0 m b Hp Hb'|s k0 Hp];
    cbn [rcs]; try (split; [by exists v|congruence]).
  all: try (split; [exists v; destruct (decide (i0 = i)) as [->|]; [rewrite upd_eq; exact Hh|by rewrite upd_ne]|congruence]).
  - assert (i0 ≠ i) by congruence. rewrite upd_ne by done. split; [by exists v|congruence].
  - assert (i0 ≠ i) by (intros ->; apply (Hn i); congruence). rewrite upd_ne by done. split; [by exists v|congruence].
  - assert (i0 ≠ i) by congruence. rewrite upd_ne by done. split; [by exists v|congruence].
Qed.

(** From then on this relay's responses, to all calls, are not received any more; nor is its table cleaned. *)
Theorem C80_stuck ls s s' k : csteps n ls s s' → clogged s k →
  clogged s' k ∧
  (∀ i, recv_waits s i k → recv_waits s' i k ∧ ∀ u, CRecv i u ∉ ls) ∧
  (∀ i, clean_waits s i k → clean_waits s' i k ∧ ∀ u k', CPick i u k' ∉ ls).
Proof.
  intros Hs Hc. induction Hs as [|ls l s1 s2 s3 Hs IH Hl].
  { split; [done|]. split; intros i Hi; (split; [done|]); intros; apply not_elem_of_nil. }
  destruct (IH Hc) as (Hc2 & H1 & H2). destruct (clogged_step _ _ _ _ Hl Hc2) as (Hc3 & N1 & N2).
  split; [done|]. split.
  - intros i Hi. destruct (H1 i Hi) as [Hi2 Hn]. destruct (recv_waits_step _ _ _ _ _ Hl Hi2 N1) as [? Hn2]. split; [done|].
    intros u. rewrite not_elem_of_app, elem_of_list_singleton. split; [apply Hn|]. intros E. by apply (Hn2 u).
  - intros i Hi. destruct (H2 i Hi) as [Hi2 Hn]. destruct (clean_waits_step _ _ _ _ _ Hl Hi2 N2) as [? Hn2]. split; [done|].
    intros u k'. rewrite not_elem_of_app, elem_of_list_singleton. split; [apply Hn|]. intros E. by apply (Hn2 u k').
Qed.

(** What the cleanup drops is gone: after it has dropped the entry of id u of relay i, and as long as no
    call with that id comes to relay i, an answer of relay i to id u changes nothing. *)
Lemma id_started ls s : csteps n ls cinit s → ∀ k, ca_phase (calls s k) ≠ PNone → CStart k (ca_uuid (calls s k)) ∈ ls.
Proof.
  intros Hs. remember cinit as s0 eqn:E0. induction Hs as [|ls l s1 s2 s3 Hs IH Hl]; subst; intros k Hk; [done|].
  specialize (IH eq_refl). rewrite elem_of_app, elem_of_list_singleton.
  destruct Hl as [s k0 u0 Hp Hn|s k0 i0 Hp|s k0 i0 Hp Hq|s i0 k0 q Hs' Hq|s i0 k0 q Hs' Hq|s i0 k0 q Hs' Hq
    |s i0 u0 k0 Hi Hr Hlv|s i0 u0 Hi Hr Hlv|s i0 Hr|s i0 k0 Hr Hb|s i0 u0 k0 Hc Hlv|s i0 u0 k0 Hc Hb|s i0 u0 Hc|s k0 m b Hp Hb|s k0 Hp];
    cbn [calls rcs] in *; try (by left; apply IH).
  all: destruct (decide (k0 = k)) as [->|]; [|rewrite upd_ne in * by done; left; by apply IH].
  all: rewrite upd_eq in *; cbn [ca_uuid ca_phase set_phase set_buf] in *.
  - by right.
  - left. apply IH. by rewrite Hp.
  - left. apply IH. by rewrite Hp.
  - left. by apply IH.
  - left. by apply IH.
  - left. by apply IH.
  - left. apply IH. by rewrite Hp.
Qed.
Lemma stays_dropped ls s : csteps n ls cinit s → ∀ ls1 ls2 i u, ls = ls1 ++ CDelete i u :: ls2 →
  (∀ k, CStore k i ∈ ls2 → CStart k u ∉ ls) → rc_live (rcs s i) !! u = None.
Proof.
  intros Hs. remember cinit as s0 eqn:E0. induction Hs as [|ls l s1 s2 s3 Hs IH Hl]; subst; intros ls1 ls2 i u E Hst.
  { by destruct ls1. }
  destruct ls2 as [|l' ls2 _] using rev_ind.
  { apply app_inj_tail in E as [-> ->]. inversion Hl; subst. cbn. rewrite upd_eq. cbn. apply lookup_delete. }
  rewrite app_comm_cons, app_assoc in E. apply app_inj_tail in E as [-> ->].
  assert (rc_live (rcs s2 i) !! u = None) as Hd.
  { eapply IH; [done|done|]. intros k Hk Hin. apply (Hst k); [rewrite elem_of_app; by left|rewrite elem_of_app; by left]. }
  pose proof (id_started _ _ Hs) as Hid.
  destruct Hl as [s k0 u0 Hp Hn|s k0 i0 Hp|s k0 i0 Hp Hq|s i0 k0 q Hs' Hq|s i0 k0 q Hs' Hq|s i0 k0 q Hs' Hq
    |s i0 u0 k0 Hi Hr Hlv|s i0 u0 Hi Hr Hlv|s i0 Hr|s i0 k0 Hr Hb|s i0 u0 k0 Hc Hlv|s i0 u0 k0 Hc Hb|s i0 u0 Hc|s k0 m b Hp Hb|s k0 Hp];
    cbn [rcs]; try done.
  all: destruct (decide (i0 = i)) as [->|]; [rewrite upd_eq; cbn|by rewrite upd_ne].
  all: try done.
  - rewrite lookup_insert_ne; [done|]. intros Hu. apply (Hst k0); [rewrite elem_of_app; right; by left|].
    rewrite elem_of_app. left. pose proof (Hid k0) as Hk0. rewrite Hu in Hk0. apply Hk0. by rewrite Hp.
  - rewrite lookup_delete_None. by right.
  - rewrite lookup_delete_None. by right.
Qed.
Theorem C80_dropped ls1 ls2 i u s s' : csteps n (ls1 ++ CDelete i u :: ls2) cinit s →
  (∀ k, CStore k i ∈ ls2 → CStart k u ∉ ls1 ++ ls2) → cstep n (CRecv i u) s s' → s' = s.
Proof.
  intros Hs Hst Hr. assert (rc_live (rcs s i) !! u = None) as Hd.
  { eapply stays_dropped; [exact Hs|done|]. intros k Hk Hin. apply (Hst k Hk).
    apply elem_of_app in Hin as [?|[?|?]%elem_of_cons]; [rewrite elem_of_app; by left|done|rewrite elem_of_app; by right]. }
  inversion Hr; subst; [congruence|done].
Qed.

(** ** C81 *)
(** Nothing is sent to relay j any more. *)
Definition no_sender (s : cst) (j : nat) : Prop := rc_send (rcs s j) = false.
(** Call k has had its request for relay j accepted. *)
Definition passed (p : cphase) (j : nat) : Prop :=
  match p with PNone => False | PStore i | PQueue i => j < i | PWait | PDone => True end.

Lemma no_sender_step l s s' j : cstep n l s s' → no_sender s j →
  no_sender s' j ∧ sent_to j [l] = [] ∧ length (rc_q (rcs s' j)) = length (rc_q (rcs s j)) + length (passed_at j [l]) ∧
  (length (rc_q (rcs s j)) ≤ qcap → length (rc_q (rcs s' j)) ≤ qcap).
Proof.
  unfold no_sender. intros Hl Hf.
  destruct Hl as [s k0 u0 Hp Hn0|s k0 i0 Hp|s k0 i0 Hp Hq|s i0 k0 q Hs Hq|s i0 k0 q Hs Hq|s i0 k0 q Hs Hq
    |s i0 u0 k0 Hi Hr Hlv|s i0 u0 Hi Hr Hlv|s i0 Hr|s i0 k0 Hr Hb'|s i0 u0 k0 Hc Hlv|s i0 u0 k0 Hc Hb'|s i0 u0 Hc|s k0 m b Hp Hb'|s k0 Hp];
    cbn [rcs]; try (cbn; split; [done|]; split; [done|]; split; [lia|done]).
  all: try (destruct (decide (i0 = j)) as [->|Hij]; [rewrite upd_eq|rewrite upd_ne by done]; (split; [exact Hf|]); (split; [cbn; rewrite ?decide_False by done; reflexivity|]); cbn; rewrite ?decide_False by done; cbn; split; lia).
  all: try (assert (i0 ≠ j) by congruence; rewrite upd_ne by done; (split; [exact Hf|]); (split; [cbn; rewrite ?decide_False by done; reflexivity|]); cbn; rewrite ?decide_False by done; cbn; split; lia).
  destruct (decide (i0 = j)) as [->|Hij]; [rewrite upd_eq|rewrite upd_ne by done]; cbn.
  - rewrite decide_True by done. split; [done|]. split; [done|]. rewrite app_length. cbn. lia.
  - rewrite decide_False by done. split; [done|]. split; [done|]. cbn. lia.
Qed.

(** At most 100 calls more get past relay j ... *)
Lemma no_sender_run ls s s' j : csteps n ls s s' → no_sender s j → length (rc_q (rcs s j)) ≤ 100 →
  no_sender s' j ∧ sent_to j ls = [] ∧ length (rc_q (rcs s j)) + length (passed_at j ls) = length (rc_q (rcs s' j)) ∧ length (rc_q (rcs s' j)) ≤ 100.
Proof.
  intros Hs Hf Hq. induction Hs as [|ls l s1 s2 s3 Hs IH Hl]; [split; [done|]; split; [done|]; cbn; lia|].
  destruct (IH Hf Hq) as (H1 & H2 & H3 & H4). destruct (no_sender_step _ _ _ _ Hl H1) as (G1 & G2 & G3 & G4).
  unfold qcap in G4. unfold sent_to, passed_at in *. rewrite !omap_app, app_length, H2, G2. split; [done|]. split; [done|]. split; [lia|]. auto.
Qed.

(** A call that was not past relay j and now is had its request accepted there in between. *)
Lemma passed_step l s s' j k : cstep n l s s' → j < n → ¬ passed (ca_phase (calls s k)) j →
  ¬ passed (ca_phase (calls s' k)) j ∨ k ∈ passed_at j [l].
Proof.
  intros Hl Hj Hk.
  destruct Hl as [s k0 u0 Hp Hn0|s k0 i0 Hp|s k0 i0 Hp Hq|s i0 k0 q Hs Hq|s i0 k0 q Hs Hq|s i0 k0 q Hs Hq
    |s i0 u0 k0 Hi Hr Hlv|s i0 u0 Hi Hr Hlv|s i0 Hr|s i0 k0 Hr Hb'|s i0 u0 k0 Hc Hlv|s i0 u0 k0 Hc Hb'|s i0 u0 Hc|s k0 m b Hp Hb'|s k0 Hp];
    cbn [calls]; try (by left).
  all: destruct (decide (k0 = k)) as [->|]; [rewrite upd_eq; cbn [ca_phase set_phase set_buf]|rewrite upd_ne by done; by left].
  - left. cbn. lia.
  - left. rewrite Hp in Hk. exact Hk.
  - rewrite Hp in Hk. cbn in Hk. destruct (decide (i0 = j)) as [->|].
    + right. cbn. rewrite decide_True by done. by left.
    + left. case_decide; cbn; lia.
  - by left.
  - by left.
  - by left.
  - by rewrite Hp in Hk.
Qed.
Lemma passed_run ls s s' j k : csteps n ls s s' → j < n → ¬ passed (ca_phase (calls s k)) j →
  passed (ca_phase (calls s' k)) j → k ∈ passed_at j ls.
Proof.
  intros Hs Hj Hk. assert (¬ passed (ca_phase (calls s' k)) j ∨ k ∈ passed_at j ls) as [?|?]; [|done..].
  induction Hs as [|ls l s1 s2 s3 Hs IH Hl]; [by left|]. unfold passed_at. rewrite omap_app, elem_of_app.
  destruct (IH Hk) as [H1|H1]; [|by right; left]. destruct (passed_step _ _ _ _ _ Hl Hj H1) as [?|?]; [by left|by right; right].
Qed.

Lemma returned_done ls s s' k : csteps n ls s s' → k ∈ returned ls → ca_phase (calls s' k) = PDone.
Proof.
  intros Hs Hk. induction Hs as [|ls l s1 s2 s3 Hs IH Hl]; [by apply elem_of_nil in Hk|].
  unfold returned in Hk. rewrite omap_app, elem_of_app in Hk. destruct Hk as [Hk|Hk].
  - specialize (IH Hk). destruct Hl; cbn [calls]; try done.
    all: destruct (decide (k0 = k)) as [->|]; [rewrite upd_eq; first [congruence|done]|by rewrite upd_ne].
  - destruct Hl; cbn in Hk; try (by apply elem_of_nil in Hk). apply elem_of_list_singleton in Hk as ->.
    cbn. by rewrite upd_eq.
Qed.
Lemma returned_nodup ls s s' : csteps n ls s s' → NoDup (returned ls).
Proof.
  intros Hs. induction Hs as [|ls l s1 s2 s3 Hs IH Hl]; [constructor|].
  unfold returned in *. rewrite omap_app. destruct Hl; cbn; rewrite ?app_nil_r; try done.
  apply NoDup_app. split; [done|]. split; [|apply NoDup_singleton]. intros x Hx ->%elem_of_list_singleton.
  pose proof (returned_done _ _ _ _ Hs Hx). congruence.
Qed.

(** After the goroutine that sends to relay j has ended: nothing is sent to it; at most 100 of the calls that
    are not past relay j ever return, whether they succeed, fail or are cancelled; *)
Theorem C81_at_most_100 ls s s' j l : csteps n ls s s' → j < n → no_sender s j → length (rc_q (rcs s j)) ≤ 100 →
  NoDup l → (∀ k, k ∈ l → ca_phase (calls s k) = PNone ∧ k ∈ returned ls) →
  sent_to j ls = [] ∧ length l + length (rc_q (rcs s j)) ≤ 100.
Proof.
  intros Hs Hj Hf Hq Hnd Hl. destruct (no_sender_run _ _ _ _ Hs Hf Hq) as (_ & H2 & H3 & H4). split; [done|].
  assert (l ⊆ passed_at j ls) as Hsub.
  { intros k Hk. destruct (Hl k Hk) as [Hp Hr]. eapply passed_run; [done..| |]; [rewrite Hp; cbn; tauto|].
    by rewrite (returned_done _ _ _ _ Hs Hr). }
  apply NoDup_submseteq, submseteq_length in Hsub; [lia|done].
Qed.

(** and a call that finds the queue full stays in the middle of handing out its requests for ever. *)
Theorem C81_blocked ls s s' j k : csteps n ls s s' → no_sender s j → length (rc_q (rcs s j)) = 100 →
  ca_phase (calls s k) = PQueue j → ca_phase (calls s' k) = PQueue j ∧ CReturn k ∉ ls ∧ ∀ m, CRead k m ∉ ls.
Proof.
  intros Hs Hf Hq Hk. induction Hs as [|ls l s1 s2 s3 Hs IH Hl].
  { split; [done|]. split; intros; apply not_elem_of_nil. }
  destruct (IH Hf Hq Hk) as (H1 & H2 & H3).
  destruct (no_sender_run _ _ _ _ Hs Hf) as (G1 & G2 & G3 & G4); [lia|].
  assert (ca_phase (calls s3 k) = PQueue j ∧ l ≠ CReturn k ∧ ∀ m, l ≠ CRead k m) as (E1 & E2 & E3).
  { destruct Hl; cbn [calls]; try done.
    all: destruct (decide (k0 = k)) as [->|]; [|rewrite upd_ne by done; split; [done|]; split; congruence].
    all: try congruence. 
    - exfalso. assert (i = j) as -> by congruence. unfold qcap in *. lia.
    - rewrite upd_eq. done.
    - rewrite upd_eq. done. }
  split; [done|]. split; [|intros m]; rewrite not_elem_of_app, elem_of_list_singleton; split; done.
Qed.

(** This is reached: the sending to relay 0 fails once (with an EOF), then 101 calls are made. *)
Definition make (us : nat → string) (k : nat) : list clabel := [CStart k (us k); CStore k 0].
Definition make_all (us : nat → string) (ks : list nat) : list clabel := flat_map (λ k, make us k ++ [CQueue k 0]) ks.

Lemma csteps_trans l1 l2 s1 s2 s3 : csteps n l1 s1 s2 → csteps n l2 s2 s3 → csteps n (l1 ++ l2) s1 s3.
Proof.
  intros H1 H2. induction H2 as [|ls l s2 s3 s4 H2 IH Hl]; [by rewrite app_nil_r|]. rewrite app_assoc. econstructor; [by apply IH|done].
Qed.
Lemma csteps_one l s1 s2 : cstep n l s1 s2 → csteps n [l] s1 s2.
Proof. intros Hl. apply (cs_snoc n [] l s1 s1 s2); [constructor|done]. Qed.

(** A call is made and comes to the queue of relay 0. *)
Lemma make_run s k us : 0 < n → ca_phase (calls s k) = PNone →
  ∃ s', csteps n (make us k) s s' ∧ ca_phase (calls s' k) = PQueue 0 ∧
    rc_q (rcs s' 0) = rc_q (rcs s 0) ∧ rc_send (rcs s' 0) = rc_send (rcs s 0) ∧
    ∀ k', k' ≠ k → calls s' k' = calls s k'.
Proof.
  intros Hn Hk. unfold make.
  eexists. split; [|split; [|split; [|split]]].
  - change [CStart k (us k); CStore k 0] with ([CStart k (us k)] ++ [CStore k 0]). eapply csteps_trans; apply csteps_one; [by apply cs_start|].
    apply cs_store. cbn. by rewrite upd_eq.
  - cbn. by rewrite upd_eq.
  - cbn. by rewrite upd_eq.
  - cbn. by rewrite upd_eq.
  - intros k' Hk'. cbn. by rewrite !upd_ne by done.
Qed.
Lemma queue_run s k : ca_phase (calls s k) = PQueue 0 → length (rc_q (rcs s 0)) < 100 →
  ∃ s', csteps n [CQueue k 0] s s' ∧ rc_q (rcs s' 0) = rc_q (rcs s 0) ++ [k] ∧ rc_send (rcs s' 0) = rc_send (rcs s 0) ∧
    ∀ k', k' ≠ k → calls s' k' = calls s k'.
Proof.
  intros Hk Hq. eexists. split; [|split; [|split]].
  - apply csteps_one, cs_queue; [done|exact Hq].
  - cbn. by rewrite upd_eq.
  - cbn. by rewrite upd_eq.
  - intros k' Hk'. cbn. by rewrite !upd_ne by done.
Qed.
Lemma make_all_run us ks s : 0 < n → NoDup ks → length (rc_q (rcs s 0)) + length ks ≤ 100 →
  (∀ k, k ∈ ks → ca_phase (calls s k) = PNone) →
  ∃ s', csteps n (make_all us ks) s s' ∧ length (rc_q (rcs s' 0)) = length (rc_q (rcs s 0)) + length ks ∧
    rc_send (rcs s' 0) = rc_send (rcs s 0) ∧ ∀ k', k' ∉ ks → calls s' k' = calls s k'.
Proof.
  intros Hn Hnd. revert s. induction ks as [|k ks IH]; intros s Hl Hk.
  { exists s. split; [constructor|]. cbn. split; [lia|done]. }
  apply NoDup_cons in Hnd as [Hni Hnd]. cbn in Hl.
  destruct (make_run s k us Hn) as (s1 & R1 & P1 & Q1 & S1 & O1); [apply Hk; by left|].
  destruct (queue_run s1 k P1) as (s2 & R2 & Q2 & S2 & O2); [rewrite Q1; lia|].
  destruct (IH Hnd s2) as (s3 & R3 & Q3 & S3 & O3).
  { rewrite Q2, Q1, app_length. cbn. lia. }
  { intros k' Hk'. assert (k' ≠ k) by congruence. rewrite O2, O1 by done. apply Hk. by right. }
  exists s3. split; [|split; [|split]].
  - cbn [make_all flat_map]. eapply csteps_trans; [eapply csteps_trans; [exact R1|exact R2]|exact R3].
  - rewrite Q3, Q2, Q1, app_length. cbn. lia.
  - congruence.
  - intros k' [? ?]%not_elem_of_cons. by rewrite O3, O2, O1.
Qed.

Theorem C81_reached us : 0 < n → ∃ s,
  csteps n (make us 0 ++ [CQueue 0 0; CEof 0 0] ++ make_all us (seq 1 100) ++ make us 101) cinit s ∧
  no_sender s 0 ∧ length (rc_q (rcs s 0)) = 100 ∧ ca_phase (calls s 101) = PQueue 0.
Proof.
  intros Hn.
  destruct (make_run cinit 0 us Hn) as (s1 & R1 & P1 & Q1 & S1 & O1); [done|].
  destruct (queue_run s1 0 P1) as (s2 & R2 & Q2 & S2 & O2); [rewrite Q1; cbn; lia|].
  assert (csteps n [CEof 0 0] s2 (mkCst (upd (rcs s2) 0 (set_q (rcs s2 0) [] false)) (calls s2))) as R3.
  { apply csteps_one. apply cs_eof; [rewrite S2, S1; done|rewrite Q2, Q1; done]. }
  set (s3 := mkCst _ _) in R3.
  destruct (make_all_run us (seq 1 100) s3 Hn) as (s4 & R4 & Q4 & S4 & O4).
  { apply NoDup_seq. }
  { cbn. rewrite upd_eq. cbn. lia. }
  { intros k Hk%elem_of_seq. cbn. rewrite O2, O1 by lia. done. }
  destruct (make_run s4 101 us Hn) as (s5 & R5 & P5 & Q5 & S5 & O5).
  { rewrite O4 by (rewrite elem_of_seq; lia). cbn. rewrite O2, O1 by lia. done. }
  exists s5. split; [|split; [|split]].
  - eapply csteps_trans; [exact R1|]. cbn [app]. change (CQueue 0 0 :: CEof 0 0 :: ?x) with ([CQueue 0 0] ++ [CEof 0 0] ++ x).
    eapply csteps_trans; [exact R2|]. eapply csteps_trans; [exact R3|]. eapply csteps_trans; [exact R4|exact R5].
  - unfold no_sender. rewrite S5, S4. cbn. by rewrite upd_eq.
  - rewrite Q5, Q4. cbn. rewrite upd_eq. done.
  - exact P5.
Qed.
End proofs.

(** ** Runs, by computation. *)
Definition phase_eqb (p q : cphase) : bool :=
  match p, q with
  | PNone, PNone | PWait, PWait | PDone, PDone => true
  | PStore i, PStore j | PQueue i, PQueue j => i =? j
  | _, _ => false end.
Lemma phase_eqb_true p q : phase_eqb p q = true → p = q.
Proof. destruct p, q; cbn; try done; intros ->%Nat.eqb_eq; done. Qed.
Definition recv_eqb (p q : recver) : bool :=
  match p, q with RvIdle, RvIdle | RvEnd, RvEnd => true | RvHold k, RvHold k' => k =? k' | _, _ => false end.
Lemma recv_eqb_true p q : recv_eqb p q = true → p = q.
Proof. destruct p, q; cbn; try done; intros ->%Nat.eqb_eq; done. Qed.
(** The step with this label, for the labels used below. *)
Definition exec (n : nat) (l : clabel) (s : cst) : option cst :=
  match l with
  | CStart k u => if phase_eqb (ca_phase (calls s k)) PNone && (0 <? n) then
      Some (mkCst (rcs s) (upd (calls s) k (mkCall u (PStore 0) []))) else None
  | CStore k i => if phase_eqb (ca_phase (calls s k)) (PStore i) then
      Some (mkCst (upd (rcs s) i (set_live (rcs s i) (<[ca_uuid (calls s k) := k]> (rc_live (rcs s i)))))
             (upd (calls s) k (set_phase (calls s k) (PQueue i)))) else None
  | CQueue k i => if phase_eqb (ca_phase (calls s k)) (PQueue i) && (length (rc_q (rcs s i)) <? qcap) then
      Some (mkCst (upd (rcs s) i (set_q (rcs s i) (rc_q (rcs s i) ++ [k]) (rc_send (rcs s i))))
             (upd (calls s) k (set_phase (calls s k) (if decide (S i < n) then PStore (S i) else PWait)))) else None
  | CWire i k => match rc_send (rcs s i), rc_q (rcs s i) with
      | true, k' :: q => if k =? k' then Some (mkCst (upd (rcs s) i (set_q (rcs s i) q true)) (calls s)) else None
      | _, _ => None end
  | CRecv i u => if (i <? n) && recv_eqb (rc_recv (rcs s i)) RvIdle then
      match rc_live (rcs s i) !! u with
      | Some k => Some (mkCst (upd (rcs s) i (set_recv (set_live (rcs s i) (delete u (rc_live (rcs s i)))) (RvHold k))) (calls s))
      | None => Some s end else None
  | CDeliver i k => if recv_eqb (rc_recv (rcs s i)) (RvHold k) && (length (ca_buf (calls s k)) <? n) then
      Some (mkCst (upd (rcs s) i (set_recv (rcs s i) RvIdle))
             (upd (calls s) k (set_buf (calls s k) (ca_buf (calls s k) ++ [(i, true)])))) else None
  | CPick i u k => match rc_clean (rcs s i), rc_live (rcs s i) !! u with
      | ClIdle, Some k' => if k =? k' then Some (mkCst (upd (rcs s) i (set_clean (rcs s i) (ClNotify u k))) (calls s)) else None
      | _, _ => None end
  | CNotify i k => match rc_clean (rcs s i) with
      | ClNotify u k' => if (k =? k') && (length (ca_buf (calls s k)) <? n) then
          Some (mkCst (upd (rcs s) i (set_clean (rcs s i) (ClDelete u)))
             (upd (calls s) k (set_buf (calls s k) (ca_buf (calls s k) ++ [(i, false)])))) else None
      | _ => None end
  | CDelete i u => match rc_clean (rcs s i) with
      | ClDelete u' => if bool_decide (u = u') then
          Some (mkCst (upd (rcs s) i (set_clean (set_live (rcs s i) (delete u (rc_live (rcs s i)))) ClIdle)) (calls s)) else None
      | _ => None end
  | CRead k m => match ca_buf (calls s k) with
      | m' :: b => if phase_eqb (ca_phase (calls s k)) PWait && bool_decide (m = m') then
          Some (mkCst (rcs s) (upd (calls s) k (set_buf (calls s k) b))) else None
      | [] => None end
  | CReturn k => if phase_eqb (ca_phase (calls s k)) PWait then
      Some (mkCst (rcs s) (upd (calls s) k (set_phase (calls s k) PDone))) else None
  | _ => None
  end.
Lemma exec_sound n l s s' : exec n l s = Some s' → cstep n l s s'.
Proof.
  destruct l; cbn [exec]; intros E; try done.
  - destruct (phase_eqb _ _) eqn:E1; [|done]. destruct (Nat.ltb_spec 0 n); [|done]. injection E as <-. apply cs_start; [by apply phase_eqb_true|done].
  - destruct (phase_eqb _ _) eqn:E1; [|done]. injection E as <-. apply cs_store. by apply phase_eqb_true.
  - destruct (phase_eqb _ _) eqn:E1; [|done]. destruct (Nat.ltb_spec (length (rc_q (rcs s i))) qcap); [|done]. injection E as <-. apply cs_queue; [by apply phase_eqb_true|done].
  - destruct (rc_send _) eqn:E1; [|done]. destruct (rc_q _) as [|k' q] eqn:E2; [done|]. destruct (Nat.eqb_spec k k') as [->|]; [|done]. injection E as <-. by apply cs_wire.
  - destruct (Nat.ltb_spec i n); [|done]. destruct (recv_eqb _ _) eqn:E1; [|done]. apply recv_eqb_true in E1. cbn in E.
    destruct (rc_live _ !! u) eqn:E2; injection E as <-; [by apply cs_recv|by apply cs_recv_unknown].
  - destruct (recv_eqb _ _) eqn:E1; [|done]. destruct (Nat.ltb_spec (length (ca_buf (calls s k))) n); [|done]. injection E as <-. apply cs_deliver; [by apply recv_eqb_true|done].
  - destruct (rc_clean _) eqn:E1; try done. destruct (rc_live _ !! u) as [k'|] eqn:E2; [|done]. destruct (Nat.eqb_spec k k') as [->|]; [|done]. injection E as <-. by apply cs_pick.
  - destruct (rc_clean _) as [|u k'|] eqn:E1; try done. destruct (Nat.eqb_spec k k') as [->|]; [|done]. destruct (Nat.ltb_spec (length (ca_buf (calls s k'))) n); [|done]. injection E as <-. by apply cs_notify.
  - destruct (rc_clean _) as [| |u'] eqn:E1; try done. case_bool_decide; [|done]. subst. injection E as <-. by apply cs_delete.
  - destruct (ca_buf _) as [|m' b] eqn:E1; [done|]. destruct (phase_eqb _ _) eqn:E2; [|done]. cbn in E. case_bool_decide; [|done]. subst. injection E as <-. apply cs_read; [by apply phase_eqb_true|done].
  - destruct (phase_eqb _ _) eqn:E1; [|done]. injection E as <-. apply cs_return. by apply phase_eqb_true.
Qed.
Fixpoint exec_all (n : nat) (ls : list clabel) (s : cst) : option cst :=
  match ls with [] => Some s | l :: ls => match exec n l s with Some s => exec_all n ls s | None => None end end.
Lemma exec_all_sound n ls s s' : exec_all n ls s = Some s' → csteps n ls s s'.
Proof.
  revert s. induction ls as [|l ls IH]; cbn; intros s E; [injection E as <-; constructor|].
  destruct (exec n l s) as [s1|] eqn:E1; [|done]. apply (csteps_trans n [l] ls s s1 s'); [by apply csteps_one, exec_sound|by apply IH].
Qed.
Lemma exec_check n ls (P : cst → bool) : from_option P false (exec_all n ls cinit) = true → ∃ s, csteps n ls cinit s ∧ P s = true.
Proof. destruct (exec_all _ _ _) as [s|] eqn:E; cbn; [|done]. intros. exists s. split; [by apply exec_all_sound|done]. Qed.

(** A run of one call with three relays.  The cleanup finds the call's entries just before the responses
    come, so each relay sends two messages into a channel of capacity three that the call, having had two
    responses, no longer reads: relay 2 is out of service. *)
Definition race : list clabel :=
  [CStart 0 "a"; CStore 0 0; CQueue 0 0; CStore 0 1; CQueue 0 1; CStore 0 2; CQueue 0 2; CWire 0 0; CWire 1 0; CWire 2 0;
   CPick 0 "a" 0; CPick 1 "a" 0; CPick 2 "a" 0; CRecv 0 "a"; CRecv 1 "a"; CRecv 2 "a"; CDeliver 0 0; CDeliver 1 0;
   CRead 0 (0, true); CRead 0 (1, true); CReturn 0; CNotify 0 0; CNotify 1 0; CNotify 2 0].
Example C80_race : ∃ s, csteps 3 race cinit s ∧ clogged 3 s 0 ∧ recv_waits s 2 0.
Proof.
  destruct (exec_check 3 race (λ s, phase_eqb (ca_phase (calls s 0)) PDone && (length (ca_buf (calls s 0)) =? 3) && recv_eqb (rc_recv (rcs s 2)) (RvHold 0)))
    as (s & Hs & Hp); [vm_compute; reflexivity|].
  apply andb_true_iff in Hp as [[H1 H2]%andb_true_iff H3].
  exists s. split; [done|]. split; [split; [by apply phase_eqb_true|by apply Nat.eqb_eq]|by apply recv_eqb_true].
Qed.
(** Without the cleanup: a call that gets a response of each relay, one of them twice. *)
Definition quiet : list clabel :=
  [CStart 0 "a"; CStore 0 0; CQueue 0 0; CStore 0 1; CRecv 0 "a"; CQueue 0 1; CRecv 1 "a"; CDeliver 1 0; CDeliver 0 0; CRecv 0 "a"].
Example C80_example : (∃ s, csteps 2 quiet cinit s ∧ length (ca_buf (calls s 0)) = 2) ∧ no_pick quiet ∧ responded 0 quiet = [1; 0].
Proof.
  split; [|split; [|reflexivity]].
  - destruct (exec_check 2 quiet (λ s, length (ca_buf (calls s 0)) =? 2)) as (s & Hs & Hp); [vm_compute; reflexivity|].
    exists s. split; [done|by apply Nat.eqb_eq].
  - intros i u k Hin. unfold quiet in Hin. repeat (apply elem_of_cons in Hin as [Hin|Hin]; [done|]). by apply elem_of_nil in Hin.
Qed.

(** The cleanup drops the entry of a call, and the response comes after that: it is not delivered. *)
Definition late : list clabel :=
  [CStart 0 "a"; CStore 0 0; CQueue 0 0; CWire 0 0; CPick 0 "a" 0; CNotify 0 0; CDelete 0 "a"; CRecv 0 "a"].
Example C80_dropped_example : (∃ s, csteps 1 late cinit s ∧ ca_buf (calls s 0) = [(0, false)]) ∧
  ∃ ls1 ls2, late = ls1 ++ CDelete 0 "a" :: ls2 ∧ ∀ k, CStore k 0 ∈ ls2 → CStart k "a" ∉ ls1 ++ ls2.
Proof.
  split.
  - destruct (exec_check 1 late (λ s, bool_decide (ca_buf (calls s 0) = [(0, false)]))) as (s & Hs & Hp); [vm_compute; reflexivity|].
    exists s. split; [done|by apply bool_decide_eq_true in Hp].
  - exists (take 6 late), [CRecv 0 "a"]. split; [reflexivity|]. intros k Hk. by apply elem_of_list_singleton in Hk.
Qed.
