(** C56, C57, C66, C67: direct calls. *)
From stdpp Require Import gmap.
From Verif.Base Require Import Base.
From Verif.Model Require Import DirectClient.

Ltac norm := cbn [now calls waiting queue sender receiver cln got crashed set_caller closed_done
  k_uuid k_start k_seq k_closed k_caller app length].
Section direct.
Context {B : Type} (ttl : Z).
Implicit Types s : cstate B.
Notation step := (cstep ttl).
Notation steps := (csteps ttl).

(** The states of a client that started with no call. *)
Definition reachable s : Prop := ∃ ls, steps ls cinit s.
(** Call k has returned r. *)
Definition returned s k (r : result B) : Prop := ∃ c, calls s !! k = Some c ∧ k_caller c = KDone r.
(** A run in which no stream.Send fails and no call gets as old as the ttl. *)
Definition healthy (l : label) : Prop := l ≠ LSendErr ∧ l ≠ LExpire.

Lemma steps_app ls ls' s1 s2 s3 : steps ls s1 s2 → steps ls' s2 s3 → steps (ls ++ ls') s1 s3.
Proof using Type. induction 1; [done|]. intros. econstructor; eauto. Qed.
Lemma steps_snoc ls l s1 s2 s3 : steps ls s1 s2 → step l s2 s3 → steps (ls ++ [l]) s1 s3.
Proof using Type. intros Hs Hl. eapply steps_app; [done|]. econstructor; [done|constructor]. Qed.
Lemma steps_inv (P : cstate B → Prop) : (∀ l s s', P s → step l s s' → P s') →
  ∀ ls s s', P s → steps ls s s' → P s'.
Proof using Type. intros Hp ls s s' H0 Hs. induction Hs; eauto. Qed.

(** Invariant of all reachable states. *)
Record inv s : Prop := Inv {
  i_wait : ∀ u k, waiting s !! u = Some k → ∃ c, calls s !! k = Some c ∧ k_uuid c = u;
  i_recv : ∀ k n m, receiver s = Some (k, (n, m)) → ∃ c, calls s !! k = Some c ∧ k_uuid c = m_uuid m ∧
    k_seq c ≤ n ∧ got s !! n = Some m;
  i_seq : ∀ k c, calls s !! k = Some c → k_seq c ≤ length (got s);
  i_done : ∀ k c n m, calls s !! k = Some c → k_caller c = KDone (RResp n m) → k_uuid c = m_uuid m ∧ k_seq c ≤ n ∧
    got s !! n = Some m ∧ ∀ k' m', receiver s ≠ Some (k', (n, m'));
  i_once : ∀ k c k' c' n m m', calls s !! k = Some c → k_caller c = KDone (RResp n m) → calls s !! k' = Some c' →
    k_caller c' = KDone (RResp n m') → k = k';
  i_hold : ∀ u k, cln s = CHold u k → ∃ c, calls s !! k = Some c ∧ k_uuid c = u ∧ (ttl ≤ now s - k_start c)%Z;
  i_late : ∀ k c, calls s !! k = Some c → k_caller c = KDone RTimeout → (ttl ≤ now s - k_start c)%Z }.

Ltac look := repeat match goal with
  | H : <[?i := _]> _ !! ?j = Some _ |- _ => apply lookup_insert_Some in H as [[? ?]|[? ?]]; simplify_eq/=
  | H : delete _ _ !! _ = Some _ |- _ => apply lookup_delete_Some in H as [? ?]
  end.

Lemma inv_init : inv cinit.
Proof using Type. split; by intros. Qed.
(** A call that is there stays there, with the same uuid, start and number, when its caller changes. *)
Lemma upd_ex (m : gmap nat (call B)) k c c' k0 (P : string → Z → nat → Prop) : m !! k = Some c →
  k_uuid c' = k_uuid c → k_start c' = k_start c → k_seq c' = k_seq c →
  (∃ c0, m !! k0 = Some c0 ∧ P (k_uuid c0) (k_start c0) (k_seq c0)) →
  ∃ c0, <[k := c']> m !! k0 = Some c0 ∧ P (k_uuid c0) (k_start c0) (k_seq c0).
Proof using Type.
  intros Hk E1 E2 E3 (c0 & Hc0 & HP). destruct (decide (k = k0)) as [<-|Hne].
  - exists c'. rewrite lookup_insert. split; [done|]. rewrite E1, E2, E3. by simplify_eq.
  - exists c0. by rewrite lookup_insert_ne.
Qed.
Lemma new_ex (m : gmap nat (call B)) k c' k0 (P : string → Z → nat → Prop) : m !! k = None →
  (∃ c0, m !! k0 = Some c0 ∧ P (k_uuid c0) (k_start c0) (k_seq c0)) →
  ∃ c0, <[k := c']> m !! k0 = Some c0 ∧ P (k_uuid c0) (k_start c0) (k_seq c0).
Proof using Type.
  intros Hk (c0 & Hc0 & HP). exists c0. rewrite lookup_insert_ne; [done|]. by intros ->; simplify_eq.
Qed.

Lemma inv_step l s s' : inv s → step l s s' → inv s'.
Proof using Type.
  intros [I1 I2 I3 I4 I5 I6 I7] Hst.
  destruct Hst; constructor; cbn [now calls waiting queue sender receiver cln got crashed].
  all: try done.
  all: try (intros; look; simpl; eauto; fail).
  all: try (intros u0 k0 Hw; eapply (upd_ex _ _ _ _ _ (λ u _ _, u = u0)); eauto; fail).
  all: try (intros k0 n0 m0 Hr; eapply (upd_ex _ _ _ _ _ (λ u _ q, u = m_uuid m0 ∧ q ≤ n0 ∧ got s !! n0 = Some m0)); eauto; fail).
  all: try (intros u0 k0 Hr; eapply (upd_ex _ _ _ _ _ (λ u t _, u = u0 ∧ (ttl ≤ now s - t)%Z)); eauto; fail).
  all: try (intros k0 c0 Hc; rewrite app_length; specialize (I3 _ _ Hc); lia).
  - intros u0 k0 Hw. look; [exists (mkCall u0 (now s) (length (got s)) KQueue false); by rewrite lookup_insert|].
    eapply (new_ex _ _ _ _ (λ u _ _, u = u0)); eauto.
  - intros k0 n0 m0 Hr. eapply (new_ex _ _ _ _ (λ u _ q, u = m_uuid m0 ∧ q ≤ n0 ∧ got s !! n0 = Some m0)); eauto.
  - intros u0 k0 Hr. eapply (new_ex _ _ _ _ (λ u t _, u = u0 ∧ (ttl ≤ now s - t)%Z)); eauto.
  - intros k0 c0 n0 m0 Hc Hd. destruct (I4 _ _ _ _ Hc Hd) as (? & ? & ? & ?). split_and!; try done. by apply lookup_app_l_Some.
  - intros k0 n0 m0 [= <- <- <-]. destruct (I1 _ _ H1) as (c & Hc & Hu). exists c. split; [done|]. split; [done|].
    split; [by eapply I3|]. by rewrite list_lookup_middle.
  - intros k0 c0 n0 m0 Hc Hd. destruct (I4 _ _ _ _ Hc Hd) as (? & ? & Hg & ?). split_and!; try done.
    + by apply lookup_app_l_Some.
    + intros k' m' [= _ <- _]. apply lookup_lt_Some in Hg. lia.
  - intros k0 c0 n0 m0 Hc Hd. look.
    + destruct (I2 _ _ _ H0) as (c1 & ? & ? & ? & ?). simplify_eq. done.
    + match goal with Hx : calls s !! k0 = Some c0 |- _ => by destruct (I4 _ _ _ _ Hx Hd) as (? & ? & ? & ?) end.
  - intros k1 c1 k2 c2 n0 m1 m2 Hc1 Hd1 Hc2 Hd2.
    destruct (decide (k1 = k)) as [->|Hn1]; [rewrite lookup_insert in Hc1|rewrite lookup_insert_ne in Hc1 by congruence];
    (destruct (decide (k2 = k)) as [->|Hn2]; [rewrite lookup_insert in Hc2|rewrite lookup_insert_ne in Hc2 by congruence]); try done.
    + exfalso. injection Hc1 as <-. injection Hd1 as -> ->. destruct (I4 _ _ _ _ Hc2 Hd2) as (_ & _ & _ & Hn). by eapply Hn.
    + exfalso. injection Hc2 as <-. injection Hd2 as -> ->. destruct (I4 _ _ _ _ Hc1 Hd1) as (_ & _ & _ & Hn). by eapply Hn.
    + by eapply I5.
  - intros u0 k0 [= <- <-]. destruct (I1 _ _ H1) as (c1 & Hc1 & ?). exists c1. split; [done|]. split; [done|]. congruence.
  - intros k0 c0 Hc Hd. look; [|eauto]. destruct (I6 _ _ H0) as (c1 & ? & ? & ?). simpl. congruence.
  - intros u0 k0 Hr. destruct (I6 _ _ Hr) as (c & ? & ? & ?). exists c. split_and!; try done. lia.
  - intros k0 c0 Hc Hd. specialize (I7 _ _ Hc Hd). lia.
Qed.
Lemma reachable_inv s : reachable s → inv s.
Proof using Type. intros [ls Hs]. eapply (steps_inv inv); [apply inv_step|apply inv_init|exact Hs]. Qed.

(** ** C56 *)

(** A call that returned with a response returned with one that carries its id and came after it was
    registered; no other call returned with that response. *)
Theorem C56_own_response s k c n m : reachable s → calls s !! k = Some c → k_caller c = KDone (RResp n m) →
  got s !! n = Some m ∧ m_uuid m = k_uuid c ∧ k_seq c ≤ n ∧
  ∀ k' m', returned s k' (RResp n m') → k' = k.
Proof using Type.
  intros Hr%reachable_inv Hc Hd. destruct (i_done _ Hr _ _ _ _ Hc Hd) as (? & ? & ? & _). split_and!; try done.
  intros k' m' (c' & Hc' & Hd'). eapply (i_once _ Hr k' c' k c); done.
Qed.
(** A call that timed out is at least ttl old. *)
Theorem C56_timeout s k c : reachable s → calls s !! k = Some c → k_caller c = KDone RTimeout →
  (ttl ≤ now s - k_start c)%Z.
Proof using Type. intros Hr%reachable_inv. apply (i_late _ Hr). Qed.
(** A call returns once: whatever happens later, its result stays. *)
Theorem C56_once s s' ls k r : returned s k r → steps ls s s' → returned s' k r.
Proof using Type.
  apply (steps_inv (λ s, returned s k r)). clear. intros l s s' (c & Hc & Hd) Hst. unfold returned.
  destruct Hst; cbn [calls]; try (by exists c).
  all: match goal with |- context [<[?k0 := ?x]> _] => destruct (decide (k0 = k)) as [->|Hne];
    [simplify_eq; try congruence|exists c; by rewrite lookup_insert_ne] end.
Qed.

(** Registration data of a call never changes. *)
Lemma calls_grow s s' ls k c : steps ls s s' → calls s !! k = Some c →
  ∃ c', calls s' !! k = Some c' ∧ k_uuid c' = k_uuid c ∧ k_seq c' = k_seq c ∧ k_start c' = k_start c.
Proof using Type.
  intros Hs Hc. assert (∃ c', calls s !! k = Some c' ∧ k_uuid c' = k_uuid c ∧ k_seq c' = k_seq c ∧ k_start c' = k_start c) as H0 by by exists c.
  revert H0 Hs. apply (steps_inv (λ s, ∃ c', calls s !! k = Some c' ∧ k_uuid c' = k_uuid c ∧ k_seq c' = k_seq c ∧ k_start c' = k_start c)).
  clear. intros l x x' H0 Hst. destruct Hst; cbn [calls]; try done.
  all: try (eapply (upd_ex _ _ _ _ _ (λ u t q, u = k_uuid c ∧ q = k_seq c ∧ t = k_start c)); eauto; fail).
  all: try (eapply (new_ex _ _ _ _ (λ u t q, u = k_uuid c ∧ q = k_seq c ∧ t = k_start c)); eauto; fail).
  all: match goal with H : calls _ !! ?k0 = Some ?c0 |- _ =>
    eapply (upd_ex _ k0 c0 _ _ (λ u t q, u = k_uuid c ∧ q = k_seq c ∧ t = k_start c)); eauto end.
Qed.

(** Invariant of healthy runs. *)
Record hinv s : Prop := HInv {
  h_crashed : crashed s = false;
  h_sender : sender s = None;
  h_cln : cln s = CIdle;
  h_closed : ∀ k c, calls s !! k = Some c → k_closed c = true → ∃ r, k_caller c = KDone r;
  h_wait : ∀ u k, waiting s !! u = Some k → ∃ c, calls s !! k = Some c ∧ k_uuid c = u ∧ ∀ r, k_caller c ≠ KDone r;
  h_recv : ∀ k x, receiver s = Some (k, x) → (∃ c, calls s !! k = Some c ∧ ∀ r, k_caller c ≠ KDone r) ∧ ∀ u, waiting s !! u ≠ Some k;
}.
Lemma hinv_init : hinv cinit.
Proof using Type. split; by intros. Qed.
Lemma hinv_step l s s' : hinv s → healthy l → step l s s' → hinv s'.
Proof using Type.
  intros [I0 I1 I2 I3 I4 I5] [Hl1 Hl2] Hst.
  destruct Hst; try done; try congruence.
  - (* call *) constructor; cbn [now calls waiting queue sender receiver cln got crashed]; try assumption; try done.
    + intros k0 c0 Hc Hcl. look. by eapply I3.
    + intros u0 k0 Hw. look.
      * eexists. rewrite lookup_insert. split; [done|]. split; [done|]. by intros r.
      * destruct (I4 _ _ H2) as (c0 & Hc0 & ?). exists c0. rewrite lookup_insert_ne; [done|]. congruence.
    + intros k0 x Hr. destruct (I5 _ _ Hr) as [(c0 & Hc0 & Hn) Hw]. split.
      * exists c0. rewrite lookup_insert_ne; [done|]. congruence.
      * intros u0 Hu. look; first [congruence|by eapply Hw].
  - (* push *) constructor; cbn [now calls waiting queue sender receiver cln got crashed]; try assumption; try done.
    + intros k0 c0 Hc Hcl. look; [|by eapply I3]. destruct (I3 _ _ H0 Hcl) as [r Hr]. congruence.
    + intros u0 k0 Hw. destruct (I4 _ _ Hw) as (c0 & Hc0 & Hu & Hn). destruct (decide (k = k0)) as [<-|Hne].
      * eexists. rewrite lookup_insert. split; [done|]. split; [simpl; congruence|]. by intros r.
      * exists c0. rewrite lookup_insert_ne; done.
    + intros k0 x Hr. destruct (I5 _ _ Hr) as [(c0 & Hc0 & Hn) Hw]. split; [|done]. destruct (decide (k = k0)) as [<-|Hne].
      * eexists. rewrite lookup_insert. split; [done|]. by intros r.
      * exists c0. rewrite lookup_insert_ne; done.
  - (* recv *) constructor; cbn [now calls waiting queue sender receiver cln got crashed]; try assumption; try done.
    + intros u0 k0 Hw. look. eauto.
    + intros k0 x [= <- <-]. destruct (I4 _ _ H1) as (c0 & Hc0 & Hu & Hn). split; [by exists c0|].
      intros u0 Hu0. look. destruct (I4 _ _ H3) as (c1 & Hc1 & Hu1 & _). congruence.
  - (* deliver *) constructor; cbn [now calls waiting queue sender receiver cln got crashed]; try assumption; try done.
    + intros k0 c0 Hc Hcl. look; [by eexists|]. by eapply I3.
    + intros u0 k0 Hw. destruct (I4 _ _ Hw) as (c0 & Hc0 & Hu & Hn). destruct (I5 _ _ H0) as [_ Hk].
      exists c0. rewrite lookup_insert_ne; [done|]. intros ->. by eapply Hk.
  - (* panic *) exfalso. destruct H0 as [[u Hu]|[Hs|[x Hx]]]; [congruence|congruence|].
    destruct (I5 _ _ Hx) as [(c0 & Hc0 & Hn) _]. destruct (I3 _ _ H1 H2) as [r Hr]. apply (Hn r). congruence.
Qed.
Lemma hinv_steps ls s s' : hinv s → Forall healthy ls → steps ls s s' → hinv s'.
Proof using Type. intros Hi Hl Hs. induction Hs; [done|]. inversion Hl; subst. apply IHHs; [|done]. by eapply hinv_step. Qed.

(** The queue drains. *)
Lemma drain s : hinv s → ∃ ls s', Forall (λ l, l = LSendOk) ls ∧ steps ls s s' ∧ queue s' = [] ∧ calls s' = calls s ∧
  waiting s' = waiting s ∧ receiver s' = receiver s ∧ got s' = got s.
Proof using Type.
  destruct s as [t ca wa q se re cl go cr]. revert se. induction q as [|k q IH]; intros se Hi.
  - exists [], (mkCS t ca wa [] se re cl go cr). split; [constructor|]. split; [constructor|]. done.
  - pose proof (h_crashed _ Hi) as Hc. pose proof (h_sender _ Hi) as Hs. simpl in Hc, Hs. subst cr se.
    assert (step LSendOk (mkCS t ca wa (k :: q) None re cl go false) (mkCS t ca wa q None re cl go false)) as Hst.
    { by apply (st_send_ok _ (mkCS t ca wa (k :: q) None re cl go false) k q). }
    destruct (IH None) as (ls & s' & Hl & Hss & Hr). { eapply hinv_step; [done| |done]. done. }
    exists (LSendOk :: ls), s'. split; [by constructor|]. split; [by econstructor|]. done.
Qed.
Lemma sendok_healthy ls : Forall (λ l, l = LSendOk) ls → Forall healthy ls.
Proof using Type. intros Hl. eapply Forall_impl; [done|]. by intros l ->. Qed.

(** The delivery the receiver is at completes. *)
Lemma deliver s k n m : hinv s → receiver s = Some (k, (n, m)) →
  ∃ ls s', Forall (λ l, l = LSendOk ∨ l = LPush ∨ l = LRecvDeliver) ls ∧ steps ls s s' ∧ returned s' k (RResp n m) ∧
    receiver s' = None ∧ got s' = got s ∧ waiting s' = waiting s.
Proof using Type.
  intros Hi Hr. destruct (drain s Hi) as (ls & s1 & Hl & Hs & Hq & Hc & Hw & Hre & Hg).
  assert (hinv s1) as Hi1. { eapply hinv_steps; [done| |done]. by apply sendok_healthy. }
  rewrite Hr in Hre. destruct (h_recv _ Hi1 _ _ Hre) as [(c & Hca & Hnd) _].
  assert (∃ ls2 s2 c2, Forall (λ l, l = LPush) ls2 ∧ steps ls2 s1 s2 ∧ hinv s2 ∧ receiver s2 = Some (k, (n, m)) ∧
    got s2 = got s ∧ waiting s2 = waiting s ∧ calls s2 !! k = Some c2 ∧ k_caller c2 = KWait) as (ls2 & s2 & c2 & Hl2 & Hs2 & Hi2 & Hr2 & Hg2 & Hw2 & Hc2 & Hk2).
  { destruct (k_caller c) as [| |r] eqn:E; [| |by destruct (Hnd r)].
    - assert (step LPush s1 (mkCS (now s1) (<[k := set_caller c KWait]> (calls s1)) (waiting s1) (queue s1 ++ [k])
        (sender s1) (receiver s1) (cln s1) (got s1) false)) as Hst.
      { apply st_push; [by apply h_crashed|done|done|]. rewrite Hq. simpl. lia. }
      eexists [LPush], _, (set_caller c KWait). split; [by repeat constructor|]. split; [econstructor; [exact Hst|constructor]|].
      split; [eapply hinv_step; [exact Hi1| |exact Hst]; done|].
      cbn [now calls waiting queue sender receiver cln got crashed]. split_and!; try done; try congruence.
      by rewrite lookup_insert.
    - exists [], s1, c. split_and!; try done; try congruence. constructor. }
  assert (k_closed c2 = false) as Hcl.
  { destruct (k_closed c2) eqn:E; [|done]. destruct (h_closed _ Hi2 _ _ Hc2 E) as [r Hx]. congruence. }
  assert (step LRecvDeliver s2 (mkCS (now s2) (<[k := closed_done c2 (RResp n m)]> (calls s2)) (waiting s2) (queue s2)
      (sender s2) None (cln s2) (got s2) false)) as Hst.
  { apply st_recv_deliver; try done. by apply h_crashed. }
  eexists ((ls ++ ls2) ++ [LRecvDeliver]), _. split_and!.
  - rewrite !Forall_app. split; [split|].
    + eapply Forall_impl; [exact Hl|]. intros l ->. by left.
    + eapply Forall_impl; [exact Hl2|]. intros l ->. right; by left.
    + constructor; [by right; right|constructor].
  - eapply steps_snoc; [|exact Hst]. by eapply steps_app.
  - eexists. simpl. rewrite lookup_insert. done.
  - done.
  - simpl. congruence.
  - simpl. congruence.
Qed.

(** As long as no send fails and no call expires, the client does not crash, and a call registered under
    an id completes with the next response that carries the id: with no further call and no further
    response, the client gets there. *)
Theorem C56_completes ls s u k m : steps ls cinit s → Forall healthy ls → waiting s !! u = Some k → m_uuid m = u →
  ∃ ls' s' n, steps ls' s s' ∧ Forall healthy ls' ∧ LCall ∉ ls' ∧ got s' = got s ++ [m] ∧ n = length (got s) ∧
    returned s' k (RResp n m).
Proof using Type.
  intros Hs Hl Hw Hm. pose proof (hinv_steps _ _ _ hinv_init Hl Hs) as Hi.
  assert (∃ ls1 s1, Forall (λ l, l = LSendOk ∨ l = LPush ∨ l = LRecvDeliver) ls1 ∧ steps ls1 s s1 ∧ receiver s1 = None ∧
    got s1 = got s ∧ waiting s1 = waiting s) as (ls1 & s1 & Hl1 & Hs1 & Hr1 & Hg1 & Hw1).
  { destruct (receiver s) as [[k0 [n0 m0]]|] eqn:E.
    - destruct (deliver s _ _ _ Hi E) as (ls1 & s1 & ? & ? & ? & ? & ? & ?). by exists ls1, s1.
    - exists [], s. split_and!; try done. constructor. }
  assert (∀ ls, Forall (λ l, l = LSendOk ∨ l = LPush ∨ l = LRecvDeliver) ls → Forall healthy ls ∧ LCall ∉ ls) as Hh.
  { clear. intros ls Hl. split; [eapply Forall_impl; [done|]; by intros l [->|[->| ->]]|].
    intros Hin. rewrite Forall_forall in Hl. by destruct (Hl _ Hin) as [?|[?|?]]. }
  pose proof (hinv_steps _ _ _ Hi (proj1 (Hh _ Hl1)) Hs1) as Hi1. rewrite <- Hw1 in Hw.
  assert (step LRecv s1 (mkCS (now s1) (calls s1) (delete (m_uuid m) (waiting s1)) (queue s1) (sender s1)
      (Some (k, (length (got s1), m))) (cln s1) (got s1 ++ [m]) false)) as Hst.
  { apply st_recv; [by apply h_crashed|done|congruence]. }
  assert (hinv (mkCS (now s1) (calls s1) (delete (m_uuid m) (waiting s1)) (queue s1) (sender s1)
      (Some (k, (length (got s1), m))) (cln s1) (got s1 ++ [m]) false)) as Hi2.
  { eapply hinv_step; [exact Hi1| |exact Hst]. done. }
  destruct (deliver _ k (length (got s1)) m Hi2 eq_refl) as (ls3 & s3 & Hl3 & Hs3 & Hret & _ & Hg3 & _).
  exists (ls1 ++ LRecv :: ls3), s3, (length (got s)). destruct (Hh _ Hl1) as [Ha1 Hb1], (Hh _ Hl3) as [Ha3 Hb3]. split_and!.
  - eapply steps_app; [exact Hs1|]. econstructor; [exact Hst|exact Hs3].
  - apply Forall_app. split; [done|]. by constructor.
  - rewrite elem_of_app, elem_of_cons. intros [?|[?|?]]; done.
  - rewrite Hg3. simpl. congruence.
  - done.
  - by rewrite <- Hg1.
Qed.
(** Such a run never crashes. *)
Theorem C56_no_crash ls s : steps ls cinit s → Forall healthy ls → crashed s = false.
Proof using Type. intros Hs Hl. apply h_crashed. by eapply hinv_steps; [apply hinv_init| |]. Qed.

(** ** C57 *)

(** Every entry is registered once; the receiver holds no registered call. *)
Record winv s : Prop := WInv {
  w_uuid : ∀ u k, waiting s !! u = Some k → ∃ c, calls s !! k = Some c ∧ k_uuid c = u;
  w_recv : ∀ k x, receiver s = Some (k, x) → (∃ c, calls s !! k = Some c) ∧ ∀ u, waiting s !! u ≠ Some k }.
Lemma winv_init : winv cinit.
Proof using Type. split; by intros. Qed.
Lemma winv_step l s s' : winv s → step l s s' → winv s'.
Proof using Type.
  intros [I1 I2] Hst.
  assert (∀ k c c', calls s !! k = Some c → k_uuid c' = k_uuid c → ∀ u0 k0, waiting s !! u0 = Some k0 →
    ∃ c0, <[k := c']> (calls s) !! k0 = Some c0 ∧ k_uuid c0 = u0) as Hupd.
  { intros k c c' Hc Hu u0 k0 Hw. destruct (I1 _ _ Hw) as (c0 & Hc0 & Hu0). destruct (decide (k = k0)) as [<-|Hne].
    - exists c'. rewrite lookup_insert. split; [done|congruence].
    - exists c0. by rewrite lookup_insert_ne. }
  assert (∀ k c', ∀ k0 x, receiver s = Some (k0, x) → (∃ c0, <[k := c']> (calls s) !! k0 = Some c0) ∧ ∀ u, waiting s !! u ≠ Some k0) as Hup2.
  { intros k c' k0 x Hr. destruct (I2 _ _ Hr) as [[c0 Hc0] Hw]. split; [|done]. destruct (decide (k = k0)) as [<-|Hne].
    - exists c'. by rewrite lookup_insert.
    - exists c0. by rewrite lookup_insert_ne. }
  destruct Hst; constructor; cbn [now calls waiting queue sender receiver cln got crashed]; try done; try (eapply Hup2; fail).
  all: try (eapply Hupd; [eassumption|done]; fail).
  - intros u0 k0 Hw. look; [eexists; rewrite lookup_insert; done|]. destruct (I1 _ _ H2) as (c0 & Hc0 & ?).
    exists c0. rewrite lookup_insert_ne; [done|congruence].
  - intros k0 x Hr. destruct (Hup2 k (mkCall u (now s) (length (got s)) KQueue false) _ _ Hr) as [? Hw]. split; [done|].
    destruct (I2 _ _ Hr) as [[c0 Hc0] _]. intros u0 Hu. look; first [congruence|by eapply Hw].
  - intros u0 k0 Hw. look. eauto.
  - intros k0 x [= <- <-]. destruct (I1 _ _ H1) as (c0 & Hc0 & Hu). split; [by exists c0|]. intros u0 Hu0. look.
    destruct (I1 _ _ H3) as (c1 & Hc1 & ?). congruence.
  - intros u0 k0 Hw. look. eauto.
  - intros k0 x Hr. destruct (I2 _ _ Hr) as [? Hw]. split; [done|]. intros u0 Hu. look. by eapply Hw.
Qed.
Lemma reachable_winv s : reachable s → winv s.
Proof using Type. intros [ls Hs]. eapply (steps_inv winv); [apply winv_step|apply winv_init|exact Hs]. Qed.

(** Call k is in no table. *)
Definition lost k s : Prop :=
  (∃ c, calls s !! k = Some c ∧ ∀ r, k_caller c = KDone r → r = RSendErr) ∧
  (∀ u, waiting s !! u ≠ Some k) ∧ (∀ x, receiver s ≠ Some (k, x)) ∧ (∀ u, cln s ≠ CHold u k).
Lemma lost_step k l s s' : lost k s → step l s s' → lost k s'.
Proof using Type.
  intros ((c & Hc & Hd) & Hw & Hr & Hcl) Hst. unfold lost.
  destruct Hst; cbn [now calls waiting queue sender receiver cln got crashed]; split_and!; try done; try (by exists c).
  - exists c. rewrite lookup_insert_ne; [done|]. congruence.
  - intros u0 Hu. look; first [congruence|by eapply Hw].
  - destruct (decide (k0 = k)) as [->|Hne]; [eexists; rewrite lookup_insert; split; [done|]; by intros r ?|exists c; by rewrite lookup_insert_ne].
  - destruct (decide (k0 = k)) as [->|Hne]; [eexists; rewrite lookup_insert; split; [done|]; intros r; simpl; congruence|exists c; by rewrite lookup_insert_ne].
  - intros u0 Hu. look. by eapply Hw.
  - intros x [= -> <-]. by eapply Hw.
  - exists c. rewrite lookup_insert_ne; [done|]. intros ->. by eapply Hr.
  - intros u0 [= <- ->]. by eapply Hw.
  - exists c. rewrite lookup_insert_ne; [done|]. intros ->. by eapply Hcl.
  - intros u0 Hu. look. by eapply Hw.
Qed.
(** And its request has gone out. *)
Definition lost_sent k s : Prop :=
  lost k s ∧ (∃ c, calls s !! k = Some c ∧ k_caller c = KWait) ∧ k ∉ queue s ∧ sender s ≠ Some k.
Lemma lost_sent_step k l s s' : lost_sent k s → step l s s' → lost_sent k s'.
Proof using Type.
  intros (Hl & (c & Hc & Hd) & Hq & Hs) Hst. split; [by eapply lost_step|]. destruct Hl as (_ & Hw & Hr & Hcl).
  destruct Hst; cbn [now calls waiting queue sender receiver cln got crashed]; split_and!; try done; try (by exists c).
  all: try (match goal with Hq : queue _ = _ :: _ |- _ => rewrite Hq in *; set_solver end).
  all: try (exists c; rewrite lookup_insert_ne; [done|]; congruence).
  - rewrite elem_of_app, elem_of_list_singleton. intros [?|<-]; [done|]. congruence.
Qed.

(** A second call with the id of a call that is registered and has not expired: from then on nothing but
    a failed send ends the first call, and if it had been sent nothing does. *)
Theorem C57_dropped s s' s'' ls k c u k2 : reachable s → waiting s !! u = Some k → calls s !! k = Some c →
  (∀ r, k_caller c ≠ KDone r) → (now s - k_start c < ttl)%Z →
  step LCall s s' → calls s !! k2 = None → waiting s' !! u = Some k2 → steps ls s' s'' →
  (∀ r, returned s'' k r → r = RSendErr) ∧
  (k_caller c = KWait → k ∉ queue s → sender s ≠ Some k → ∀ r, ¬ returned s'' k r).
Proof using Type.
  intros Hre Hw Hc Hnd Hage Hst Hk2 Hw2 Hss.
  pose proof (reachable_inv _ Hre) as Hi. pose proof (reachable_winv _ Hre) as Hwi.
  assert (lost k s' ∧ (k_caller c = KWait → k ∉ queue s → sender s ≠ Some k → lost_sent k s')) as [Hlost Hsent].
  { inversion Hst; subst. simpl in Hw2.
    assert (u0 = u) as ->. { look; try done. }
    assert (lost k (mkCS (now s) (<[k0 := mkCall u (now s) (length (got s)) KQueue false]> (calls s))
      (<[u := k0]> (waiting s)) (queue s) (sender s) (receiver s) (cln s) (got s) false)) as Hl.
    { unfold lost. cbn [now calls waiting queue sender receiver cln got crashed]. split_and!.
      - exists c. rewrite lookup_insert_ne by congruence. split; [done|]. intros r Hr. by destruct (Hnd r).
      - intros u1 Hu1. look; try congruence.
        destruct (w_uuid _ Hwi _ _ H2) as (? & ? & ?), (w_uuid _ Hwi _ _ Hw) as (? & ? & ?). congruence.
      - intros x Hx. destruct (w_recv _ Hwi _ _ Hx) as [_ Hn]. by eapply Hn.
      - intros u1 Hu1. destruct (i_hold _ Hi _ _ Hu1) as (c1 & Hc1 & _ & ?). simplify_eq. lia. }
    split; [done|]. intros Hkw Hq Hse. split; [done|]. cbn [now calls waiting queue sender receiver cln got crashed].
    split; [|done]. exists c. rewrite lookup_insert_ne by congruence. done. }
  split.
  - intros r (c1 & Hc1 & Hd1). pose proof (steps_inv (lost k) (lost_step k) _ _ _ Hlost Hss) as ((c2 & Hc2 & Hd2) & _).
    simplify_eq. by apply Hd2.
  - intros Hkw Hq Hse r (c1 & Hc1 & Hd1).
    pose proof (steps_inv (lost_sent k) (lost_sent_step k) _ _ _ (Hsent Hkw Hq Hse) Hss) as (_ & (c2 & Hc2 & Hd2) & _). congruence.
Qed.

(** ** C66 *)

Local Instance label_eq : EqDecision label.
Proof using Type. solve_decision. Defined.
(** A crash needs a failed send or an expiry. *)
Theorem C66_only_after ls s : steps ls cinit s → crashed s = true → LSendErr ∈ ls ∨ LExpire ∈ ls.
Proof using Type.
  intros Hs Hc. destruct (decide (LSendErr ∈ ls)) as [?|Hn1]; [by left|]. destruct (decide (LExpire ∈ ls)) as [?|Hn2]; [by right|].
  exfalso. assert (Forall healthy ls) as Hl. { apply Forall_forall. intros l Hin. split; intros ->; done. }
  by rewrite (C56_no_crash _ _ Hs Hl) in Hc.
Qed.
(** One call, one response, nothing failed, and the client crashes: the response comes when the cleanup
    has picked the call. *)
Theorem C66_crash u b : (0 ≤ ttl)%Z →
  ∃ s, steps [LCall; LPush; LSendOk; LTick; LExpire; LRecv; LRecvDeliver; LPanic] cinit s ∧ crashed s = true ∧
    got s = [mkMsg u b] ∧ returned s 0 (RResp 0 (mkMsg u b)).
Proof using Type.
  intros Ht. eexists. split.
  { eapply cs_cons; [by apply (st_call _ _ u 0)|norm].
    eapply cs_cons; [eapply (st_push _ _ 0); [done|by simpl; rewrite lookup_insert|done|simpl; lia]|norm].
    eapply cs_cons; [by eapply (st_send_ok _ _ 0)|norm].
    eapply cs_cons; [eapply (st_tick _ _ ttl); [done|simpl; lia]|norm].
    eapply cs_cons; [eapply (st_expire _ _ u 0); [done|done|by simpl; rewrite lookup_insert|by simpl; rewrite lookup_insert|simpl; lia]|norm].
    eapply cs_cons; [eapply (st_recv _ _ (mkMsg u b) 0); [done|done|by simpl; rewrite lookup_insert]|norm].
    eapply cs_cons; [eapply (st_recv_deliver _ _ 0); [done|done|by simpl; rewrite lookup_insert|done|done]|norm].
    eapply cs_cons; [eapply (st_panic _ _ 0); [done|left; by exists u|by simpl; rewrite lookup_insert|done]|norm].
    apply cs_nil. }
  split_and!; try done. eexists. simpl. rewrite lookup_insert. done.
Qed.

(** ** C67 *)

(** A goroutine at a send on the channel of a call that returned and whose channel is open. *)
Definition stuck_recv k n m s : Prop := receiver s = Some (k, (n, m)) ∧
  ∃ c r, calls s !! k = Some c ∧ k_caller c = KDone r ∧ k_closed c = false.
Definition stuck_cln k u s : Prop := cln s = CHold u k ∧
  ∃ c r, calls s !! k = Some c ∧ k_caller c = KDone r ∧ k_closed c = false.
Lemma done_step k l s s' : (∃ c r, calls s !! k = Some c ∧ k_caller c = KDone r ∧ k_closed c = false) → step l s s' →
  ∃ c r, calls s' !! k = Some c ∧ k_caller c = KDone r ∧ k_closed c = false.
Proof using Type.
  intros (c & r & Hc & Hd & Hcl) Hst. destruct Hst; cbn [calls]; try (by exists c, r).
  all: match goal with |- context [<[?k0 := ?x]> _] => destruct (decide (k0 = k)) as [->|Hne];
    [simplify_eq; try congruence|exists c, r; by rewrite lookup_insert_ne] end.
Qed.
Lemma stuck_recv_step k n m l s s' : stuck_recv k n m s → step l s s' → stuck_recv k n m s'.
Proof using Type.
  intros [Hr Hd] Hst. split; [|by eapply done_step]. destruct Hd as (c & r & Hc & Hd & Hcl).
  destruct Hst; cbn [receiver]; congruence.
Qed.
Lemma stuck_cln_step k u l s s' : stuck_cln k u s → step l s s' → stuck_cln k u s'.
Proof using Type.
  intros [Hr Hd] Hst. split; [|by eapply done_step]. destruct Hd as (c & r & Hc & Hd & Hcl).
  destruct Hst; cbn [cln]; congruence.
Qed.
(** A call completed by a failed send leaves its entry in the table. A response with its id then blocks
    the receiving goroutine for good: no call completes with a response any more. *)
Theorem C67_receiver s s' k u m : reachable s → sender s = Some k → waiting s !! u = Some k → receiver s = None →
  step LSendDeliver s s' → m_uuid m = u →
  ∃ s1, step LRecv s' s1 ∧ got s1 = got s' ++ [m] ∧
    ∀ ls s2, steps ls s1 s2 → got s2 = got s1 ∧ ∀ k' n m', returned s2 k' (RResp n m') → returned s k' (RResp n m').
Proof using Type.
  intros Hre Hse Hw Hr Hst Hm. inversion Hst; subst. simplify_eq.
  match goal with |- ∃ _, step _ ?x _ ∧ _ => set (s' := x) end.
  exists (mkCS (now s') (calls s') (delete (m_uuid m) (waiting s')) (queue s') (sender s')
      (Some (k, (length (got s'), m))) (cln s') (got s' ++ [m]) false).
  split; [by apply st_recv|]. split; [done|]. intros ls s2 Hs.
  match type of Hs with csteps _ _ ?x _ => set (s1 := x) in * end.
  assert (stuck_recv k (length (got s')) m s1) as Hst1.
  { split; [done|]. eexists _, _. simpl. rewrite lookup_insert. done. }
  assert (stuck_recv k (length (got s')) m s2 ∧ got s2 = got s1 ∧ ∀ k' n m', returned s2 k' (RResp n m') → returned s1 k' (RResp n m')) as (_ & Hg & Hret).
  { revert Hst1 Hs. clear. intros Hst1 Hs. induction Hs as [x|l ls x y z Hl Hs IH]; [done|].
    pose proof (stuck_recv_step _ _ _ _ _ _ Hst1 Hl) as Hst2. destruct (IH Hst2) as (? & Hg & Hret). split; [done|].
    destruct Hst1 as [Hr _]. split.
    - rewrite Hg. destruct Hl; cbn [got]; congruence.
    - intros k' n' m' Hx. apply Hret in Hx as (cx & Hc & Hd). unfold returned. destruct Hl; cbn [calls] in Hc; try (by exists cx).
      all: try (look; try done; by exists cx). by destruct Hst2. }
  split; [done|]. intros k' n m' Hx. apply Hret in Hx as (c' & Hc' & Hd'). simpl in Hc'. look; try done. by exists c'.
Qed.
(** Without one, the cleanup comes to the entry and stays there: no call times out any more. *)
Theorem C67_cleaner s s' k u : reachable s → sender s = Some k → waiting s !! u = Some k → cln s = CIdle →
  step LSendDeliver s s' →
  ∃ s1, steps [LTick; LExpire] s' s1 ∧
    ∀ ls s2, steps ls s1 s2 → cln s2 = CHold u k ∧ ∀ k', returned s2 k' RTimeout → returned s k' RTimeout.
Proof using Type.
  intros Hre Hse Hw Hr Hst. inversion Hst; subst. simplify_eq.
  set (t := (Z.max (now s) (ttl + k_start c))%Z).
  eexists. split.
  { eapply cs_cons; [eapply (st_tick _ _ t); [done|simpl; lia]|norm].
    eapply cs_cons; [eapply (st_expire _ _ u k); [done|done|done|simpl; by rewrite lookup_insert|simpl; lia]|norm]. apply cs_nil. }
  intros ls s2 Hs.
  match type of Hs with csteps _ _ ?x _ => set (s1 := x) in * end.
  assert (stuck_cln k u s1) as Hst1.
  { split; [done|]. eexists _, _. simpl. rewrite lookup_insert. done. }
  assert (stuck_cln k u s2 ∧ ∀ k', returned s2 k' RTimeout → returned s1 k' RTimeout) as ([Hg _] & Hret).
  { revert Hst1 Hs. clear. intros Hst1 Hs. induction Hs as [x|l ls x y z Hl Hs IH]; [done|].
    pose proof (stuck_cln_step _ _ _ _ _ Hst1 Hl) as Hst2. destruct (IH Hst2) as (? & Hret). split; [done|].
    destruct Hst1 as [Hr (c1 & r1 & Hc1 & Hd1 & _)].
    intros k' Hx. apply Hret in Hx as (cx & Hc & Hd). unfold returned. destruct Hl; cbn [calls] in Hc; try (by exists cx).
    all: try (look; try done; by exists cx). by destruct Hst2. }
  split; [done|]. intros k' Hx. apply Hret in Hx as (c' & Hc' & Hd'). simpl in Hc'. look; try done. by exists c'.
Qed.
(** More generally: a channel is closed only by a response, so whenever the entry of a call that returned with a send
    error is met by a response, or by the cleanup, that goroutine is lost for good. *)
Lemma closed_resp s : reachable s → ∀ k c, calls s !! k = Some c → k_closed c = true → ∃ n m, k_caller c = KDone (RResp n m).
Proof using Type.
  intros [ls Hs]. revert ls s Hs. enough (∀ ls s s', (∀ k c, calls s !! k = Some c → k_closed c = true → ∃ n m, k_caller c = KDone (RResp n m)) →
    steps ls s s' → ∀ k c, calls s' !! k = Some c → k_closed c = true → ∃ n m, k_caller c = KDone (RResp n m)) as Hx.
  { intros ls s Hs. eapply Hx; [|exact Hs]. intros k c Hc. cbn in Hc. by rewrite lookup_empty in Hc. }
  apply (steps_inv (λ s, ∀ k c, calls s !! k = Some c → k_closed c = true → ∃ n m, k_caller c = KDone (RResp n m))).
  intros l s s' Hi Hst. destruct Hst; cbn [calls]; try done; intros k0 c0 Hc Hcl; look; eauto.
  all: match goal with Hc : calls _ !! _ = Some ?c |- _ => destruct (Hi _ c Hc) as (? & ? & ?); congruence end.
Qed.
Theorem C67_response_blocks s s1 k u m : reachable s → returned s k RSendErr → waiting s !! u = Some k → m_uuid m = u →
  step LRecv s s1 → got s1 = got s ++ [m] →
  ∀ ls s2, steps ls s1 s2 → got s2 = got s1 ∧ ∀ k' n m', returned s2 k' (RResp n m') → returned s k' (RResp n m').
Proof using Type.
  intros Hre (c & Hc & Hd) Hw Hm Hst Hg ls s2 Hs.
  assert (k_closed c = false) as Hcl. { destruct (k_closed c) eqn:E; [|done]. destruct (closed_resp s Hre k c Hc E) as (? & ? & ?). congruence. }
  assert (stuck_recv k (length (got s)) m s1 ∧ calls s1 = calls s) as [Hst1 Ecalls].
  { inversion Hst; subst; cbn [got] in Hg; apply app_inv_head in Hg; injection Hg as ->; [congruence|].
    match goal with Hx : waiting s !! _ = Some ?k0 |- _ => assert (k0 = k) as -> by congruence end.
    split; [split; [done|]; eauto|done]. }
  assert (stuck_recv k (length (got s)) m s2 ∧ got s2 = got s1 ∧ ∀ k' n m', returned s2 k' (RResp n m') → returned s1 k' (RResp n m')) as (_ & Hg2 & Hret).
  { revert Hst1 Hs. clear. intros Hst1 Hs. induction Hs as [x|l ls x y z Hl Hs IH]; [done|].
    pose proof (stuck_recv_step _ _ _ _ _ _ Hst1 Hl) as Hst2. destruct (IH Hst2) as (? & Hg & Hret). split; [done|].
    destruct Hst1 as [Hr _]. split.
    - rewrite Hg. destruct Hl; cbn [got]; congruence.
    - intros k' n' m' Hx. apply Hret in Hx as (cx & Hc & Hd). unfold returned. destruct Hl; cbn [calls] in Hc; try (by exists cx).
      all: try (look; try done; by exists cx). by destruct Hst2. }
  split; [done|]. intros k' n m' Hx. apply Hret in Hx as (c' & Hc' & Hd'). exists c'. by rewrite <-Ecalls.
Qed.
Theorem C67_expiry_blocks s s1 k u : reachable s → returned s k RSendErr → step LExpire s s1 → cln s1 = CHold u k →
  ∀ ls s2, steps ls s1 s2 → cln s2 = CHold u k ∧ ∀ k', returned s2 k' RTimeout → returned s k' RTimeout.
Proof using Type.
  intros Hre (c & Hc & Hd) Hst Hcl1 ls s2 Hs.
  assert (k_closed c = false) as Hcl. { destruct (k_closed c) eqn:E; [|done]. destruct (closed_resp s Hre k c Hc E) as (? & ? & ?). congruence. }
  assert (stuck_cln k u s1 ∧ calls s1 = calls s) as [Hst1 Ecalls].
  { assert (calls s1 = calls s) as E by (inversion Hst; done). split; [split; [done|]; exists c, RSendErr; by rewrite E|done]. }
  assert (stuck_cln k u s2 ∧ ∀ k', returned s2 k' RTimeout → returned s1 k' RTimeout) as ([Hg _] & Hret).
  { revert Hst1 Hs. clear. intros Hst1 Hs. induction Hs as [x|l ls x y z Hl Hs IH]; [done|].
    pose proof (stuck_cln_step _ _ _ _ _ Hst1 Hl) as Hst2. destruct (IH Hst2) as (? & Hret). split; [done|].
    destruct Hst1 as [Hr (c1 & r1 & Hc1 & Hd1 & _)].
    intros k' Hx. apply Hret in Hx as (cx & Hc & Hd). unfold returned. destruct Hl; cbn [calls] in Hc; try (by exists cx).
    all: try (look; try done; by exists cx). by destruct Hst2. }
  split; [done|]. intros k' Hx. apply Hret in Hx as (c' & Hc' & Hd'). exists c'. by rewrite <-Ecalls.
Qed.
(** And the entry is there until one of these happens, unless a new call takes its id: no other step removes it. *)
Theorem C67_stays s s' l k u : reachable s → returned s k RSendErr → waiting s !! u = Some k → cln s ≠ CDel u → step l s s' →
  (waiting s' !! u = Some k ∧ cln s' ≠ CDel u) ∨
  (l = LRecv ∧ ∃ m, got s' = got s ++ [m] ∧ m_uuid m = u) ∨
  (l = LCall ∧ ∃ k', waiting s' !! u = Some k' ∧ calls s !! k' = None) ∨
  (l = LTimeout ∧ ∃ k', k' ≠ k ∧ cln s = CHold u k').
Proof using Type.
  intros Hre (c & Hc & Hd) Hw Hcl Hst. destruct Hst; cbn [waiting cln got calls]; try (by left).
  - destruct (decide (u0 = u)) as [->|Hne]; [|left; by rewrite lookup_insert_ne].
    right. right. left. split; [done|]. exists k0. by rewrite lookup_insert.
  - destruct (decide (m_uuid m = u)) as [E|E]; [right; left; split; [done|]; by exists m|].
    left. by rewrite lookup_delete_ne.
  - destruct (decide (u0 = u)) as [->|Hne]; [|left; split; [done|]; congruence].
    right. right. right. split; [done|]. exists k0. split; [congruence|done].
  - left. split; [|done]. rewrite lookup_delete_ne; [done|]. congruence.
Qed.
End direct.

(** ** The hypotheses are met. *)
(** A call, sent, and not yet answered. *)
Lemma sent_example (B : Type) : ∃ s : cstate B, csteps 10 [LCall; LPush; LSendOk] cinit s ∧
  waiting s !! "u" = Some 0 ∧ calls s !! 0 = Some (mkCall "u" 0 0 KWait false) ∧ queue s = [] ∧ sender s = None ∧
  calls s !! 1 = None ∧ now s = 0%Z ∧ crashed s = false ∧ got s = [].
Proof.
  eexists. split.
  { eapply cs_cons; [by apply (st_call _ _ "u" 0)|norm].
    eapply cs_cons; [eapply (st_push _ _ 0); [done|by simpl; rewrite lookup_insert|done|simpl; lia]|norm].
    eapply cs_cons; [by eapply (st_send_ok _ _ 0)|norm]. apply cs_nil. }
  done.
Qed.
(** C57: then a second with its id: the first never returns. *)
Example C57_example (B : Type) : ∃ s s' : cstate B, csteps 10 [LCall; LPush; LSendOk; LCall] cinit s' ∧ cstep 10 LCall s s' ∧
  waiting s' !! "u" = Some 1 ∧ ∀ ls s'' r, csteps 10 ls s' s'' → ¬ returned s'' 0 r.
Proof.
  destruct (sent_example B) as (s & Hs & Hw & Hc & Hq & Hse & Hn & Ht & Hcr & Hg).
  exists s. eexists. assert (cstep 10 LCall s (mkCS (now s) (<[1 := mkCall "u" (now s) (length (got s)) KQueue false]> (calls s))
      (<["u" := 1]> (waiting s)) (queue s) (sender s) (receiver s) (cln s) (got s) false)) as Hst by by apply st_call.
  split; [eapply (steps_snoc _ [LCall; LPush; LSendOk]); [exact Hs|exact Hst]|]. split; [exact Hst|].
  split; [cbn [waiting]; by rewrite lookup_insert|]. intros ls s'' r Hss.
  eapply (C57_dropped 10 s _ s'' ls 0 _ "u" 1); [by eexists|exact Hw|exact Hc|done|simpl; lia|exact Hst|exact Hn| |exact Hss|done| |]; simpl.
  - by rewrite lookup_insert.
  - rewrite Hq. apply not_elem_of_nil.
  - by rewrite Hse.
Qed.
(** C67: a call whose send fails. *)
Example C67_example (B : Type) : ∃ s s' : cstate B, csteps 10 [LCall; LPush; LSendErr] cinit s ∧ sender s = Some 0 ∧
  waiting s !! "u" = Some 0 ∧ receiver s = None ∧ cln s = CIdle ∧ cstep 10 LSendDeliver s s'.
Proof.
  eexists _, _. split.
  { eapply cs_cons; [by apply (st_call _ _ "u" 0)|norm].
    eapply cs_cons; [eapply (st_push _ _ 0); [done|by simpl; rewrite lookup_insert|done|simpl; lia]|norm].
    eapply cs_cons; [by eapply (st_send_err _ _ 0)|norm]. apply cs_nil. }
  split_and!; try done. by eapply (st_send_deliver _ _ 0).
Qed.
(** C56: the sent call completes. *)
Example C56_example (B : Type) (b : B) : ∃ s s' : cstate B, ∃ ls, csteps 10 [LCall; LPush; LSendOk] cinit s ∧
  csteps 10 ls s s' ∧ returned s' 0 (RResp 0 (mkMsg "u" b)).
Proof.
  destruct (sent_example B) as (s & Hs & Hw & Hc & Hq & Hse & Hn & Ht & Hcr & Hg).
  destruct (C56_completes 10 _ s "u" 0 (mkMsg "u" b) Hs) as (ls & s' & n & Hs' & _ & _ & _ & Hlen & Hr); [by repeat constructor|done|done|].
  exists s, s', ls. split; [done|]. split; [done|].
  rewrite Hlen, Hg in Hr. done.
Qed.
