(** Proofs about robust calls in the whole network (C95). *)
From stdpp Require Import list.
From Verif.Base Require Import Base.
From Verif.Model Require Import RobustNet.

(** * Counting *)
Lemma filter_length_agree {A} (P Q : A → Prop) `{∀ x, Decision (P x)} `{∀ x, Decision (Q x)} (l : list A) :
  (∀ x, x ∈ l → P x ↔ Q x) → length (filter P l) = length (filter Q l).
Proof.
  induction l as [|x l IH]; intros Ha; [done|]. rewrite !filter_cons.
  assert (P x ↔ Q x) as Hx by (apply Ha; by left).
  assert (length (filter P l) = length (filter Q l)) as Hl by (apply IH; intros; apply Ha; by right).
  destruct (decide (P x)), (decide (Q x)); simpl; [by rewrite Hl|tauto|tauto|done].
Qed.
Lemma filter_length_add {A} (P Q : A → Prop) `{∀ x, Decision (P x)} `{∀ x, Decision (Q x)} (l : list A) (k : A) :
  NoDup l → k ∈ l → ¬ P k → Q k → (∀ x, x ∈ l → x ≠ k → P x ↔ Q x) →
  length (filter Q l) = S (length (filter P l)).
Proof.
  induction l as [|x l IH]; intros Hnd Hk HP HQ Ha; [by apply elem_of_nil in Hk|].
  apply NoDup_cons in Hnd as [Hx Hnd]. rewrite !filter_cons. apply elem_of_cons in Hk as [->|Hk].
  - destruct (decide (P x)); [done|]. destruct (decide (Q x)); [|done]. simpl. f_equal. symmetry.
    apply filter_length_agree. intros y Hy. apply Ha; [by right|]. by intros ->.
  - assert (x ≠ k) as Hne by (intros ->; done).
    assert (P x ↔ Q x) as Hx' by (apply Ha; [by left|done]).
    assert (length (filter Q l) = S (length (filter P l))) as Hl.
    { apply IH; try done. intros; apply Ha; [by right|done]. }
    destruct (decide (P x)), (decide (Q x)); simpl; [by rewrite Hl|tauto|tauto|done].
Qed.
(** Some element has not the property: fewer than all have. *)
Lemma filter_length_lt {A} (P : A → Prop) `{∀ x, Decision (P x)} (l : list A) k : k ∈ l → ¬ P k → length (filter P l) < length l.
Proof.
  induction l as [|x l IH]; intros Hk HP; [by apply elem_of_nil in Hk|]. rewrite filter_cons.
  apply elem_of_cons in Hk as [->|Hk].
  - destruct (decide (P x)); [done|]. simpl. pose proof (filter_length P l). lia.
  - specialize (IH Hk HP). destruct (decide (P x)); simpl; lia.
Qed.
Lemma filter_none {A} (P : A → Prop) `{∀ x, Decision (P x)} (l : list A) : (∀ x, x ∈ l → ¬ P x) → length (filter P l) = 0.
Proof.
  induction l as [|x l IH]; intros Ha; [done|]. rewrite filter_cons. destruct (decide (P x)) as [p|].
  - exfalso. apply (Ha x); [by left|done].
  - apply IH. intros. apply Ha. by right.
Qed.
(** A list of different elements of l that have the property is no longer than the filter. *)
Lemma filter_length_ge {A} (P : A → Prop) `{∀ x, Decision (P x)} (l g : list A) :
  NoDup g → (∀ x, x ∈ g → x ∈ l ∧ P x) → length g ≤ length (filter P l).
Proof.
  intros Hnd Hg. apply submseteq_length, NoDup_submseteq; [done|]. intros x Hx.
  apply elem_of_list_filter. destruct (Hg x Hx). done.
Qed.
Lemma sum_upd (f g : nat → nat) (l : list nat) (k : nat) : NoDup l → k ∈ l → (∀ j, j ≠ k → f j = g j) →
  sum_list (g <$> l) + f k = sum_list (f <$> l) + g k.
Proof.
  induction l as [|x l IH]; intros Hnd Hk Ha; [by apply elem_of_nil in Hk|].
  apply NoDup_cons in Hnd as [Hx Hnd]. rewrite !fmap_cons. cbn [sum_list_with id]. apply elem_of_cons in Hk as [->|Hk].
  - assert (f <$> l = g <$> l) as ->; [|lia]. apply list_fmap_ext. intros i y Hy. apply Ha. intros ->.
    apply Hx. by eapply elem_of_list_lookup_2.
  - assert (x ≠ k) as Hne by (intros ->; done). specialize (IH Hnd Hk Ha). rewrite (Ha x Hne). lia.
Qed.
Lemma sum_bound (f : nat → nat) (l : list nat) b : (∀ j, j ∈ l → f j ≤ b) → sum_list (f <$> l) ≤ length l * b.
Proof.
  induction l as [|x l IH]; intros Ha; [done|]. rewrite fmap_cons. cbn [sum_list_with id length].
  assert (f x ≤ b) by (apply Ha; by left). assert (sum_list (f <$> l) ≤ length l * b); [|lia].
  apply IH. intros. apply Ha. by right.
Qed.
Lemma sum_zero (f : nat → nat) (l : list nat) : (∀ j, j ∈ l → f j = 0) → sum_list (f <$> l) = 0.
Proof. intros Ha. pose proof (sum_bound f l 0) as B. rewrite Nat.mul_0_r in B. assert (sum_list (f <$> l) ≤ 0); [|lia].
  apply B. intros j Hj. rewrite (Ha j Hj). done. Qed.

(** * Updates *)
Lemma upd_eq {A} (f : nat → A) k x : upd f k x k = x.
Proof. unfold upd. by rewrite decide_True by done. Qed.
Lemma upd_ne {A} (f : nat → A) k x j : j ≠ k → upd f k x j = f j.
Proof. intros. unfold upd. by rewrite decide_False by done. Qed.
Lemma upd2_cases {A} (f : nat → nat → A) u i x u' i' :
  (u' = u ∧ i' = i ∧ upd2 f u i x u' i' = x) ∨ (¬ (u' = u ∧ i' = i) ∧ upd2 f u i x u' i' = f u' i').
Proof.
  unfold upd2, upd. destruct (decide (u' = u)) as [->|]; [|right; split; [tauto|done]].
  destruct (decide (i' = i)) as [->|]; [by left|]. right. split; [tauto|done].
Qed.

Section proofs.
Context (n q wire m : nat) (cl sv : nat → nat).
Notation nstep := (nstep n q wire m cl sv).
Notation nsteps := (nsteps n q wire m cl sv).

(** Number of parcels of call u that the collector took. *)
Definition taken (s : net) (u : nat) : nat := length (filter (λ i, pl s u i = QLog) (seq 0 n)).

Record inv (s : net) : Prop := mkInv {
  i_calls : ∀ u k, x_call s u = KSend k → k ≤ n;
  i_sent : ∀ u i, pl s u i ≠ QNot ↔ u < m ∧ i < n ∧ ∀ k, x_call s u = KSend k → i < k;
  i_none : ∀ u, x_job s u = JNone → x_count s u = taken s u ∧ taken s u < q;
  i_job : ∀ u, x_job s u ≠ JNone → x_count s u + q = taken s u;
  i_jobs : ∀ u k, x_job s u = JSend k → k ≤ n;
  i_resp : ∀ u i, rl s u i ≠ PNot ↔ ∃ k, x_job s u = JSend k ∧ i < k;
  i_reads : ∀ u i, i ∈ x_reads s u ↔ rl s u i = PRead;
  i_nodup : ∀ u, NoDup (x_reads s u);
  i_wait : ∀ u k, x_call s u = KSend k → length (x_reads s u) < q;
  i_done : ∀ u, x_call s u = KDone → length (x_reads s u) = q;
  i_log : ∀ v u i, (u, i) ∈ x_log s v ↔ sv u = v ∧ pl s u i = QLog;
  i_lognd : ∀ v, NoDup (x_log s v);
  i_fresh : ∀ u, m ≤ u → x_call s u = KSend 0 ∧ x_job s u = JNone }.

Lemma inv_init : 1 ≤ q → inv net_init.
Proof.
  intros Hq. assert (∀ u, taken net_init u = 0) as Ht by (intros u; apply filter_none; done).
  split; try done.
  - intros u k [= <-]. lia.
  - intros u i. split; [done|]. intros (_ & _ & Hk). specialize (Hk 0 eq_refl). lia.
  - intros u _. rewrite Ht. split; [done|lia].
  - intros u i. split; [done|]. by intros (k & ? & _).
  - intros u i. split; [by intros ?%elem_of_nil|done].
  - intros u. constructor.
  - intros v u i. split; [by intros ?%elem_of_nil|by intros [_ ?]].
  - intros v. constructor.
Qed.

(** ** What an update does to the places *)
Lemma pl_set_pl s u i l u' i' : (u' = u ∧ i' = i ∧ pl (set_pl s u i l) u' i' = l) ∨ (¬ (u' = u ∧ i' = i) ∧ pl (set_pl s u i l) u' i' = pl s u' i').
Proof.
  pose proof (upd2_cases (x_tok s) u i (mkToken l (nl s u i) (rl s u i)) u' i') as C. unfold set_pl, set_nl, set_rl, set_tok, pl, nl, rl in *.
  cbn [x_tok] in *. destruct C as [(-> & -> & E)|[? E]]; rewrite E; [by left|by right].
Qed.
Lemma rl_set_pl s u i l u' i' : rl (set_pl s u i l) u' i' = rl s u' i'.
Proof.
  pose proof (upd2_cases (x_tok s) u i (mkToken l (nl s u i) (rl s u i)) u' i') as C. unfold set_pl, set_nl, set_rl, set_tok, pl, nl, rl in *.
  cbn [x_tok] in *. destruct C as [(-> & -> & E)|[? E]]; rewrite E; done.
Qed.
Lemma nl_set_pl s u i l u' i' : nl (set_pl s u i l) u' i' = nl s u' i'.
Proof.
  pose proof (upd2_cases (x_tok s) u i (mkToken l (nl s u i) (rl s u i)) u' i') as C. unfold set_pl, set_nl, set_rl, set_tok, pl, nl, rl in *.
  cbn [x_tok] in *. destruct C as [(-> & -> & E)|[? E]]; rewrite E; done.
Qed.
Lemma rl_set_rl s u i l u' i' : (u' = u ∧ i' = i ∧ rl (set_rl s u i l) u' i' = l) ∨ (¬ (u' = u ∧ i' = i) ∧ rl (set_rl s u i l) u' i' = rl s u' i').
Proof.
  pose proof (upd2_cases (x_tok s) u i (mkToken (pl s u i) (nl s u i) l) u' i') as C. unfold set_pl, set_nl, set_rl, set_tok, pl, nl, rl in *.
  cbn [x_tok] in *. destruct C as [(-> & -> & E)|[? E]]; rewrite E; [by left|by right].
Qed.
Lemma pl_set_rl s u i l u' i' : pl (set_rl s u i l) u' i' = pl s u' i'.
Proof.
  pose proof (upd2_cases (x_tok s) u i (mkToken (pl s u i) (nl s u i) l) u' i') as C. unfold set_pl, set_nl, set_rl, set_tok, pl, nl, rl in *.
  cbn [x_tok] in *. destruct C as [(-> & -> & E)|[? E]]; rewrite E; done.
Qed.
Lemma pl_set_nl s u i l u' i' : pl (set_nl s u i l) u' i' = pl s u' i'.
Proof.
  pose proof (upd2_cases (x_tok s) u i (mkToken (pl s u i) l (rl s u i)) u' i') as C. unfold set_pl, set_nl, set_rl, set_tok, pl, nl, rl in *.
  cbn [x_tok] in *. destruct C as [(-> & -> & E)|[? E]]; rewrite E; done.
Qed.
Lemma rl_set_nl s u i l u' i' : rl (set_nl s u i l) u' i' = rl s u' i'.
Proof.
  pose proof (upd2_cases (x_tok s) u i (mkToken (pl s u i) l (rl s u i)) u' i') as C. unfold set_pl, set_nl, set_rl, set_tok, pl, nl, rl in *.
  cbn [x_tok] in *. destruct C as [(-> & -> & E)|[? E]]; rewrite E; done.
Qed.
Lemma taken_agree s s' u : (∀ i, i < n → pl s u i = QLog ↔ pl s' u i = QLog) → taken s u = taken s' u.
Proof. intros Ha. apply filter_length_agree. intros i Hi%elem_of_seq. apply Ha. lia. Qed.

(** ** Preservation *)
Lemma inv_agree s s' : inv s → x_call s' = x_call s → x_count s' = x_count s → x_job s' = x_job s →
  x_log s' = x_log s → x_reads s' = x_reads s →
  (∀ u i, pl s' u i ≠ QNot ↔ pl s u i ≠ QNot) → (∀ u i, pl s' u i = QLog ↔ pl s u i = QLog) →
  (∀ u i, rl s' u i ≠ PNot ↔ rl s u i ≠ PNot) → (∀ u i, rl s' u i = PRead ↔ rl s u i = PRead) → inv s'.
Proof.
  intros I E1 E2 E3 E4 E5 Hn Hl Hr Hd.
  assert (∀ u, taken s' u = taken s u) as Ht by (intros u; apply taken_agree; intros; apply Hl).
  split; rewrite ?E1, ?E2, ?E3, ?E4, ?E5.
  - apply (i_calls s I).
  - intros u i. rewrite Hn. apply (i_sent s I).
  - intros u. rewrite Ht. apply (i_none s I).
  - intros u. rewrite Ht. apply (i_job s I).
  - apply (i_jobs s I).
  - intros u i. rewrite Hr. apply (i_resp s I).
  - intros u i. rewrite Hd. apply (i_reads s I).
  - apply (i_nodup s I).
  - apply (i_wait s I).
  - apply (i_done s I).
  - intros v u i. rewrite Hl. apply (i_log s I).
  - apply (i_lognd s I).
  - apply (i_fresh s I).
Qed.
Lemma inv_set_pl s u i l : inv s → pl s u i ≠ QNot → pl s u i ≠ QLog → l ≠ QNot → l ≠ QLog → inv (set_pl s u i l).
Proof.
  intros I H1 H2 H3 H4. apply (inv_agree s); try done; intros u' i'; rewrite ?rl_set_pl; try done.
  - destruct (pl_set_pl s u i l u' i') as [(-> & -> & ->)|[_ ->]]; [tauto|done].
  - destruct (pl_set_pl s u i l u' i') as [(-> & -> & ->)|[_ ->]]; [tauto|done].
Qed.
Lemma inv_set_nl s u i l : inv s → inv (set_nl s u i l).
Proof. intros I. apply (inv_agree s); try done; intros u' i'; by rewrite ?rl_set_nl, ?pl_set_nl. Qed.
Lemma inv_set_rl s u i l : inv s → rl s u i ≠ PNot → rl s u i ≠ PRead → l ≠ PNot → l ≠ PRead → inv (set_rl s u i l).
Proof.
  intros I H1 H2 H3 H4. apply (inv_agree s); try done; intros u' i'; rewrite ?pl_set_rl; try done.
  - destruct (rl_set_rl s u i l u' i') as [(-> & -> & ->)|[_ ->]]; [tauto|done].
  - destruct (rl_set_rl s u i l u' i') as [(-> & -> & ->)|[_ ->]]; [tauto|done].
Qed.

Lemma inv_send s u i : inv s → u < m → x_call s u = KSend i → i < n → inv (set_call (set_pl s u i QReq) u (KSend (S i))).
Proof.
  intros I Hu Hk Hi.
  assert (pl s u i = QNot) as Hq.
  { destruct (decide (pl s u i = QNot)) as [|H]; [done|]. apply (i_sent s I) in H as (_ & _ & H). specialize (H i Hk). lia. }
  set (s' := set_call (set_pl s u i QReq) u (KSend (S i))).
  assert (∀ u' i', (u' = u ∧ i' = i ∧ pl s' u' i' = QReq) ∨ (¬ (u' = u ∧ i' = i) ∧ pl s' u' i' = pl s u' i')) as Hpl by apply pl_set_pl.
  assert (∀ u' i', rl s' u' i' = rl s u' i') as Hrl by apply rl_set_pl.
  assert (∀ u' i', pl s' u' i' = QLog ↔ pl s u' i' = QLog) as Hlog.
  { intros u' i'. destruct (Hpl u' i') as [(-> & -> & ->)|[_ ->]]; [|done]. by rewrite Hq. }
  assert (∀ u, taken s' u = taken s u) as Ht by (intros u'; apply taken_agree; intros; apply Hlog).
  assert (x_call s' u = KSend (S i)) as Ec by apply upd_eq.
  assert (∀ u', u' ≠ u → x_call s' u' = x_call s u') as Ec' by (intros; by apply upd_ne).
  split.
  - intros u' k E. destruct (decide (u' = u)) as [->|Hne]; [|rewrite Ec' in E by done; by eapply (i_calls s I)].
    rewrite Ec in E. injection E as <-. lia.
  - intros u' i'. destruct (Hpl u' i') as [(-> & -> & ->)|[Hne ->]].
    + split; [intros _|done]. split; [done|]. split; [done|]. intros k E. rewrite Ec in E. injection E as <-. lia.
    + rewrite (i_sent s I). destruct (decide (u' = u)) as [->|Hneu]; [|by rewrite Ec'].
      rewrite Ec, Hk. split; intros (? & ? & H); (split; [done|]; split; [done|]); intros k [= <-].
      * specialize (H i eq_refl). lia.
      * specialize (H (S i) eq_refl). assert (i' ≠ i) by (intros ->; tauto). lia.
  - intros u' E. rewrite Ht. by apply (i_none s I).
  - intros u' E. rewrite Ht. by apply (i_job s I).
  - apply (i_jobs s I).
  - intros u' i'. rewrite Hrl. apply (i_resp s I).
  - intros u' i'. rewrite Hrl. apply (i_reads s I).
  - apply (i_nodup s I).
  - intros u' k E. destruct (decide (u' = u)) as [->|Hne]; [by apply (i_wait s I u i)|]. rewrite Ec' in E by done. by eapply (i_wait s I).
  - intros u' E. destruct (decide (u' = u)) as [->|Hne]; [by rewrite Ec in E|]. rewrite Ec' in E by done. by apply (i_done s I).
  - intros v u' i'. rewrite Hlog. apply (i_log s I).
  - apply (i_lognd s I).
  - intros u' Hu'. assert (u' ≠ u) by lia. rewrite Ec' by done. by apply (i_fresh s I).
Qed.

(** A parcel goes to the collector. *)
Lemma inv_collect s s' u i : inv s → n < 2 * q → u < m → i < n → pl s u i = QColl →
  (S (x_count s u) < q ∧ s' = set_count (add_log (set_pl s u i QLog) (sv u) u i) u (S (x_count s u)) ∨
   q ≤ S (x_count s u) ∧ s' = set_job (set_count (add_log (set_pl s u i QLog) (sv u) u i) u 0) u JRun) →
  inv s' ∧ (q ≤ S (x_count s u) → x_job s u = JNone).
Proof.
  intros I H2 Hu Hi Hp Hs'.
  assert (∀ u' i', (u' = u ∧ i' = i ∧ pl s' u' i' = QLog) ∨ (¬ (u' = u ∧ i' = i) ∧ pl s' u' i' = pl s u' i')) as Hpl.
  { destruct Hs' as [[_ ->]|[_ ->]]; apply pl_set_pl. }
  assert (∀ u' i', rl s' u' i' = rl s u' i') as Hrl by (destruct Hs' as [[_ ->]|[_ ->]]; apply rl_set_pl).
  assert (x_call s' = x_call s) as Ec by by destruct Hs' as [[_ ->]|[_ ->]].
  assert (x_reads s' = x_reads s) as Er by by destruct Hs' as [[_ ->]|[_ ->]].
  assert (x_log s' = upd (x_log s) (sv u) (x_log s (sv u) ++ [(u, i)])) as El by by destruct Hs' as [[_ ->]|[_ ->]].
  assert (∀ u', u' ≠ u → x_count s' u' = x_count s u' ∧ x_job s' u' = x_job s u') as Eo.
  { intros u' Hne. destruct Hs' as [[_ ->]|[_ ->]]; cbn [x_count x_job set_count set_job]; rewrite ?upd_ne by done; done. }
  assert (taken s' u = S (taken s u)) as Htu.
  { apply (filter_length_add _ _ _ i).
    - apply NoDup_seq.
    - apply elem_of_seq. lia.
    - by rewrite Hp.
    - destruct (Hpl u i) as [(_ & _ & E)|[E _]]; [done|tauto].
    - intros j _ Hj. destruct (Hpl u j) as [(_ & -> & _)|[_ ->]]; done. }
  assert (∀ u', u' ≠ u → taken s' u' = taken s u') as Hto.
  { intros u' Hne. apply taken_agree. intros j _. destruct (Hpl u' j) as [(-> & _)|[_ ->]]; done. }
  assert (taken s' u ≤ n) as Hbound.
  { unfold taken. etransitivity; [apply filter_length|]. by rewrite seq_length. }
  assert (q ≤ S (x_count s u) → x_job s u = JNone) as Hstart.
  { intros Hq. destruct (x_job s u) eqn:E; [done| |]; exfalso; pose proof (i_job s I u) as Hj; rewrite E in Hj; specialize (Hj ltac:(done)); lia. }
  split; [|exact Hstart].
  assert ((x_job s' u = x_job s u ∧ x_count s' u = S (x_count s u) ∧ S (x_count s u) < q) ∨
          (x_job s u = JNone ∧ x_job s' u = JRun ∧ x_count s' u = 0 ∧ q ≤ S (x_count s u))) as Hju.
  { destruct Hs' as [[? ->]|[? ->]]; cbn [x_count x_job set_count set_job]; rewrite ?upd_eq; [by left|right]. split; [by apply Hstart|done]. }
  assert (∀ u' i', pl s' u' i' ≠ QNot ↔ pl s u' i' ≠ QNot) as Hn.
  { intros u' i'. destruct (Hpl u' i') as [(-> & -> & ->)|[_ ->]]; [|done]. by rewrite Hp. }
  split; rewrite ?Ec, ?Er.
  - apply (i_calls s I).
  - intros u' i'. rewrite Hn. apply (i_sent s I).
  - intros u' E. destruct (decide (u' = u)) as [->|Hne].
    + destruct Hju as [(E1 & E2 & E3)|(_ & E1 & _)]; [|congruence]. rewrite E1 in E. destruct (i_none s I u E) as [E4 _]. lia.
    + destruct (Eo u' Hne) as [E1 E2]. rewrite E1, (Hto _ Hne). rewrite E2 in E. by apply (i_none s I).
  - intros u' E. destruct (decide (u' = u)) as [->|Hne].
    + destruct Hju as [(E1 & E2 & E3)|(E0 & E1 & E2 & E3)].
      * rewrite E1 in E. pose proof (i_job s I u E). lia.
      * destruct (i_none s I u E0). lia.
    + destruct (Eo u' Hne) as [E1 E2]. rewrite E1, (Hto _ Hne). rewrite E2 in E. by apply (i_job s I).
  - intros u' k E. destruct (decide (u' = u)) as [->|Hne].
    + destruct Hju as [(E1 & _)|(_ & E1 & _)]; rewrite E1 in E; [by apply (i_jobs s I u)|done].
    + destruct (Eo u' Hne) as [_ E2]. rewrite E2 in E. by eapply (i_jobs s I).
  - intros u' i'. rewrite Hrl, (i_resp s I). destruct (decide (u' = u)) as [->|Hne].
    + destruct Hju as [(E1 & _)|(E0 & E1 & _)]; [by rewrite E1|]. rewrite E0, E1. split; intros (? & ? & _); done.
    + destruct (Eo u' Hne) as [_ E2]. by rewrite E2.
  - intros u' i'. rewrite Hrl. apply (i_reads s I).
  - apply (i_nodup s I).
  - apply (i_wait s I).
  - apply (i_done s I).
  - intros v u' i'. rewrite El. destruct (decide (v = sv u)) as [->|Hne].
    + rewrite upd_eq, elem_of_app, (i_log s I), elem_of_list_singleton.
      destruct (Hpl u' i') as [(-> & -> & ->)|[Hne ->]]; [tauto|]. split; [|tauto].
      intros [?|[= -> ->]]; [done|]. exfalso. tauto.
    + rewrite upd_ne by done. rewrite (i_log s I). destruct (Hpl u' i') as [(-> & -> & ->)|[_ ->]]; [|done].
      split; intros [? _]; congruence.
  - intros v. rewrite El. destruct (decide (v = sv u)) as [->|Hne]; [rewrite upd_eq|rewrite upd_ne by done; apply (i_lognd s I)].
    apply NoDup_app. split; [apply (i_lognd s I)|]. split; [|apply NoDup_singleton].
    intros x Hx ->%elem_of_list_singleton. apply (i_log s I) in Hx as [_ Hx]. congruence.
  - intros u' Hu'. assert (u' ≠ u) as Hne by lia. destruct (Eo u' Hne) as [_ E2]. rewrite E2. by apply (i_fresh s I).
Qed.

Lemma inv_handler s u : inv s → u < m → x_job s u = JRun → inv (set_job s u (JSend 0)).
Proof.
  intros I Hu Hj. set (s' := set_job s u (JSend 0)).
  assert (x_job s' u = JSend 0) as Eu by apply upd_eq.
  assert (∀ u', u' ≠ u → x_job s' u' = x_job s u') as Eo by (intros; by apply upd_ne).
  split; try apply I.
  - intros u' E. destruct (decide (u' = u)) as [->|Hne]; [congruence|]. rewrite Eo in E by done. by apply (i_none s I).
  - intros u' E. destruct (decide (u' = u)) as [->|Hne]; [apply (i_job s I); congruence|]. rewrite Eo in E by done. by apply (i_job s I).
  - intros u' k E. destruct (decide (u' = u)) as [->|Hne]; [rewrite Eu in E; injection E as <-; lia|].
    rewrite Eo in E by done. by eapply (i_jobs s I).
  - intros u' i'. change (rl s' u' i') with (rl s u' i'). rewrite (i_resp s I). destruct (decide (u' = u)) as [->|Hne]; [|by rewrite Eo].
    rewrite Eu, Hj. split; [by intros (? & ? & _)|]. intros (k & [= <-] & ?). lia.
  - intros u' Hu'. assert (u' ≠ u) by lia. rewrite Eo by done. by apply (i_fresh s I).
Qed.

Lemma inv_back s u i : inv s → u < m → x_job s u = JSend i → i < n → inv (set_job (set_rl s u i PBack) u (JSend (S i))).
Proof.
  intros I Hu Hj Hi. set (s' := set_job (set_rl s u i PBack) u (JSend (S i))).
  assert (x_job s' u = JSend (S i)) as Eu by apply upd_eq.
  assert (∀ u', u' ≠ u → x_job s' u' = x_job s u') as Eo by (intros; by apply upd_ne).
  assert (∀ u' i', (u' = u ∧ i' = i ∧ rl s' u' i' = PBack) ∨ (¬ (u' = u ∧ i' = i) ∧ rl s' u' i' = rl s u' i')) as Hrl by apply rl_set_rl.
  assert (∀ u' i', pl s' u' i' = pl s u' i') as Hpl by apply pl_set_rl.
  assert (rl s u i = PNot) as Hq.
  { destruct (decide (rl s u i = PNot)) as [|H]; [done|]. apply (i_resp s I) in H as (k & Hk & ?). assert (k = i) by congruence. lia. }
  assert (∀ u, taken s' u = taken s u) as Ht by (intros u'; apply taken_agree; intros; by rewrite Hpl).
  split.
  - apply (i_calls s I).
  - intros u' i'. rewrite Hpl. apply (i_sent s I).
  - intros u' E. rewrite Ht. destruct (decide (u' = u)) as [->|Hne]; [congruence|]. rewrite Eo in E by done. by apply (i_none s I).
  - intros u' E. rewrite Ht. destruct (decide (u' = u)) as [->|Hne]; [apply (i_job s I); congruence|]. rewrite Eo in E by done. by apply (i_job s I).
  - intros u' k E. destruct (decide (u' = u)) as [->|Hne]; [rewrite Eu in E; injection E as <-; lia|].
    rewrite Eo in E by done. by eapply (i_jobs s I).
  - intros u' i'. destruct (Hrl u' i') as [(-> & -> & ->)|[Hne ->]].
    + split; [|done]. intros _. exists (S i). split; [done|lia].
    + rewrite (i_resp s I). destruct (decide (u' = u)) as [->|Hneu]; [|by rewrite Eo]. rewrite Eu, Hj. split.
      * intros (k & [= <-] & ?). exists (S i). split; [done|lia].
      * intros (k & [= <-] & ?). exists i. split; [done|]. assert (i' ≠ i) by (intros ->; tauto). lia.
  - intros u' i'. rewrite (i_reads s I : ∀ u i, i ∈ x_reads s' u ↔ rl s u i = PRead).
    destruct (Hrl u' i') as [(-> & -> & ->)|[_ ->]]; [by rewrite Hq|done].
  - apply (i_nodup s I).
  - apply (i_wait s I).
  - apply (i_done s I).
  - intros v u' i'. rewrite Hpl. apply (i_log s I).
  - apply (i_lognd s I).
  - intros u' Hu'. assert (u' ≠ u) by lia. rewrite Eo by done. by apply (i_fresh s I).
Qed.

Lemma inv_read s s' u i : inv s → u < m → i < n → x_call s u = KSend n → rl s u i = PResp →
  (S (length (x_reads s u)) < q ∧ s' = add_read (set_rl s u i PRead) u i ∨
   q ≤ S (length (x_reads s u)) ∧ s' = set_call (add_read (set_rl s u i PRead) u i) u KDone) → inv s'.
Proof.
  intros I Hu Hi Hk Hr Hs'.
  assert (∀ u' i', (u' = u ∧ i' = i ∧ rl s' u' i' = PRead) ∨ (¬ (u' = u ∧ i' = i) ∧ rl s' u' i' = rl s u' i')) as Hrl.
  { destruct Hs' as [[_ ->]|[_ ->]]; apply rl_set_rl. }
  assert (∀ u' i', pl s' u' i' = pl s u' i') as Hpl by (destruct Hs' as [[_ ->]|[_ ->]]; apply pl_set_rl).
  assert (x_log s' = x_log s ∧ x_job s' = x_job s ∧ x_count s' = x_count s) as (El & Ej & En) by by destruct Hs' as [[_ ->]|[_ ->]].
  assert (x_reads s' = upd (x_reads s) u (x_reads s u ++ [i])) as Er by by destruct Hs' as [[_ ->]|[_ ->]].
  assert (∀ u', u' ≠ u → x_call s' u' = x_call s u') as Eo.
  { intros u' Hne. destruct Hs' as [[_ ->]|[_ ->]]; [done|]. cbn [x_call set_call]. by rewrite upd_ne. }
  assert (∀ u, taken s' u = taken s u) as Ht by (intros u'; apply taken_agree; intros; by rewrite Hpl).
  assert (length (x_reads s u) < q) as Hlt by (by apply (i_wait s I u n)).
  assert ((x_call s' u = KSend n ∧ S (length (x_reads s u)) < q) ∨ (x_call s' u = KDone ∧ q = S (length (x_reads s u)))) as Hcu.
  { destruct Hs' as [[? ->]|[? ->]]; [by left|right]. cbn [x_call set_call]. rewrite upd_eq. split; [done|lia]. }
  split; rewrite ?El, ?Ej, ?En.
  - intros u' k E. destruct (decide (u' = u)) as [->|Hne]; [|rewrite Eo in E by done; by eapply (i_calls s I)].
    destruct Hcu as [[E' _]|[E' _]]; rewrite E' in E; [injection E as <-; lia|done].
  - intros u' i'. rewrite Hpl, (i_sent s I). destruct (decide (u' = u)) as [->|Hne]; [|by rewrite Eo].
    split; intros (? & ? & H); (split; [done|]; split; [done|]).
    + intros k E. destruct Hcu as [[E' _]|[E' _]]; rewrite E' in E; [injection E as <-; lia|done].
    + intros k E. rewrite Hk in E. injection E as <-. lia.
  - intros u'. rewrite Ht. apply (i_none s I).
  - intros u'. rewrite Ht. apply (i_job s I).
  - apply (i_jobs s I).
  - intros u' i'. rewrite <-(i_resp s I). destruct (Hrl u' i') as [(-> & -> & ->)|[_ ->]]; [by rewrite Hr|done].
  - intros u' i'. rewrite Er. destruct (decide (u' = u)) as [->|Hne].
    + rewrite upd_eq, elem_of_app, elem_of_list_singleton, (i_reads s I).
      destruct (Hrl u i') as [(_ & -> & ->)|[Hne ->]]; [tauto|]. split; [|tauto]. intros [?| ->]; [done|tauto].
    + rewrite upd_ne by done. rewrite (i_reads s I). destruct (Hrl u' i') as [(-> & _)|[_ ->]]; done.
  - intros u'. rewrite Er. destruct (decide (u' = u)) as [->|Hne]; [|rewrite upd_ne by done; apply (i_nodup s I)].
    rewrite upd_eq. apply NoDup_app. split; [apply (i_nodup s I)|]. split; [|apply NoDup_singleton].
    intros x Hx ->%elem_of_list_singleton. apply (i_reads s I) in Hx. congruence.
  - intros u' k E. rewrite Er. destruct (decide (u' = u)) as [->|Hne].
    + rewrite upd_eq, app_length. simpl. destruct Hcu as [[_ ?]|[E' _]]; [lia|congruence].
    + rewrite upd_ne by done. rewrite Eo in E by done. by eapply (i_wait s I).
  - intros u' E. rewrite Er. destruct (decide (u' = u)) as [->|Hne].
    + rewrite upd_eq, app_length. simpl. destruct Hcu as [[E' ?]|[_ ?]]; [congruence|lia].
    + rewrite upd_ne by done. rewrite Eo in E by done. by apply (i_done s I).
  - intros v u' i'. rewrite Hpl. apply (i_log s I).
  - apply (i_lognd s I).
  - intros u' Hu'. assert (u' ≠ u) by lia. rewrite Eo by done. by apply (i_fresh s I).
Qed.

Lemma inv_step s p s' : inv s → n < 2 * q → nstep s p s' → inv s'.
Proof.
  intros I H2 Hs. destruct Hs.
  - by apply inv_send.
  - apply inv_set_pl; try done; congruence.
  - apply inv_set_pl; try done; congruence.
  - apply inv_set_pl; try done; congruence.
  - apply inv_set_nl, inv_set_pl; try done; congruence.
  - by apply inv_set_nl.
  - apply inv_set_pl; try done; congruence.
  - apply inv_set_pl; try done; congruence.
  - apply inv_set_pl; try done; congruence.
  - apply inv_set_pl; try done; congruence.
  - eapply inv_collect; try done. by left.
  - eapply inv_collect; try done. by right.
  - by apply inv_handler.
  - by apply inv_back.
  - apply inv_set_rl; try done; congruence.
  - apply inv_set_rl; try done; congruence.
  - apply inv_set_rl; try done; congruence.
  - apply inv_set_rl; try done; congruence.
  - apply inv_set_nl, inv_set_rl; try done; congruence.
  - apply inv_set_rl; try done; congruence.
  - apply inv_set_rl; try done; congruence.
  - apply inv_set_rl; try done; congruence.
  - apply inv_set_rl; try done; congruence.
  - apply inv_set_rl; try done; congruence.
  - apply inv_set_rl; try done; congruence.
  - eapply inv_read; try done. by left.
  - eapply inv_read; try done. by right.
Qed.
Lemma inv_steps ps s s' : inv s → n < 2 * q → nsteps ps s s' → inv s'.
Proof. intros I H2 Hs. induction Hs; [done|]. eapply inv_step; [by apply IHHs|done|done]. Qed.
Lemma reach_inv ps s : 1 ≤ q → n < 2 * q → nsteps ps net_init s → inv s.
Proof. intros. eapply inv_steps; [by apply inv_init|done|done]. Qed.

(** ** Every step makes progress *)
Definition prank (l : ploc) : nat :=
  match l with QNot => 0 | QReq => 1 | QReqH => 2 | QUp => 3 | QUpH => 4 | QOut => 5 | QOutH => 6 | QTo => 7 | QToH => 8 | QColl => 9 | QLog => 10 end.
Definition nrank (l : nloc) : nat := match l with TNone => 0 | TPend => 1 | TIn => 2 | TGone => 2 end.
Definition rrank (l : rloc) : nat :=
  match l with PNot => 0 | PBack => 1 | PBackH => 2 | PFrom => 3 | PFromH => 4 | PInc => 5 | PIncH => 6 | PFront => 7 | PFrontH => 8
  | PDown => 9 | PDownH => 10 | PResp => 11 | PRead => 12 | PEarly => 12 end.
Definition trank (t : token) : nat := 2 * prank (tk_parcel t) + nrank (tk_note t) + rrank (tk_resp t).
Definition crank (k : call) : nat := match k with KSend i => i | KDone => S n end.
Definition jrank (j : job) : nat := match j with JNone => 0 | JRun => 1 | JSend i => 2 + i end.
Definition urank (s : net) (u : nat) : nat := sum_list ((λ i, trank (x_tok s u i)) <$> seq 0 n) + crank (x_call s u) + jrank (x_job s u).
Definition rank (s : net) : nat := sum_list (urank s <$> seq 0 m).

Lemma rank_bound s : inv s → rank s ≤ m * (36 * n + 3).
Proof.
  intros I. unfold rank. rewrite <-(seq_length m 0) at 2. apply sum_bound. intros u _. unfold urank.
  assert (sum_list ((λ i, trank (x_tok s u i)) <$> seq 0 n) ≤ n * 34) as H1.
  { rewrite <-(seq_length n 0) at 2. apply sum_bound. intros i _. unfold trank.
    destruct (tk_parcel _), (tk_note _), (tk_resp _); simpl; lia. }
  assert (crank (x_call s u) ≤ S n) as H2.
  { destruct (x_call s u) as [k|] eqn:E; simpl; [|lia]. pose proof (i_calls s I u k E). lia. }
  assert (jrank (x_job s u) ≤ 2 + n) as H3.
  { destruct (x_job s u) as [| |k] eqn:E; simpl; [lia|lia|]. pose proof (i_jobs s I u k E). lia. }
  lia.
Qed.
Lemma rank_upd s s' u : u < m → (∀ u', u' ≠ u → urank s' u' = urank s u') → urank s u < urank s' u → rank s < rank s'.
Proof.
  intros Hu Ha Hlt. pose proof (sum_upd (urank s) (urank s') (seq 0 m) u) as H. unfold rank.
  assert (sum_list (urank s' <$> seq 0 m) + urank s u = sum_list (urank s <$> seq 0 m) + urank s' u); [|lia].
  apply H; [apply NoDup_seq|apply elem_of_seq; lia|]. intros j Hj. symmetry. by apply Ha.
Qed.
(** The update of one token and possibly of the call or job of the same u. *)
Lemma rank_tok s s' u i : u < m → i < n → (∀ u' i', ¬ (u' = u ∧ i' = i) → x_tok s' u' i' = x_tok s u' i') →
  trank (x_tok s u i) < trank (x_tok s' u i) →
  (∀ u', u' ≠ u → x_call s' u' = x_call s u' ∧ x_job s' u' = x_job s u') →
  crank (x_call s u) ≤ crank (x_call s' u) → jrank (x_job s u) ≤ jrank (x_job s' u) → rank s < rank s'.
Proof.
  intros Hu Hi Ht Hlt Ha Hc Hj. apply (rank_upd s s' u Hu).
  - intros u' Hne. destruct (Ha u' Hne) as [E1 E2]. unfold urank. rewrite E1, E2. do 2 f_equal. f_equal.
    apply list_fmap_ext. intros _ j _. rewrite Ht; [done|tauto].
  - unfold urank. assert (sum_list ((λ j, trank (x_tok s' u j)) <$> seq 0 n) + trank (x_tok s u i) =
      sum_list ((λ j, trank (x_tok s u j)) <$> seq 0 n) + trank (x_tok s' u i)) as H; [|lia].
    apply (sum_upd (λ j, trank (x_tok s u j)) (λ j, trank (x_tok s' u j))).
    + apply NoDup_seq.
    + apply elem_of_seq. lia.
    + intros j Hj'. rewrite Ht; [done|tauto].
Qed.
Lemma tok_set s u i t u' i' : ¬ (u' = u ∧ i' = i) → x_tok (set_tok s u i t) u' i' = x_tok s u' i'.
Proof. intros Hne. cbn [x_tok set_tok]. destruct (upd2_cases (x_tok s) u i t u' i') as [(-> & -> & _)|[_ E]]; [tauto|done]. Qed.
Lemma tok_set_eq s u i t : x_tok (set_tok s u i t) u i = t.
Proof. cbn [x_tok set_tok]. unfold upd2. by rewrite !upd_eq. Qed.
Lemma rank_set s u i t : u < m → i < n → trank (x_tok s u i) < trank t → rank s < rank (set_tok s u i t).
Proof. intros Hu Hi Hlt. apply (rank_tok s _ u i); try done; [intros; by apply tok_set|by rewrite tok_set_eq]. Qed.
Lemma rank_pl s u i l : u < m → i < n → prank (pl s u i) < prank l → rank s < rank (set_pl s u i l).
Proof. intros Hu Hi Hlt. apply rank_set; try done. unfold trank, pl, nl, rl in *. cbn. lia. Qed.
Lemma rank_rl s u i l : u < m → i < n → rrank (rl s u i) < rrank l → rank s < rank (set_rl s u i l).
Proof. intros Hu Hi Hlt. apply rank_set; try done. unfold trank, pl, nl, rl in *. cbn. lia. Qed.
Lemma rank_nt s u i l : u < m → i < n → nrank (nl s u i) < nrank l → rank s < rank (set_nl s u i l).
Proof. intros Hu Hi Hlt. apply rank_set; try done. unfold trank, pl, nl, rl in *. cbn. lia. Qed.
Lemma rank_job s u j : u < m → jrank (x_job s u) < jrank j → rank s < rank (set_job s u j).
Proof.
  intros Hu Hlt. apply (rank_upd s _ u Hu).
  - intros u' Hne. unfold urank. cbn [x_tok x_call x_job set_job]. by rewrite upd_ne.
  - unfold urank. cbn [x_tok x_call x_job set_job]. rewrite upd_eq. lia.
Qed.
Lemma rank_call s u k : u < m → crank (x_call s u) < crank k → rank s < rank (set_call s u k).
Proof.
  intros Hu Hlt. apply (rank_upd s _ u Hu).
  - intros u' Hne. unfold urank. cbn [x_tok x_call x_job set_call]. by rewrite upd_ne.
  - unfold urank. cbn [x_tok x_call x_job set_call]. rewrite upd_eq. lia.
Qed.
Ltac known := match goal with E : pl ?s ?u ?i = _ |- context [pl ?s ?u ?i] => rewrite E | E : rl ?s ?u ?i = _ |- context [rl ?s ?u ?i] => rewrite E
  | E : nl ?s ?u ?i = _ |- context [nl ?s ?u ?i] => rewrite E end.
Lemma rank_step s p s' : inv s → n < 2 * q → nstep s p s' → rank s < rank s'.
Proof.
  intros I H2 Hs.
  assert (∀ s v u i, rank (add_log s v u i) = rank s) as Hlog by done.
  assert (∀ s u i, rank (add_read s u i) = rank s) as Hread by done.
  assert (∀ s u c, rank (set_count s u c) = rank s) as Hcount by done.
  destruct Hs as [u i Hu Hc Hi _|u i Hu Hi Hl _|u i Hu Hi Hl _|u i Hu Hi Hl _|u i Hu Hi Hl _|u i Hu Hi Hl|u i Hu Hi Hl _|u i Hu Hi Hl _
    |u i Hu Hi Hl _|u i Hu Hi Hl _|u i Hu Hi Hl _|u i Hu Hi Hl Hq|u Hu Hj|u i Hu Hj Hi _|u i Hu Hi Hl _|u i Hu Hi Hl _
    |u i Hu Hi Hl _|u i Hu Hi Hl _|u i Hu Hi Hl _ Ht|u i Hu Hi Hl _ _|u i Hu Hi Hl _|u i Hu Hi Hl _|u i Hu Hi Hl _|u i Hu Hi Hl _
    |u i Hu Hi Hl _|u i Hu Hi Hc Hl _|u i Hu Hi Hc Hl _].
  - etransitivity; [apply (rank_pl s u i QReq)|apply rank_call]; try done.
    + destruct (decide (pl s u i = QNot)) as [->|H]; [simpl; lia|]. apply (i_sent s I) in H as (_ & _ & H).
      exfalso. assert (i < i) by (apply H; done). lia.
    + cbn [x_call set_pl set_tok]. rewrite Hc. simpl. lia.
  - apply rank_pl; try done. rewrite Hl. simpl; lia.
  - apply rank_pl; try done. rewrite Hl. simpl; lia.
  - apply rank_pl; try done. rewrite Hl. simpl; lia.
  - unfold set_nl. apply (rank_tok s _ u i); try done.
    + intros. rewrite tok_set by done. unfold set_pl. by rewrite tok_set.
    + rewrite tok_set_eq. unfold trank. cbn [tk_parcel tk_note tk_resp]. fold (pl s u i) (nl s u i) (rl s u i).
      unfold pl at 2, rl at 2, set_pl. rewrite tok_set_eq. cbn [tk_parcel tk_note tk_resp]. rewrite Hl.
      destruct (nl s u i); simpl; lia.
  - apply rank_nt; try done. rewrite Hl. simpl; lia.
  - apply rank_pl; try done. rewrite Hl. simpl; lia.
  - apply rank_pl; try done. rewrite Hl. simpl; lia.
  - apply rank_pl; try done. rewrite Hl. simpl; lia.
  - apply rank_pl; try done. rewrite Hl. simpl; lia.
  - rewrite Hcount, Hlog. apply rank_pl; try done. rewrite Hl. simpl; lia.
  - assert (x_job s u = JNone) as Hj.
    { destruct (x_job s u) eqn:E; [done| |]; exfalso; pose proof (i_job s I u) as Hj; rewrite E in Hj; specialize (Hj ltac:(done));
        assert (taken s u ≤ n) by (unfold taken; etransitivity; [apply filter_length|by rewrite seq_length]);
        assert (taken s u < n); try lia;
        (unfold taken; rewrite <-(seq_length n 0) at 2; apply (filter_length_lt _ _ i); [apply elem_of_seq; lia|by rewrite Hl]). }
    etransitivity; [apply (rank_pl s u i QLog); try done|].
    + rewrite Hl. simpl; lia.
    + rewrite <-(Hlog _ (sv u) u i), <-(Hcount _ u 0). apply rank_job; [done|]. cbn [x_job set_count add_log set_pl set_tok]. rewrite Hj. simpl. lia.
  - apply rank_job; [done|]. rewrite Hj. simpl; lia.
  - etransitivity; [apply (rank_rl s u i PBack)|apply rank_job]; try done.
    + destruct (decide (rl s u i = PNot)) as [->|H]; [simpl; lia|]. apply (i_resp s I) in H as (k & E & ?).
      exfalso. assert (k = i) by congruence. lia.
    + cbn [x_job set_rl set_tok]. rewrite Hj. simpl. lia.
  - apply rank_rl; try done. rewrite Hl. simpl; lia.
  - apply rank_rl; try done. rewrite Hl. simpl; lia.
  - apply rank_rl; try done. rewrite Hl. simpl; lia.
  - apply rank_rl; try done. rewrite Hl. simpl; lia.
  - unfold set_nl. apply (rank_tok s _ u i); try done.
    + intros. rewrite tok_set by done. unfold set_rl. by rewrite tok_set.
    + rewrite tok_set_eq. unfold trank. cbn [tk_parcel tk_note tk_resp]. fold (pl s u i) (nl s u i) (rl s u i).
      unfold pl at 2, rl at 2, set_rl. rewrite tok_set_eq. cbn [tk_parcel tk_note tk_resp]. rewrite Hl, Ht. simpl; lia.
  - apply rank_rl; try done. rewrite Hl. simpl; lia.
  - apply rank_rl; try done. rewrite Hl. simpl; lia.
  - apply rank_rl; try done. rewrite Hl. simpl; lia.
  - apply rank_rl; try done. rewrite Hl. simpl; lia.
  - apply rank_rl; try done. rewrite Hl. simpl; lia.
  - apply rank_rl; try done. rewrite Hl. simpl; lia.
  - rewrite Hread. apply rank_rl; try done. rewrite Hl. simpl; lia.
  - etransitivity; [apply (rank_rl s u i PRead); try done|].
    + rewrite Hl. simpl; lia.
    + rewrite <-(Hread _ u i). apply rank_call; [done|]. cbn [x_call add_read set_rl set_tok]. rewrite Hc. simpl. lia.
Qed.
Lemma rank_steps ps s s' : inv s → n < 2 * q → nsteps ps s s' → length ps + rank s ≤ rank s'.
Proof.
  intros I H2 Hs. induction Hs as [s|ps s1 p s2 s3 Hs IH H1]; [done|]. specialize (IH I). rewrite app_length. simpl.
  pose proof (rank_step s2 p s3 (inv_steps ps s1 s2 I H2 Hs) H2 H1). lia.
Qed.
Lemma run_bound ps s : 1 ≤ q → n < 2 * q → nsteps ps net_init s → length ps ≤ m * (36 * n + 3).
Proof.
  intros Hq H2 Hs. pose proof (rank_steps ps net_init s (inv_init Hq) H2 Hs).
  pose proof (rank_bound s (reach_inv ps s Hq H2 Hs)). lia.
Qed.

(** ** Notes exist for calls and relays only *)
Lemma nl_set_nl s u i l u' i' : (u' = u ∧ i' = i ∧ nl (set_nl s u i l) u' i' = l) ∨ nl (set_nl s u i l) u' i' = nl s u' i'.
Proof.
  pose proof (upd2_cases (x_tok s) u i (mkToken (pl s u i) l (rl s u i)) u' i') as C. unfold set_nl, set_tok, pl, nl, rl in *.
  cbn [x_tok] in *. destruct C as [(-> & -> & E)|[? E]]; rewrite E; [by left|by right].
Qed.
Lemma nl_set_rl s u i l u' i' : nl (set_rl s u i l) u' i' = nl s u' i'.
Proof.
  pose proof (upd2_cases (x_tok s) u i (mkToken (pl s u i) (nl s u i) l) u' i') as C. unfold set_rl, set_tok, pl, nl, rl in *.
  cbn [x_tok] in *. destruct C as [(-> & -> & E)|[? E]]; rewrite E; done.
Qed.
Lemma nl_step s p s' u i : nstep s p s' → nl s' u i = nl s u i ∨ (u < m ∧ i < n).
Proof.
  intros Hs. destruct Hs as [a b Ha _ Hb| | | |a b Ha Hb|a b Ha Hb| | | | | | | | | | | | |a b Ha Hb| | | | | | | | ];
    cbn [nl x_tok set_job set_count set_call add_log add_read]; try (left; apply nl_set_pl); try (left; apply nl_set_rl); try (by left).
  - destruct (nl_set_nl (set_pl s a b QOut) a b TPend u i) as [(-> & -> & _)|E]; [by right|left]. etransitivity; [apply E|apply nl_set_pl].
  - destruct (nl_set_nl s a b TIn u i) as [(-> & -> & _)|E]; [by right|by left].
  - destruct (nl_set_nl (set_rl s a b PIncH) a b TGone u i) as [(-> & -> & _)|E]; [by right|left]. etransitivity; [apply E|apply nl_set_rl].
Qed.
Lemma nl_range ps s u i : nsteps ps net_init s → nl s u i ≠ TNone → u < m ∧ i < n.
Proof.
  remember net_init as s0 eqn:E0. intros Hs. induction Hs as [s|ps s1 p s2 s3 Hs IH H1]; [by subst s|].
  intros Hn. destruct (nl_step s2 p s3 u i H1) as [E|]; [|done]. rewrite E in Hn. by apply IH.
Qed.

(** ** Settled states *)
Lemma calls_lt (P : nat → Prop) `{∀ u, Decision (P u)} u : u < m → ¬ P u → calls m P < m.
Proof.
  intros Hu HP. unfold calls. rewrite <-(seq_length m 0) at 2. apply (filter_length_lt _ _ u); [|done]. apply elem_of_seq. lia.
Qed.
Lemma calls_none (P : nat → Prop) `{∀ u, Decision (P u)} : (∀ u, ¬ P u) → calls m P = 0.
Proof. intros HP. by apply filter_none. Qed.

Lemma range_p s (I : inv s) u i : pl s u i ≠ QNot → u < m ∧ i < n.
Proof. intros Hp. apply (i_sent s I) in Hp as (? & ? & _). by split. Qed.
Lemma range_r s (I : inv s) u i : rl s u i ≠ PNot → u < m ∧ i < n.
Proof.
  intros Hr. apply (i_resp s I) in Hr as (k & Hk & ?). pose proof (i_jobs s I u k Hk). split; [|lia].
  destruct (decide (u < m)); [done|]. destruct (i_fresh s I u); [lia|congruence].
Qed.

Section settled.
Context (live : proc → Prop) (s : net) (I : inv s) (Nt : ∀ u i, nl s u i ≠ TNone → u < m ∧ i < n).
Context (S : settled n q wire m cl sv live s) (Hwire : 1 ≤ wire) (Hcap : m ≤ 100 ∨ ∀ p, live p).

Ltac rng := match goal with E : pl s ?u ?i = _ |- _ => destruct (range_p s I u i); [by rewrite E|]
  | E : rl s ?u ?i = _ |- _ => destruct (range_r s I u i); [by rewrite E|] end.

Lemma e_downh u i : live (AClient (cl u)) → rl s u i ≠ PDownH.
Proof.
  intros L E. rng. eapply S; [apply (N_resp _ _ _ _ _ _ s u i)|done]; try done.
  unfold len_resp. rewrite <-(seq_length n 0) at 2. apply (filter_length_lt _ _ i); [apply elem_of_seq; lia|by rewrite E].
Qed.
Lemma e_down u i : live (AClient (cl u)) → rl s u i ≠ PDown.
Proof.
  intros L E. rng. eapply S; [apply (N_receive _ _ _ _ _ _ s u i)|done]; try done.
  intros u' Hc. apply e_downh. by rewrite Hc.
Qed.
Lemma e_fronth u i : live (AClient (cl u)) → live (ARelay i) → rl s u i ≠ PFrontH.
Proof.
  intros L L' E. rng. eapply S; [apply (N_down _ _ _ _ _ _ s u i)|done]; try done.
  unfold len_down. rewrite calls_none; [lia|]. intros u' [Hc Hr]. revert Hr. apply e_down. by rewrite Hc.
Qed.
Lemma e_front u i : live (AClient (cl u)) → live (ARelay i) → rl s u i ≠ PFront.
Proof.
  intros L L' E. rng. eapply S; [apply (N_fwrite _ _ _ _ _ _ s u i)|done]; try done.
  intros u' Hc. apply e_fronth; [by rewrite Hc|done].
Qed.
Lemma e_inch u i : live (ARelay i) → rl s u i ≠ PIncH.
Proof.
  intros L E. rng. eapply S; [apply (N_front _ _ _ _ _ _ s u i)|done]; try done.
  unfold len_front. destruct Hcap as [Hm|Hall].
  - eapply Nat.lt_le_trans; [apply (calls_lt _ u); [done|]|done]. rewrite E. by intros [_ ?].
  - rewrite calls_none; [lia|]. intros u' [Hc Hr]. revert Hr. by apply e_front.
Qed.
Lemma e_inc u i : live (ARelay i) → rl s u i ≠ PInc.
Proof.
  intros L E. rng. destruct (decide (nl s u i = TIn)).
  - eapply S; [apply (N_found _ _ _ _ _ _ s u i)|done]; try done. intros u'. by apply e_inch.
  - eapply S; [apply (N_early _ _ _ _ _ _ s u i)|done]; try done. intros u'. by apply e_inch.
Qed.
Lemma e_fromh u i : live (ARelay i) → rl s u i ≠ PFromH.
Proof.
  intros L E. rng. eapply S; [apply (N_inc _ _ _ _ _ _ s u i)|done]; try done.
  unfold len_inc. rewrite calls_none; [lia|]. intros u'. by apply e_inc.
Qed.
Lemma e_from u i : live (ARelay i) → rl s u i ≠ PFrom.
Proof.
  intros L E. rng. eapply S; [apply (N_srecv _ _ _ _ _ _ s u i)|done]; try done. intros u' _. by apply e_fromh.
Qed.
Lemma e_backh u i : live (AServer (sv u)) → live (ARelay i) → rl s u i ≠ PBackH.
Proof.
  intros L L' E. rng. eapply S; [apply (N_from _ _ _ _ _ _ s u i)|done]; try done.
  unfold len_from. rewrite calls_none; [lia|]. intros u' [_ Hr]. revert Hr. by apply e_from.
Qed.
Lemma e_back u i : live (AServer (sv u)) → live (ARelay i) → rl s u i ≠ PBack.
Proof.
  intros L L' E. rng. eapply S; [apply (N_write _ _ _ _ _ _ s u i)|done]; try done.
  intros u' Hc. apply e_backh; [by rewrite Hc|done].
Qed.
Lemma job_settled u : u < m → live (AServer (sv u)) → x_job s u = JNone ∨ x_job s u = JSend n.
Proof.
  intros Hu L. destruct (x_job s u) as [| |k] eqn:E; [by left| |right].
  - exfalso. eapply S; [apply (N_handler _ _ _ _ _ _ s u)|done]; done.
  - pose proof (i_jobs s I u k E). destruct (decide (k = n)) as [->|Hne]; [done|]. exfalso.
    eapply S; [apply (N_back _ _ _ _ _ _ s u k)|done]; [done|done|lia|]. unfold len_back. destruct Hcap as [Hm|Hall].
    + eapply Nat.lt_le_trans; [apply (calls_lt _ u); [done|]|done]. intros [_ Hr].
      assert (rl s u k ≠ PNot) as Hr' by (by rewrite Hr). apply (i_resp s I) in Hr' as (k' & E' & ?). assert (k' = k) by congruence. lia.
    + rewrite calls_none; [lia|]. intros u' [Hc Hr]. revert Hr. by apply e_back.
Qed.
Lemma e_coll u i : live (AServer (sv u)) → pl s u i ≠ QColl.
Proof.
  intros L E. rng. destruct (decide (Datatypes.S (x_count s u) < q)).
  - eapply S; [apply (N_part _ _ _ _ _ _ s u i)|done]; done.
  - eapply S; [apply (N_full _ _ _ _ _ _ s u i)|done]; try done. lia.
Qed.
Lemma e_toh u i : live (AServer (sv u)) → pl s u i ≠ QToH.
Proof.
  intros L E. rng. eapply S; [apply (N_coll _ _ _ _ _ _ s u i)|done]; try done.
  unfold len_coll. rewrite sum_zero; [lia|]. intros j _. rewrite calls_none; [done|]. intros u' [Hc Hr]. revert Hr. apply e_coll. by rewrite Hc.
Qed.
Lemma e_to u i : live (AServer (sv u)) → pl s u i ≠ QTo.
Proof.
  intros L E. rng. eapply S; [apply (N_call _ _ _ _ _ _ s u i)|done]; try done.
  intros u' Hc. apply e_toh. by rewrite Hc.
Qed.
Lemma e_outh u i : live (AServer (sv u)) → live (ARelay i) → pl s u i ≠ QOutH.
Proof.
  intros L L' E. rng. eapply S; [apply (N_to _ _ _ _ _ _ s u i)|done]; try done.
  unfold len_to. rewrite calls_none; [lia|]. intros u' [Hc Hr]. revert Hr. apply e_to. by rewrite Hc.
Qed.
Lemma e_out u i : live (AServer (sv u)) → live (ARelay i) → pl s u i ≠ QOut.
Proof.
  intros L L' E. rng. eapply S; [apply (N_out _ _ _ _ _ _ s u i)|done]; try done.
  intros u' Hc. apply e_outh; [by rewrite Hc|done].
Qed.
Lemma e_pend u i : live (ARelay i) → nl s u i ≠ TPend.
Proof.
  intros L E. destruct (Nt u i); [by rewrite E|]. eapply S; [apply (N_store _ _ _ _ _ _ s u i)|done]; done.
Qed.
Lemma e_uph u i : live (ARelay i) → pl s u i ≠ QUpH.
Proof.
  intros L E. rng. eapply S; [apply (N_async _ _ _ _ _ _ s u i)|done]; try done.
  unfold len_out. destruct Hcap as [Hm|Hall].
  - eapply Nat.lt_le_trans; [apply (calls_lt _ u); [done|]|done]. rewrite E. by intros [_ ?].
  - rewrite calls_none; [lia|]. intros u' [Hc Hr]. revert Hr. by apply e_out.
Qed.
Lemma e_up u i : live (ARelay i) → pl s u i ≠ QUp.
Proof.
  intros L E. rng. eapply S; [apply (N_recv _ _ _ _ _ _ s u i)|done]; try done.
  intros u' _. split; [by apply e_uph|by apply e_pend].
Qed.
Lemma e_reqh u i : live (AClient (cl u)) → live (ARelay i) → pl s u i ≠ QReqH.
Proof.
  intros L L' E. rng. eapply S; [apply (N_up _ _ _ _ _ _ s u i)|done]; try done.
  unfold len_up. rewrite calls_none; [lia|]. intros u' [_ Hr]. revert Hr. by apply e_up.
Qed.
Lemma e_req u i : live (AClient (cl u)) → live (ARelay i) → pl s u i ≠ QReq.
Proof.
  intros L L' E. rng. eapply S; [apply (N_req _ _ _ _ _ _ s u i)|done]; try done.
  intros u' Hc. apply e_reqh; [by rewrite Hc|done].
Qed.
Lemma call_settled u : u < m → live (AClient (cl u)) → x_call s u = KDone ∨ x_call s u = KSend n.
Proof.
  intros Hu L. destruct (x_call s u) as [k|] eqn:E; [right|by left].
  pose proof (i_calls s I u k E). destruct (decide (k = n)) as [->|Hne]; [done|]. exfalso.
  eapply S; [apply (N_send _ _ _ _ _ _ s u k)|done]; [done|done|lia|]. unfold len_req. destruct Hcap as [Hm|Hall].
  - eapply Nat.lt_le_trans; [apply (calls_lt _ u); [done|]|done]. intros [_ Hr].
    assert (pl s u k ≠ QNot) as Hr' by (by rewrite Hr). apply (i_sent s I) in Hr' as (_ & _ & Hk). specialize (Hk k E). lia.
  - rewrite calls_none; [lia|]. intros u' [Hc Hr]. revert Hr. by apply e_req.
Qed.
(** The parcels of the call that went through live relays are with the server. *)
Lemma parcels_settled u i : u < m → i < n → live (AClient (cl u)) → live (AServer (sv u)) → live (ARelay i) → pl s u i = QLog.
Proof.
  intros Hu Hi Lc Lv Lr. assert (pl s u i ≠ QNot) as Hn.
  { apply (i_sent s I). split; [done|]. split; [done|]. intros k E. destruct (call_settled u Hu Lc) as [E'|E']; [congruence|].
    rewrite E' in E. by injection E as <-. }
  destruct (pl s u i) eqn:E; try done; exfalso; revert E;
    [by apply e_req|by apply e_reqh|by apply e_up|by apply e_uph|by apply e_out|by apply e_outh|by apply e_to|by apply e_toh|by apply e_coll].
Qed.
Lemma returns_settled u (good : list nat) : u < m → live (AClient (cl u)) → live (AServer (sv u)) →
  NoDup good → (∀ i, i ∈ good → i < n ∧ live (ARelay i) ∧ rl s u i ≠ PEarly) → q ≤ length good → x_call s u = KDone.
Proof.
  intros Hu Lc Lv Hnd Hg Hl. destruct (call_settled u Hu Lc) as [|Ec]; [done|]. exfalso.
  assert (q ≤ taken s u) as Ht.
  { etransitivity; [exact Hl|]. apply filter_length_ge; [done|]. intros i Hi. destruct (Hg i Hi) as (? & ? & _).
    split; [apply elem_of_seq; lia|by apply parcels_settled]. }
  assert (x_job s u = JSend n) as Ej.
  { destruct (job_settled u Hu Lv) as [E|E]; [|done]. destruct (i_none s I u E). lia. }
  assert (length good ≤ length (x_reads s u)) as Hle.
  { apply submseteq_length, NoDup_submseteq; [done|]. intros i Hi. destruct (Hg i Hi) as (Hi' & Lr & Hne).
    apply (i_reads s I). assert (rl s u i ≠ PNot) as Hn by (apply (i_resp s I); eauto).
    destruct (rl s u i) eqn:E; try done; exfalso; revert E;
      [by apply e_back|by apply e_backh|by apply e_from|by apply e_fromh|by apply e_inc|by apply e_inch|by apply e_front
      |by apply e_fronth|by apply e_down|by apply e_downh|].
    intros E. destruct (decide (Datatypes.S (length (x_reads s u)) < q)).
    - eapply S; [apply (N_more _ _ _ _ _ _ s u i)|exact Lc]; done.
    - eapply S; [apply (N_done _ _ _ _ _ _ s u i)|exact Lc]; try done. lia. }
  pose proof (i_wait s I u n Ec). lia.
Qed.
End settled.

(** ** A relay that does not move *)
Lemma calls_mono (P Q : nat → Prop) `{∀ u, Decision (P u)} `{∀ u, Decision (Q u)} : (∀ u, Q u → P u) → calls m Q ≤ calls m P.
Proof.
  intros Ha. unfold calls. apply filter_length_ge; [apply NoDup_filter, NoDup_seq|].
  intros x [Hq Hx]%elem_of_list_filter. split; [done|by apply Ha].
Qed.
Lemma calls_succ (P Q : nat → Prop) `{∀ u, Decision (P u)} `{∀ u, Decision (Q u)} k : (∀ u, u ≠ k → Q u → P u) → calls m Q ≤ S (calls m P).
Proof.
  intros Ha. unfold calls. transitivity (length (k :: filter P (seq 0 m))); [|done].
  apply submseteq_length, NoDup_submseteq; [apply NoDup_filter, NoDup_seq|].
  intros x [Hq Hx]%elem_of_list_filter. destruct (decide (x = k)) as [->|Hne]; [by left|right].
  apply elem_of_list_filter. split; [by apply Ha|done].
Qed.
Lemma calls_or (P Q R : nat → Prop) `{∀ u, Decision (P u)} `{∀ u, Decision (Q u)} `{∀ u, Decision (R u)} :
  (∀ u, R u → P u ∨ Q u) → calls m R ≤ calls m P + calls m Q.
Proof.
  intros Ha. unfold calls. rewrite <-app_length.
  apply submseteq_length, NoDup_submseteq; [apply NoDup_filter, NoDup_seq|].
  intros x [Hr Hx]%elem_of_list_filter. apply elem_of_app. destruct (Ha x Hr); [left|right]; by apply elem_of_list_filter.
Qed.
Record stuck (s : net) (i : nat) : Prop := mkStuck {
  k_where : ∀ u, pl s u i = QNot ∨ pl s u i = QReq ∨ pl s u i = QReqH ∨ pl s u i = QUp;
  k_req : ∀ c, len_req m cl s c i ≤ 100;
  k_hand : ∀ c, calls m (λ u, cl u = c ∧ pl s u i = QReqH) ≤ 1;
  k_up : ∀ c, len_up m cl s c i ≤ wire }.
Lemma stuck_agree s s' i : stuck s i → (∀ u, pl s' u i = pl s u i) → stuck s' i.
Proof.
  intros K E. split.
  - intros u. rewrite E. apply (k_where s i K).
  - intros c. etransitivity; [|apply (k_req s i K c)]. apply calls_mono. intros u. by rewrite E.
  - intros c. etransitivity; [|apply (k_hand s i K c)]. apply calls_mono. intros u. by rewrite E.
  - intros c. etransitivity; [|apply (k_up s i K c)]. apply calls_mono. intros u. by rewrite E.
Qed.
Lemma stuck_ne s u i j l : stuck s j → i ≠ j → stuck (set_pl s u i l) j.
Proof.
  intros K Hne. apply (stuck_agree s); [done|]. intros u'. destruct (pl_set_pl s u i l u' j) as [(_ & -> & _)|[_ E]]; done.
Qed.
Lemma count_pl_other s u i l c (L : ploc) : l ≠ L →
  calls m (λ u', cl u' = c ∧ pl (set_pl s u i l) u' i = L) ≤ calls m (λ u', cl u' = c ∧ pl s u' i = L).
Proof.
  intros Hl. apply calls_mono. intros u' [Hc E]. split; [done|]. destruct (pl_set_pl s u i l u' i) as [(_ & _ & E')|[_ E']]; congruence.
Qed.
Lemma count_pl_same s u i l c :
  calls m (λ u', cl u' = c ∧ pl (set_pl s u i l) u' i = l) ≤
  if decide (cl u = c) then S (calls m (λ u', cl u' = c ∧ pl s u' i = l)) else calls m (λ u', cl u' = c ∧ pl s u' i = l).
Proof.
  case_decide as Hc.
  - apply (calls_succ _ _ u). intros u' Hne [? E]. split; [done|]. destruct (pl_set_pl s u i l u' i) as [(-> & _ & _)|[_ E']]; congruence.
  - apply calls_mono. intros u' [? E]. split; [done|]. destruct (pl_set_pl s u i l u' i) as [(-> & _ & _)|[_ E']]; congruence.
Qed.
Lemma stuck_step s p s' i : inv s → stuck s i → nstep s p s' → p ≠ ARelay i → stuck s' i.
Proof.
  intros I K Hs Hp.
  assert (∀ u L, pl s u i = L → L ≠ QNot → L ≠ QReq → L ≠ QReqH → L ≠ QUp → False) as Hw.
  { intros u L E. destruct (k_where s i K u) as [?|[?|[?|?]]]; congruence. }
  destruct Hs as [u j Hu Hc Hj Hr|u j Hu Hj Hl Hr|u j Hu Hj Hl Hr|u j Hu Hj Hl _|u j Hu Hj Hl _|u j Hu Hj Hl|u j Hu Hj Hl _|u j Hu Hj Hl _
    |u j Hu Hj Hl _|u j Hu Hj Hl _|u j Hu Hj Hl _|u j Hu Hj Hl Hq|u Hu Hj|u j Hu Hj Hi _|u j Hu Hj Hl _|u j Hu Hj Hl _
    |u j Hu Hj Hl _|u j Hu Hj Hl _|u j Hu Hj Hl _ Ht|u j Hu Hj Hl _ _|u j Hu Hj Hl _|u j Hu Hj Hl _|u j Hu Hj Hl _|u j Hu Hj Hl _
    |u j Hu Hj Hl _|u j Hu Hj Hc Hl _|u j Hu Hj Hc Hl _].
  - apply (stuck_agree (set_pl s u j QReq)); [|done].
    destruct (decide (j = i)) as [->|Hne]; [|by apply stuck_ne]. split.
    + intros u'. destruct (pl_set_pl s u i QReq u' i) as [(_ & _ & ->)|[_ ->]]; [tauto|apply (k_where s i K)].
    + intros c. unfold len_req in *. etransitivity; [apply count_pl_same|]. case_decide as Ec; [subst c; lia|apply (k_req s i K)].
    + intros c. etransitivity; [by apply count_pl_other|apply (k_hand s i K)].
    + intros c. etransitivity; [by apply count_pl_other|apply (k_up s i K)].
  - destruct (decide (j = i)) as [->|Hne]; [|by apply stuck_ne]. split.
    + intros u'. destruct (pl_set_pl s u i QReqH u' i) as [(_ & _ & ->)|[_ ->]]; [tauto|apply (k_where s i K)].
    + intros c. etransitivity; [by apply count_pl_other|apply (k_req s i K)].
    + intros c. etransitivity; [apply count_pl_same|]. case_decide as Ec; [|apply (k_hand s i K)].
      rewrite calls_none; [done|]. intros u' [Hc E]. apply (Hr u'); congruence.
    + intros c. etransitivity; [by apply count_pl_other|apply (k_up s i K)].
  - destruct (decide (j = i)) as [->|Hne]; [|by apply stuck_ne]. split.
    + intros u'. destruct (pl_set_pl s u i QUp u' i) as [(_ & _ & ->)|[_ ->]]; [tauto|apply (k_where s i K)].
    + intros c. etransitivity; [by apply count_pl_other|apply (k_req s i K)].
    + intros c. etransitivity; [by apply count_pl_other|apply (k_hand s i K)].
    + intros c. unfold len_up in *. etransitivity; [apply count_pl_same|]. case_decide as Ec; [subst c; lia|apply (k_up s i K)].
  - apply stuck_ne; [done|congruence].
  - apply (stuck_agree (set_pl s u j QOut)); [apply stuck_ne; [done|congruence]|]. intros. apply pl_set_nl.
  - apply (stuck_agree s); [done|]. intros. apply pl_set_nl.
  - apply stuck_ne; [done|congruence].
  - apply stuck_ne; [done|congruence].
  - apply stuck_ne; [done|]. intros ->. by eapply (Hw u).
  - apply stuck_ne; [done|]. intros ->. by eapply (Hw u).
  - apply (stuck_agree (set_pl s u j QLog)); [|done]. apply stuck_ne; [done|]. intros ->. by eapply (Hw u).
  - apply (stuck_agree (set_pl s u j QLog)); [|done]. apply stuck_ne; [done|]. intros ->. by eapply (Hw u).
  - by apply (stuck_agree s).
  - apply (stuck_agree s); [done|]. intros. apply pl_set_rl.
  - apply (stuck_agree s); [done|]. intros. apply pl_set_rl.
  - apply (stuck_agree s); [done|]. intros. apply pl_set_rl.
  - apply (stuck_agree s); [done|]. intros. apply pl_set_rl.
  - apply (stuck_agree s); [done|]. intros. apply pl_set_rl.
  - apply (stuck_agree (set_rl s u j PIncH)); [|intros; apply pl_set_nl]. apply (stuck_agree s); [done|]. intros. apply pl_set_rl.
  - apply (stuck_agree s); [done|]. intros. apply pl_set_rl.
  - apply (stuck_agree s); [done|]. intros. apply pl_set_rl.
  - apply (stuck_agree s); [done|]. intros. apply pl_set_rl.
  - apply (stuck_agree s); [done|]. intros. apply pl_set_rl.
  - apply (stuck_agree s); [done|]. intros. apply pl_set_rl.
  - apply (stuck_agree s); [done|]. intros. apply pl_set_rl.
  - apply (stuck_agree (set_rl s u j PRead)); [|done]. apply (stuck_agree s); [done|]. intros. apply pl_set_rl.
  - apply (stuck_agree (set_rl s u j PRead)); [|done]. apply (stuck_agree s); [done|]. intros. apply pl_set_rl.
Qed.
Lemma stuck_steps ps s i : 1 ≤ q → n < 2 * q → nsteps ps net_init s → ARelay i ∉ ps → stuck s i.
Proof.
  intros Hq H2 Hs. remember net_init as s0 eqn:E0. induction Hs as [s|ps s1 p s2 s3 Hs IH H1].
  - intros _. subst s. split; [intros; by left| | |]; intros c; unfold len_req, len_up; rewrite calls_none; try lia; by intros u [_ ?].
  - intros Hni. rewrite not_elem_of_app, elem_of_list_singleton in Hni. destruct Hni as [Hni Hne].
    subst s1. eapply stuck_step; [by eapply reach_inv|by apply IH|exact H1|congruence].
Qed.
Lemma stuck_sent ps s i c : 1 ≤ q → n < 2 * q → nsteps ps net_init s → ARelay i ∉ ps →
  calls m (λ u, cl u = c ∧ pl s u i ≠ QNot) ≤ 101 + wire.
Proof.
  intros Hq H2 Hs Hni. pose proof (stuck_steps ps s i Hq H2 Hs Hni) as K.
  transitivity (calls m (λ u, cl u = c ∧ pl s u i = QReq) + (calls m (λ u, cl u = c ∧ pl s u i = QReqH) + calls m (λ u, cl u = c ∧ pl s u i = QUp))).
  - transitivity (calls m (λ u, cl u = c ∧ pl s u i = QReq) + calls m (λ u, cl u = c ∧ (pl s u i = QReqH ∨ pl s u i = QUp))).
    + apply (calls_or (λ u, cl u = c ∧ pl s u i = QReq) (λ u, cl u = c ∧ (pl s u i = QReqH ∨ pl s u i = QUp))).
      intros u (Hc & Hp). destruct (k_where s i K u) as [?|[?|[?|?]]]; tauto.
    + apply Nat.add_le_mono_l. apply calls_or. tauto.
  - pose proof (k_req s i K c). pose proof (k_hand s i K c). pose proof (k_up s i K c). unfold len_req, len_up in *. lia.
Qed.
Lemma stuck_returned ps s i c l : 1 ≤ q → n < 2 * q → i < n → nsteps ps net_init s → ARelay i ∉ ps →
  NoDup l → (∀ u, u ∈ l → cl u = c ∧ x_call s u = KDone) → length l ≤ 101 + wire.
Proof.
  intros Hq H2 Hi Hs Hni Hnd Hl. pose proof (reach_inv ps s Hq H2 Hs) as I.
  transitivity (calls m (λ u, cl u = c ∧ pl s u i ≠ QNot)); [|by eapply stuck_sent].
  apply filter_length_ge; [done|]. intros u Hu. destruct (Hl u Hu) as [Hc Hk].
  assert (u < m) as Hm. { destruct (decide (u < m)); [done|]. destruct (i_fresh s I u); [lia|congruence]. }
  split; [apply elem_of_seq; lia|]. split; [done|]. apply (i_sent s I). split; [done|]. split; [done|]. intros k E. congruence.
Qed.
End proofs.
