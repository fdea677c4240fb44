(** C70-C72: responses on their way from the server to its relays. *)
From stdpp Require Import gmap.
From Verif.Base Require Import Base.
From Verif.Model Require Import ServerStreams.

Section streams.
Context {R : Type} (n : nat).
Implicit Types s : sst R.
Implicit Types tr : list (slabel R).
Notation step := (sstep n).
Notation steps := (ssteps n).

(** What a run shows. *)
(** The responses goroutine j got rid of, with the relay each was for. *)
Definition by_job (j : nat) tr : list (nat * R) :=
  omap (λ l, match l with SPush j' i r => if decide (j' = j) then Some (i, r) else None | _ => None end) tr.
(** The responses accepted for relay i, and those written to its stream. *)
Definition to_relay (i : nat) tr : list R :=
  omap (λ l, match l with SPush _ i' r => if decide (i' = i) then Some r else None | _ => None end) tr.
Definition written (i : nat) tr : list R :=
  omap (λ l, match l with SWrite i' r => if decide (i' = i) then Some r else None | _ => None end) tr.

Lemma omap_snoc {A B} (f : A → option B) l x : omap f (l ++ [x]) = omap f l ++ (match f x with Some y => [y] | None => [] end).
Proof using Type. rewrite omap_app. simpl. by destruct (f x). Qed.
Ltac snoc := unfold by_job, to_relay, written in *; rewrite ?omap_snoc; cbn [mbind].
Lemma elem_snoc {A} (x y : A) l : x ∈ l ++ [y] ↔ x ∈ l ∨ x = y.
Proof using Type. rewrite elem_of_app, elem_of_list_singleton. done. Qed.

Lemma by_job_in j tr i r : (i, r) ∈ by_job j tr ↔ SPush j i r ∈ tr.
Proof using Type.
  unfold by_job. rewrite elem_of_list_omap. split.
  - intros (l & Hl & He). destruct l; simplify_eq/=. case_decide; simplify_eq. done.
  - intros Hin. exists (SPush j i r). split; [done|]. by rewrite decide_True.
Qed.

(** ** Every response goes to the relay it was made for, once, in order. *)
Record jinv tr s (j : nat) : Prop := JInv {
  j_none : jobs s !! j = None → by_job j tr = [] ∧ ∀ i rs, SStart j i rs ∉ tr;
  j_some : ∀ k rest, jobs s !! j = Some (k, rest) → ∃ i0 don,
    (∀ i rs, SStart j i rs ∈ tr ↔ i = i0 ∧ rs = don ++ rest) ∧ k = i0 + length don ∧
    by_job j tr = zip (seq i0 (length don)) don ∧ k + length rest ≤ n }.
Lemma jinv_all tr s j : steps tr sinit s → jinv tr s j.
Proof using Type.
  intros Hs. remember sinit as s0 eqn:E0. revert E0. induction Hs as [s|tr l s1 s2 s3 Hs IH Hst]; intros ->.
  { split; [|by intros]. intros _. split; [done|]. intros i rs. apply not_elem_of_nil. }
  specialize (IH eq_refl). destruct IH as [I1 I2].
  assert (∀ s', (∀ k r, l ≠ SPush j k r) → (∀ k rs, l ≠ SStart j k rs) → jobs s' !! j = jobs s2 !! j → jinv (tr ++ [l]) s' j) as Hsame.
  { intros s' Hl1 Hl2 Hj.
    assert (by_job j (tr ++ [l]) = by_job j tr) as Hb.
    { snoc. destruct l; rewrite ?app_nil_r; try done. case_decide as Hd; rewrite ?app_nil_r; [|done]. subst. by destruct (Hl1 i r). }
    assert (∀ i rs, SStart j i rs ∈ tr ++ [l] ↔ SStart j i rs ∈ tr) as He.
    { intros i rs. rewrite elem_snoc. split; [|by left]. intros [?|<-]; [done|]. by destruct (Hl2 i rs). }
    split.
    - rewrite Hj, Hb. intros Hn. destruct (I1 Hn) as [? Ha]. split; [done|]. intros i rs. rewrite He. apply Ha.
    - rewrite Hj, Hb. intros k rest Hk. destruct (I2 _ _ Hk) as (i0 & don & Ha & ?). exists i0, don. split; [|done].
      intros i rs. rewrite He. apply Ha. }
  destruct Hst; try (apply Hsame; [done|done|done]).
  - destruct (decide (j0 = j)) as [->|Hne].
    + clear Hsame. destruct (I1 H0) as [Hb Hn]. split; simpl; rewrite lookup_insert; [done|]. intros k rest [= <- <-].
      exists i, []. simpl. split; [|split_and!; [lia| |lia]].
      * intros i' rs'. rewrite elem_snoc. split; [|intros [-> ->]; by right]. intros [Hx|Hx]; [by destruct (Hn i' rs')|]. by simplify_eq.
      * snoc. by rewrite Hb.
    + apply Hsame; [done|congruence|]. simpl. by rewrite lookup_insert_ne.
  - destruct (decide (j0 = j)) as [->|Hne].
    + clear Hsame. destruct (I2 _ _ H0) as (i0 & don & Ha & Hi & Hb & Hlen).
      split; simpl; rewrite lookup_insert; [done|]. intros k rest [= <- <-].
      exists i0, (don ++ [r]). rewrite app_length. cbn [length] in *. split; [|split_and!; [lia| |lia]].
      * intros i' rs'. rewrite elem_snoc, Ha, <- app_assoc. split; [by intros [?|?]|by left].
      * snoc. rewrite decide_True by done. rewrite Hb. replace (length don + 1) with (S (length don)) by lia.
        rewrite seq_S. rewrite zip_with_app by by rewrite seq_length. simpl. by rewrite <- Hi.
    + apply Hsame; [congruence|congruence|]. simpl. by rewrite lookup_insert_ne.
Qed.

(** A goroutine sends each of its responses to the relay it was made for, in order, none twice; when it
    has none left it has sent them all. *)
Theorem C70_in_order tr s j i rs : steps tr sinit s → SStart j i rs ∈ tr →
  by_job j tr `prefix_of` zip (seq i (length rs)) rs ∧
  (∀ k, jobs s !! j = Some (k, []) → by_job j tr = zip (seq i (length rs)) rs).
Proof using Type.
  intros Hs Hin. pose proof (jinv_all _ _ j Hs) as [I1 I2].
  destruct (jobs s !! j) as [[k rest]|] eqn:E; [|by destruct (I1 eq_refl) as [_ Hn]; destruct (Hn i rs)].
  destruct (I2 _ _ eq_refl) as (i0 & don & Ha & Hk & Hb & Hlen). apply Ha in Hin as [-> ->]. split.
  - rewrite app_length, seq_app, zip_with_app by by rewrite seq_length. rewrite Hb. by eexists.
  - intros k' [= <- ->]. by rewrite app_nil_r, Hb.
Qed.

(** ** First in, first out, if no send to the relay's stream fails. *)
Lemma fifo tr s i : steps tr sinit s → SFail i ∉ tr → to_relay i tr = written i tr ++ buf s i ∧ i ∉ closed s.
Proof using Type.
  intros Hs. remember sinit as s0 eqn:E0. revert E0. induction Hs as [s|tr l s1 s2 s3 Hs IH Hst]; intros -> Hf.
  { split; [done|]. simpl. set_solver. }
  rewrite elem_snoc in Hf. destruct IH as [IH Hc]; [done|tauto|].
  assert (∀ k b (m : gmap nat (list R)), default [] (<[k := b]> m !! i) = if decide (k = i) then b else default [] (m !! i)) as Hbuf.
  { intros. case_decide; subst; [by rewrite lookup_insert|by rewrite lookup_insert_ne]. }
  destruct Hst; unfold buf in *; cbn [bufs closed] in *; snoc; rewrite ?app_nil_r; rewrite ?Hbuf; try done.
  - split; [|done]. case_decide as Hd; [subst|by rewrite app_nil_r]. rewrite IH. by rewrite app_assoc.
  - split; [|done]. case_decide as Hd; [subst|by rewrite app_nil_r]. rewrite IH, H1. by rewrite <- app_assoc.
  - split; [|by set_solver]. case_decide as Hd; [|done]. subst. tauto.
  - split; [|done]. case_decide as Hd; [|done]. subst. by destruct Hc.
Qed.
Theorem C70_fifo tr s i : steps tr sinit s → SFail i ∉ tr → written i tr `prefix_of` to_relay i tr.
Proof using Type. intros Hs Hf. destruct (fifo _ _ _ Hs Hf) as [-> _]. by eexists. Qed.
(** If none fails at all the server does not crash. *)
Theorem C70_no_crash tr s : steps tr sinit s → (∀ i, SFail i ∉ tr) → crashed s = false.
Proof using Type.
  intros Hs Hf. remember sinit as s0 eqn:E0. destruct Hs as [s|tr l s1 s2 s3 Hs Hst]; subst; [done|].
  assert (∀ i, i ∉ closed s2) as Hc.
  { intros i. eapply fifo; [exact Hs|]. intros Hin. apply (Hf i). rewrite elem_snoc. by left. }
  destruct Hst; try done; by destruct (Hc i).
Qed.

(** A step by which something already under way moves on. *)
Definition moving (l : slabel R) : Prop := match l with SPush _ _ _ | SWrite _ _ => True | _ => False end.
(** Work left: two for a response not yet accepted, one for a response not yet written. *)
Definition work s : nat :=
  2 * sum_list (map (λ p : nat * (nat * list R), length p.2.2) (map_to_list (jobs s))) +
  sum_list (map (λ p : nat * list R, length p.2) (map_to_list (bufs s))).
Lemma sum_insert {A} (f : nat * A → nat) (m : gmap nat A) i x : sum_list (map f (map_to_list (<[i := x]> m))) =
  f (i, x) + sum_list (map f (map_to_list (delete i m))).
Proof using Type.
  rewrite <- insert_delete_insert. assert (delete i m !! i = None) as Hd by apply lookup_delete.
  pose proof (map_to_list_insert (delete i m) i x Hd) as Hp.
  apply (fmap_Permutation f) in Hp. rewrite !list_fmap_id || idtac.
  change (map f) with (fmap (M := list) f). rewrite Hp. done.
Qed.
Lemma sum_lookup {A} (f : nat * A → nat) (m : gmap nat A) i x : m !! i = Some x → sum_list (map f (map_to_list m)) =
  f (i, x) + sum_list (map f (map_to_list (delete i m))).
Proof using Type. intros Hm. rewrite <- (insert_id m i x Hm) at 1. apply sum_insert. Qed.
Lemma work_buf s i : sum_list (map (λ p : nat * list R, length p.2) (map_to_list (bufs s))) =
  length (buf s i) + sum_list (map (λ p : nat * list R, length p.2) (map_to_list (delete i (bufs s)))).
Proof using Type.
  unfold buf. destruct (bufs s !! i) as [b|] eqn:E; [by rewrite (sum_lookup _ _ _ _ E)|]. by rewrite delete_notin.
Qed.
Lemma work_step l s s' : step l s s' → moving l → work s = S (work s').
Proof using Type.
  intros Hst Hm. destruct Hst; try done; unfold work; cbn [bufs jobs].
  - rewrite (sum_lookup _ _ _ _ H0), (sum_insert _ (jobs s)), (work_buf s i), (sum_insert _ (bufs s)).
    cbn [fst snd length]. rewrite app_length. cbn [length]. lia.
  - rewrite (work_buf s i), (sum_insert _ (bufs s)), H1. cbn [fst snd length]. lia.
Qed.
(** Whatever the schedule, what is under way takes a bounded number of steps ... *)
Theorem C70_bounded tr s s' : steps tr s s' → Forall moving tr → length tr ≤ work s.
Proof using Type.
  intros Hs Hm. enough (work s = length tr + work s') by lia. induction Hs as [s|tr l s1 s2 s3 Hs IH Hst]; [done|].
  rewrite Forall_app, Forall_singleton in Hm. destruct Hm as [Hm Hl]. rewrite (IH Hm), (work_step _ _ _ Hst Hl), app_length. simpl. lia.
Qed.
(** ... and while every relay is connected it only ends with everything written. *)
Theorem C70_complete tr s : steps tr sinit s → (∀ i, SFail i ∉ tr) → (∀ i, i < n → 0 < nwriters s i) →
  (∀ l s', step l s s' → ¬ moving l) →
  ∀ j i rs, SStart j i rs ∈ tr → by_job j tr = zip (seq i (length rs)) rs ∧ ∀ k, k < n → written k tr = to_relay k tr.
Proof using Type.
  intros Hs Hf Hw Hstop. pose proof (C70_no_crash _ _ Hs Hf) as Hcr.
  assert (∀ k, k < n → buf s k = []) as Hb.
  { intros k Hk. destruct (buf s k) as [|r b] eqn:E; [done|]. specialize (Hw _ Hk). destruct (nwriters s k) as [|w] eqn:Ew; [lia|].
    exfalso. by apply (Hstop _ _ (ss_write _ s k r b w Hcr Ew E)). }
  intros j i rs Hst. pose proof (jinv_all _ _ j Hs) as [I1 I2].
  destruct (jobs s !! j) as [[k rest]|] eqn:E; [|by destruct (I1 eq_refl) as [_ Hn]; destruct (Hn i rs)].
  split.
  - destruct rest as [|r rest]; [by eapply C70_in_order|]. destruct (I2 _ _ eq_refl) as (i0 & don & Ha & Hk & _ & Hlen).
    simpl in Hlen. destruct (fifo _ _ k Hs (Hf k)) as [_ Hc].
    exfalso. refine (Hstop _ _ (ss_push _ s j k r rest Hcr E Hc _) I). rewrite Hb by lia. unfold cap. simpl. lia.
  - intros k' Hk'. destruct (fifo _ _ k' Hs (Hf k')) as [-> _]. rewrite Hb by done. by rewrite app_nil_r.
Qed.

(** ** C71: a relay that never connects *)
Lemma cap_buf tr s i : steps tr sinit s → length (buf s i) ≤ cap.
Proof using Type.
  intros Hs. remember sinit as s0 eqn:E0. revert E0. induction Hs as [s|tr l s1 s2 s3 Hs IH Hst]; intros ->; [unfold buf, cap; cbn [bufs sinit]; rewrite lookup_empty; simpl; lia|].
  specialize (IH eq_refl). destruct Hst; try done; unfold buf in *; cbn [bufs].
  - destruct (decide (i0 = i)) as [->|Hne]; [rewrite lookup_insert|by rewrite lookup_insert_ne]. simpl. rewrite app_length. simpl.
    match goal with H : length _ < cap |- _ => clear -H; simpl in H; lia end.
  - destruct (decide (i0 = i)) as [->|Hne]; [rewrite lookup_insert|by rewrite lookup_insert_ne]. simpl. rewrite H1 in IH. simpl in IH. lia.
  - destruct (decide (i0 = i)) as [->|Hne]; [rewrite lookup_insert|by rewrite lookup_insert_ne]. simpl. rewrite H1 in IH. simpl in IH. lia.
  - destruct (decide (i0 = i)) as [->|Hne]; [rewrite lookup_insert|by rewrite lookup_insert_ne]. simpl. rewrite H1 in IH. simpl in IH. lia.
Qed.
Lemma silent tr s i : steps tr sinit s → SConnect i ∉ tr → nwriters s i = 0 ∧ written i tr = [] ∧ SFail i ∉ tr.
Proof using Type.
  intros Hs. remember sinit as s0 eqn:E0. revert E0. induction Hs as [s|tr l s1 s2 s3 Hs IH Hst]; intros -> Hf.
  { split_and!; [done|done|apply not_elem_of_nil]. }
  rewrite elem_snoc in Hf. destruct IH as (Hn & Hw & Hfl); [done|tauto|]. rewrite elem_snoc.
  destruct Hst; unfold nwriters in *; cbn [writers] in *; snoc; rewrite ?Hw; try (split_and!; [done|done|]; intros [?|?]; done).
  - split_and!; [|done|intros [?|?]; done]. rewrite lookup_insert_ne; [done|]. intros ->. tauto.
  - split_and!; [done| |intros [?|?]; done]. case_decide; [|done]. subst. congruence.
  - assert (i0 ≠ i) by (intros ->; congruence). split_and!; [by rewrite lookup_insert_ne|done|]. intros [?|?]; [done|]. congruence.
  - split_and!; [|done|intros [?|?]; done]. rewrite lookup_insert_ne; [done|]. intros ->. congruence.
Qed.
Definition jobs_at (i : nat) tr : list nat :=
  omap (λ l, match l with SPush j i' _ => if decide (i' = i) then Some j else None | _ => None end) tr.
Lemma jobs_at_length i tr : length (jobs_at i tr) = length (to_relay i tr).
Proof using Type.
  induction tr as [|l tr IH]; [done|]. unfold jobs_at, to_relay in *. cbn [omap list_omap]. destruct l; try done.
  case_decide; [|done]. simpl. by f_equal.
Qed.
Lemma job_passed tr s j i0 rs k r i : steps tr sinit s → SStart j i0 rs ∈ tr → SPush j k r ∈ tr → i0 ≤ i → i ≤ k →
  ∃ r', SPush j i r' ∈ tr.
Proof using Type.
  intros Hs Hst Hp H0 H1. pose proof (jinv_all _ _ j Hs) as [I1 I2].
  destruct (jobs s !! j) as [[k' rest]|] eqn:E; [|by destruct (I1 eq_refl) as [_ Hn]; destruct (Hn i0 rs)].
  destruct (I2 _ _ eq_refl) as (i1 & don & Ha & Hk & Hb & Hlen). apply Ha in Hst as [-> ->].
  apply by_job_in in Hp. rewrite Hb in Hp. apply elem_of_zip_l in Hp as Hl. apply elem_of_seq in Hl.
  destruct (lookup_lt_is_Some_2 don (i - i1)) as [r' Hr']; [lia|]. exists r'. apply by_job_in. rewrite Hb.
  apply elem_of_list_lookup. exists (i - i1). apply lookup_zip_with_Some. exists i, r'. split; [done|]. split; [|done].
  apply lookup_seq. lia.
Qed.
(** If relay i never connects, at most 100 of the goroutines that answer calls (those that have a response
    for relay i) ever get past it: relays with a higher index get no response from any other. *)
Theorem C71_at_most_100 tr s i js : steps tr sinit s → SConnect i ∉ tr → NoDup js →
  (∀ j, j ∈ js → ∃ i0 rs k r, SStart j i0 rs ∈ tr ∧ i0 ≤ i ∧ SPush j k r ∈ tr ∧ i < k) → length js ≤ 100.
Proof using Type.
  intros Hs Hc Hnd Hjs. destruct (silent _ _ _ Hs Hc) as (_ & Hw & Hf). destruct (fifo _ _ _ Hs Hf) as [Hto _].
  rewrite Hw in Hto. simpl in Hto. pose proof (cap_buf _ _ i Hs) as Hcap. rewrite <- Hto, <- jobs_at_length in Hcap.
  transitivity (length (jobs_at i tr)); [|exact Hcap]. apply submseteq_length, NoDup_submseteq; [done|].
  intros j Hj. destruct (Hjs _ Hj) as (i0 & rs & k & r & Hst & Hle & Hp & Hlt).
  destruct (job_passed _ _ _ _ _ _ _ i Hs Hst Hp) as [r' Hr']; [lia|lia|].
  apply elem_of_list_omap. exists (SPush j i r'). split; [done|]. by rewrite decide_True.
Qed.
(** So at most 100 calls ever get as many as q responses on their way to relays other than i, when i < q. *)
Theorem C71_quota tr s i q js : steps tr sinit s → SConnect i ∉ tr → i < q → NoDup js →
  (∀ j, j ∈ js → ∃ rs is, SStart j 0 rs ∈ tr ∧ NoDup is ∧ length is = q ∧ i ∉ is ∧ ∀ k, k ∈ is → ∃ r, SPush j k r ∈ tr) →
  length js ≤ 100.
Proof using Type.
  intros Hs Hc Hq Hnd Hjs. eapply C71_at_most_100; [done|done|done|]. intros j Hj.
  destruct (Hjs _ Hj) as (rs & is & Hst & Hndi & Hlen & Hi & Hall).
  destruct (decide (Forall (λ k, k < i) is)) as [Hall'|Hex].
  - exfalso. assert (length is ≤ length (seq 0 i)) as Hx; [|rewrite seq_length in Hx; lia].
    apply submseteq_length, NoDup_submseteq; [done|]. intros k Hk. apply elem_of_seq. rewrite Forall_forall in Hall'.
    specialize (Hall' _ Hk). simpl in Hall'. lia.
  - apply not_Forall_Exists in Hex; [|apply _]. apply Exists_exists in Hex as (k & Hk & Hge). simpl in Hge.
    destruct (Hall _ Hk) as [r Hr]. exists 0, rs, k, r. split_and!; try done; [lia|].
    assert (k ≠ i) by (intros ->; done). lia.
Qed.

(** ** C72: a stream that fails once *)
Lemma closed_stays l s s' i : step l s s' → i ∈ closed s → i ∈ closed s' ∧ (∀ j r, l ≠ SPush j i r) ∧ l ≠ SFail i.
Proof using Type. intros Hst Hi. destruct Hst; cbn [closed]; split_and!; try done; try set_solver; try congruence. Qed.
Lemma failed_closed tr s i : steps tr sinit s → SFail i ∈ tr → i ∈ closed s.
Proof using Type.
  intros Hs. remember sinit as s0 eqn:E0. revert E0. induction Hs as [s|tr l s1 s2 s3 Hs IH Hst]; intros -> Hf.
  { by apply elem_of_nil in Hf. }
  rewrite elem_snoc in Hf. destruct Hf as [Hf| <-].
  - by eapply closed_stays; [|apply IH].
  - inversion Hst; subst. simpl. set_solver.
Qed.
Lemma after_closed tr s s' i : steps tr s s' → i ∈ closed s → i ∈ closed s' ∧ ∀ j r, SPush j i r ∉ tr.
Proof using Type.
  intros Hs Hi. induction Hs as [s|tr l s1 s2 s3 Hs IH Hst]; [split; [done|]; intros; apply not_elem_of_nil|].
  destruct (IH Hi) as [Hc Hn]. destruct (closed_stays _ _ _ _ Hst Hc) as (? & Hx & _). split; [done|].
  intros j r. rewrite elem_snoc. intros [?|Heq]; [by eapply Hn|]. by eapply Hx.
Qed.
Lemma steps_app tr1 tr2 s1 s2 s3 : steps tr1 s1 s2 → steps tr2 s2 s3 → steps (tr1 ++ tr2) s1 s3.
Proof using Type. intros Ha Hb. revert Ha. induction Hb; intros Ha; [by rewrite app_nil_r|]. rewrite app_assoc. econstructor; eauto. Qed.
(** Once a send to relay i's stream failed, nothing is accepted for it: a goroutine that comes to it
    crashes the server, and it can do nothing else. *)
Theorem C72_crash tr s i j r rs : steps tr sinit s → SFail i ∈ tr → crashed s = false → jobs s !! j = Some (i, r :: rs) →
  (∃ s', step SPanic s s' ∧ crashed s' = true) ∧ ∀ k r' s', ¬ step (SPush j k r') s s'.
Proof using Type.
  intros Hs Hf Hc Hj. pose proof (failed_closed _ _ _ Hs Hf) as Hcl. split.
  - eexists. split; [by eapply ss_push_panic|done].
  - intros k r' s' Hst. inversion Hst; subst. simplify_eq. done.
Qed.
(** No call started afterwards finishes: its goroutine never gets past relay i. *)
Theorem C72_no_call_finishes tr1 tr2 s1 s2 i j i0 rs : steps tr1 sinit s1 → SFail i ∈ tr1 → steps tr2 s1 s2 →
  SStart j i0 rs ∈ tr2 → i0 ≤ i → i < i0 + length rs →
  (∀ k r, SPush j k r ∈ tr1 ++ tr2 → k < i) ∧ ∀ k, jobs s2 !! j ≠ Some (k, []).
Proof using Type.
  intros Hs1 Hf Hs2 Hst H0 H1. pose proof (failed_closed _ _ _ Hs1 Hf) as Hc. destruct (after_closed _ _ _ _ Hs2 Hc) as [_ Hn].
  pose proof (steps_app _ _ _ _ _ Hs1 Hs2) as Hs.
  assert (∀ k r, SPush j k r ∉ tr1) as Hnew.
  { assert (jobs s1 !! j = None) as Hnone.
    { clear -Hs2 Hst. induction Hs2 as [s|tr l x1 x2 x3 Hs IH Hl]; [by apply elem_of_nil in Hst|].
      rewrite elem_snoc in Hst. destruct Hst as [?| <-]; [by apply IH|]. inversion Hl; subst.
      match goal with H : jobs x2 !! j = None |- _ => rename H into Hx end. clear -Hs Hx.
      induction Hs as [|tr l x1 x2 x3 Hs IH Hl]; [done|]. apply IH. destruct Hl; simpl in *; try done.
      - by apply lookup_insert_None in Hx as [? _].
      - by apply lookup_insert_None in Hx as [? _]. }
    destruct (jinv_all _ _ j Hs1) as [I1 _]. destruct (I1 Hnone) as [Hb _]. intros k r Hin%by_job_in. rewrite Hb in Hin. by apply elem_of_nil in Hin. }
  assert (∀ r, SPush j i r ∉ tr1 ++ tr2) as Hni.
  { intros r. rewrite elem_of_app. intros [?|?]; [by eapply Hnew|by eapply Hn]. }
  assert (SStart j i0 rs ∈ tr1 ++ tr2) as Hst' by (rewrite elem_of_app; by right). split.
  - intros k r Hin. destruct (decide (k < i)) as [?|Hge]; [done|]. exfalso.
    destruct (job_passed _ _ _ _ _ _ _ i Hs Hst' Hin) as [r' Hr']; [lia|lia|]. by eapply Hni.
  - intros k Hk. destruct (C70_in_order _ _ _ _ _ Hs Hst') as [_ Hall]. specialize (Hall _ Hk).
    destruct (lookup_lt_is_Some_2 rs (i - i0)) as [r' Hr']; [lia|]. apply (Hni r'). apply by_job_in. rewrite Hall.
    apply elem_of_list_lookup. exists (i - i0). apply lookup_zip_with_Some. exists i, r'. split; [done|]. split; [|done].
    apply lookup_seq. lia.
Qed.
End streams.

(** ** The hypotheses are met. *)
Section witnesses.
Context {R : Type} (n : nat) (r : R) (Hn : 0 < n).
Let rs : list R := replicate n r.
(** 100 calls fill relay 0's channel ... *)
Lemma fill m : m ≤ 100 → ∃ tr (s : sst R), ssteps n tr sinit s ∧ SConnect 0 ∉ tr ∧ length (buf s 0) = m ∧ crashed s = false ∧
  closed s = ∅ ∧ ∀ j, m ≤ j → jobs s !! j = None.
Proof using Hn r.
  induction m as [|m IH]; intros Hm.
  { exists [], sinit. split; [constructor|]. split; [apply not_elem_of_nil|]. done. }
  destruct IH as (tr & s & Hs & Hc & Hb & Hcr & Hcl & Hj); [lia|].
  assert (∃ rs', rs = r :: rs') as [rs' Hrs]. { unfold rs. destruct n; [lia|]. by eexists. }
  set (s1 := mkSst (bufs s) (closed s) (writers s) (<[m := (0, rs)]> (jobs s)) false).
  set (s2 := mkSst (<[0 := buf s1 0 ++ [r]]> (bufs s1)) (closed s1) (writers s1) (<[m := (1, rs')]> (jobs s1)) false).
  exists ((tr ++ [SStart m 0 rs]) ++ [SPush m 0 r]), s2. split_and!.
  - econstructor; [econstructor; [exact Hs|]|].
    + apply ss_start; [done|apply Hj; lia|]. unfold rs. rewrite replicate_length. lia.
    + apply (ss_push n s1 m 0 r rs').
      * done.
      * unfold s1. simpl. rewrite lookup_insert. by rewrite Hrs.
      * unfold s1. simpl. rewrite Hcl. set_solver.
      * change (buf s1 0) with (buf s 0). rewrite Hb. unfold cap. lia.
  - rewrite !elem_snoc. intros [[?|?]|?]; done.
  - unfold buf at 1. unfold s2. cbn [bufs]. rewrite lookup_insert. cbn [default from_option id].
    change (buf s1 0) with (buf s 0). rewrite app_length, Hb. simpl. lia.
  - done.
  - done.
  - intros j Hj'. unfold s2, s1. simpl. rewrite !lookup_insert_ne by lia. apply Hj. lia.
Qed.
(** ... and as long as relay 0 does not connect, the 101st has no response accepted by any relay. *)
Theorem C71_witness : ∃ tr (s : sst R) s1, ssteps n tr sinit s ∧ SConnect 0 ∉ tr ∧ sstep n (SStart 100 0 rs) s s1 ∧
  ∀ tr' s2, ssteps n tr' s1 s2 → SConnect 0 ∉ tr' → ∀ k r', SPush 100 k r' ∉ tr'.
Proof using Hn r.
  destruct (fill 100) as (tr & s & Hs & Hc & Hb & Hcr & Hcl & Hj); [lia|].
  set (s1 := mkSst (bufs s) (closed s) (writers s) (<[100 := (0, rs)]> (jobs s)) false).
  assert (sstep n (SStart 100 0 rs) s s1) as Hst.
  { apply ss_start; [done|apply Hj; lia|]. unfold rs. rewrite replicate_length. lia. }
  exists tr, s, s1. split; [done|]. split; [done|]. split; [done|].
  intros tr' s2 Hs2 Hc2.
  destruct (silent n _ _ 0 Hs Hc) as (Hw & _ & _).
  enough (length (buf s2 0) = 100 ∧ nwriters s2 0 = 0 ∧ jobs s2 !! 100 = Some (0, rs) ∧ ∀ k r', SPush 100 k r' ∉ tr') as (_ & _ & _ & Hx) by exact Hx.
  assert (length (buf s1 0) = 100) as Hb1 by exact Hb. assert (nwriters s1 0 = 0) as Hw1 by exact Hw.
  assert (jobs s1 !! 100 = Some (0, rs)) as Hj1 by by (unfold s1; simpl; rewrite lookup_insert). clearbody s1. clear -Hs2 Hc2 Hb1 Hw1 Hj1.
  induction Hs2 as [s|tr l x1 x2 x3 Hs IH Hst].
  { split_and!; try done. intros. apply not_elem_of_nil. }
  rewrite elem_snoc in Hc2. destruct IH as (Hb & Hw & Hj & Hp); [tauto|done|done|done|].
  assert (∀ i b, length b = 100 ∨ i ≠ 0 → length (default [] (<[i := b]> (bufs x2) !! 0)) = 100) as Hup.
  { intros i b Hi. destruct (decide (i = 0)) as [->|?]; [rewrite lookup_insert; simpl; tauto|by rewrite lookup_insert_ne]. }
  destruct Hst; unfold buf, nwriters in *; cbn [bufs writers jobs]; split_and!; try done.
  all: try (intros k r'; rewrite elem_snoc; intros [Hin|Heq]; [by eapply Hp|done]; fail).
  - rewrite lookup_insert_ne; [done|]. intros ->. congruence.
  - apply Hup. destruct (decide (i = 0)) as [->|?]; [|by right]. simpl in *. unfold cap, buf in *. lia.
  - destruct (decide (j = 100)) as [->|?]; [|by rewrite lookup_insert_ne]. simplify_eq. unfold cap, buf in *. lia.
  - intros k r'. rewrite elem_snoc. intros [Hin|Heq]; [by eapply Hp|]. simplify_eq. unfold cap, buf in *. lia.
  - rewrite lookup_insert_ne; [done|]. intros ->. tauto.
  - apply Hup. right. intros ->. congruence.
  - apply Hup. right. intros ->. congruence.
  - rewrite lookup_insert_ne; [done|]. intros ->. congruence.
  - apply Hup. right. intros ->. congruence.
  - rewrite lookup_insert_ne; [done|]. intros ->. congruence.
Qed.
End witnesses.

(** Build a run forwards. *)
Lemma next {R} n tr (s s' : sst R) l : ssteps n tr sinit s → sstep n l s s' → ssteps n (tr ++ [l]) sinit s'.
Proof. intros. by econstructor. Qed.
Ltac nf H := cbn [bufs closed writers jobs crashed app] in H; unfold buf, nwriters in H; cbn [bufs closed writers jobs crashed app] in H; simpl in H.
(** C72: one call with two relays, the first of which goes away; then the next call. *)
Example C72_example : ∃ tr (s : sst nat), ssteps 2 tr sinit s ∧ SFail 0 ∈ tr ∧ crashed s = false ∧
  SStart 1 0 [7; 8] ∈ tr ∧ jobs s !! 1 = Some (0, [7; 8]).
Proof.
  eassert (X : ssteps (R:=nat) 2 _ sinit _) by (eapply next; [apply ss_nil|apply (ss_connect _ _ 0); [done|lia]]). nf X.
  eassert (Y : ssteps (R:=nat) 2 _ sinit _) by (eapply next; [exact X|apply (ss_start _ _ 0 0 [5; 6]); [done|done|simpl; lia]]). clear X. nf Y.
  eassert (X : ssteps (R:=nat) 2 _ sinit _) by (eapply next; [exact Y|apply (ss_push _ _ 0 0 5 [6]); [done|done|set_solver|vm_compute; lia]]). clear Y. nf X.
  eassert (Y : ssteps (R:=nat) 2 _ sinit _) by (eapply next; [exact X|apply (ss_fail _ _ 0 5 [] 0); [done|done|done|set_solver]]). clear X. nf Y.
  eassert (X : ssteps (R:=nat) 2 _ sinit _) by (eapply next; [exact Y|apply (ss_start _ _ 1 0 [7; 8]); [done|done|simpl; lia]]). clear Y. nf X.
  eexists _, _. split; [exact X|]. split_and!; [set_solver|done|set_solver|done].
Qed.
Lemma at_rest (n : nat) (s : sst nat) : (∀ j k r rs, jobs s !! j ≠ Some (k, r :: rs)) → (∀ i, buf s i = []) →
  ∀ l s', sstep n l s s' → ¬ moving l.
Proof.
  intros Hj Hb l s' Hst. destruct Hst; simpl; try (intros []; fail).
  - by destruct (Hj _ _ _ _ H0).
  - by rewrite Hb in H1.
Qed.
(** C70: two relays, a call, all written; nothing left to do. *)
Example C70_example : ∃ tr (s : sst nat), ssteps 2 tr sinit s ∧ (∀ i, SFail i ∉ tr) ∧ (∀ i, i < 2 → 0 < nwriters s i) ∧
  SStart 0 0 [5; 6] ∈ tr ∧ written 0 tr = [5] ∧ written 1 tr = [6] ∧ ∀ l s', sstep 2 l s s' → ¬ moving l.
Proof.
  eassert (X : ssteps (R:=nat) 2 _ sinit _) by (eapply next; [apply ss_nil|apply (ss_connect _ _ 0); [done|lia]]). nf X.
  eassert (Y : ssteps (R:=nat) 2 _ sinit _) by (eapply next; [exact X|apply (ss_connect _ _ 1); [done|lia]]). clear X. nf Y.
  eassert (X : ssteps (R:=nat) 2 _ sinit _) by (eapply next; [exact Y|apply (ss_start _ _ 0 0 [5; 6]); [done|done|simpl; lia]]). clear Y. nf X.
  eassert (Y : ssteps (R:=nat) 2 _ sinit _) by (eapply next; [exact X|apply (ss_push _ _ 0 0 5 [6]); [done|done|set_solver|vm_compute; lia]]). clear X. nf Y.
  eassert (X : ssteps (R:=nat) 2 _ sinit _) by (eapply next; [exact Y|apply (ss_push _ _ 0 1 6 []); [done|done|set_solver|vm_compute; lia]]). clear Y. nf X.
  eassert (Y : ssteps (R:=nat) 2 _ sinit _) by (eapply next; [exact X|apply (ss_write _ _ 1 6 [] 0); done]). clear X. nf Y.
  eassert (X : ssteps (R:=nat) 2 _ sinit _) by (eapply next; [exact Y|apply (ss_write _ _ 0 5 [] 0); done]). clear Y. nf X.
  eexists _, _. split; [exact X|]. split_and!; try done.
  - intros i Hin. set_solver.
  - intros i Hi. destruct i as [|[|i]]; [vm_compute; lia|vm_compute; lia|lia].
  - set_solver.
  - apply at_rest.
    + intros j k r rs. cbn [jobs]. destruct (decide (j = 0)) as [->|?]; [done|]. rewrite !lookup_insert_ne by done. by rewrite lookup_empty.
    + intros i. unfold buf. cbn [bufs]. destruct i as [|[|i]]; [done|done|]. rewrite !lookup_insert_ne by done. by rewrite lookup_empty.
Qed.
