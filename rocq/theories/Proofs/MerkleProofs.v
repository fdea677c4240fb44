(** Proofs about the Merkle array. *)
From stdpp Require Import gmap sorting vector.
From Verif.Base Require Import Base.
From Verif.Model Require Import Merkle.
From Verif.Spec Require Import MerkleSpec.

Lemma lxor1_even p : N.even p = true → N.lxor p 1 = (p + 1)%N.
Proof. destruct p as [|[p|p|]]; simpl; try done; lia. Qed.
Lemma lxor1_odd p : N.even p = false → N.lxor p 1 = (p - 1)%N ∧ (1 ≤ p)%N.
Proof. destruct p as [|[p|p|]]; simpl; try done; lia. Qed.
Lemma even_half p : N.even p = true → p = (2 * (p / 2))%N.
Proof. intros He. apply N.even_spec in He as [k ->]. rewrite N.mul_comm, N.div_mul by done. lia. Qed.
Lemma odd_half p : N.even p = false → p = (2 * (p / 2) + 1)%N.
Proof.
  intros He. assert (N.odd p = true) as Ho by (rewrite <-N.negb_even, He; done).
  apply N.odd_spec in Ho as [k ->]. replace ((2 * k + 1) / 2)%N with k; [done|].
  apply N.div_unique with 1%N; lia.
Qed.

(** Digest at position p of a layer. *)
Definition at_ (ls : list digest) (p : N) : digest := default zero_digest (ls !! N.to_nat p).

Section merkle.
Context (H : bytes → digest).
Notation node := (node H).
Notation layer_up := (layer_up H).

Lemma layer_up_spec ls : ∀ i,
  layer_up ls !! i = if decide (2 * i < length ls)
    then Some (node (default zero_digest (ls !! (2 * i))) (default zero_digest (ls !! S (2 * i)))) else None.
Proof.
  induction ls as [ls IH] using (well_founded_ind (well_founded_ltof _ length)). unfold ltof in IH.
  intros i. destruct ls as [|l [|r ls]].
  - rewrite decide_False by (simpl; lia). done.
  - destruct i as [|i]; [done|]. rewrite decide_False by (simpl; lia). done.
  - cbn [Merkle.layer_up length]. destruct i as [|i]; [done|].
    replace (2 * S i) with (S (S (2 * i))) by lia. cbn [lookup list_lookup].
    change (list_lookup i (layer_up ls)) with (layer_up ls !! i).
    rewrite (IH ls) by (simpl; lia).
    destruct (decide (2 * i < length ls)), (decide (S (S (2 * i)) < S (S (length ls)))); try lia; done.
Qed.
Lemma layer_up_length ls : length (layer_up ls) = Nat.div2 (S (length ls)).
Proof.
  induction ls as [ls IH] using (well_founded_ind (well_founded_ltof _ length)). unfold ltof in IH.
  destruct ls as [|l [|r ls]]; [done|done|].
  cbn [Merkle.layer_up length]. rewrite (IH ls) by (simpl; lia). done.
Qed.
Lemma layer_up_lt ls p : (N.to_nat p < length ls → N.to_nat (p / 2) < length (layer_up ls)).
Proof.
  intros Hp. rewrite layer_up_length.
  rewrite Nat.div2_div, N2Nat.inj_div. apply Nat.div_lt_upper_bound; [lia|].
  pose proof (Nat.div_mod_eq (S (length ls)) 2). pose proof (Nat.mod_upper_bound (S (length ls)) 2). change (N.to_nat 2) with 2.
  pose proof (Nat.div_mod_eq (N.to_nat p) 2). lia.
Qed.
Lemma layer_up_at ls p : N.to_nat p < length ls →
  at_ (layer_up ls) (p / 2) = node (at_ ls (2 * (p / 2))) (at_ ls (2 * (p / 2) + 1)).
Proof.
  intros Hp. unfold at_ at 1. rewrite layer_up_spec, decide_True.
  - cbn [from_option id]. unfold at_. rewrite N2Nat.inj_add, N2Nat.inj_mul. change (N.to_nat 2) with 2. change (N.to_nat 1) with 1.
    by rewrite Nat.add_1_r.
  - assert (2 * (p / 2) ≤ p)%N by (apply N.mul_div_le; done). lia.
Qed.

(** Towers of layers. *)
Inductive tower : list (list digest) → Prop :=
| tower_one d : tower [[d]]
| tower_cons x r : 1 < length x → tower (layer_up x :: r) → tower (x :: layer_up x :: r).

Lemma build_levels_tower fuel top :
  0 < length top → length top ≤ S fuel →
  ∃ r, build_levels H fuel top = top :: r ∧ tower (top :: r).
Proof.
  revert top. induction fuel as [|fuel IH]; intros top H0 Hle; simpl.
  - destruct (decide _); [lia|]. exists []. split; [done|].
    destruct top as [|d [|? ?]]; simpl in *; try lia. constructor.
  - destruct (decide _) as [H1|H1].
    + assert (Hl : length (layer_up top) < length top).
      { rewrite layer_up_length, Nat.div2_div. apply Nat.div_lt_upper_bound; lia. }
      destruct (IH (layer_up top)) as (r & -> & Hr).
      * rewrite layer_up_length. destruct (length top); [lia|]. simpl. lia.
      * lia.
      * eexists. split; [done|]. by constructor.
    + exists []. split; [done|]. destruct top as [|d [|? ?]]; simpl in *; try lia. constructor.
Qed.
Lemma Build_tower arr : arr ≠ [] → ∃ r, Build H arr = (H <$> arr) :: r ∧ tower ((H <$> arr) :: r).
Proof.
  intros Hne. destruct (build_levels_tower (length arr) (H <$> arr)) as (r & E & T).
  - rewrite fmap_length. destruct arr; [done|]. simpl. lia.
  - rewrite fmap_length. lia.
  - exists r. split; [|done]. rewrite <-E. by destruct arr.
Qed.
Lemma tower_height lv : tower lv → ∀ k x, lv !! 0 = Some x → length x ≤ 2 ^ k → length lv ≤ S k.
Proof.
  induction 1 as [d|x r H1 Ht IH]; intros k y Hy Hk.
  - simpl. lia.
  - simpl in Hy. injection Hy as <-. destruct k as [|k]; [simpl in Hk; lia|].
    specialize (IH k (layer_up x) eq_refl). cbn [length] in *. apply le_n_S. apply IH.
    rewrite layer_up_length, Nat.div2_div. apply Nat.lt_succ_r. apply Nat.div_lt_upper_bound; [lia|].
    rewrite Nat.pow_succ_r' in Hk. lia.
Qed.
Lemma tower_root lv : tower lv → ∃ d, last lv = Some [d] ∧ Root lv = d.
Proof.
  induction 1 as [d|x r H1 Ht (d & E & R)]; [by exists d|].
  exists d. split; [exact E|]. unfold Root in *. change (last (x :: layer_up x :: r)) with (last (layer_up x :: r)).
  by rewrite E in R |- *.
Qed.

(** *** Completeness *)
(** Genuine items of a layer. *)
Definition genuine (x : list digest) (ps : list N) : list item := (λ p, (p, at_ x p)) <$> ps.

Lemma up_lockstep x : ∀ (pl : list item) c0 hs,
  StronglySorted N.lt pl.*1 → Forall (λ p, N.to_nat p < length x) pl.*1 →
  ∃ plz ds,
    pl_up (get_tree x) c0 pl hs = Some (plz, hs ++ ds) ∧
    (∀ rest, pl_up get_hint node (genuine x pl.*1) (ds ++ rest) = Some (genuine (layer_up x) plz.*1, rest)) ∧
    StronglySorted N.lt plz.*1 ∧ Forall (λ p, N.to_nat p < length (layer_up x)) plz.*1 ∧
    (∀ q, q ∈ plz.*1 → ∃ p, p ∈ pl.*1 ∧ q = p / 2)%N ∧
    (pl ≠ [] → plz ≠ []) ∧ (length pl = 1 → ds ≠ []).
Proof.
  intros pl. induction pl as [pl IH] using (well_founded_ind (well_founded_ltof _ length)). unfold ltof in IH.
  intros c0 hs Hs Hf. destruct pl as [|[p h] rest].
  { exists [], []. rewrite app_nil_r. simpl. repeat split; try done; try constructor. intros q Hq. by apply elem_of_nil in Hq. }
  cbn [fmap list_fmap fst] in Hs, Hf. apply StronglySorted_inv in Hs as [Hs Hlt].
  apply Forall_cons in Hf as [Hp Hf].
  rewrite Forall_forall in Hlt. change (list_fmap _ _ fst rest) with (rest.*1) in *.
  (* joining the node *)
  assert (Hjoin : ∀ sib, sib = at_ x (N.lxor p 1) →
    (if N.even p then node (at_ x p) sib else node sib (at_ x p)) = at_ (layer_up x) (p / 2)).
  { intros sib ->. rewrite layer_up_at by done. destruct (N.even p) eqn:Ev.
    - rewrite lxor1_even by done. by rewrite <-(even_half p Ev).
    - destruct (lxor1_odd p Ev) as [-> _]. rewrite <-(odd_half p Ev). f_equal. f_equal.
      pose proof (odd_half p Ev). lia. }
  (* what the tail contributes *)
  assert (Hcase : (∃ h' rest', rest = (N.lxor p 1, h') :: rest') ∨
     (∀ p' h' rest', rest = (p', h') :: rest' → p' ≠ N.lxor p 1)).
  { destruct rest as [|[p' h'] rest']; [by right|].
    destruct (decide (p' = N.lxor p 1)) as [->|Hne]; [left; eauto|]. right. intros ? ? ? [= <- <- <-]. done. }
  destruct Hcase as [(h' & rest' & ->)|Hno].
  - (* sibling present *)
    cbn [fmap list_fmap fst] in Hs, Hf, Hlt. change (list_fmap _ _ fst rest') with (rest'.*1) in *.
    apply StronglySorted_inv in Hs as [Hs Hlt']. rewrite Forall_forall in Hlt'.
    apply Forall_cons in Hf as [Hp' Hf].
    assert (Hev : N.even p = true).
    { destruct (N.even p) eqn:Ev; [done|]. destruct (lxor1_odd p Ev) as [E1 E2].
      specialize (Hlt (N.lxor p 1) ltac:(left)). lia. }
    destruct (IH rest' ltac:(simpl; lia) c0 hs Hs Hf) as (plz & ds & E1 & E2 & E3 & E4 & E5 & E6 & E7).
    exists ((p / 2, if N.even p then c0 h h' else c0 h' h)%N :: plz), ds.
    split; [|split; [|split; [|split; [|split; [|split]]]]].
    + cbn [pl_up]. rewrite decide_True by done. rewrite E1. done.
    + intros rs. cbn [genuine fmap list_fmap fst pl_up]. rewrite decide_True by done.
      change (list_fmap _ _ (λ p0, (p0, at_ x p0)) (list_fmap _ _ fst rest')) with (genuine x rest'.*1).
      rewrite E2. cbn [mbind option_bind fst]. rewrite Hjoin by done. done.
    + cbn [fmap list_fmap fst]. constructor; [done|]. rewrite Forall_forall. intros q Hq.
      destruct (E5 q Hq) as (p'' & Hin & ->). specialize (Hlt' p'' Hin). rewrite lxor1_even in Hlt' by done.
      pose proof (even_half p Hev). assert (p / 2 < p'' / 2)%N; [|done].
      apply N.lt_le_trans with ((p + 2) / 2)%N; [|apply N.div_le_mono; lia].
      replace (p + 2)%N with (p + 1 * 2)%N by lia. rewrite N.div_add by done. lia.
    + constructor; [|done]. cbn [fst]. by apply layer_up_lt.
    + intros q Hq. cbn [fmap list_fmap fst] in Hq. apply elem_of_cons in Hq as [->|Hq]; [exists p; split; [left|done]|].
      destruct (E5 q Hq) as (p'' & ? & ?). exists p''. split; [|done]. cbn [fmap list_fmap fst]. right. right. done.
    + done.
    + done.
  - (* sibling asked for *)
    destruct (IH rest ltac:(simpl; lia) c0 (hs ++ [at_ x (N.lxor p 1)]) Hs Hf) as (plz & ds & E1 & E2 & E3 & E4 & E5 & E6 & E7).
    set (d := at_ x (N.lxor p 1)) in *.
    exists ((p / 2, if N.even p then c0 h d else c0 d h)%N :: plz), (d :: ds).
    split; [|split; [|split; [|split; [|split; [|split]]]]].
    + assert (Hstep : pl_up (get_tree x) c0 ((p, h) :: rest) hs =
        '(sib, s1) ← get_tree x hs (N.lxor p 1);
        '(res, s2) ← pl_up (get_tree x) c0 rest s1;
        Some ((p / 2, if N.even p then c0 h sib else c0 sib h)%N :: res, s2)).
      { cbn [pl_up]. destruct rest as [|[p' h'] rest']; [done|]. rewrite decide_False; [done|]. by eapply Hno. }
      etrans; [exact Hstep|].
      change (get_tree x hs (N.lxor p 1)) with (Some (d, hs ++ [d])).
      cbn [mbind option_bind]. rewrite E1. cbn [mbind option_bind]. by rewrite <-app_assoc.
    + intros rs. cbn [genuine fmap list_fmap fst].
      change (list_fmap _ _ (λ p0, (p0, at_ x p0)) (list_fmap _ _ fst rest)) with (genuine x rest.*1).
      assert (pl_up get_hint node ((p, at_ x p) :: genuine x rest.*1) (d :: ds ++ rs) =
        '(sib, s1) ← get_hint (d :: ds ++ rs) (N.lxor p 1);
        '(res, s2) ← pl_up get_hint node (genuine x rest.*1) s1;
        Some ((p / 2, if N.even p then node (at_ x p) sib else node sib (at_ x p))%N :: res, s2)) as Hstep.
      { cbn [pl_up]. destruct rest as [|[p' h'] rest']; [done|]. cbn [genuine fmap list_fmap fst].
        rewrite decide_False; [done|]. by eapply Hno. }
      etrans; [exact Hstep|]. cbn [get_hint mbind option_bind]. rewrite E2. cbn [mbind option_bind]. rewrite Hjoin by done. done.
    + cbn [fmap list_fmap fst]. constructor; [done|]. rewrite Forall_forall. intros q Hq.
      destruct (E5 q Hq) as (p'' & Hin & ->). pose proof (Hlt p'' Hin) as Hlt1.
      assert (Hp2 : (p / 2 < p'' / 2)%N); [|done].
      destruct (N.even p) eqn:Ev.
      * pose proof (even_half p Ev). assert (p'' ≠ p + 1)%N.
        { intros ->. destruct rest as [|[p' h'] rest']; [by apply elem_of_nil in Hin|].
          specialize (Hno _ _ _ eq_refl). rewrite lxor1_even in Hno by done.
          cbn [fmap list_fmap fst] in Hin, Hs. apply elem_of_cons in Hin as [?|Hin]; [done|].
          apply StronglySorted_inv in Hs as [_ Hs]. rewrite Forall_forall in Hs. specialize (Hs _ Hin).
          specialize (Hlt p' ltac:(left)). lia. }
        apply N.lt_le_trans with ((p + 2) / 2)%N; [|apply N.div_le_mono; lia].
        replace (p + 2)%N with (p + 1 * 2)%N by lia. rewrite N.div_add by done. lia.
      * pose proof (odd_half p Ev).
        apply N.lt_le_trans with ((p + 1) / 2)%N; [|apply N.div_le_mono; lia].
        replace (p + 1)%N with ((p / 2 + 1) * 2)%N by lia. rewrite N.div_mul by done. lia.
    + constructor; [|done]. cbn [fst]. by apply layer_up_lt.
    + intros q Hq. cbn [fmap list_fmap fst] in Hq. apply elem_of_cons in Hq as [->|Hq]; [exists p; split; [left|done]|].
      destruct (E5 q Hq) as (p'' & ? & ?). exists p''. split; [|done]. cbn [fmap list_fmap fst]. by right.
    + done.
    + done.
Qed.

Lemma loop_lockstep lv : tower lv → ∀ x pl hs k,
  lv !! 0 = Some x → pl ≠ [] → StronglySorted N.lt pl.*1 → Forall (λ p, N.to_nat p < length x) pl.*1 →
  length lv ≤ S k →
  ∃ plz ds, prove_loop lv pl hs = Some (plz, hs ++ ds) ∧ length plz = 1 ∧
    verify_loop H k (genuine x pl.*1) ds = Some [(0%N, Root lv)].
Proof.
  induction 1 as [d|x r H1 Ht IH]; intros y pl hs k Hy Hne Hs Hf Hk; simpl in Hy; injection Hy as <-.
  - assert (∃ h, pl = [(0%N, h)]) as [h ->].
    { destruct pl as [|[p h] [|[p' h'] pl]]; [done|..]; cbn [fmap list_fmap fst] in Hf, Hs.
      - apply Forall_cons in Hf as [Hp _]. simpl in Hp. exists h. f_equal. f_equal. lia.
      - apply Forall_cons in Hf as [Hp Hf]. apply Forall_cons in Hf as [Hp' _]. simpl in Hp, Hp'.
        apply StronglySorted_inv in Hs as [_ Hs]. apply Forall_cons in Hs as [Hs _]. lia. }
    exists [(0%N, h)], []. rewrite app_nil_r. split; [done|]. split; [done|].
    destruct k; cbn [verify_loop]; (rewrite decide_False; [done|intros [?|?]; [done|simpl in *; lia]]).
  - destruct (up_lockstep x pl (λ _ _, zero_digest) hs Hs Hf) as (pl1 & ds1 & E1 & E2 & E3 & E4 & E5 & E6 & E7).
    destruct k as [|k]; [simpl in Hk; lia|].
    destruct (IH (layer_up x) pl1 (hs ++ ds1) k eq_refl (E6 Hne) E3 E4 ltac:(simpl in *; lia)) as (plz & ds & P1 & P2 & P3).
    exists plz, (ds1 ++ ds). 
    change (prove_loop (x :: layer_up x :: r) pl hs) with
      ('(pl, hints) ← pl_up (get_tree x) (λ _ _, zero_digest) pl hs; prove_loop (layer_up x :: r) pl hints).
    rewrite E1. cbn [mbind option_bind]. rewrite P1.
    split; [by rewrite app_assoc|]. split; [done|].
    cbn [verify_loop]. rewrite decide_True.
    + rewrite E2. cbn [mbind option_bind]. exact P3.
    + destruct (decide (length pl = 1)) as [Hl|Hl].
      * left. specialize (E7 Hl). by destruct ds1.
      * right. unfold genuine. rewrite !fmap_length. destruct pl as [|? [|? ?]]; simpl in *; try lia; done.
Qed.

(** The items Prove starts with. *)
Lemma prove_items_ok leaves : ∀ idxs lst,
  StronglySorted N.le idxs → (∀ q, lst = Some q → ∀ p, p ∈ idxs → q ≤ p)%N →
  Forall (λ p, N.to_nat p < length leaves) idxs →
  ∃ pl, prove_items leaves lst idxs = Some pl ∧ StronglySorted N.lt pl.*1 ∧
    (∀ p, p ∈ pl.*1 ↔ p ∈ idxs ∧ lst ≠ Some p).
Proof.
  induction idxs as [|p idxs IH]; intros lst Hs Hl Hf.
  - exists []. split; [done|]. split; [constructor|]. intros q. rewrite !elem_of_nil. naive_solver.
  - apply StronglySorted_inv in Hs as [Hs Hle]. rewrite Forall_forall in Hle.
    apply Forall_cons in Hf as [Hp Hf]. apply lookup_lt_is_Some in Hp as [d Hd].
    cbn [prove_items]. rewrite Hd. cbn [mbind option_bind].
    destruct (decide (lst = Some p)) as [->|Hne].
    + destruct (IH (Some p) Hs) as (pl & E & S1 & S2); [intros q [= <-] p' Hp'; by apply Hle|done|].
      exists pl. split; [done|]. split; [done|]. intros q. rewrite S2, elem_of_cons. naive_solver.
    + destruct (IH (Some p) Hs) as (pl & E & S1 & S2); [intros q [= <-] p' Hp'; by apply Hle|done|].
      rewrite E. cbn [mbind option_bind]. eexists. split; [done|]. cbn [fmap list_fmap fst].
      change (list_fmap _ _ fst pl) with (pl.*1). split.
      * constructor; [done|]. rewrite Forall_forall. intros q [Hq Hqp]%S2. specialize (Hle q Hq). apply N.lt_eq_cases in Hle as [?|?]; [done|congruence].
      * intros q. rewrite !elem_of_cons, S2. split.
        -- intros [->|[Hq Hqp]]; [split; [by left|done]|]. split; [by right|]. intros ->.
           specialize (Hl q eq_refl p ltac:(left)). specialize (Hle q Hq). assert (p = q) by lia. congruence.
        -- intros [[->|Hq] Hn]; [by left|]. destruct (decide (q = p)) as [->|]; [by left|]. right. split; [done|congruence].
Qed.
Lemma prove_items_bad leaves : ∀ idxs lst p,
  p ∈ idxs → length leaves ≤ N.to_nat p → prove_items leaves lst idxs = None.
Proof.
  induction idxs as [|q idxs IH]; intros lst p Hin Hge; [by apply elem_of_nil in Hin|].
  cbn [prove_items]. apply elem_of_cons in Hin as [->|Hin].
  - rewrite lookup_ge_None_2 by done. done.
  - destruct (leaves !! N.to_nat q); [|done]. cbn [mbind option_bind].
    case_decide; [by eapply IH|]. by rewrite (IH _ _ Hin Hge).
Qed.

Local Instance Nle_total : Total N.le.
Proof. intros a b. lia. Qed.
Local Instance Nle_trans : Transitive N.le.
Proof. intros a b c. lia. Qed.
Local Instance pos_le_total : Total pos_le.
Proof. intros a b. unfold pos_le. lia. Qed.
Local Instance pos_le_trans : Transitive pos_le.
Proof. intros a b c. unfold pos_le. lia. Qed.

Lemma strictly_sorted_eq (l l' : list N) :
  StronglySorted N.lt l → StronglySorted N.lt l' → (∀ p, p ∈ l ↔ p ∈ l') → l = l'.
Proof.
  revert l'. induction l as [|a l IH]; intros [|b l'] S1 S2 Heq; try done.
  - pose proof (proj2 (Heq b) ltac:(left)) as Hb. by apply elem_of_nil in Hb.
  - pose proof (proj1 (Heq a) ltac:(left)) as Hb. by apply elem_of_nil in Hb.
  - apply StronglySorted_inv in S1 as [S1 F1]. apply StronglySorted_inv in S2 as [S2 F2].
    rewrite Forall_forall in F1, F2.
    assert (a = b) as ->.
    { pose proof (proj1 (Heq a) ltac:(left)) as [->|Ha]%elem_of_cons; [done|].
      pose proof (proj2 (Heq b) ltac:(left)) as [->|Hb]%elem_of_cons; [done|].
      specialize (F1 _ Hb). specialize (F2 _ Ha). lia. }
    f_equal. apply IH; [done|done|]. intros p. split; intros Hp.
    + pose proof (proj1 (Heq p) ltac:(by right)) as [->|?]%elem_of_cons; [|done]. specialize (F1 _ Hp). lia.
    + pose proof (proj2 (Heq p) ltac:(by right)) as [->|?]%elem_of_cons; [|done]. specialize (F2 _ Hp). lia.
Qed.

(** Verify's starting layer: sorted by position, strictly since keys of a map differ. *)
Lemma start_items (elems : gmap N bytes) :
  let pl := merge_sort pos_le ((λ e, (e.1, H e.2)) <$> map_to_list elems) in
  StronglySorted N.lt pl.*1 ∧ (∀ p d, (p, d) ∈ pl ↔ ∃ e, elems !! p = Some e ∧ d = H e).
Proof.
  intros pl. set (l := (λ e, (e.1, H e.2)) <$> map_to_list elems) in pl.
  assert (Hperm : pl ≡ₚ l) by apply merge_sort_Permutation.
  split.
  - assert (Hs : StronglySorted pos_le pl) by (apply StronglySorted_merge_sort; apply _).
    assert (Hnd : NoDup (pl.*1)).
    { rewrite Hperm. unfold l. rewrite <-list_fmap_compose. simpl. apply NoDup_fst_map_to_list. }
    clearbody pl. clear Hperm l. induction Hs as [|a pl Hs IH Hf]; cbn [fmap list_fmap]; [constructor|].
    cbn [fmap list_fmap] in Hnd. apply NoDup_cons in Hnd as [Hni Hnd].
    constructor; [by apply IH|]. rewrite Forall_forall. intros q (b & -> & Hb)%elem_of_list_fmap.
    rewrite Forall_forall in Hf. specialize (Hf _ Hb). unfold pos_le in Hf.
    assert (a.1 ≠ b.1); [|lia]. intros E. apply Hni. rewrite E. change (b.1 ∈ pl.*1). by apply elem_of_list_fmap_1.
  - intros p d. rewrite Hperm. unfold l. rewrite elem_of_list_fmap. split.
    + intros ([p' e] & [= -> ->] & Hin%elem_of_map_to_list). eauto.
    + intros (e & He & ->). exists (p, e). split; [done|]. by apply elem_of_map_to_list.
Qed.

Lemma prove_verify arr idxs (elems : gmap N bytes) :
  elems ≠ ∅ → (∀ p e, elems !! p = Some e → arr !! N.to_nat p = Some e) →
  (∀ p, p ∈ idxs ↔ is_Some (elems !! p)) →
  (N.of_nat (length arr) ≤ 2 ^ 64)%N →
  ∃ proof, Prove (Build H arr) idxs = Some proof ∧ Verify H (Root (Build H arr)) elems proof = true.
Proof.
  intros Hne Hel Hidx Hlen.
  assert (Hin0 : ∃ p e, elems !! p = Some e) by (by apply map_choose in Hne).
  assert (Harr : arr ≠ []). { destruct Hin0 as (p & e & He). apply Hel in He. by intros ->. }
  destruct (Build_tower arr Harr) as (r & HB & HT). rewrite HB.
  assert (Hidxne : idxs ≠ []).
  { destruct Hin0 as (p & e & He). intros ->. pose proof (proj2 (Hidx p) ltac:(eauto)) as Hb. by apply elem_of_nil in Hb. }
  destruct (prove_items_ok (H <$> arr) (merge_sort N.le idxs) None) as (pl & E & S1 & S2).
  { apply StronglySorted_merge_sort; apply _. }
  { done. }
  { rewrite Forall_forall. intros p Hp. rewrite merge_sort_Permutation in Hp. apply Hidx in Hp as [e He].
    apply Hel in He. rewrite fmap_length. by eapply lookup_lt_Some. }
  assert (Hmem : ∀ p, p ∈ pl.*1 ↔ is_Some (elems !! p)).
  { intros p. rewrite S2, merge_sort_Permutation, Hidx. naive_solver. }
  assert (Hplne : pl ≠ []).
  { destruct Hin0 as (p & e & He). intros ->. pose proof (proj2 (Hmem p) ltac:(eauto)) as Hb. by apply elem_of_nil in Hb. }
  assert (Hf : Forall (λ p, N.to_nat p < length (H <$> arr)) pl.*1).
  { rewrite Forall_forall. intros p Hp. apply Hmem in Hp as [e He]. apply Hel in He.
    rewrite fmap_length. by eapply lookup_lt_Some. }
  assert (Hh : length ((H <$> arr) :: r) ≤ 66).
  { apply (tower_height _ HT 65 (H <$> arr)); [done|]. rewrite fmap_length.
    assert (N.of_nat (length arr) ≤ N.of_nat (2 ^ 65))%N; [|lia].
    etrans; [exact Hlen|]. rewrite Nat2N.inj_pow. done. }
  destruct (loop_lockstep _ HT _ pl [] 65 eq_refl Hplne S1 Hf ltac:(lia)) as (plz & ds & P1 & P2 & P3).
  exists ds. split.
  - unfold Prove. destruct idxs; [done|]. rewrite E. cbn [mbind option_bind]. rewrite P1.
    cbn [mbind option_bind app]. by rewrite decide_True.
  - unfold Verify. rewrite decide_False by done.
    destruct (start_items elems) as [T1 T2].
    set (st := merge_sort pos_le ((λ e, (e.1, H e.2)) <$> map_to_list elems)) in *.
    assert (st = genuine (H <$> arr) pl.*1) as ->.
    { assert (Hfst : st.*1 = pl.*1).
      { apply strictly_sorted_eq; [done|done|]. intros p. rewrite Hmem, elem_of_list_fmap. split.
        - intros ([p' d] & -> & Hin). apply T2 in Hin as (e & He & _). simpl. by eexists.
        - intros [e He]. exists (p, H e). split; [done|]. apply T2. eauto. }
      rewrite <-Hfst. assert (Hall : ∀ p d, (p, d) ∈ st → d = at_ (H <$> arr) p).
      { intros p d (e & He & ->)%T2. unfold at_. rewrite list_lookup_fmap, (Hel _ _ He). done. }
      clearbody st. clear -Hall. unfold genuine. induction st as [|[p d] st IH]; [done|].
      cbn [fmap list_fmap fst]. f_equal.
      - by rewrite <-(Hall p d ltac:(left)).
      - apply IH. intros p' d' Hin. apply Hall. by right. }
    rewrite P3. apply bool_decide_eq_true. done.
Qed.

Lemma prove_out_of_range arr idxs p :
  p ∈ idxs → length arr ≤ N.to_nat p → Prove (Build H arr) idxs = None.
Proof.
  intros Hin Hge. unfold Prove. destruct idxs as [|i idxs]; [by apply elem_of_nil in Hin|].
  destruct arr as [|a arr]; [done|]. destruct (Build_tower (a :: arr)) as (r & -> & _); [done|].
  rewrite (prove_items_bad _ _ _ p); [done| |by rewrite fmap_length].
  by rewrite merge_sort_Permutation.
Qed.

(** *** Soundness *)
Lemma pair_bytes_length l r : length (pair_bytes l r) = 64.
Proof. unfold pair_bytes. by rewrite app_length, !vec_to_list_length. Qed.
Lemma pair_bytes_inj l r l' r' : pair_bytes l r = pair_bytes l' r' → l = l' ∧ r = r'.
Proof.
  unfold pair_bytes. intros [E1 E2]%app_inj_1; [|by rewrite !vec_to_list_length].
  by apply vec_to_list_inj2 in E1, E2.
Qed.

Notation step_string := step_string.
Fixpoint climb (p : N) (h : digest) (proof : list digest) : N * digest :=
  match proof with
  | [] => (p, h)
  | d :: proof => climb (p / 2) (H (step_string p h d)) proof
  end.
Lemma verify_loop_climb k p h proof res : verify_loop H k [(p, h)] proof = Some res → res = [climb p h proof].
Proof.
  revert p h proof. induction k as [|k IH]; intros p h [|d proof] Hv; cbn [verify_loop] in Hv.
  - rewrite decide_False in Hv; [|simpl; intros [?|?]; [done|lia]]. by injection Hv as <-.
  - rewrite decide_True in Hv by (by left). done.
  - rewrite decide_False in Hv; [|simpl; intros [?|?]; [done|lia]]. by injection Hv as <-.
  - rewrite decide_True in Hv by (by left). cbn [pl_up get_hint mbind option_bind] in Hv.
    apply IH in Hv as ->. cbn [climb]. unfold step_string, Merkle.node. by destruct (N.even p).
Qed.
Lemma climb_app p h ds ds' :
  climb p h (ds ++ ds') = climb (climb p h ds).1 (climb p h ds).2 ds'.
Proof. revert p h. induction ds as [|d ds IH]; intros p h; simpl; [done|apply IH]. Qed.
Lemma path_strings_app p h ds ds' :
  path_strings H p h (ds ++ ds') = path_strings H p h ds ++ path_strings H (climb p h ds).1 (climb p h ds).2 ds'.
Proof. revert p h. induction ds as [|d ds IH]; intros p h; simpl; [done|by rewrite IH]. Qed.
Lemma climb_snoc p h ds d : ∃ b, b ∈ path_strings H p h (ds ++ [d]) ∧ length b = 64 ∧
   (climb p h (ds ++ [d])).2 = H b.
Proof.
  rewrite path_strings_app, climb_app. simpl. eexists. split; [apply elem_of_app; right; left|].
  split; [|done]. unfold step_string. destruct (N.even _); apply pair_bytes_length.
Qed.

Lemma layer_strings_elem ls p : N.to_nat p < length ls →
  pair_bytes (at_ ls (2 * (p / 2))) (at_ ls (2 * (p / 2) + 1)) ∈ layer_strings ls.
Proof.
  intros Hp. unfold at_. rewrite N2Nat.inj_add, N2Nat.inj_mul. change (N.to_nat 2) with 2. change (N.to_nat 1) with 1.
  rewrite Nat.add_1_r. assert (Hq : 2 * N.to_nat (p / 2) < length ls).
  { assert (2 * (p / 2) ≤ p)%N by (apply N.mul_div_le; done). lia. }
  revert Hq. generalize (N.to_nat (p / 2)). clear p Hp.
  induction ls as [ls IH] using (well_founded_ind (well_founded_ltof _ length)). unfold ltof in IH.
  intros i Hi. destruct ls as [|l [|r ls]]; [simpl in Hi; lia|..].
  - destruct i; [|simpl in Hi; lia]. simpl. left.
  - destruct i as [|i]; [simpl; left|]. cbn [layer_strings]. right.
    replace (2 * S i) with (S (S (2 * i))) by lia. cbn [lookup list_lookup].
    apply (IH ls); [simpl; lia|]. simpl in Hi. lia.
Qed.

Notation clash := (clash H).
Lemma clash_mono us vs us' vs' : clash us vs → us ⊆ us' → vs ⊆ vs' → clash us' vs'.
Proof. intros [(u & v & ? & ? & ? & ?)|(u & ? & ?)] S1 S2; [left; exists u, v|right; exists u]; set_solver. Qed.

Lemma descend lv : tower lv → ∀ x p b proof,
  lv !! 0 = Some x → length proof = length lv - 1 → climb p (H b) proof = (0%N, Root lv) →
  x !! N.to_nat p = Some (H b) ∨ clash (b :: path_strings H p (H b) proof) (tree_strings lv).
Proof.
  induction 1 as [d|x r H1 Ht IH]; intros y p b proof Hy Hl Hc; simpl in Hy; injection Hy as <-.
  - destruct proof; [|done]. simpl in Hc. injection Hc as -> Hr. left. simpl. by rewrite Hr.
  - destruct proof as [|d proof]; [simpl in Hl; lia|]. cbn [climb] in Hc.
    assert (Root (x :: layer_up x :: r) = Root (layer_up x :: r)) as Hroot by done. rewrite Hroot in Hc.
    set (b' := step_string p (H b) d) in *.
    destruct (IH (layer_up x) (p / 2)%N b' proof eq_refl) as [Hlk|Hcl]; [simpl in *; lia|done|..].
    2:{ right. eapply clash_mono; [exact Hcl|..].
        - simpl. fold b'. set_solver.
        - cbn [tree_strings]. set_solver. }
    assert (Hin : N.to_nat (p / 2) < length (layer_up x)) by (by eapply lookup_lt_Some).
    rewrite layer_up_spec in Hlk. case_decide as Hd; [|done]. injection Hlk as Hlk. symmetry in Hlk.
    set (v := pair_bytes (at_ x (2 * (p / 2))) (at_ x (2 * (p / 2) + 1))).
    assert (Hv : v ∈ layer_strings x).
    { unfold v. pose proof (layer_strings_elem x (2 * (p / 2))) as Hx.
      replace (2 * (p / 2) / 2)%N with (p / 2)%N in Hx; [apply Hx; lia|].
      rewrite N.mul_comm, N.div_mul by done. done. }
    assert (Hnode : H b' = H v).
    { unfold v, at_. rewrite N2Nat.inj_add, N2Nat.inj_mul. change (N.to_nat 2) with 2. change (N.to_nat 1) with 1.
      rewrite Nat.add_1_r. exact Hlk. }
    destruct (decide (b' = v)) as [Heq|Hneq].
    2:{ right. left. exists b', v. split; [simpl; fold b'; right; left|]. split; [cbn [tree_strings]; set_solver|]. done. }
    assert (Hat : H b = at_ x p).
    { unfold b', v, step_string in Heq. destruct (N.even p) eqn:Ev; apply pair_bytes_inj in Heq as [Ha Hb].
      - by rewrite <-(even_half p Ev) in Ha.
      - by rewrite <-(odd_half p Ev) in Hb. }
    unfold at_ in Hat. destruct (x !! N.to_nat p) as [e|] eqn:Ex; simpl in Hat.
    + left. by rewrite Hat.
    + right. right. exists b. split; [left|done].
Qed.

Lemma tower_suffix lv1 lv2 : tower (lv1 ++ lv2) → lv2 ≠ [] →
  tower lv2 ∧ Root (lv1 ++ lv2) = Root lv2 ∧ tree_strings lv2 ⊆ tree_strings (lv1 ++ lv2) ∧
  (lv1 ≠ [] → ∃ x0 r, lv2 = layer_up x0 :: r ∧ (layer_strings x0 ⊆ tree_strings (lv1 ++ lv2))).
Proof.
  intros Ht Hne. induction lv1 as [|a lv1 IH]; [done|].
  assert (Hcons : tower (lv1 ++ lv2) ∧ ∃ r, lv1 ++ lv2 = layer_up a :: r).
  { simpl in Ht. inversion Ht as [d E1|x r H1 Ht' E1].
    - assert (Hnil : lv1 ++ lv2 = []) by congruence. apply app_eq_nil in Hnil as [_ ?]. done.
    - eauto. }
  destruct Hcons as [Ht' (r & Er)]. destruct (IH Ht') as (I1 & I2 & I3 & I4).
  assert (Hts : tree_strings ((a :: lv1) ++ lv2) = layer_strings a ++ tree_strings (lv1 ++ lv2)).
  { simpl. rewrite Er. done. }
  split; [done|]. split; [|split].
  - rewrite <-I2. simpl. rewrite Er. done.
  - rewrite Hts. set_solver.
  - intros _. rewrite Hts. destruct lv1 as [|b lv1].
    + simpl in Er. exists a, r. split; [done|]. set_solver.
    + destruct (I4 ltac:(done)) as (x0 & r' & ? & ?). exists x0, r'. split; [done|]. set_solver.
Qed.

Lemma climb_sound arr p e proof :
  climb p (H e) proof = (0%N, Root (Build H arr)) →
  arr !! N.to_nat p = Some e ∨
  clash (verify_strings H p e proof) (build_strings H arr) ∨
  length e = 64 ∨ (∃ a, a ∈ arr ∧ length a = 64).
Proof.
  intros Ec.
  destruct (decide (arr = [])) as [->|Hne].
  { (* empty array: the root is the zero digest *)
    right. left. right. simpl in Ec. unfold Root in Ec. simpl in Ec.
    destruct proof as [|d proof _] using rev_ind.
    - simpl in Ec. injection Ec as _ Hz. exists e. split; [left|done].
    - destruct (climb_snoc p (H e) proof d) as (b & Hb & _ & Hh). rewrite Ec in Hh. simpl in Hh.
      exists b. split; [by right|done]. }
  destruct (Build_tower arr Hne) as (r & HB & HT). rewrite HB in Ec.
  assert (Hbs : tree_strings ((H <$> arr) :: r) ⊆ build_strings H arr).
  { unfold build_strings. rewrite HB. set_solver. }
  assert (Harr : arr ⊆ build_strings H arr) by (unfold build_strings; set_solver).
  destruct (decide (length proof < length r)) as [Hlt|Hge].
  - (* short proof *)
    set (lv := (H <$> arr) :: r) in *.
    pose proof (take_drop (length lv - S (length proof)) lv) as Hsplit.
    set (lv1 := take (length lv - S (length proof)) lv) in *. set (lv2 := drop (length lv - S (length proof)) lv) in *.
    assert (Hl2 : length lv2 = S (length proof)) by (unfold lv2; rewrite drop_length; simpl; lia).
    assert (Hl1 : lv1 ≠ []).
    { intros Hn. assert (length lv1 = 0) as Hz by (by rewrite Hn). unfold lv1 in Hz. rewrite take_length in Hz. simpl in Hz. lia. }
    rewrite <-Hsplit in HT, Ec, Hbs. destruct (tower_suffix lv1 lv2 HT) as (T2 & R2 & TS2 & F2); [by destruct lv2|].
    destruct (F2 Hl1) as (x0 & r' & Elv2 & Hls).
    rewrite R2 in Ec.
    destruct (descend lv2 T2 (layer_up x0) p e proof) as [Hlk|Hcl]; [by rewrite Elv2|lia|done|..].
    + rewrite layer_up_spec in Hlk. case_decide as Hd; [|done]. injection Hlk as Hlk.
      destruct (decide (e = pair_bytes (default zero_digest (x0 !! (2 * N.to_nat p))) (default zero_digest (x0 !! S (2 * N.to_nat p))))) as [->|Hne'].
      * right. right. left. apply pair_bytes_length.
      * right. left. left. eexists e, _. split; [left|]. split; [|split; [exact Hne'|by symmetry]].
        apply Hbs, Hls. pose proof (layer_strings_elem x0 (2 * p)) as Hx.
        replace (2 * p / 2)%N with p in Hx; [|rewrite N.mul_comm, N.div_mul; done].
        unfold at_ in Hx. rewrite N2Nat.inj_add, N2Nat.inj_mul in Hx. change (N.to_nat 2) with 2 in Hx. change (N.to_nat 1) with 1 in Hx.
        rewrite Nat.add_1_r in Hx. apply Hx. lia.
    + right. left. eapply clash_mono; [exact Hcl|done|]. etrans; [exact TS2|done].
  - destruct (decide (length proof = length r)) as [Heq|Hneq].
    + destruct (descend _ HT (H <$> arr) p e proof) as [Hlk|Hcl]; [done|simpl; lia|done|..].
      * rewrite list_lookup_fmap in Hlk. destruct (arr !! N.to_nat p) as [a|] eqn:Ea; [|done].
        simpl in Hlk. injection Hlk as Hlk. destruct (decide (a = e)) as [->|Hd]; [by left|].
        right. left. left. exists e, a. split; [left|]. split; [apply Harr; by eapply elem_of_list_lookup_2|]. auto.
      * right. left. eapply clash_mono; [exact Hcl|done|done].
    + (* long proof *)
      pose proof (take_drop (length proof - length r) proof) as Hsplit.
      set (ds1 := take (length proof - length r) proof) in *. set (ds2 := drop (length proof - length r) proof) in *.
      assert (Hl2 : length ds2 = length r) by (unfold ds2; rewrite drop_length; lia).
      assert (Hl1 : ds1 ≠ []).
      { intros Hn. assert (length ds1 = 0) as Hz by (by rewrite Hn). unfold ds1 in Hz. rewrite take_length in Hz. lia. }
      destruct ds1 as [|d ds1 _] using rev_ind; [done|]. clear Hl1.
      destruct (climb_snoc p (H e) ds1 d) as (b & Hb & Hbl & Hh).
      rewrite <-Hsplit, climb_app, Hh in Ec.
      assert (Hsub : b :: path_strings H (climb p (H e) (ds1 ++ [d])).1 (H b) ds2 ⊆ verify_strings H p e proof).
      { unfold verify_strings. rewrite <-Hsplit, path_strings_app, Hh. set_solver. }
      destruct (descend _ HT (H <$> arr) _ b ds2 eq_refl ltac:(simpl; lia) Ec) as [Hlk|Hcl].
      * rewrite list_lookup_fmap in Hlk.
        destruct (arr !! N.to_nat (climb p (H e) (ds1 ++ [d])).1) as [a|] eqn:Ea; [|done].
        simpl in Hlk. injection Hlk as Hlk. apply elem_of_list_lookup_2 in Ea.
        destruct (decide (a = b)) as [->|Hd]; [right; right; right; eauto|].
        right. left. left. exists b, a. split; [apply Hsub; left|]. split; [by apply Harr|]. auto.
      * right. left. by eapply clash_mono.
Qed.

Lemma verify_sound arr p e proof :
  Verify H (Root (Build H arr)) {[p := e]} proof = true →
  arr !! N.to_nat p = Some e ∨
  clash (verify_strings H p e proof) (build_strings H arr) ∨
  length e = 64 ∨ (∃ a, a ∈ arr ∧ length a = 64).
Proof.
  unfold Verify. rewrite decide_False by (apply map_non_empty_singleton).
  rewrite map_to_list_singleton. cbn [fmap list_fmap fst snd].
  change (merge_sort pos_le [(p, H e)]) with [(p, H e)].
  destruct (verify_loop H 65 [(p, H e)] proof) as [res|] eqn:E; [|done].
  apply verify_loop_climb in E as ->. destruct (climb p (H e) proof) as [p0 h0] eqn:Ec.
  intros [-> ->]%bool_decide_eq_true. by apply climb_sound.
Qed.

(** *** Soundness for several elements: each of them climbs to the root *)
Lemma pl_up_cons p0 h0 p1 h1 rest hints :
  pl_up get_hint node ((p0, h0) :: (p1, h1) :: rest) hints =
  if decide (p1 = N.lxor p0 1) then
    '(res, s2) ← pl_up get_hint node rest hints;
    Some ((p0 / 2, if N.even p0 then node h0 h1 else node h1 h0) :: res, s2)%N
  else
    '(sib, s1) ← get_hint hints (N.lxor p0 1);
    '(res, s2) ← pl_up get_hint node ((p1, h1) :: rest) s1;
    Some ((p0 / 2, if N.even p0 then node h0 sib else node sib h0) :: res, s2)%N.
Proof. done. Qed.
Lemma up_climb pl : ∀ hints pl' hints', pl_up get_hint (node) pl hints = Some (pl', hints') →
  ∀ p h, (p, h) ∈ pl →
  ∃ d, (p / 2, H (step_string p h d))%N ∈ pl' ∧ step_string p h d ∈ up_strings pl hints.
Proof.
  induction pl as [pl IH] using (well_founded_ind (well_founded_ltof _ length)). unfold ltof in IH.
  intros hints pl' hints' Hu p h Hin. destruct pl as [|[p0 h0] rest]; [by apply elem_of_nil in Hin|].
  assert (Hj : ∀ x, (if N.even p0 then node h0 x else node x h0) = H (step_string p0 h0 x)).
  { intros x. unfold step_string, Merkle.node. by destruct (N.even p0). }
  assert (Halone : ∀ res s1 sib,
    get_hint hints (N.lxor p0 1) = Some (sib, s1) → pl_up get_hint node rest s1 = Some (res, hints') →
    pl' = ((p0 / 2)%N, H (step_string p0 h0 sib)) :: res →
    up_strings ((p0, h0) :: rest) hints = step_string p0 h0 sib :: up_strings rest s1 →
    ∃ d, (p / 2, H (step_string p h d))%N ∈ pl' ∧ step_string p h d ∈ up_strings ((p0, h0) :: rest) hints).
  { intros res s1 sib Hg Hr -> Hs. apply elem_of_cons in Hin as [[= -> ->]|Hin].
    - exists sib. rewrite Hs. split; left.
    - destruct (IH rest ltac:(simpl; lia) _ _ _ Hr p h Hin) as (d & H1 & H2). exists d.
      rewrite Hs. split; by right. }
  destruct rest as [|[p1 h1] rest].
  - destruct hints as [|sib s1]; [done|]. cbn [get_hint mbind option_bind pl_up] in Hu. injection Hu as <- <-.
    eapply Halone; [done|done| |done]. by rewrite <-Hj.
  - rewrite pl_up_cons in Hu. destruct (decide (p1 = N.lxor p0 1)) as [E1|Hne].
    + destruct (pl_up get_hint node rest hints) as [[res s2]|] eqn:Er; [|done].
      cbn [mbind option_bind] in Hu. injection Hu as <- <-. rewrite Hj.
      cbn [up_strings]. rewrite decide_True by done.
      apply elem_of_cons in Hin as [[= -> ->]|[[= -> ->]|Hin]%elem_of_cons].
      * exists h1. split; left.
      * exists h0.
        assert (step_string (N.lxor p0 1) h1 h0 = step_string p0 h0 h1 ∧ (N.lxor p0 1 / 2 = p0 / 2)%N) as [Es Ed].
        { unfold step_string. destruct (N.even p0) eqn:Ev.
          - rewrite lxor1_even by done. rewrite N.even_add, Ev. split; [done|].
            rewrite (even_half p0 Ev) at 1. rewrite N.mul_comm, N.div_add_l by done. change (1 / 2)%N with 0%N. lia.
          - destruct (lxor1_odd p0 Ev) as [-> ?]. pose proof (odd_half p0 Ev) as Ho.
            assert (E' : (p0 - 1 = 2 * (p0 / 2))%N) by lia. rewrite E'.
            rewrite N.even_mul. split; [done|]. rewrite N.mul_comm, N.div_mul by done. done. }
        rewrite E1, Es, Ed. split; left.
      * destruct (IH rest ltac:(simpl; lia) _ _ _ Er p h Hin) as (d & H1 & H2). exists d. split; by right.
    + destruct hints as [|sib s1]; [done|]. cbn [get_hint mbind option_bind] in Hu.
      destruct (pl_up get_hint node ((p1, h1) :: rest) s1) as [[res s2]|] eqn:Er; [|done].
      injection Hu as <- <-. eapply Halone; [done|exact Er|by rewrite <-Hj|].
      cbn [up_strings]. by rewrite decide_False by done.
Qed.

Lemma loop_climb k : ∀ pl hints res p h, verify_loop H k pl hints = Some res → (p, h) ∈ pl →
  ∃ ds, res = [climb p h ds] ∧ path_strings H p h ds ⊆ loop_strings H k pl hints.
Proof.
  induction k as [|k IH]; intros pl hints res p h Hv Hin; cbn [verify_loop loop_strings] in *;
    destruct (decide (hints ≠ [] ∨ 1 < length pl)) as [Hd|Hd].
  - by destruct (pl_up _ _ _ _) as [[??]|].
  - injection Hv as <-. exists []. split; [|set_solver]. destruct pl as [|x [|y pl]]; [by apply elem_of_nil in Hin|..].
    + by apply elem_of_list_singleton in Hin as <-.
    + exfalso. apply Hd. right. simpl. lia.
  - destruct (pl_up get_hint node pl hints) as [[pl' hints']|] eqn:Eu; [|done]. cbn [mbind option_bind] in Hv.
    destruct (up_climb pl _ _ _ Eu p h Hin) as (d & H1 & H2).
    destruct (IH _ _ _ _ _ Hv H1) as (ds & -> & Hsub). exists (d :: ds). split; [done|].
    cbn [path_strings]. intros x [->|Hx]%elem_of_cons; apply elem_of_app; [by left|right; by apply Hsub].
  - injection Hv as <-. exists []. split; [|set_solver]. destruct pl as [|x [|y pl]]; [by apply elem_of_nil in Hin|..].
    + by apply elem_of_list_singleton in Hin as <-.
    + exfalso. apply Hd. right. simpl. lia.
Qed.

Lemma verify_sound_many arr elems proof p e :
  Verify H (Root (Build H arr)) elems proof = true → elems !! p = Some e →
  arr !! N.to_nat p = Some e ∨
  clash (verify_all_strings H elems proof) (build_strings H arr) ∨
  length e = 64 ∨ (∃ a, a ∈ arr ∧ length a = 64).
Proof.
  unfold Verify. intros Hv He. rewrite decide_False in Hv by (intros ->; by rewrite lookup_empty in He).
  destruct (verify_loop H 65 _ proof) as [res|] eqn:E; [|done].
  assert (Hin : (p, H e) ∈ merge_sort pos_le ((λ e, (e.1, H e.2)) <$> map_to_list elems)).
  { rewrite merge_sort_Permutation. apply elem_of_list_fmap. exists (p, e). split; [done|].
    by apply elem_of_map_to_list. }
  destruct (loop_climb _ _ _ _ _ _ E Hin) as (ds & -> & Hsub).
  destruct (climb p (H e) ds) as [p0 h0] eqn:Ec. apply bool_decide_eq_true in Hv as [-> ->].
  destruct (climb_sound arr p e ds Ec) as [?|[Hcl|?]]; [by left| |by right; right].
  right. left. eapply clash_mono; [exact Hcl| |done].
  unfold verify_strings, verify_all_strings. intros x [->|Hx]%elem_of_cons; apply elem_of_app.
  - left. apply elem_of_list_fmap. exists (p, e). split; [done|]. by apply elem_of_map_to_list.
  - right. by apply Hsub.
Qed.

(** Inner nodes as leaves *)
Lemma tower_top lv : tower lv → 1 < length lv → ∃ l r, Root lv = node l r.
Proof.
  induction 1 as [d|x r H1 Ht IH]; simpl; intros Hl; [lia|].
  destruct r as [|y r].
  - inversion Ht as [d E|]. unfold Root. simpl.
    destruct x as [|l [|r x]]; simpl in *; [lia|lia|]. injection E as E _. exists l, r. by rewrite E.
  - destruct IH as (l & r' & IH); [simpl; lia|]. exists l, r'. exact IH.
Qed.
Lemma inner_as_leaf arr : 2 ≤ length arr →
  ∃ l r, Verify H (Root (Build H arr)) {[0%N := pair_bytes l r]} [] = true.
Proof.
  intros Hl. destruct (Build_tower arr) as (r & E & T); [by intros ->; simpl in Hl; lia|].
  destruct (tower_top _ T) as (l & r' & HR).
  { destruct r; [|simpl; lia]. inversion T as [d E'|]. apply (f_equal length) in E'. rewrite fmap_length in E'. simpl in E'. lia. }
  exists l, r'. rewrite E, HR. unfold Verify. rewrite decide_False by apply map_non_empty_singleton.
  rewrite map_to_list_singleton. cbn [fmap list_fmap fst snd].
  change (merge_sort pos_le [(0%N, H (pair_bytes l r'))]) with [(0%N, H (pair_bytes l r'))].
  cbn [verify_loop]. rewrite decide_False; [|simpl; intros [?|?]; [done|lia]].
  by apply bool_decide_eq_true.
Qed.

(** *** merkleSign *)
Context {B SK PK : Type} (enc : B → option cert → bytes).
Context (sign : SK → digest → bytes) (sigok : PK → digest → bytes → bool).
Lemma set_certs_spec tree root sg arr : ∀ i arr',
  set_certs tree root sg i arr = Some arr' →
  length arr' = length arr ∧
  ∀ j x, arr !! j = Some x → ∃ p, Prove tree [N.of_nat (i + j)] = Some p ∧
    arr' !! j = Some (mkSignable (B:=B) (sg_body x) (Some (mkCert root p (N.of_nat (i + j)) sg))).
Proof.
  induction arr as [|x arr IH]; intros i arr' E; cbn [set_certs] in E.
  - injection E as <-. split; [done|]. by intros j y.
  - apply bind_Some in E as (p & Hp & E). apply bind_Some in E as (rest & Hr & E). injection E as <-.
    destruct (IH _ _ Hr) as [Hl IH']. split; [simpl; by rewrite Hl|]. intros [|j] y Hy.
    + simpl in Hy. injection Hy as ->. exists p. rewrite Nat.add_0_r. done.
    + simpl in Hy. destruct (IH' _ _ Hy) as (p' & ? & ?). exists p'. replace (i + S j) with (S i + j) by lia. done.
Qed.
Lemma set_certs_ok tree root sg arr : ∀ i,
  (∀ j, j < length arr → is_Some (Prove tree [N.of_nat (i + j)])) →
  is_Some (set_certs (B:=B) tree root sg i arr).
Proof.
  induction arr as [|x arr IH]; intros i Hp; cbn [set_certs]; [eauto|].
  destruct (Hp 0 ltac:(simpl; lia)) as [p E]. rewrite Nat.add_0_r in E. rewrite E. cbn [mbind option_bind].
  destruct (IH (S i)) as [rest ->]; [|simpl; eauto].
  intros j Hj. replace (S i + j) with (i + S j) by lia. apply Hp. simpl. lia.
Qed.
End merkle.
