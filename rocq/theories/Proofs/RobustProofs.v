(** Lemmas about the packing of shards into parcels and about the collector. *)
From stdpp Require Import gmap vector.
From Verif.Base Require Import Base.
From Verif.Model Require Import Merkle Ecc Robust.
From Verif.Spec Require Import RobustSpec.
From Verif.Properties Require Import P14_Ecc.

Local Opaque NumChunks.

(** ** Counting present shards *)
Lemma num_present_app a b : num_present (a ++ b) = num_present a + num_present b.
Proof. unfold num_present. by rewrite filter_app, app_length. Qed.
Lemma num_present_one s : num_present [s] = if decide (s = []) then 0 else 1.
Proof. unfold num_present. destruct s; done. Qed.

Lemma num_present_upper (row : list shard) (D : list nat) :
  (∀ j s, row !! j = Some s → s ≠ [] → j ∈ D) → num_present row ≤ length D.
Proof.
  revert D. induction row as [|s row IH] using rev_ind; intros D HD; [apply Nat.le_0_l|].
  rewrite num_present_app, num_present_one. destruct (decide (s = [])) as [->|Hs].
  - rewrite Nat.add_0_r. apply IH. intros j s Hj Hn. apply (HD j s); [|done]. by apply lookup_app_l_Some.
  - assert (length row ∈ D) as Hin.
    { apply (HD (length row) s); [|done]. by apply list_lookup_middle. }
    apply elem_of_list_split in Hin as (l1 & l2 & ->).
    specialize (IH (l1 ++ l2)). rewrite app_length in IH. rewrite app_length. simpl.
    cut (num_present row ≤ length l1 + length l2); [lia|]. apply IH. intros j s' Hj Hn.
    assert (j ∈ l1 ++ length row :: l2) as Hjn by (apply (HD j s'); [by apply lookup_app_l_Some|done]).
    apply lookup_lt_Some in Hj. apply elem_of_app in Hjn as [|Hjn]; [by apply elem_of_app; left|].
    apply elem_of_cons in Hjn as [->|]; [lia|]. by apply elem_of_app; right.
Qed.
Lemma num_present_lower (row : list shard) (I : list nat) : NoDup I →
  (∀ j, j ∈ I → ∃ s, row !! j = Some s ∧ s ≠ []) → length I ≤ num_present row.
Proof.
  revert I. induction row as [|s row IH] using rev_ind; intros I Hnd HI.
  - destruct I as [|j I]; [simpl; lia|]. destruct (HI j) as (s & Hs & _); [by left|done].
  - rewrite num_present_app, num_present_one. destruct (decide (length row ∈ I)) as [Hin|Hin].
    + apply elem_of_Permutation in Hin as [I' HI']. rewrite HI' in Hnd. apply NoDup_cons in Hnd as [Hn1 Hn2].
      rewrite HI'. simpl. assert (s ≠ []) as Hs.
      { destruct (HI (length row)) as (s' & Hs' & Hne); [rewrite HI'; by left|].
        rewrite list_lookup_middle in Hs' by done. by injection Hs' as ->. }
      rewrite decide_False by done. cut (length I' ≤ num_present row); [lia|]. apply IH; [done|].
      intros j Hj. destruct (HI j) as (s' & Hs' & Hne); [rewrite HI'; by right|].
      exists s'. split; [|done]. rewrite lookup_app_l in Hs'; [done|].
      apply lookup_lt_Some in Hs'. rewrite app_length in Hs'. simpl in Hs'.
      destruct (decide (j = length row)) as [->|]; [done|lia].
    + cut (length I ≤ num_present row); [lia|]. apply IH; [done|]. intros j Hj.
      destruct (HI j Hj) as (s' & Hs' & Hne). exists s'. split; [|done]. rewrite lookup_app_l in Hs'; [done|].
      apply lookup_lt_Some in Hs'. rewrite app_length in Hs'. simpl in Hs'.
      destruct (decide (j = length row)) as [->|]; [done|lia].
Qed.

(** ** PutIntoShards *)
Section put.
Context (c : rs_code).
Notation width := (rs_k c + rs_m c).

Lemma put_lookup (idx : Z) pl sh sh' : PutIntoShards c idx pl sh = Some sh' →
  length sh' = length sh ∧
  ∀ j row, sh' !! j = Some row → ∃ row0 x, sh !! j = Some row0 ∧ pl !! j = Some x ∧ row = <[Z.to_nat idx := x]> row0.
Proof.
  unfold PutIntoShards. case_decide as Hd; [|done]. intros [= <-]. split.
  - rewrite zip_with_length. lia.
  - intros j row Hj. apply lookup_zip_with_Some in Hj as (row0 & x & -> & H1 & H2). eauto.
Qed.

(** Only the columns that were put are present. *)
Lemma put_all_present ps sh sh' : put_all c ps sh = Some sh' →
  ∀ D : list nat, (∀ j row i s, sh !! j = Some row → row !! i = Some s → s ≠ [] → i ∈ D) →
  ∀ j row i s, sh' !! j = Some row → row !! i = Some s → s ≠ [] → i ∈ (Z.to_nat <$> ps.*1) ++ D.
Proof.
  revert sh. induction ps as [|[idx pl] ps IH]; intros sh Hp D HD j row i s Hj Hi Hs; simpl in *.
  - injection Hp as <-. by eapply HD.
  - destruct (PutIntoShards c idx pl sh) as [sh1|] eqn:E; [|done]. simpl in Hp.
    apply put_lookup in E as [_ E].
    assert (i ∈ (Z.to_nat <$> ps.*1) ++ Z.to_nat idx :: D) as Hin.
    { eapply (IH sh1 Hp); [|done..]. intros j' row' i' s' Hj' Hi' Hs'.
      destruct (E j' row' Hj') as (row0 & x & H1 & H2 & ->).
      destruct (decide (i' = Z.to_nat idx)) as [->|Hne]; [by left|].
      rewrite list_lookup_insert_ne in Hi' by done. right. by eapply HD. }
    apply elem_of_app in Hin as [Hin|Hin]; [right; by apply elem_of_app; left|].
    apply elem_of_cons in Hin as [->|Hin]; [by left|]. right. by apply elem_of_app; right.
Qed.
Lemma put_all_length ps sh sh' : put_all c ps sh = Some sh' → length sh' = length sh.
Proof.
  revert sh. induction ps as [|[idx pl] ps IH]; intros sh Hp; simpl in *; [by injection Hp as <-|].
  destruct (PutIntoShards c idx pl sh) as [sh1|] eqn:E; [|done]. simpl in Hp.
  apply put_lookup in E as [E _]. by rewrite (IH sh1 Hp), E.
Qed.

(** Columns of a matrix. *)
Definition column (rows : list (list shard)) (i : nat) (pl : list shard) : Prop :=
  length pl = length rows ∧ ∀ j row, rows !! j = Some row → pl !! j = row !! i.

Lemma insert_ecc_column (rows : list (list shard)) i : Forall (λ row, length row = width) rows → i < width →
  ∃ pl, InsertECCPayload (Some <$> rows) i = Some pl ∧ column rows i pl.
Proof.
  intros Hr Hi. assert (∃ pl, Forall2 (λ (row : list shard) x, row !! i = Some x) rows pl) as [pl Hpl].
  { induction Hr as [|row rows Hrow _ [pl IH]]; [by exists []|].
    destruct (lookup_lt_is_Some_2 row i) as [x Hx]; [lia|]. exists (x :: pl). by constructor. }
  exists pl. split.
  - unfold InsertECCPayload. apply mapM_Some_2, Forall2_fmap_l. eapply Forall2_impl; [exact Hpl|]. done.
  - split; [symmetry; by eapply Forall2_length|]. intros j row Hj.
    destruct (Forall2_lookup_l _ _ _ _ _ Hpl Hj) as (x & Hx & Hrow). congruence.
Qed.

(** Putting distinct columns of a code word into empty shards leaves exactly those. *)
Lemma put_all_columns (rows : list (list shard)) (ps : list (Z * list shard)) sh :
  Forall (λ p, ∃ i, p.1 = Z.of_nat i ∧ i < width ∧ column rows i p.2) ps →
  length sh = length rows →
  Forall2 (λ f g, length f = width ∧ Forall2 (λ x y, y = x ∨ y = []) f g) rows sh →
  ∃ sh', put_all c ps sh = Some sh' ∧ length sh' = length rows ∧
    Forall2 (λ f g, Forall2 (λ x y, y = x ∨ y = []) f g) rows sh' ∧
    (∀ j f g i x, rows !! j = Some f → sh' !! j = Some g → f !! i = Some x →
       (Z.of_nat i ∈ ps.*1 ∨ ∃ g0, sh !! j = Some g0 ∧ g0 !! i = Some x) → g !! i = Some x).
Proof.
  intros Hps. revert sh. induction Hps as [|[idx pl] ps (i & Hidx & Hi & Hlen & Hcol) _ IH]; intros sh Hl Hsh; simpl in *.
  - exists sh. split; [done|]. split; [done|]. split.
    + eapply Forall2_impl; [exact Hsh|]. cbv beta. by intros f g [_ ?].
    + intros j f g i x Hf Hg Hx [Hin|(g0 & Hg0 & Hgx)]; [by apply elem_of_nil in Hin|congruence].
  - subst idx. unfold PutIntoShards. rewrite decide_True.
    2: { split; [lia|]. lia. }
    simpl. rewrite Nat2Z.id.
    set (sh1 := zip_with (λ row x, <[i:=x]> row) sh pl).
    assert (length sh1 = length rows) as Hl1 by (unfold sh1; rewrite zip_with_length; lia).
    assert (∀ j f g1, rows !! j = Some f → sh1 !! j = Some g1 →
      ∃ g0 x, sh !! j = Some g0 ∧ pl !! j = Some x ∧ f !! i = Some x ∧ g1 = <[i:=x]> g0) as Hsh1.
    { intros j f g1 Hf Hg1. apply lookup_zip_with_Some in Hg1 as (g0 & x & -> & H1 & H2).
      exists g0, x. split; [done|]. split; [done|]. split; [|done]. rewrite <-H2. symmetry. by apply Hcol. }
    destruct (IH sh1 Hl1) as (sh' & Hp & Hl' & Hf2 & Hlk).
    { apply Forall2_same_length_lookup_2; [lia|]. intros j f g1 Hf Hg1.
      destruct (Hsh1 j f g1 Hf Hg1) as (g0 & x & Hg0 & Hx & Hfx & ->).
      destruct (Forall2_lookup_lr _ _ _ _ _ _ Hsh Hf Hg0) as [Hfl Hfg]. split; [done|].
      apply Forall2_same_length_lookup_2; [rewrite insert_length; by eapply Forall2_length|].
      intros k a b Ha Hb. destruct (decide (k = i)) as [->|Hne].
      - rewrite list_lookup_insert in Hb; [left; congruence|]. apply lookup_lt_Some in Ha.
        apply Forall2_length in Hfg. lia.
      - rewrite list_lookup_insert_ne in Hb by done. by apply (Forall2_lookup_lr _ _ _ _ _ _ Hfg Ha Hb). }
    exists sh'. split; [done|]. split; [done|]. split; [done|].
    intros j f g k x Hf Hg Hx Hor. apply (Hlk j f g k x Hf Hg Hx).
    destruct (lookup_lt_is_Some_2 sh1 j) as [g1 Hg1].
    { apply lookup_lt_Some in Hf. lia. }
    destruct (Hsh1 j f g1 Hf Hg1) as (g0 & y & Hg0 & Hy & Hfy & ->).
    destruct (Forall2_lookup_lr _ _ _ _ _ _ Hsh Hf Hg0) as [Hfl Hfg]. apply Forall2_length in Hfg.
    destruct (decide (k = i)) as [->|Hne].
    + right. exists (<[i:=y]> g0). split; [done|]. rewrite list_lookup_insert by lia. congruence.
    + destruct Hor as [Hin|(g0' & Hg0' & Hgx)].
      * left. apply elem_of_cons in Hin as [Heq|]; [lia|done].
      * right. exists (<[i:=y]> g0). split; [done|]. rewrite list_lookup_insert_ne by done. congruence.
Qed.
End put.

(** ** Uint32 *)
Lemma Uint32_enc n : (n < 2 ^ 32)%N → Uint32 (le_enc 4 n) = Some n.
Proof.
  intros Hn. unfold Uint32. rewrite le_enc_length. rewrite decide_False by lia.
  rewrite take_ge by (rewrite le_enc_length; lia). rewrite le_dec_enc. f_equal. apply N.mod_small. exact Hn.
Qed.

(** ** The collector *)
Section collector.
Context {hnd : Type} (find : string → option hnd) (ttl : Z).

(** Greedy grouping, [acc] being the group under construction. *)
Fixpoint blk {A} (q : nat) (acc l : list A) : list (list A) :=
  match l with
  | [] => []
  | x :: l => if decide (length (acc ++ [x]) < q) then blk q (acc ++ [x]) l else (acc ++ [x]) :: blk q [] l
  end.
Fixpoint blk_rest {A} (q : nat) (acc l : list A) : list A :=
  match l with
  | [] => acc
  | x :: l => if decide (length (acc ++ [x]) < q) then blk_rest q (acc ++ [x]) l else blk_rest q [] l
  end.

Lemma blk_short {A} q (acc l : list A) : length acc + length l < q → blk q acc l = [] ∧ blk_rest q acc l = acc ++ l.
Proof using Type.
  revert acc. induction l as [|x l IH]; intros acc Hl; simpl in *; [by rewrite app_nil_r|].
  rewrite app_length. simpl. rewrite !decide_True by lia.
  destruct (IH (acc ++ [x])) as [H1 H2]; [rewrite app_length; simpl; lia|]. rewrite H1, H2. by rewrite <-app_assoc.
Qed.
Lemma blk_full {A} q (acc l l' : list A) : length acc < q → length acc + length l = q →
  blk q acc (l ++ l') = (acc ++ l) :: blk q [] l' ∧ blk_rest q acc (l ++ l') = blk_rest q [] l'.
Proof using Type.
  revert acc. induction l as [|x l IH]; intros acc Ha Hl; simpl in *; [lia|].
  rewrite app_length. simpl. destruct (decide (length acc + 1 < q)) as [Hlt|Hge].
  - destruct (IH (acc ++ [x])) as [H1 H2]; [rewrite app_length; simpl; lia|rewrite app_length; simpl; lia|].
    rewrite H1, H2. by rewrite <-app_assoc.
  - assert (l = []) as -> by (destruct l; [done|simpl in *; lia]). done.
Qed.
Lemma blk_groups {A} q (l : list A) : 0 < q →
  blk q [] l = (group q l) <$> seq 0 (length l / q) ∧ blk_rest q [] l = drop (length l / q * q) l.
Proof using Type.
  intros Hq. remember (length l) as n eqn:Hn. revert l Hn.
  induction (lt_wf n) as [n _ IH]; intros l ->. destruct (decide (length l < q)) as [Hs|Hs].
  - rewrite Nat.div_small by done. simpl. destruct (blk_short q [] l) as [H1 H2]; [simpl; lia|]. by rewrite H1, H2.
  - destruct (blk_full q [] (take q l) (drop q l)) as [H1 H2]; [simpl; lia|rewrite take_length; simpl; lia|].
    rewrite take_drop in H1, H2. rewrite H1, H2.
    destruct (IH (length (drop q l))) with (l := drop q l) as [H3 H4]; [rewrite drop_length; lia|done|].
    rewrite H3, H4, drop_length.
    assert (length l / q = S ((length l - q) / q)) as ->.
    { replace (length l) with (length l - q + 1 * q) at 1 by lia. rewrite Nat.div_add by lia. lia. }
    split.
    + simpl. f_equal. rewrite <-fmap_S_seq, <-list_fmap_compose. apply list_fmap_ext. intros i j Hj. simpl.
      unfold group. by rewrite drop_drop.
    + rewrite drop_drop. f_equal.
Qed.

Lemma runs_of_cons u (v : task hnd) o :
  runs_of u (ORun v :: o) = (if decide (n_uuid (t_note v) = u) then [v] else []) ++ runs_of u o.
Proof using Type. unfold runs_of. simpl. by case_decide. Qed.

(** One call, seen alone. *)
Lemma collect_uuid (q : nat) u es tasks tasks' os : 0 < q → in_time ttl u es →
  (∀ u t, tasks !! u = Some t → n_uuid (t_note t) = u ∧ t_parcels t ≠ [] ∧ length (t_parcels t) < q) →
  (∀ t j T, tasks !! u = Some t → es !! j = Some (CTick T) → (T - t_start t ≤ ttl)%Z) →
  collect find (Z.of_nat q) ttl tasks es = (tasks', os) →
  let acc := match tasks !! u with Some t => t_parcels t | None => [] end in
  t_parcels <$> runs_of u os = blk q acc (arrived find u es) ∧
  match tasks' !! u with Some t => t_parcels t | None => [] end = blk_rest q acc (arrived find u es) ∧
  (∀ u t, tasks' !! u = Some t → n_uuid (t_note t) = u ∧ t_parcels t ≠ [] ∧ length (t_parcels t) < q).
Proof using Type.
  intros Hq. revert tasks tasks' os. induction es as [|e es IH]; intros tasks tasks' os Hin Hinv Htick Hc; cbv zeta; cbn [collect] in Hc.
  - injection Hc as <- <-. done.
  - assert (in_time ttl u es) as Hin'.
    { intros i j now p T Hij Hi Hp Hj. apply (Hin (S i) (S j) now p T); [lia|done|done|done]. }
    destruct e as [now p|now].
    + unfold collect1 in Hc. cbv zeta in Hc. unfold arrived; simpl; fold (arrived find u es).
      destruct (find (p_method p)) as [h|] eqn:Ef.
      2: { cbn beta iota zeta in Hc; destruct (collect find (Z.of_nat q) ttl tasks es) as [ts o'] eqn:E. injection Hc as <- <-.
           assert ((if decide (uuid_of p = u) then (λ _ : hnd, p) <$> None else None) = None) as -> by by case_decide.
           apply (IH tasks ts o' Hin' Hinv); [|done]. intros t j T Ht Hj. by apply (Htick t (S j)). }
      set (u' := n_uuid (p_note p)) in *.
      set (v := mkTask (t_parcels (default (mkTask [] (p_note p) now h) (tasks !! u')) ++ [p])
                  (t_note (default (mkTask [] (p_note p) now h) (tasks !! u')))
                  (t_start (default (mkTask [] (p_note p) now h) (tasks !! u')))
                  (t_hnd (default (mkTask [] (p_note p) now h) (tasks !! u')))) in *.
      assert (n_uuid (t_note v) = u') as Hvu.
      { unfold v. simpl. destruct (tasks !! u') as [t|] eqn:Et; simpl; [|done]. by destruct (Hinv u' t Et) as [? _]. }
      assert (t_parcels v = (match tasks !! u' with Some t => t_parcels t | None => [] end) ++ [p]) as Hvp.
      { unfold v. simpl. by destruct (tasks !! u'). }
      assert (t_start v = now ∨ ∃ t, tasks !! u' = Some t ∧ t_start v = t_start t) as Hvs.
      { unfold v. simpl. destruct (tasks !! u') as [t|]; simpl; [right; by exists t|by left]. }
      destruct (decide (Z.of_nat (length (t_parcels v)) < Z.of_nat q)%Z) as [Hlt|Hge].
      * cbn beta iota zeta in Hc; destruct (collect find (Z.of_nat q) ttl (<[u':=v]> tasks) es) as [ts o'] eqn:E. injection Hc as <- <-.
        assert (∀ u0 t, <[u':=v]> tasks !! u0 = Some t →
          n_uuid (t_note t) = u0 ∧ t_parcels t ≠ [] ∧ length (t_parcels t) < q) as Hinv'.
        { intros u0 t Ht. destruct (decide (u0 = u')) as [->|Hne].
          - rewrite lookup_insert in Ht. injection Ht as <-. split; [done|]. split; [|lia].
            rewrite Hvp. by destruct (match tasks !! u' with Some _ => _ | None => _ end).
          - rewrite lookup_insert_ne in Ht by done. by apply Hinv. }
        assert (∀ t j T, <[u':=v]> tasks !! u = Some t → es !! j = Some (CTick T) → (T - t_start t ≤ ttl)%Z) as Htick'.
        { intros t j T Ht Hj. destruct (decide (u = u')) as [Hu|Hne].
          - rewrite Hu, lookup_insert in Ht. injection Ht as <-. destruct Hvs as [->|(t & Ht & ->)].
            + apply (Hin 0 (S j) now p T); [lia|done|done|done].
            + apply (Htick t (S j)); [by rewrite Hu|done].
          - rewrite lookup_insert_ne in Ht by done. by apply (Htick t (S j)). }
        specialize (IH _ ts o' Hin' Hinv' Htick' E). cbv zeta in IH.
        unfold uuid_of. fold u'. destruct (decide (u' = u)) as [<-|Hne]; simpl.
        -- rewrite lookup_insert in IH. rewrite Hvp in IH, Hlt. rewrite !decide_True by lia. exact IH.
        -- rewrite lookup_insert_ne in IH by done. exact IH.
      * rewrite Hvu, delete_insert_delete in Hc.
        cbn beta iota zeta in Hc; destruct (collect find (Z.of_nat q) ttl (delete u' tasks) es) as [ts o'] eqn:E. injection Hc as <- <-.
        assert (∀ u0 t, delete u' tasks !! u0 = Some t →
          n_uuid (t_note t) = u0 ∧ t_parcels t ≠ [] ∧ length (t_parcels t) < q) as Hinv'.
        { intros u0 t Ht. apply lookup_delete_Some in Ht as [_ Ht]. by apply Hinv. }
        assert (∀ t j T, delete u' tasks !! u = Some t → es !! j = Some (CTick T) → (T - t_start t ≤ ttl)%Z) as Htick'.
        { intros t j T Ht Hj. apply lookup_delete_Some in Ht as [_ Ht]. by apply (Htick t (S j)). }
        specialize (IH _ ts o' Hin' Hinv' Htick' E). cbv zeta in IH.
        unfold uuid_of. fold u'. change ([ORun v] ++ o') with (ORun v :: o'). rewrite runs_of_cons, Hvu.
        destruct (decide (u' = u)) as [<-|Hne]; cbn [app fmap list_fmap option_fmap option_map blk blk_rest].
        -- rewrite lookup_delete in IH. rewrite Hvp in Hge. rewrite !decide_False by lia.
           destruct IH as (H1 & H2 & H3). split; [|done]. rewrite H1. by rewrite Hvp.
        -- rewrite lookup_delete_ne in IH by done. exact IH.
    + simpl in Hc. cbn beta iota zeta in Hc; destruct (collect find (Z.of_nat q) ttl (filter _ tasks) es) as [ts o'] eqn:E. injection Hc as <- <-.
      simpl. assert (filter (λ kv, ¬ (ttl < now - t_start kv.2)%Z) tasks !! u = tasks !! u) as Hsame.
      { destruct (tasks !! u) as [t|] eqn:Et.
        - apply map_filter_lookup_Some. split; [done|]. simpl. pose proof (Htick t 0 now eq_refl eq_refl). lia.
        - apply map_filter_lookup_None. by left. }
      set (tasks1 := filter (λ kv, ¬ (ttl < now - t_start kv.2)%Z) tasks) in *.
      assert (∀ u0 t, tasks1 !! u0 = Some t →
          n_uuid (t_note t) = u0 ∧ t_parcels t ≠ [] ∧ length (t_parcels t) < q) as Hinv'.
      { intros u0 t Ht. apply map_filter_lookup_Some in Ht as [Ht _]. by apply Hinv. }
      assert (∀ t j T, tasks1 !! u = Some t → es !! j = Some (CTick T) → (T - t_start t ≤ ttl)%Z) as Htick'.
      { intros t j T Ht Hj. rewrite Hsame in Ht. by apply (Htick t (S j)). }
      pose proof (IH tasks1 ts o' Hin' Hinv' Htick' E) as IH'. cbv zeta in IH'. rewrite Hsame in IH'. exact IH'.
Qed.

(** Every task carries the note and the handler of its first parcel, and parcels of one call only. *)
Definition well_made (t : task hnd) : Prop :=
  ∃ p ps, t_parcels t = p :: ps ∧ t_note t = p_note p ∧ find (p_method p) = Some (t_hnd t) ∧
    Forall (λ p', uuid_of p' = n_uuid (t_note t) ∧ is_Some (find (p_method p'))) (t_parcels t).
Lemma collect_well_made q es tasks tasks' os :
  (∀ u t, tasks !! u = Some t → n_uuid (t_note t) = u ∧ well_made t) →
  collect find q ttl tasks es = (tasks', os) →
  (∀ u t, tasks' !! u = Some t → n_uuid (t_note t) = u ∧ well_made t) ∧ (∀ t, ORun t ∈ os → well_made t).
Proof using Type.
  revert tasks tasks' os. induction es as [|e es IH]; intros tasks tasks' os Hinv Hc; cbn [collect] in Hc.
  - injection Hc as <- <-. split; [done|]. intros t Ht. by apply elem_of_nil in Ht.
  - destruct (collect1 find q ttl tasks e) as [ts1 o1] eqn:E1. destruct (collect find q ttl ts1 es) as [ts o2] eqn:E2.
    injection Hc as <- <-.
    assert ((∀ u t, ts1 !! u = Some t → n_uuid (t_note t) = u ∧ well_made t) ∧ (∀ t, ORun t ∈ o1 → well_made t)) as [H1 H2].
    { destruct e as [now p|now]; unfold collect1 in E1; cbv zeta in E1.
      - destruct (find (p_method p)) as [h|] eqn:Ef.
        2: { injection E1 as <- <-. split; [done|]. intros t Ht. by apply elem_of_list_singleton in Ht. }
        set (u' := n_uuid (p_note p)) in *.
        set (v := mkTask (t_parcels (default (mkTask [] (p_note p) now h) (tasks !! u')) ++ [p])
                  (t_note (default (mkTask [] (p_note p) now h) (tasks !! u')))
                  (t_start (default (mkTask [] (p_note p) now h) (tasks !! u')))
                  (t_hnd (default (mkTask [] (p_note p) now h) (tasks !! u')))) in *.
        assert (n_uuid (t_note v) = u' ∧ well_made v) as Hv.
        { unfold v. destruct (tasks !! u') as [t|] eqn:Et; simpl.
          - destruct (Hinv u' t Et) as [Hu (p0 & ps & Hp & Hn & Hf & Hall)]. split; [done|].
            exists p0, (ps ++ [p]). simpl. rewrite Hp. split; [done|]. split; [done|]. split; [done|].
            rewrite Hp in Hall. apply (Forall_app _ (p0 :: ps) [p]). split; [exact Hall|].
            constructor; [|constructor]. unfold uuid_of. fold u'. split; [done|by eexists].
          - split; [done|]. exists p, []. simpl. split; [done|]. split; [done|]. split; [done|].
            constructor; [|constructor]. split; [done|by eexists]. }
        destruct (decide _).
        + injection E1 as <- <-. split.
          * intros u t Ht. destruct (decide (u = u')) as [->|Hne].
            { rewrite lookup_insert in Ht. by injection Ht as <-. }
            rewrite lookup_insert_ne in Ht by done. by apply Hinv.
          * intros t Ht. by apply elem_of_nil in Ht.
        + injection E1 as <- <-. split.
          * intros u t Ht. apply lookup_delete_Some in Ht as [Hne Ht]. destruct (decide (u = u')) as [->|Hne'].
            { rewrite lookup_insert in Ht. by injection Ht as <-. }
            rewrite lookup_insert_ne in Ht by done. by apply Hinv.
          * intros t Ht. apply elem_of_list_singleton in Ht. injection Ht as ->. apply Hv.
      - injection E1 as <- <-. split.
        + intros u t Ht. apply map_filter_lookup_Some in Ht as [Ht _]. by apply Hinv.
        + intros t Ht. by apply elem_of_nil in Ht. }
    destruct (IH ts1 ts o2 H1 E2) as [H3 H4]. split; [done|].
    intros t Ht. apply elem_of_app in Ht as [Ht|Ht]; [by apply H2|by apply H4].
Qed.
End collector.
