(** Proofs about the cascade topology. *)
From stdpp Require Import gmap sorting.
From Verif.Base Require Import Base Strs.
From Verif.Model Require Import Topology.

Lemma mix_name_inj l p l' p' : mix_name l p = mix_name l' p' → l = l' ∧ p = p'.
Proof.
  unfold mix_name. rewrite !str_cons_app, !str_nil_app. intros H.
  injection H as H.
  apply str_split_unique in H as [H1 H2];
    [|apply digits_no; [done|apply pretty_nat_digits]..].
  apply str_split_unique in H2 as [H2 _];
    [|apply digits_no; [done|apply pretty_nat_digits]..].
  split; by apply pretty_nat_inj.
Qed.

Lemma mix_name_not_genesis l p : mix_name l p ≠ GenesisName.
Proof. unfold mix_name, GenesisName. rewrite !str_cons_app. intros H. discriminate H. Qed.

Lemma rot_inj n l i j : i < n → j < n → (i + l) mod n = (j + l) mod n → i = j.
Proof.
  intros Hi Hj H.
  pose proof (Nat.div_mod (i + l) n ltac:(lia)) as E1.
  pose proof (Nat.div_mod (j + l) n ltac:(lia)) as E2.
  rewrite H in E1.
  set (a := (i + l) / n) in *. set (b := (j + l) / n) in *.
  destruct (lt_eq_lt_dec a b) as [[Hab|Hab]|Hab]; [|subst; nia|].
  - assert (n * a + n ≤ n * b) by nia. lia.
  - assert (n * b + n ≤ n * a) by nia. lia.
Qed.

Lemma rot_surj n l k : k < n → ∃ i, i < n ∧ (i + l) mod n = k.
Proof.
  intros Hk. exists ((k + (n - l mod n)) mod n). split; [apply Nat.mod_upper_bound; lia|].
  rewrite Nat.add_mod_idemp_l by lia.
  pose proof (Nat.div_mod l n ltac:(lia)) as E.
  pose proof (Nat.mod_upper_bound l n ltac:(lia)).
  replace (k + (n - l mod n) + l) with (k + (1 + l / n) * n) by nia.
  rewrite Nat.mod_add by lia. by apply Nat.mod_small.
Qed.

(** A position in layer l of chain i is served by server (i+l) mod n. *)
Lemma rot_lt n l i : 0 < n → (i + l) mod n < n.
Proof. intros. apply Nat.mod_upper_bound. lia. Qed.

Section cascade.
Context (servers : list string).
Notation n := (length servers).

Definition pos (l i : nat) : nat := (i + l) mod n.
Definition base_mix (l i : nat) : LogicalMix :=
  mkMix (servers !!! pos l i) (mix_name l (pos l i))
        (to_int32 (Z.of_nat (pos l i))) (to_int32 (Z.of_nat l)) [] [].

Lemma create_mix_ok l i : i < n → create_mix servers l i = Some (base_mix l i).
Proof.
  intros Hi. unfold create_mix. fold (pos l i).
  assert (pos l i < n) by (apply rot_lt; lia).
  by rewrite (list_lookup_lookup_total_lt servers) by done.
Qed.

Definition mixes_inv (l k : nat) (m : gmap string (nat * nat)) : Prop :=
  ∀ nm l' i', m !! nm = Some (l', i') ↔
    ((l' < l ∧ i' < n) ∨ (l' = l ∧ i' < k)) ∧ nm = mix_name l' (pos l' i').

Lemma create_layer_loop_ok l j k ms mixes :
  k + j = n → length ms = k → mixes_inv l k mixes →
  ∃ mixes', create_layer_loop servers l (seq k j) ms mixes =
            Some (ms ++ (base_mix l <$> seq k j), mixes') ∧ mixes_inv (S l) 0 mixes'.
Proof.
  revert k ms mixes. induction j as [|j IH]; intros k ms mixes Hk Hms Hinv.
  - exists mixes. simpl. rewrite app_nil_r. split; [done|].
    intros nm l' i'. rewrite (Hinv nm l' i'). split; intros [H ->]; (split; [|done]).
    + destruct H as [?|[-> ?]]; left; lia.
    + destruct H as [[? ?]|[? ?]]; [|lia]. destruct (decide (l' = l)) as [->|]; [right|left]; lia.
  - cbn [seq create_layer_loop]. rewrite create_mix_ok by lia. simpl.
    destruct (IH (S k) (ms ++ [base_mix l k])
                (<[mix_name l (pos l k):=(l, length ms)]> mixes)) as (mixes' & -> & Hinv').
    + lia.
    + rewrite app_length. simpl. lia.
    + intros nm l' i'. rewrite Hms. split.
      * intros [[<- [= <- <-]]|[Hne Hl]]%lookup_insert_Some; [split; [right; lia|done]|].
        apply Hinv in Hl as [H ->]. split; [|done].
        destruct H as [?|[-> ?]]; [left|right]; lia.
      * intros [H ->]. apply lookup_insert_Some.
        destruct (decide (l' = l ∧ i' = k)) as [[-> ->]|Hne]; [left; done|].
        right. split.
        -- intros [E1 E2]%mix_name_inj. subst l'.
           assert (i' < n) by (destruct H as [?|[? ?]]; lia).
           unfold pos in E2. apply rot_inj in E2; [|lia..]. naive_solver.
        -- apply Hinv. split; [|done]. destruct H as [?|[-> ?]]; [left; lia|].
           right. split; [done|]. assert (i' ≠ k) by naive_solver. lia.
    + exists mixes'. rewrite <-app_assoc. done.
Qed.

Lemma createLayers_ok k x :
  mixes_inv (length (tp_layers x)) 0 (tp_mixes x) →
  ∃ mixes', createLayers servers k x =
     Some (mkTopo (tp_layers x ++ ((λ l, base_mix l <$> seq 0 n) <$> seq (length (tp_layers x)) k))
                  mixes') ∧ mixes_inv (length (tp_layers x) + k) 0 mixes'.
Proof.
  revert x; induction k as [|k IH]; intros x Hinv.
  - exists (tp_mixes x). simpl. rewrite app_nil_r, Nat.add_0_r. by destruct x.
  - cbn [createLayers]. unfold createLayer.
    destruct (create_layer_loop_ok (length (tp_layers x)) n 0 [] (tp_mixes x)) as (mx & E & Hm);
      [lia|done|done|].
    rewrite E. simpl.
    edestruct (IH (mkTopo (tp_layers x ++ [base_mix (length (tp_layers x)) <$> seq 0 n]) mx))
      as (mixes' & -> & Hinv').
    { simpl. by rewrite app_length, Nat.add_comm. }
    simpl in *. rewrite app_length in *. simpl in *.
    exists mixes'. rewrite <-app_assoc. simpl.
    rewrite (Nat.add_comm (length (tp_layers x)) 1). split; [done|].
    by replace (length (tp_layers x) + S k) with (length (tp_layers x) + 1 + k) by lia.
Qed.

Lemma imapM_ok {A B} (f : nat → A → option B) (g : nat → A → B) i l :
  (∀ k x, l !! k = Some x → f (i + k) x = Some (g (i + k) x)) →
  imapM f i l = Some (imap (λ k, g (i + k)) l).
Proof.
  revert i; induction l as [|x l IH]; intros i H; [done|].
  cbn [imapM]. pose proof (H 0 x eq_refl) as H0. rewrite Nat.add_0_r in H0. rewrite H0. simpl.
  rewrite (IH (S i)).
  - simpl. rewrite Nat.add_0_r. do 2 f_equal. apply imap_ext. intros k y _. simpl.
    by rewrite Nat.add_succ_r.
  - intros k y Hy. specialize (H (S k) y Hy). by rewrite Nat.add_succ_r in H.
Qed.

(** The final mix. *)
Definition preds_of (l i : nat) : list string :=
  match l with O => [GenesisName] | S l' => [mix_name l' (pos l' i)] end.
Definition succs_of (L l i : nat) : list string :=
  if decide (S l = L) then [GenesisName] else [mix_name (S l) (pos (S l) i)].
Definition final_mix (L l i : nat) : LogicalMix :=
  mkMix (servers !!! pos l i) (mix_name l (pos l i))
        (to_int32 (Z.of_nat (pos l i))) (to_int32 (Z.of_nat l)) (preds_of l i) (succs_of L l i).
Definition pred_mix (l i : nat) : LogicalMix :=
  mkMix (servers !!! pos l i) (mix_name l (pos l i))
        (to_int32 (Z.of_nat (pos l i))) (to_int32 (Z.of_nat l)) (preds_of l i) [].

Definition grid (L : nat) (f : nat → nat → LogicalMix) : list (list LogicalMix) :=
  (λ l, f l <$> seq 0 n) <$> seq 0 L.

Lemma grid_lookup L f l : grid L f !! l = if decide (l < L) then Some (f l <$> seq 0 n) else None.
Proof.
  unfold grid. rewrite list_lookup_fmap. case_decide.
  - by rewrite lookup_seq_lt.
  - by rewrite lookup_seq_ge by lia.
Qed.
Lemma grid_row_lookup (f : nat → nat → LogicalMix) l i : (f l <$> seq 0 n : list LogicalMix) !! i = if decide (i < n) then Some (f l i) else None.
Proof.
  rewrite list_lookup_fmap. case_decide.
  - by rewrite lookup_seq_lt.
  - by rewrite lookup_seq_ge by lia.
Qed.
Lemma grid_length L f : length (grid L f) = L.
Proof. unfold grid. by rewrite fmap_length, seq_length. Qed.

Lemma grid_imapM L f g (h : nat → nat → LogicalMix → option LogicalMix) :
  (∀ l i, l < L → i < n → h l i (f l i) = Some (g l i)) →
  imapM (λ l layer, imapM (h l) 0 layer) 0 (grid L f) = Some (grid L g).
Proof.
  intros H.
  rewrite (imapM_ok _ (λ l _, g l <$> seq 0 n)).
  - f_equal. apply list_eq. intros l. rewrite list_lookup_imap, !grid_lookup. simpl.
    by case_decide.
  - intros l row Hrow. simpl. rewrite grid_lookup in Hrow. case_decide; [|done].
    injection Hrow as <-.
    rewrite (imapM_ok _ (λ i _, g l i)).
    + f_equal. apply list_eq. intros i. rewrite list_lookup_imap, !grid_row_lookup. simpl.
      by case_decide.
    + intros i m Hm. rewrite grid_row_lookup in Hm. simpl. case_decide; [|done].
      injection Hm as <-. by apply H.
Qed.

Lemma cascade_form L :
  ∃ mixes, CreateCascadeTopology servers (Z.of_nat L) = Some (mkTopo (grid L (final_mix L)) mixes)
    ∧ mixes_inv L 0 mixes.
Proof.
  unfold CreateCascadeTopology. rewrite decide_False by lia. rewrite Nat2Z.id.
  destruct (createLayers_ok L (mkTopo [] ∅)) as (mixes & -> & Hinv).
  { intros nm l i. simpl. rewrite lookup_empty. split; [done|]. intros [H _]. lia. }
  simpl. fold (grid L base_mix). unfold SetPredecessors. simpl.
  rewrite (grid_imapM L base_mix pred_mix).
  - simpl. unfold SetSuccessors. simpl.
    rewrite (grid_imapM L pred_mix (final_mix L)).
    + simpl. exists mixes. done.
    + intros l i Hl Hi. unfold set_succ, final_mix, succs_of. simpl. rewrite grid_length.
      case_decide as Hc; [done|]. rewrite grid_lookup, decide_True by lia. simpl.
      by rewrite grid_row_lookup, decide_True by lia.
  - intros [|l] i Hl Hi; [done|]. unfold set_pred, pred_mix, preds_of. simpl.
    rewrite grid_lookup, decide_True by lia. simpl.
    by rewrite grid_row_lookup, decide_True by lia.
Qed.

Lemma cascade_deref L mixes l i :
  l < L → i < n → deref (mkTopo (grid L (final_mix L)) mixes) (l, i) = Some (final_mix L l i).
Proof.
  intros Hl Hi. unfold deref. simpl. rewrite grid_lookup, decide_True by lia. simpl.
  by rewrite grid_row_lookup, decide_True by lia.
Qed.

Lemma cascade_deref_Some L mixes l i m :
  deref (mkTopo (grid L (final_mix L)) mixes) (l, i) = Some m →
  l < L ∧ i < n ∧ m = final_mix L l i.
Proof.
  unfold deref. simpl. rewrite grid_lookup. case_decide; simpl; [|done].
  rewrite grid_row_lookup. case_decide; [|done]. intros [= <-]. done.
Qed.

Lemma GetMix_cascade L mixes l i :
  mixes_inv L 0 mixes → l < L → i < n →
  GetMix (mkTopo (grid L (final_mix L)) mixes) (mix_name l (pos l i)) = Some (final_mix L l i).
Proof.
  intros Hinv Hl Hi. unfold GetMix. simpl.
  assert (mixes !! mix_name l (pos l i) = Some (l, i)) as ->.
  { apply Hinv. split; [left; lia|done]. }
  simpl. by apply cascade_deref.
Qed.

Lemma GetMix_cascade_Some L mixes nm m :
  mixes_inv L 0 mixes →
  GetMix (mkTopo (grid L (final_mix L)) mixes) nm = Some m →
  ∃ l i, l < L ∧ i < n ∧ nm = mix_name l (pos l i) ∧ m = final_mix L l i.
Proof.
  intros Hinv. unfold GetMix. simpl. destruct (mixes !! nm) as [[l i]|] eqn:E; simpl; [|done].
  apply Hinv in E as [_ ->]. intros (?&?&->)%cascade_deref_Some. eauto 10.
Qed.

End cascade.

(** ** Following successors *)

(** [walk t m ms]: starting at the (possibly nil) mix m, repeatedly moving to
    GetMix(m.Successors[0]) visits exactly ms and then reaches nil. *)
Inductive walk (t : topology) : option LogicalMix → list LogicalMix → Prop :=
| walk_nil : walk t None []
| walk_step m s ss ms : mx_succs m = s :: ss → walk t (GetMix t s) ms → walk t (Some m) (m :: ms).

Lemma walk_cascade servers L mixes i k :
  mixes_inv servers L 0 mixes → i < length servers → k ≤ L → 0 < k →
  let t := mkTopo (grid servers L (final_mix servers L)) mixes in
  walk t (Some (final_mix servers L (L - k) i))
         ((λ l, final_mix servers L l i) <$> seq (L - k) k).
Proof.
  intros Hinv Hi Hk Hk0 t. induction k as [|k IH]; [lia|].
  cbn [seq fmap list_fmap].
  destruct (decide (k = 0)) as [->|Hk'].
  - econstructor; [unfold final_mix, succs_of; simpl; by rewrite decide_True by lia|].
    simpl. assert (GetMix t GenesisName = None) as ->; [|constructor].
    destruct (GetMix t GenesisName) as [m|] eqn:E; [|done].
    apply GetMix_cascade_Some in E as (l & j & _ & _ & E & _); [|done].
    by apply symmetry, mix_name_not_genesis in E.
  - econstructor; [unfold final_mix, succs_of; simpl; by rewrite decide_False by lia|].
    replace (S (L - S k)) with (L - k) by lia.
    unfold t. rewrite GetMix_cascade by (done || lia).
    apply IH; lia.
Qed.

Lemma walk_det t m ms ms' : walk t m ms → walk t m ms' → ms = ms'.
Proof.
  intros H. revert ms'. induction H as [|m s ss ms Hs Hw IH]; intros ms' H'; inversion H'; subst.
  - done.
  - f_equal. apply IH. congruence.
Qed.

(** ** Servers per layer *)

Lemma layer_hosts_perm servers l :
  (λ i, servers !!! pos servers l i) <$> seq 0 (length servers) ≡ₚ servers.
Proof.
  apply Permutation_inj. rewrite fmap_length, seq_length. split; [done|].
  set (n := length servers).
  exists (λ i, if decide (i < n) then (i + l) mod n else i). split.
  - intros a b. destruct (decide (a < n)) as [Ha|Ha], (decide (b < n)) as [Hb|Hb]; intros Heq.
    + by eapply rot_inj.
    + pose proof (rot_lt n l a ltac:(lia)). lia.
    + pose proof (rot_lt n l b ltac:(lia)). lia.
    + done.
  - intros i. rewrite list_lookup_fmap. destruct (decide (i < n)) as [Hi|Hi].
    + rewrite lookup_seq_lt by done. simpl. unfold pos. fold n.
      symmetry. apply list_lookup_lookup_total_lt. apply rot_lt. lia.
    + rewrite lookup_seq_ge by lia. simpl. symmetry. apply lookup_ge_None. unfold n in *. lia.
Qed.

Lemma chain_hosts_perm servers i l :
  (λ k, servers !!! pos servers k i) <$> seq l (length servers) ≡ₚ servers.
Proof.
  enough ((λ k, servers !!! pos servers k i) <$> seq l (length servers) =
          (λ j, servers !!! pos servers (i + l) j) <$> seq 0 (length servers)) as ->
    by apply layer_hosts_perm.
  apply list_eq. intros q. rewrite !list_lookup_fmap.
  destruct (decide (q < length servers)) as [Hq|Hq].
  - rewrite !lookup_seq_lt by done. simpl. f_equal. unfold pos. f_equal. f_equal. lia.
  - by rewrite !lookup_seq_ge by lia.
Qed.

(** A strictly sorted permutation is unique. *)
Lemma sorted_perm_unique {A} (key : A → Z) (l : list A) (out : list A) :
  out ≡ₚ l →
  (∀ i j a b, i < j → l !! i = Some a → l !! j = Some b → (key a < key b)%Z) →
  (∀ i j a b, i < j → out !! i = Some a → out !! j = Some b → ¬ (key b < key a)%Z) →
  out = l.
Proof.
  revert out. induction l as [|x l IH]; intros out Hp Hs Ho.
  - by apply Permutation_nil_r in Hp.
  - destruct out as [|y out]; [by apply Permutation_nil_l in Hp|].
    assert (y = x) as ->.
    { assert (y ∈ x :: l) as Hy by (rewrite <-Hp; left).
      apply elem_of_cons in Hy as [->|Hy]; [done|].
      exfalso. apply elem_of_list_lookup in Hy as [j Hj].
      assert (x ∈ y :: out) as Hx by (rewrite Hp; left).
      pose proof (Hs 0 (S j) x y ltac:(lia) eq_refl Hj) as Hlt.
      apply elem_of_cons in Hx as [->|Hx]; [lia|].
      apply elem_of_list_lookup in Hx as [k Hk].
      apply (Ho 0 (S k) y x ltac:(lia) eq_refl Hk). lia. }
    f_equal. apply IH.
    + by apply Permutation_cons_inv in Hp.
    + intros i j a b Hij Ha Hb. apply (Hs (S i) (S j)); [lia|done..].
    + intros i j a b Hij Ha Hb. apply (Ho (S i) (S j)); [lia|done..].
Qed.

Lemma setMixNames_cascade servers L mixes k host out :
  NoDup servers → servers !! k = Some host → mixes_inv servers L 0 mixes →
  (Z.of_nat L ≤ 2 ^ 31)%Z →
  setMixNames (mkTopo (grid servers L (final_mix servers L)) mixes) host out →
  out = (λ l, mix_name l k) <$> seq 0 L.
Proof.
  intros Hnd Hk Hinv HL (order & Hord & Hp & Hsort).
  set (t := mkTopo _ mixes) in *. simpl in Hp.
  assert (Hkn : k < length servers) by by eapply lookup_lt_Some.
  set (kept := (filter (λ e, mx_host <$> deref t e.2 = Some host) order).*1) in *.
  assert (Hkept : ∀ nm, nm ∈ kept ↔ ∃ l, l < L ∧ nm = mix_name l k).
  { intros nm. unfold kept. rewrite elem_of_list_fmap. split.
    - intros ([nm' [l i]] & -> & He). apply elem_of_list_filter in He as [Hh He]. simpl in *.
      rewrite Hord in He. apply elem_of_map_to_list in He. simpl in He.
      apply Hinv in He as [Hli ->].
      destruct Hli as [[Hl Hi]|[_ ?]]; [|lia].
      unfold t in Hh. rewrite cascade_deref in Hh by done. simpl in Hh. injection Hh as Hh.
      exists l. split; [done|]. f_equal.
      assert (pos servers l i < length servers) by (apply rot_lt; lia).
      assert (servers !! pos servers l i = Some host) as Hpos.
      { by rewrite list_lookup_lookup_total_lt, Hh. }
      by eapply NoDup_lookup.
    - intros (l & Hl & ->). destruct (rot_surj (length servers) l k) as (i & Hi & Hr); [done|].
      exists (mix_name l k, (l, i)). split; [done|]. apply elem_of_list_filter. simpl. split.
      + unfold t. rewrite cascade_deref by done. simpl. unfold pos. rewrite Hr.
        f_equal. by apply list_lookup_total_correct.
      + rewrite Hord. apply elem_of_map_to_list. apply Hinv. split; [left; lia|].
        unfold pos. by rewrite Hr. }
  assert (NoDup kept) as Hndk.
  { unfold kept. assert (NoDup order.*1) as Ho.
    { rewrite Hord. apply NoDup_fst_map_to_list. }
    clear -Ho. induction order as [|[nm p] order IH]; [constructor|].
    simpl in Ho. apply NoDup_cons in Ho as [Hn Ho]. rewrite filter_cons.
    case_decide; simpl; [|by apply IH].
    constructor; [|by apply IH].
    intros Hin. apply Hn. apply elem_of_list_fmap in Hin as (e & -> & He).
    apply elem_of_list_filter in He as [_ He]. apply elem_of_list_fmap. eauto. }
  assert (Htgt : NoDup ((λ l, mix_name l k) <$> seq 0 L)).
  { apply NoDup_fmap_2_strong; [|apply NoDup_seq]. intros a b _ _ [? _]%mix_name_inj. done. }
  assert (Hlay : ∀ l, l < L → layer_of t (mix_name l k) = Z.of_nat l).
  { intros l Hl. destruct (rot_surj (length servers) l k) as (i & Hi & Hr); [done|].
    unfold layer_of. replace k with (pos servers l i) by exact Hr.
    unfold t. rewrite GetMix_cascade by done. simpl.
    unfold to_int32. rewrite Z.mod_small by lia. lia. }
  apply (sorted_perm_unique (layer_of t)); [| |exact Hsort].
  - rewrite Hp. apply NoDup_Permutation; [done|done|]. intros nm. rewrite Hkept.
    rewrite elem_of_list_fmap. setoid_rewrite elem_of_seq. split.
    + intros (l & Hl & ->). exists l. split; [done|lia].
    + intros (l & -> & Hl). exists l. split; [lia|done].
  - intros i j a b Hij Ha Hb. rewrite list_lookup_fmap in Ha, Hb.
    destruct (decide (j < L)) as [Hj|Hj].
    + rewrite lookup_seq_lt in Ha by lia. rewrite lookup_seq_lt in Hb by lia.
      injection Ha as <-. injection Hb as <-. simpl.
      rewrite !Hlay by lia. lia.
    + by rewrite (lookup_seq_ge _ _ j) in Hb by lia.
Qed.
