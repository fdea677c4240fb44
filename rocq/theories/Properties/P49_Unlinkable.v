(** C106: one honest mix in a chain hides which input became which output. *)
From Verif.Base Require Import Base.
From Verif.Model Require Import Shuffle.
From Verif.Proofs Require Import ShuffleProofs.

(** ** What the statements speak about *)

(** One server of a chain: it processes every onion by [sg_dec] and shuffles the results with its own
    random source, an arbitrary state machine. *)
Record stage (A : Type) := Stage { sg_dec : A → A; sg_state : Type; sg_rd : reader sg_state; sg_start : sg_state }.
Arguments Stage {A} _ {_} _ _.
Arguments sg_dec {A} _ _.
Arguments sg_rd {A} _.
Arguments sg_start {A} _.
Definition runStage {A} (g : stage A) (l : list A) : option (list A) :=
  fst <$> ShuffleOnions (sg_rd g) (NewShuffler (sg_start g)) (sg_dec g <$> l).
Fixpoint chain {A} (gs : list (stage A)) (l : list A) : option (list A) :=
  match gs with [] => Some l | g :: gs => l' ← runStage g l; chain gs l' end.
(** The processing of a whole chain, on one onion. *)
Definition peel {A} (gs : list (stage A)) (x : A) : A := foldl (λ x g, sg_dec g x) x gs.

(** The honest server, whose random draws are [ds]. *)
Definition honest {A} (dec : A → A) (ds : list nat) : stage A := Stage dec draws_reader ds.
(** All the draws a shuffle of [n] onions can make: the first below n, the next below n-1, ... *)
Fixpoint all_draws (n : nat) : list (list nat) :=
  match n with 0 => [[]] | S i => d ← seq 0 (S i); (d ::.) <$> all_draws i end.
(** In how many of them something happens. *)
Definition count (n : nat) (P : list nat → Prop) `{∀ ds, Decision (P ds)} : nat := length (filter P (all_draws n)).

Lemma eq_reflexivity {A} (l l' : list A) : l = l' → l ≡ₚ l'.
Proof. by intros ->. Qed.

(** ** The draws *)
Lemma elem_of_all_draws n ds : ds ∈ all_draws n ↔ draws_ok n ds.
Proof.
  revert ds; induction n as [|i IH]; intros ds.
  - cbn [all_draws]. rewrite elem_of_list_singleton. split.
    + intros ->. split; [done|]. intros k d Hd. by rewrite lookup_nil in Hd.
    + intros [Hl _]. by destruct ds.
  - cbn [all_draws]. rewrite elem_of_list_bind. split.
    + intros (d & Hd & Hin). apply elem_of_list_fmap in Hd as (ds' & -> & Hds'%IH).
      apply elem_of_seq in Hin. destruct Hds' as [Hl Hk].
      split; [simpl; lia|]. intros [|k] x Hx; simpl in Hx.
      * injection Hx as <-. lia.
      * specialize (Hk k x Hx). lia.
    + intros [Hl Hk]. destruct ds as [|d ds]; [simpl in Hl; lia|].
      exists d. split.
      * apply elem_of_list_fmap. exists ds. split; [done|]. apply IH. split; [simpl in Hl; lia|].
        intros k x Hx. specialize (Hk (S k) x Hx). lia.
      * apply elem_of_seq. specialize (Hk 0 d eq_refl). lia.
Qed.
Lemma all_draws_length n : length (all_draws n) = fact n.
Proof.
  induction n as [|i IH]; [done|]. cbn [all_draws].
  assert (∀ L, length (d ← L; (d ::.) <$> all_draws i) = length L * fact i) as ->.
  { induction L as [|d L IHL]; [done|]. rewrite bind_cons, app_length, fmap_length, IH, IHL. done. }
  by rewrite seq_length.
Qed.
Lemma all_draws_NoDup n : NoDup (all_draws n).
Proof.
  induction n as [|i IH]; [apply NoDup_singleton|]. cbn [all_draws].
  assert (∀ L, NoDup L → NoDup (d ← L; (d ::.) <$> all_draws i)) as HL; [|apply HL, NoDup_seq].
  induction L as [|d L IHL]; intros HN; [constructor|].
  apply NoDup_cons in HN as [Hd HN]. rewrite bind_cons. apply NoDup_app. split_and!.
  - apply NoDup_fmap_2; [|done]. intros x y. by injection 1.
  - intros x Hx (d' & Hx' & Hd')%elem_of_list_bind.
    apply elem_of_list_fmap in Hx as (y & -> & _). apply elem_of_list_fmap in Hx' as (y' & [=-> ->] & _). done.
  - by apply IHL.
Qed.

(** Two conditions are equally frequent if each draw with the first has one with the second, by a
    relation that never leads two draws to one. *)
Lemma count_le n (P Q : list nat → Prop) `{∀ ds, Decision (P ds)} `{∀ ds, Decision (Q ds)} (R : list nat → list nat → Prop) :
  (∀ x, draws_ok n x → P x → ∃ y, draws_ok n y ∧ Q y ∧ R x y) →
  (∀ x x' y, draws_ok n x → draws_ok n x' → R x y → R x' y → x = x') →
  count n P ≤ count n Q.
Proof.
  intros Htot Hinj. unfold count.
  assert (∃ W, Forall2 (λ x y, draws_ok n x ∧ draws_ok n y ∧ Q y ∧ R x y) (filter P (all_draws n)) W) as [W HW].
  { assert (∀ x, x ∈ filter P (all_draws n) → draws_ok n x ∧ P x) as HF.
    { intros x [HP Hx%elem_of_all_draws]%elem_of_list_filter. done. }
    induction (filter P (all_draws n)) as [|x L IH]; [by exists []; constructor|].
    destruct IH as [W HW]; [intros; apply HF; by constructor|].
    destruct (HF x) as [Hx HP]; [by constructor|].
    destruct (Htot x Hx HP) as (y & Hy & HQ & HR). exists (y :: W). constructor; [done|exact HW]. }
  rewrite (Forall2_length _ _ _ HW). apply submseteq_length, NoDup_submseteq.
  - assert (NoDup (filter P (all_draws n))) as HN by apply NoDup_filter, all_draws_NoDup.
    revert HN. induction HW as [|x y L W (Hx & Hy & HQ & HR) HW IH]; intros HN; [constructor|].
    apply NoDup_cons in HN as [Hni HN]. constructor; [|by apply IH].
    intros Hin. apply elem_of_list_lookup in Hin as [i Hi].
    destruct (Forall2_lookup_r _ _ _ _ _ HW Hi) as (x' & Hx' & (Hok & _ & _ & HR')).
    apply Hni. rewrite (Hinj x x' y); [by eapply elem_of_list_lookup_2|done..].
  - intros y Hy. apply elem_of_list_lookup in Hy as [i Hi].
    destruct (Forall2_lookup_r _ _ _ _ _ HW Hi) as (x' & Hx' & (Hok & Hoky & HQ & HR')).
    apply elem_of_list_filter. split; [done|]. by apply elem_of_all_draws.
Qed.

(** ** The honest shuffle *)
Lemma draws_perm n ds : (N.of_nat n ≤ 2 ^ 32)%N → draws_ok n ds →
  ∃ p, permutation draws_reader ds n = Some (p, []) ∧ p ≡ₚ seq 0 n.
Proof.
  intros Hn Hok. destruct (permutation_ok draws_reader ds n) as (p & s' & E & Hp).
  exists p. split; [|done]. pose proof E as E'.
  unfold permutation in E'. rewrite perm_loop_draws in E' by done.
  destruct (perm_draws ds n (seq 0 n)); simpl in E'; [|done]. congruence.
Qed.
Lemma shuffle_fresh {S A} (r : reader S) s (l : list A) p s' :
  permutation r s (length l) = Some (p, s') → p ≡ₚ seq 0 (length l) →
  ∃ out sh', ShuffleOnions r (NewShuffler s) l = Some (out, sh') ∧ length out = length l ∧ ∀ q, out !! q = p !! q ≫= λ x, l !! x.
Proof.
  intros E Hp. unfold ShuffleOnions, NewShuffler. cbn [sh_perm sh_rand]. rewrite E. cbn [mbind option_bind sh_perm].
  assert (Hlp : length p = length l) by (by rewrite Hp, seq_length).
  destruct (assign_loop_ok p l (length l) 0 l) as (out & -> & Hlen & _ & H2); [|done..|].
  { intros q Hq. rewrite Hp in Hq. apply elem_of_seq in Hq. lia. }
  cbn [mbind option_bind]. eexists _, _. split; [done|]. split; [done|]. intros q. apply H2. lia.
Qed.
Lemma honest_ok {A} (dec : A → A) ds (l : list A) : (N.of_nat (length l) ≤ 2 ^ 32)%N → draws_ok (length l) ds →
  ∃ p out, permutation draws_reader ds (length l) = Some (p, []) ∧ p ≡ₚ seq 0 (length l) ∧
    runStage (honest dec ds) l = Some out ∧ length out = length l ∧
    ∀ q, out !! q = p !! q ≫= λ x, (dec <$> l) !! x.
Proof.
  intros Hn Hok. destruct (draws_perm _ _ Hn Hok) as (p & E & Hp).
  destruct (shuffle_fresh draws_reader ds (dec <$> l) p []) as (out & sh' & Es & Hl & Hout); [by rewrite fmap_length..|].
  exists p, out. split_and!; [done..| |by rewrite fmap_length in Hl|done].
  change (fst <$> ShuffleOnions draws_reader (NewShuffler ds) (dec <$> l) = Some out). by rewrite Es.
Qed.
Lemma stage_ok {A} (g : stage A) (l : list A) : ∃ out, runStage g l = Some out ∧ out ≡ₚ sg_dec g <$> l.
Proof.
  unfold runStage. destruct (ShuffleOnions_ok (sg_rd g) (NewShuffler (sg_start g)) (sg_dec g <$> l)) as (out & sh' & p & -> & Hp & _); [done|].
  by exists out.
Qed.
Lemma chain_ok {A} (gs : list (stage A)) (l : list A) : ∃ out, chain gs l = Some out ∧ out ≡ₚ peel gs <$> l.
Proof.
  revert l; induction gs as [|g gs IH]; intros l.
  - exists l. split; [done|]. unfold peel. simpl. by rewrite list_fmap_id.
  - cbn [chain]. destruct (stage_ok g l) as (l' & -> & Hl'). cbn [mbind option_bind].
    destruct (IH l') as (out & -> & Ho). exists out. split; [done|].
    rewrite Ho, Hl', <-list_fmap_compose. done.
Qed.

(** The table of a permutation composed with another. *)
Lemma perm_of_fun n (f : nat → nat) : Inj (=) (=) f → (∀ i, i < n → f i < n) → f <$> seq 0 n ≡ₚ seq 0 n.
Proof.
  intros Hinj Hb. apply Permutation.NoDup_Permutation_bis.
  - apply NoDup_ListNoDup, NoDup_fmap_2; [done|apply NoDup_seq].
  - by rewrite map_length.
  - intros x Hx%elem_of_list_In. apply elem_of_list_In. apply elem_of_list_fmap in Hx as (i & -> & Hi%elem_of_seq).
    apply elem_of_seq. specialize (Hb i). lia.
Qed.

(** One input order is turned into the other's output by other draws. *)
Definition linked {A} (dec : A → A) (l l' : list A) (g : nat → nat) (ds ds' : list nat) : Prop :=
  ∃ p p', permutation draws_reader ds (length l) = Some (p, []) ∧
    permutation draws_reader ds' (length l') = Some (p', []) ∧ (∀ q, p !! q = g <$> p' !! q).
Lemma link {A} (dec : A → A) (l l' : list A) :
  (N.of_nat (length l) ≤ 2 ^ 32)%N → l ≡ₚ l' →
  ∃ g, ∀ ds, draws_ok (length l) ds → ∃ ds', draws_ok (length l') ds' ∧
    runStage (honest dec ds') l' = runStage (honest dec ds) l ∧ linked dec l l' g ds ds'.
Proof.
  intros Hn Hp. pose proof (Permutation_length Hp) as Hlen.
  symmetry in Hp. apply Permutation_inj in Hp as [_ (g & Hg & Hgl)]. exists g. intros ds Hok.
  destruct (honest_ok dec ds l Hn Hok) as (p & out & Ep & Hpp & Er & Hlo & Hout).
  assert (∀ i, i < length l → g i < length l) as Hgb.
  { intros i Hi. apply lookup_lt_is_Some. rewrite <-Hgl. apply lookup_lt_is_Some. lia. }
  assert (p ≡ₚ g <$> seq 0 (length l)) as Hpg by (by rewrite Hpp, (perm_of_fun (length l) g)).
  apply Permutation_inj in Hpg as [_ (f & Hf & Hfl)].
  pose proof (Permutation_length Hpp) as Hpl. rewrite seq_length in Hpl.
  assert (∀ i, i < length l → f i < length l) as Hfb.
  { intros i Hi. assert (is_Some (p !! i)) as Hs by (apply lookup_lt_is_Some; lia).
    rewrite Hfl in Hs. apply lookup_lt_is_Some in Hs. by rewrite fmap_length, seq_length in Hs. }
  pose proof (perm_of_fun (length l) f Hf Hfb) as Hp'.
  destruct (permutation_bijection (length l) (f <$> seq 0 (length l)) Hn Hp') as (ds' & Hok' & Ep' & _).
  exists ds'. rewrite Hlen in Hok'. split; [done|].
  assert (∀ q, p !! q = g <$> (f <$> seq 0 (length l)) !! q) as Hpq.
  { intros q. rewrite Hfl, !list_lookup_fmap. destruct (decide (q < length l)) as [Hq|Hq].
    - rewrite !lookup_seq_lt by (try apply Hfb; lia). done.
    - rewrite (lookup_seq_ge 0 (length l) q) by lia. simpl.
      destruct (decide (f q < length l)) as [Hq'|Hq']; [|by rewrite lookup_seq_ge by lia].
      exfalso. assert (is_Some (p !! q)) as Hs; [|apply lookup_lt_is_Some in Hs; lia].
      rewrite Hfl, list_lookup_fmap, lookup_seq_lt by done. by eexists. }
  split.
  - rewrite Er. destruct (honest_ok dec ds' l') as (p2 & out' & Ep2 & _ & -> & Hlo' & Hout'); [by rewrite <-Hlen|done|].
    f_equal. rewrite <-Hlen, Ep' in Ep2. injection Ep2 as <-. apply list_eq. intros q.
    rewrite Hout', Hout, Hpq. destruct ((f <$> seq 0 (length l)) !! q) as [x|]; [|done]. simpl.
    by rewrite !list_lookup_fmap, Hgl.
  - exists p, (f <$> seq 0 (length l)). split; [done|]. split; [by rewrite <-Hlen|done].
Qed.
Lemma linked_inj {A} (dec : A → A) (l l' : list A) g x x' y :
  (N.of_nat (length l) ≤ 2 ^ 32)%N → draws_ok (length l) x → draws_ok (length l) x' →
  linked dec l l' g x y → linked dec l l' g x' y → x = x'.
Proof.
  intros Hn Hx Hx' (p & p' & Ep & Ep' & H1) (p2 & p2' & Ep2 & Ep2' & H2).
  rewrite Ep' in Ep2'. injection Ep2' as <-.
  assert (p = p2) as <- by (apply list_eq; intros q; by rewrite H1, H2).
  destruct (draws_perm _ _ Hn Hx) as (p0 & E0 & Hp0). rewrite Ep in E0. injection E0 as <-.
  destruct (permutation_bijection _ _ Hn Hp0) as (d & _ & _ & Hu).
  by rewrite (Hu x Hx Ep), (Hu x' Hx' Ep2).
Qed.

(** ** C106 *)

(** [l] and [l'] hold the same onions in different orders: who sent which is exchanged.  Whatever the
    servers before do (any number of mixes with any random sources), and whatever anybody observes of or
    computes from the honest server's output, every observation is made for equally many draws of the
    honest server. *)
Theorem C106_unlinkable {A V} `{EqDecision V} (before : list (stage A)) (dec : A → A) (view : list A → V) (v : V) (l l' : list A) :
  (N.of_nat (length l) ≤ 2 ^ 32)%N → l ≡ₚ l' →
  count (length l) (λ ds, view <$> chain (before ++ [honest dec ds]) l = Some v) =
  count (length l) (λ ds, view <$> chain (before ++ [honest dec ds]) l' = Some v).
Proof.
  assert (∀ ds m, chain (before ++ [honest dec ds]) m = chain before m ≫= runStage (honest dec ds)) as Hch.
  { intros ds. induction before as [|g gs IH]; intros m; cbn [app chain].
    - cbn [mbind option_bind]. by destruct (runStage (honest dec ds) m).
    - destruct (runStage g m) as [m'|]; [|done]. cbn [mbind option_bind]. apply IH. }
  assert (∀ l l' : list A, (N.of_nat (length l) ≤ 2 ^ 32)%N → l ≡ₚ l' →
    count (length l) (λ ds, view <$> chain (before ++ [honest dec ds]) l = Some v) ≤
    count (length l) (λ ds, view <$> chain (before ++ [honest dec ds]) l' = Some v)) as Hle.
  { clear l l'. intros l l' Hn Hp.
    destruct (chain_ok before l) as (m & Em & Hm), (chain_ok before l') as (m' & Em' & Hm').
    assert (m ≡ₚ m') as Hmm by (by rewrite Hm, Hm', Hp).
    assert (length m = length l) as Hl by (by rewrite Hm, fmap_length).
    assert (length m' = length l) as Hl' by (by rewrite <-Hmm).
    destruct (link dec m m') as (g & Hlink); [by rewrite Hl|done|].
    apply (count_le _ _ _ (linked dec m m' g)).
    - intros x Hx. rewrite Hch, Em. cbn [mbind option_bind]. intros HP.
      destruct (Hlink x) as (y & Hy & E & HR); [by rewrite Hl|]. exists y.
      split; [by rewrite <-Hl'|]. rewrite Hch, Em'. cbn [mbind option_bind]. by rewrite E.
    - intros x x' y Hx Hx'. apply linked_inj; [by rewrite Hl..]. }
  intros Hn Hp. apply Nat.le_antisymm; [by apply Hle|].
  pose proof (Permutation_length Hp) as Hlen. rewrite Hlen. apply Hle; [by rewrite <-Hlen|done].
Qed.
Print Assumptions C106_unlinkable.

(** All n! lists of draws, each once, are what a shuffle can draw. *)
Theorem C106_draws n :
  NoDup (all_draws n) ∧ length (all_draws n) = fact n ∧
  ∀ ds, ds ∈ all_draws n ↔ length ds = n ∧ ∀ k d, ds !! k = Some d → d < n - k.
Proof. split; [apply all_draws_NoDup|]. split; [apply all_draws_length|]. intros ds. apply elem_of_all_draws. Qed.
Print Assumptions C106_draws.

(** ** A fixed chain around the honest server *)
(** What a server with given random answers does is a fixed reordering, whatever the onions are. *)
Lemma stage_oblivious {A} (g : stage A) n : ∃ p, p ≡ₚ seq 0 n ∧ ∀ l, length l = n →
  ∃ out, runStage g l = Some out ∧ length out = n ∧ ∀ q, out !! q = p !! q ≫= λ x, (sg_dec g <$> l) !! x.
Proof.
  destruct (permutation_ok (sg_rd g) (sg_start g) n) as (p & s' & E & Hp). exists p. split; [done|].
  intros l Hl. destruct (shuffle_fresh (sg_rd g) (sg_start g) (sg_dec g <$> l) p s') as (out & sh' & Es & Hlo & Hout);
    [by rewrite fmap_length, Hl..|].
  exists out. unfold runStage. rewrite Es. rewrite fmap_length, Hl in Hlo. done.
Qed.
Lemma perm_lt (p : list nat) n q x : p ≡ₚ seq 0 n → p !! q = Some x → x < n.
Proof. intros Hp Hq%elem_of_list_lookup_2. rewrite Hp in Hq. apply elem_of_seq in Hq. lia. Qed.
Lemma perm_len (p : list nat) n : p ≡ₚ seq 0 n → length p = n.
Proof. intros Hp. by rewrite Hp, seq_length. Qed.
Lemma perm_inj (p : list nat) n i j x : p ≡ₚ seq 0 n → p !! i = Some x → p !! j = Some x → i = j.
Proof. intros Hp Hi Hj. eapply (NoDup_lookup p); [|done..]. rewrite Hp. apply NoDup_seq. Qed.

(** Tables of permutations: one unknown factor, on either side. *)
Lemma solve_left (pb f : list nat) n : pb ≡ₚ seq 0 n → f ≡ₚ seq 0 n →
  ∃ p, p ≡ₚ seq 0 n ∧ ∀ q, p !! q ≫= (pb !!.) = f !! q.
Proof.
  intros Hb Hf. assert (f ≡ₚ pb) as H by (by rewrite Hf, Hb).
  apply Permutation_inj in H as [Hl (h & Hh & Hfl)].
  pose proof (perm_len _ _ Hb). pose proof (perm_len _ _ Hf).
  exists (h <$> seq 0 n). split.
  - apply perm_of_fun; [done|]. intros i Hi.
    assert (is_Some (pb !! h i)) as Hs by (rewrite <-Hfl; apply lookup_lt_is_Some; lia).
    apply lookup_lt_is_Some in Hs. lia.
  - intros q. rewrite list_lookup_fmap. destruct (decide (q < n)).
    + rewrite lookup_seq_lt by done. simpl. by rewrite Hfl.
    + rewrite lookup_seq_ge by lia. simpl. symmetry. apply lookup_ge_None. lia.
Qed.
Lemma solve_right (pa f : list nat) n : pa ≡ₚ seq 0 n → f ≡ₚ seq 0 n →
  ∃ p, p ≡ₚ seq 0 n ∧ ∀ q, pa !! q ≫= (p !!.) = f !! q.
Proof.
  intros Ha Hf. assert (seq 0 n ≡ₚ pa) as H by done.
  apply Permutation_inj in H as [Hl (h & Hh & Hal)]. rewrite seq_length in Hl.
  pose proof (perm_len _ _ Hf) as Hlf.
  assert (∀ i, i < n → pa !! h i = Some i) as Hp.
  { intros i Hi. rewrite <-Hal, lookup_seq_lt by done. done. }
  assert (∀ i, i < n → h i < n) as Hhb.
  { intros i Hi. rewrite Hl. apply lookup_lt_is_Some. by rewrite Hp. }
  assert (length (h <$> seq 0 n) = n) as Hlh by (by rewrite fmap_length, seq_length).
  exists ((λ i, f !!! h i) <$> seq 0 n).
  assert (∀ i, i < n → f !! h i = Some (f !!! h i)) as Hfi.
  { intros i Hi. apply list_lookup_lookup_total_lt. rewrite Hlf. by apply Hhb. }
  split.
  - transitivity f; [|done].
    apply Permutation.NoDup_Permutation_bis; [| |].
    + apply NoDup_ListNoDup. apply NoDup_fmap_2_strong; [|apply NoDup_seq].
      intros x y Hx%elem_of_seq Hy%elem_of_seq Hxy.
      apply Hh. apply (perm_inj f n _ _ (f !!! h x)); [done|apply Hfi; lia|rewrite Hxy; apply Hfi; lia].
    + rewrite map_length, seq_length. lia.
    + intros x Hx%elem_of_list_In. apply elem_of_list_In. apply elem_of_list_fmap in Hx as (i & -> & Hi%elem_of_seq).
      eapply elem_of_list_lookup_2, Hfi. lia.
  - intros q. destruct (decide (q < n)) as [Hq|Hq].
    + destruct (lookup_lt_is_Some_2 pa q) as [x Hx]; [lia|]. rewrite Hx. cbn [mbind option_bind].
      pose proof (perm_lt _ _ _ _ Ha Hx) as Hxn.
      rewrite list_lookup_fmap, lookup_seq_lt by done. cbn.
      assert (h x = q) as Hxq by (eapply (perm_inj pa n); [done|by apply Hp|done]).
      rewrite <-(Hfi x Hxn). by rewrite Hxq.
    + rewrite (lookup_ge_None_2 pa) by lia. simpl. symmetry. apply lookup_ge_None. lia.
Qed.
Lemma table_of {A} (t L : list A) : t ≡ₚ L → ∃ f, f ≡ₚ seq 0 (length L) ∧ ∀ q, t !! q = f !! q ≫= (L !!.).
Proof.
  intros H. apply Permutation_inj in H as [Hl (h & Hh & Ht)]. exists (h <$> seq 0 (length L)). split.
  - apply perm_of_fun; [done|]. intros i Hi. apply lookup_lt_is_Some. rewrite <-Ht. apply lookup_lt_is_Some. lia.
  - intros q. rewrite list_lookup_fmap. destruct (decide (q < length L)).
    + rewrite lookup_seq_lt by done. simpl. apply Ht.
    + rewrite lookup_seq_ge by lia. apply lookup_ge_None. lia.
Qed.

Lemma chain_oblivious {A} (gs : list (stage A)) n : ∃ p, p ≡ₚ seq 0 n ∧ ∀ l, length l = n →
  ∃ out, chain gs l = Some out ∧ length out = n ∧ ∀ q, out !! q = p !! q ≫= λ x, (peel gs <$> l) !! x.
Proof.
  induction gs as [|g gs (p2 & Hp2 & IH)].
  - exists (seq 0 n). split; [done|]. intros l Hl. exists l. split; [done|]. split; [done|]. intros q.
    unfold peel. simpl. rewrite list_fmap_id. destruct (decide (q < n)).
    + by rewrite lookup_seq_lt by done.
    + rewrite lookup_seq_ge by lia. apply lookup_ge_None. lia.
  - destruct (stage_oblivious g n) as (p1 & Hp1 & Hs).
    exists ((λ x, p1 !!! x) <$> p2).
    assert (∀ x, x < n → p1 !! x = Some (p1 !!! x)) as Hx.
    { intros x Hx. apply list_lookup_lookup_total_lt. by rewrite (perm_len _ _ Hp1). }
    split.
    { transitivity ((λ x, p1 !!! x) <$> seq 0 n); [by rewrite Hp2|].
      transitivity p1; [|done]. apply eq_reflexivity. apply list_eq. intros q. rewrite list_lookup_fmap.
      pose proof (perm_len _ _ Hp1). destruct (decide (q < n)).
      - rewrite lookup_seq_lt by done. simpl. by rewrite <-Hx.
      - rewrite lookup_seq_ge by lia. simpl. symmetry. apply lookup_ge_None. lia. }
    intros l Hl. destruct (Hs l Hl) as (l' & El' & Hl' & Hlo'). cbn [chain]. rewrite El'. cbn [mbind option_bind].
    destruct (IH l' Hl') as (out & Eo & Hlo & Ho). exists out. split; [done|]. split; [done|].
    intros q. rewrite Ho, list_lookup_fmap. destruct (p2 !! q) as [x|] eqn:Eq; [|done]. cbn.
    pose proof (perm_lt _ _ _ _ Hp2 Eq) as Hxn. rewrite list_lookup_fmap, Hlo', (Hx x Hxn). cbn.
    rewrite !list_lookup_fmap. destruct (l !! (p1 !!! x)); done.
Qed.
Lemma chain_app {A} (gs gs' : list (stage A)) l : chain (gs ++ gs') l = chain gs l ≫= chain gs'.
Proof.
  revert l; induction gs as [|g gs IH]; intros l; cbn [app chain]; [done|].
  destruct (runStage g l) as [l'|]; [|done]. cbn [mbind option_bind]. apply IH.
Qed.

(** With everything but the honest draws fixed, the final order is the composition of three tables. *)
Lemma chain_tables {A} (before after : list (stage A)) (dec : A → A) (l : list A) :
  (N.of_nat (length l) ≤ 2 ^ 32)%N →
  ∃ pb pa, pb ≡ₚ seq 0 (length l) ∧ pa ≡ₚ seq 0 (length l) ∧
  ∀ ds, draws_ok (length l) ds → ∃ p out, permutation draws_reader ds (length l) = Some (p, []) ∧ p ≡ₚ seq 0 (length l) ∧
    chain (before ++ honest dec ds :: after) l = Some out ∧ length out = length l ∧
    ∀ q, out !! q = ((pa !! q ≫= (p !!.)) ≫= (pb !!.)) ≫= λ x, (peel (before ++ honest dec [] :: after) <$> l) !! x.
Proof.
  intros Hn. destruct (chain_oblivious before (length l)) as (pb & Hpb & Hb).
  destruct (chain_oblivious after (length l)) as (pa & Hpa & Ha).
  exists pb, pa. split; [done|]. split; [done|]. intros ds Hok.
  destruct (Hb l eq_refl) as (l1 & E1 & Hl1 & H1).
  destruct (honest_ok dec ds l1) as (p & l2 & Ep & Hp & E2 & Hl2 & H2); [by rewrite Hl1..|].
  rewrite Hl1 in Ep, Hp.
  destruct (Ha l2) as (out & E3 & Hl3 & H3); [by rewrite Hl2|].
  exists p, out. split; [done|]. split; [done|]. split.
  { rewrite chain_app, E1. cbn [mbind option_bind chain]. rewrite E2. done. }
  split; [done|]. intros q. rewrite H3. destruct (pa !! q) as [x|]; [|done]. cbn [mbind option_bind].
  rewrite list_lookup_fmap, H2. destruct (p !! x) as [y|]; [|done]. cbn [mbind option_bind].
  rewrite list_lookup_fmap, H1. destruct (pb !! y) as [z|]; [|done]. cbn [mbind option_bind].
  rewrite !list_lookup_fmap. destruct (l !! z) as [a|]; [|done]. cbn.
  unfold peel. by rewrite foldl_app.
Qed.

(** Every final order of the messages comes from exactly one list of draws of the honest server. *)
Theorem C106_every_order {A} (before after : list (stage A)) (dec : A → A) (l t : list A) :
  (N.of_nat (length l) ≤ 2 ^ 32)%N →
  let msgs := peel (before ++ honest dec [] :: after) <$> l in
  NoDup msgs → t ≡ₚ msgs →
  ∃ ds, ds ∈ all_draws (length l) ∧ chain (before ++ honest dec ds :: after) l = Some t ∧
    ∀ ds', ds' ∈ all_draws (length l) → chain (before ++ honest dec ds' :: after) l = Some t → ds' = ds.
Proof.
  intros Hn msgs Hnd Ht.
  destruct (chain_tables before after dec l Hn) as (pb & pa & Hpb & Hpa & Hc). fold msgs in Hc.
  assert (length msgs = length l) as Hlm by apply fmap_length.
  destruct (table_of t msgs Ht) as (f & Hf & Htf). rewrite Hlm in Hf.
  destruct (solve_left pb f _ Hpb Hf) as (f1 & Hf1 & Hs1).
  destruct (solve_right pa f1 _ Hpa Hf1) as (p & Hp & Hs2).
  destruct (permutation_bijection (length l) p Hn Hp) as (ds & Hok & Eds & Huniq).
  exists ds. split; [by apply elem_of_all_draws|]. split.
  - destruct (Hc ds Hok) as (p0 & out & E0 & _ & -> & Hlo & Ho). rewrite Eds in E0. injection E0 as <-.
    f_equal. apply list_eq. intros q. rewrite Ho, Htf, <-Hs1, <-Hs2. done.
  - intros ds' Hok'%elem_of_all_draws E'.
    destruct (Hc ds' Hok') as (p' & out & Ep' & Hp' & Ec & Hlo & Ho). rewrite E' in Ec. injection Ec as <-.
    apply Huniq; [done|]. rewrite Ep'. f_equal. f_equal. apply list_eq. intros x.
    pose proof (perm_len _ _ Hp). pose proof (perm_len _ _ Hp').
    destruct (decide (x < length l)) as [Hx|Hx]; [|rewrite !lookup_ge_None_2 by lia; done].
    assert (x ∈ pa) as [q Hq]%elem_of_list_lookup. { rewrite Hpa. apply elem_of_seq. lia. }
    specialize (Ho q). rewrite Htf, <-Hs1, <-Hs2, Hq in Ho. cbn [mbind option_bind] in Ho.
    destruct (lookup_lt_is_Some_2 p x) as [y Hy]; [lia|]. destruct (lookup_lt_is_Some_2 p' x) as [y' Hy']; [lia|].
    rewrite Hy, Hy' in *. cbn [mbind option_bind] in Ho. f_equal.
    pose proof (perm_lt _ _ _ _ Hp Hy). pose proof (perm_lt _ _ _ _ Hp' Hy'). pose proof (perm_len _ _ Hpb).
    destruct (lookup_lt_is_Some_2 pb y) as [z Hz]; [lia|]. destruct (lookup_lt_is_Some_2 pb y') as [z' Hz']; [lia|].
    rewrite Hz, Hz' in Ho. cbn [mbind option_bind] in Ho.
    pose proof (perm_lt _ _ _ _ Hpb Hz). destruct (lookup_lt_is_Some_2 msgs z) as [m Hm]; [lia|].
    assert (z = z') as <-. { apply (NoDup_lookup msgs _ _ m Hnd); [done|]. by rewrite <-Ho, Hm. }
    by eapply (perm_inj pb).
Qed.
Print Assumptions C106_every_order.

Lemma sum_const {X} (f : X → nat) c L : (∀ x, x ∈ L → f x = c) → sum_list (f <$> L) = length L * c.
Proof.
  induction L as [|x L IH]; intros HL; [done|]. rewrite fmap_cons. cbn [sum_list_with length].
  rewrite HL by constructor. rewrite IH; [done|]. intros; apply HL. by constructor.
Qed.
Lemma sum_partition {X} (V : list X) n (P : nat → X → Prop) `{∀ j x, Decision (P j x)} :
  (∀ x, x ∈ V → ∃ j, j < n ∧ ∀ j', j' < n → P j' x ↔ j' = j) →
  sum_list ((λ j, length (filter (P j) V)) <$> seq 0 n) = length V.
Proof.
  induction V as [|x V IH]; intros HV.
  - rewrite (sum_const _ 0); [apply Nat.mul_0_r|done].
  - destruct (HV x) as (j & Hj & HP); [by constructor|]. cbn [length]. rewrite <-IH by (intros; apply HV; by constructor).
    assert (∀ m i, sum_list ((λ j, length (filter (P j) (x :: V))) <$> seq i m) =
      length (filter (λ j, P j x) (seq i m)) + sum_list ((λ j, length (filter (P j) V)) <$> seq i m)) as ->.
    { induction m as [|m IHm]; intros i; [done|]. cbn [seq]. rewrite !fmap_cons. cbn [sum_list_with]. rewrite IHm.
      rewrite !filter_cons. unfold id. repeat case_decide; try done; cbn [length]; lia. }
    assert (filter (λ j, P j x) (seq 0 n) = [j]) as ->; [|done].
    assert (seq 0 n = seq 0 j ++ j :: seq (S j) (n - S j)) as ->.
    { replace n with (j + S (n - S j)) at 1 by lia. by rewrite seq_app. }
    assert (∀ L, (∀ i, i ∈ L → i < n ∧ i ≠ j) → filter (λ j, P j x) L = []) as Hnil.
    { induction L as [|i L IHL]; intros HL; [done|]. rewrite filter_cons_False.
      - apply IHL. intros; apply HL; by constructor.
      - destruct (HL i) as [Hi Hne]; [by constructor|]. by rewrite HP. }
    rewrite filter_app, Hnil; [|intros i Hi%elem_of_seq; lia]. simpl. rewrite filter_cons_True by (by apply HP).
    rewrite Hnil; [done|]. intros i Hi%elem_of_seq. lia.
Qed.
(** ... so each message leaves the chain at each place equally often: in (n-1)! of the n! cases. *)
Theorem C106_position {A} `{EqDecision A} (before after : list (stage A)) (dec : A → A) (l : list A) (m : A) (j : nat) :
  (N.of_nat (length l) ≤ 2 ^ 32)%N →
  let msgs := peel (before ++ honest dec [] :: after) <$> l in
  NoDup msgs → m ∈ msgs → j < length l →
  count (length l) (λ ds, chain (before ++ honest dec ds :: after) l ≫= (.!! j) = Some m) = fact (length l - 1).
Proof.
  intros Hn msgs Hnd Hm Hj. assert (length msgs = length l) as Hlm by apply fmap_length.
  set (ch ds := chain (before ++ honest dec ds :: after) l).
  assert (∀ ds, ∃ out, ch ds = Some out ∧ out ≡ₚ msgs) as Hch.
  { intros ds. destruct (chain_ok (before ++ honest dec ds :: after) l) as (out & E & Ho). exists out.
    split; [done|]. rewrite Ho. unfold msgs. apply eq_reflexivity, list_fmap_ext.
    intros ? x _. unfold peel. by rewrite !foldl_app. }
  assert (∀ i k, i < length l → k < length l → count (length l) (λ ds, ch ds ≫= (.!! i) = Some m) ≤ count (length l) (λ ds, ch ds ≫= (.!! k) = Some m)) as Hle.
  { intros i k Hi Hk.
    apply (count_le _ _ _ (λ x y, ∃ out, ch x = Some out ∧ ch y = swap out i k)).
    - intros x Hx. destruct (Hch x) as (out & E & Ho). rewrite E. cbn [mbind option_bind]. intros Hxm.
      pose proof (Permutation_length Ho) as Hlo.
      destruct (swap_is_Some out i k) as [t Ht]; [lia..|].
      pose proof (swap_Permutation _ _ _ _ Ht) as Htp.
      destruct (C106_every_order before after dec l t Hn Hnd) as (y & Hy & Ey & _); [by rewrite Htp|].
      exists y. split; [by apply elem_of_all_draws|]. unfold ch at 1. rewrite Ey. cbn [mbind option_bind].
      split; [|exists out; split; [done|]; unfold ch; by rewrite Ey, Ht].
      rewrite (swap_lookup _ _ _ _ _ Ht). repeat case_decide; congruence || done.
    - intros x x' y Hx Hx' (o1 & E1 & S1) (o2 & E2 & S2).
      destruct (Hch x) as (o1' & E1' & P1). rewrite E1 in E1'. injection E1' as <-.
      destruct (Hch x') as (o2' & E2' & P2). rewrite E2 in E2'. injection E2' as <-.
      pose proof (Permutation_length P1) as L1. pose proof (Permutation_length P2) as L2.
      destruct (swap_is_Some o1 i k) as [t1 T1]; [lia..|]. destruct (swap_is_Some o2 i k) as [t2 T2]; [lia..|].
      assert (t1 = t2) as <- by congruence.
      assert (o1 = o2) as <-.
      { apply list_eq. intros q.
        pose proof (swap_lookup _ _ _ _ i T1) as A1. pose proof (swap_lookup _ _ _ _ k T1) as A2.
        pose proof (swap_lookup _ _ _ _ q T1) as A3.
        pose proof (swap_lookup _ _ _ _ i T2) as B1. pose proof (swap_lookup _ _ _ _ k T2) as B2.
        pose proof (swap_lookup _ _ _ _ q T2) as B3.
        repeat case_decide; subst; congruence. }
      destruct (C106_every_order before after dec l o1 Hn Hnd) as (z & _ & _ & Hu); [by rewrite P1|].
      rewrite (Hu x), (Hu x'); [done|by apply elem_of_all_draws|done|by apply elem_of_all_draws|done]. }
  assert (length l * count (length l) (λ ds, ch ds ≫= (.!! j) = Some m) = fact (length l)) as Htot.
  { rewrite <-all_draws_length.
    rewrite <-(sum_partition (all_draws (length l)) (length l) (λ j ds, ch ds ≫= (.!! j) = Some m)
      (H := λ j ds, decide (ch ds ≫= (.!! j) = Some m))).
    - rewrite (sum_const _ (count (length l) (λ ds, ch ds ≫= (.!! j) = Some m))).
      + by rewrite seq_length.
      + intros i Hi%elem_of_seq. apply Nat.le_antisymm; apply Hle; lia.
    - intros ds Hds. destruct (Hch ds) as (out & E & Ho). rewrite E. cbn [mbind option_bind].
      assert (m ∈ out) as [i Hi]%elem_of_list_lookup by (by rewrite Ho).
      exists i. split; [rewrite <-Hlm, <-(Permutation_length Ho); by eapply lookup_lt_Some|].
      intros j' Hj'. split; [|by intros ->]. intros H'. eapply (NoDup_lookup out); [by rewrite Ho|done..]. }
  destruct (length l) as [|k]; [lia|]. cbn [fact] in Htot. replace (S k - 1) with k by lia.
  unfold ch in Htot. nia.
Qed.
Print Assumptions C106_position.

(** Two servers with stuck random sources around an honest one, four onions. *)
Definition stuck (d : nat → nat) : stage nat := Stage d (Reader (λ _ : unit, ([Byte.x00; Byte.x00; Byte.x00; Byte.x05], tt))) tt.
Example C106_example :
  let l := [10; 20; 30; 40] in let l' := [30; 20; 10; 40] in
  let before := [stuck S] in let after := [stuck S; stuck S] in
  NoDup (peel (before ++ honest S [] :: after) <$> l) ∧ l ≡ₚ l' ∧ (N.of_nat (length l) ≤ 2 ^ 32)%N ∧
  count 4 (λ ds, chain (before ++ honest S ds :: after) l ≫= (.!! 2) = Some 34) = 6 ∧
  chain (before ++ honest S [1; 0; 1; 0] :: after) l = Some [34; 24; 14; 44] ∧
  chain (before ++ honest S [1; 0; 1; 0] :: after) l' = Some [14; 24; 34; 44] ∧
  (∀ v, count 4 (λ ds, (.!! 0) <$> chain (before ++ [honest S ds]) l = Some v) =
        count 4 (λ ds, (.!! 0) <$> chain (before ++ [honest S ds]) l' = Some v)).
Proof.
  cbv zeta. assert ([10; 20; 30; 40] ≡ₚ [30; 20; 10; 40]) as Hp by (by apply (bool_decide_unpack _); vm_compute).
  assert ((N.of_nat 4 ≤ 2 ^ 32)%N) as Hn by lia.
  split; [by apply (bool_decide_unpack _); vm_compute|]. split; [done|]. split; [done|].
  split; [by vm_compute|]. split; [vm_compute; done|]. split; [vm_compute; done|].
  intros v. exact (C106_unlinkable [stuck S] S (.!! 0) v [10; 20; 30; 40] [30; 20; 10; 40] Hn Hp).
Qed.
