(** Proofs about shuffle.go. *)
From Verif.Base Require Import Base.
From Verif.Model Require Import Shuffle.

Lemma fill4_length w : length (fill4 w) = 4.
Proof. unfold fill4. rewrite take_length, app_length, replicate_length. lia. Qed.

Lemma randInt_lt {S} (r : reader S) s m : 0 < m → (randInt r s m).1 < m.
Proof.
  intros Hm. unfold randInt. destruct (rd_read r s) as [w s']. simpl.
  pose proof (N.mod_lt (be_dec (fill4 w)) (N.of_nat m)). lia.
Qed.

Lemma swap_is_Some {A} (l : list A) i j :
  i < length l → j < length l → is_Some (swap l i j).
Proof.
  intros Hi Hj. unfold swap.
  destruct (lookup_lt_is_Some_2 l i Hi) as [a ->].
  destruct (lookup_lt_is_Some_2 l j Hj) as [b ->]. simpl. eauto.
Qed.

Lemma swap_length {A} (l l' : list A) i j : swap l i j = Some l' → length l' = length l.
Proof.
  unfold swap. intros H.
  destruct (l !! i); simpl in H; [|done]. destruct (l !! j); simpl in H; [|done].
  injection H as <-. by rewrite !insert_length.
Qed.

Lemma swap_lookup {A} (l l' : list A) i j k :
  swap l i j = Some l' →
  l' !! k = if decide (k = j) then l !! i else if decide (k = i) then l !! j else l !! k.
Proof.
  unfold swap. intros H.
  destruct (l !! i) as [a|] eqn:Ei; simpl in H; [|done].
  destruct (l !! j) as [b|] eqn:Ej; simpl in H; [|done].
  injection H as <-.
  pose proof (lookup_lt_Some _ _ _ Ei). pose proof (lookup_lt_Some _ _ _ Ej).
  destruct (decide (k = j)) as [->|Hj].
  - rewrite list_lookup_insert; [done|by rewrite insert_length].
  - rewrite list_lookup_insert_ne by done.
    destruct (decide (k = i)) as [->|Hi].
    + by rewrite list_lookup_insert.
    + by rewrite list_lookup_insert_ne.
Qed.

Lemma swap_Permutation {A} (l l' : list A) i j : swap l i j = Some l' → l' ≡ₚ l.
Proof.
  intros H. apply Permutation_inj. split; [by erewrite swap_length|].
  exists (λ k, if decide (k = j) then i else if decide (k = i) then j else k).
  split.
  - intros x y. repeat case_decide; naive_solver.
  - intros k. rewrite (swap_lookup _ _ _ _ _ H). by repeat case_decide.
Qed.

Lemma perm_loop_ok {S A} (r : reader S) n (s : S) (arr : list A) :
  n ≤ length arr →
  ∃ out s', perm_loop r s n arr = Some (out, s') ∧ out ≡ₚ arr.
Proof.
  revert s arr; induction n as [|i IH]; intros s arr Hn.
  - by exists arr, s.
  - cbn [perm_loop]. pose proof (randInt_lt r s (Datatypes.S i) ltac:(lia)) as Hj.
    destruct (randInt r s (Datatypes.S i)) as [j s'] eqn:Ej. simpl in Hj.
    destruct (swap_is_Some arr i j) as [arr' Ea]; [lia..|].
    rewrite Ea. simpl.
    destruct (IH s' arr') as (out & s'' & -> & Hp).
    { rewrite (swap_length _ _ _ _ Ea). lia. }
    exists out, s''. split; [done|]. rewrite Hp. by eapply swap_Permutation.
Qed.

Lemma permutation_ok {S} (r : reader S) s n :
  ∃ p s', permutation r s n = Some (p, s') ∧ p ≡ₚ seq 0 n.
Proof. apply perm_loop_ok. by rewrite seq_length. Qed.

Lemma assign_loop_ok {A} (p : list nat) (orig : list A) k i inn :
  (∀ q, q ∈ p → q < length orig) →
  length p = i + k → length inn = i + k →
  ∃ out, assign_loop p orig k i inn = Some out ∧ length out = length inn ∧
    (∀ q, q < i → out !! q = inn !! q) ∧
    (∀ q, i ≤ q → out !! q = p !! q ≫= λ x, orig !! x).
Proof.
  revert i inn; induction k as [|k IH]; intros i inn Hp Hlp Hli.
  - exists inn. split; [done|]. split; [done|]. split; [done|].
    intros q Hq. rewrite (lookup_ge_None_2 p) by lia. simpl.
    by apply lookup_ge_None_2; lia.
  - cbn [assign_loop].
    destruct (lookup_lt_is_Some_2 p i) as [pi Epi]; [lia|]. rewrite Epi. simpl.
    destruct (lookup_lt_is_Some_2 orig pi) as [x Ex].
    { apply Hp. by eapply elem_of_list_lookup_2. }
    rewrite Ex. simpl.
    destruct (lookup_lt_is_Some_2 inn i) as [y Ey]; [lia|]. rewrite Ey. simpl.
    destruct (IH (Datatypes.S i) (<[i:=x]> inn)) as (out & -> & Hl & H1 & H2);
      [done|lia|rewrite insert_length; lia|].
    exists out. split; [done|]. rewrite insert_length in Hl. split; [done|]. split.
    + intros q Hq. rewrite H1 by lia. by rewrite list_lookup_insert_ne by lia.
    + intros q Hq. destruct (decide (q = i)) as [->|Hne].
      * rewrite H1 by lia. rewrite list_lookup_insert by lia. rewrite Epi. simpl. by rewrite Ex.
      * apply H2. lia.
Qed.

Definition perm_inv {S} (sh : shuffler S) : Prop :=
  match sh_perm sh with None => True | Some p => p ≡ₚ seq 0 (length p) end.

Lemma apply_perm_Permutation {A} (p : list nat) (l out : list A) :
  p ≡ₚ seq 0 (length l) → length out = length l →
  (∀ q, out !! q = p !! q ≫= λ x, l !! x) →
  out ≡ₚ l.
Proof.
  intros Hp Hlen Hout.
  assert (Hlp : length p = length l) by (by rewrite Hp, seq_length).
  assert (Hnd : NoDup p) by (rewrite Hp; apply NoDup_seq).
  apply Permutation_inj. split; [done|].
  exists (λ q, match p !! q with Some x => x | None => q end). split.
  - intros x y Hxy.
    assert (Hb : ∀ z w, p !! z = Some w → w < length l).
    { intros z w Hz. apply elem_of_list_lookup_2 in Hz. rewrite Hp in Hz.
      apply elem_of_seq in Hz. lia. }
    destruct (p !! x) as [a|] eqn:Ea, (p !! y) as [b|] eqn:Eb; try done.
    + subst. by eapply NoDup_lookup.
    + subst. apply Hb in Ea. apply lookup_ge_None in Eb. lia.
    + subst. apply Hb in Eb. apply lookup_ge_None in Ea. lia.
  - intros q. rewrite Hout. destruct (p !! q) as [x|] eqn:E; simpl; [done|].
    apply lookup_ge_None in E. symmetry. apply lookup_ge_None. lia.
Qed.

Lemma ShuffleOnions_ok {S A} (r : reader S) (sh : shuffler S) (l : list A) :
  perm_inv sh →
  ∃ out sh' p, ShuffleOnions r sh l = Some (out, sh') ∧ out ≡ₚ l ∧ perm_inv sh' ∧
    sh_perm sh' = Some p ∧ length p = length l ∧
    (∀ q, out !! q = p !! q ≫= λ x, l !! x).
Proof.
  intros Hinv. unfold ShuffleOnions.
  assert (∃ sh' p, match sh_perm sh with
        | Some p => if decide (length p = length l) then Some sh
                    else '(p', s') ← permutation r (sh_rand sh) (length l);
                         Some (Shuffler (Some p') s')
        | None => '(p', s') ← permutation r (sh_rand sh) (length l);
                  Some (Shuffler (Some p') s')
        end = Some sh' ∧ sh_perm sh' = Some p ∧ p ≡ₚ seq 0 (length l)) as (sh' & p & -> & Ep & Hp).
  { destruct (permutation_ok r (sh_rand sh) (length l)) as (p' & s' & Epm & Hp').
    destruct (sh_perm sh) as [p|] eqn:E.
    - unfold perm_inv in Hinv. rewrite E in Hinv. case_decide as Hl.
      + exists sh, p. rewrite <-Hl. done.
      + rewrite Epm. simpl. by exists (Shuffler (Some p') s'), p'.
    - rewrite Epm. simpl. by exists (Shuffler (Some p') s'), p'. }
  simpl. rewrite Ep. simpl.
  assert (Hlp : length p = length l) by (by rewrite Hp, seq_length).
  destruct (assign_loop_ok p l (length l) 0 l) as (out & -> & Hlen & _ & H2); [|done..|].
  { intros q Hq. rewrite Hp in Hq. apply elem_of_seq in Hq. lia. }
  simpl. exists out, sh', p. split; [done|].
  assert (Hq : ∀ q, out !! q = p !! q ≫= λ x, l !! x) by (intros q; apply H2; lia).
  split; [by eapply apply_perm_Permutation|].
  split; [unfold perm_inv; by rewrite Ep, Hlp|]. done.
Qed.

Lemma shuffle_calls_ok {S A} (r : reader S) (sh : shuffler S) (ins : list (list A)) :
  perm_inv sh →
  ∃ outs sh', shuffle_calls r sh ins = Some (outs, sh') ∧ Forall2 (≡ₚ) outs ins.
Proof.
  revert sh; induction ins as [|i ins IH]; intros sh Hinv.
  - exists [], sh. split; [done|constructor].
  - cbn [shuffle_calls].
    destruct (ShuffleOnions_ok r sh i Hinv) as (out & sh' & p & -> & Hp & Hinv' & _). simpl.
    destruct (IH sh' Hinv') as (outs & sh'' & -> & HF). simpl.
    exists (out :: outs), sh''. split; [done|by constructor].
Qed.

(** ** Draw sequences *)

(** The reader that answers a given list of draws, each as 4 big-endian bytes, then zeros. *)
Definition draws_reader : reader (list nat) :=
  Reader (λ ds, match ds with
                | [] => ([], [])
                | d :: ds => (be_enc 4 (N.of_nat d), ds)
                end).

Lemma randInt_draws d ds m :
  (N.of_nat d < 2 ^ 32)%N → d < m → randInt draws_reader (d :: ds) m = (d, ds).
Proof.
  intros H1 H2. unfold randInt. simpl.
  assert (fill4 (be_enc 4 (N.of_nat d)) = be_enc 4 (N.of_nat d)) as ->.
  { unfold fill4. by rewrite take_app_alt by by rewrite be_enc_length. }
  rewrite be_dec_enc_small by done.
  rewrite N.mod_small by lia. by rewrite Nat2N.id.
Qed.

(** General uniqueness/existence for the loop on explicit draws. *)
Fixpoint perm_draws {A} (ds : list nat) (n : nat) (arr : list A) : option (list A) :=
  match n, ds with
  | O, [] => Some arr
  | S i, d :: ds => if decide (d ≤ i) then arr' ← swap arr i d; perm_draws ds i arr' else None
  | _, _ => None
  end.

Lemma perm_draws_high {A} ds n (arr out : list A) :
  perm_draws ds n arr = Some out → ∀ k, n ≤ k → out !! k = arr !! k.
Proof.
  revert ds arr; induction n as [|i IH]; intros [|d ds] arr H k Hk; simpl in H; try done.
  - by injection H as <-.
  - case_decide as Hd; [|done].
    destruct (swap arr i d) as [arr'|] eqn:E; simpl in H; [|done].
    rewrite (IH _ _ H k) by lia. rewrite (swap_lookup _ _ _ _ _ E).
    repeat case_decide; lia || done.
Qed.

Lemma perm_draws_exists {A} n (arr t : list A) :
  n ≤ length arr → t ≡ₚ arr → (∀ k, n ≤ k → t !! k = arr !! k) →
  ∃ ds, perm_draws ds n arr = Some t.
Proof.
  revert arr; induction n as [|i IH]; intros arr Hn Hp Hhi.
  - exists []. simpl. f_equal. symmetry. apply list_eq. intros k. apply Hhi. lia.
  - assert (Hlen : length t = length arr) by by rewrite Hp.
    destruct (lookup_lt_is_Some_2 t i) as [x Ex]; [lia|].
    (* t[0..i] is a permutation of arr[0..i] *)
    assert (take (S i) t ≡ₚ take (S i) arr) as Htk.
    { assert (drop (S i) t = drop (S i) arr) as Hd.
      { apply list_eq. intros k. rewrite !lookup_drop. apply Hhi. lia. }
      rewrite <-(take_drop (S i) t), <-(take_drop (S i) arr) in Hp.
      rewrite Hd in Hp. by eapply Permutation_app_inv_r. }
    assert (x ∈ take (S i) arr) as Hx.
    { rewrite <-Htk. apply elem_of_take. exists i. split; [done|lia]. }
    apply elem_of_take in Hx as (j & Ej & Hj).
    destruct (swap_is_Some arr i j) as [arr' Ea]; [lia|lia|].
    destruct (IH arr') as [ds Hds].
    { rewrite (swap_length _ _ _ _ Ea). lia. }
    { rewrite Hp. symmetry. by eapply swap_Permutation. }
    { intros k Hk. rewrite (swap_lookup _ _ _ _ _ Ea).
      destruct (decide (k = i)) as [->|Hne].
      - case_decide as Hc; [subst; congruence|]. congruence.
      - case_decide; [lia|]. apply Hhi. lia. }
    exists (j :: ds). cbn [perm_draws]. rewrite decide_True by lia. by rewrite Ea.
Qed.

Lemma perm_draws_unique {A} n (arr t : list A) ds1 ds2 :
  NoDup arr →
  perm_draws ds1 n arr = Some t → perm_draws ds2 n arr = Some t → ds1 = ds2.
Proof.
  revert arr ds1 ds2; induction n as [|i IH]; intros arr [|d1 ds1] [|d2 ds2] Hnd H1 H2;
    simpl in *; try done.
  case_decide as Hd1; [|done]. case_decide as Hd2; [|done].
  destruct (swap arr i d1) as [a1|] eqn:E1; simpl in H1; [|done].
  destruct (swap arr i d2) as [a2|] eqn:E2; simpl in H2; [|done].
  assert (d1 = d2) as ->.
  { pose proof (perm_draws_high _ _ _ _ H1 i ltac:(lia)) as L1.
    pose proof (perm_draws_high _ _ _ _ H2 i ltac:(lia)) as L2.
    rewrite (swap_lookup _ _ _ _ _ E1) in L1. rewrite (swap_lookup _ _ _ _ _ E2) in L2.
    assert (is_Some (arr !! d1)) as [x1 X1].
    { unfold swap in E1. destruct (arr !! i); simpl in E1; [|done].
      destruct (arr !! d1); simpl in E1; [eauto|done]. }
    assert (is_Some (arr !! d2)) as [x2 X2].
    { unfold swap in E2. destruct (arr !! i); simpl in E2; [|done].
      destruct (arr !! d2); simpl in E2; [eauto|done]. }
    assert (t !! i = arr !! d1) as T1.
    { rewrite L1. destruct (decide (i = d1)); [by subst|]. by rewrite decide_True. }
    assert (t !! i = arr !! d2) as T2.
    { rewrite L2. destruct (decide (i = d2)); [by subst|]. by rewrite decide_True. }
    eapply NoDup_lookup; [done| |done]. rewrite X1 in T1. congruence. }
  f_equal. rewrite E1 in E2. injection E2 as ->.
  eapply (IH a2); [|done..]. by rewrite (swap_Permutation _ _ _ _ E1).
Qed.

Lemma perm_draws_length {A} ds n (arr out : list A) :
  perm_draws ds n arr = Some out → length ds = n.
Proof.
  revert ds arr; induction n as [|i IH]; intros [|d ds] arr H; simpl in *; try done.
  case_decide; [|done]. destruct (swap arr i d); simpl in H; [|done]. f_equal. eauto.
Qed.

(** draws_ok n ds: as many draws as elements, the draw made at index i being at most i. *)
Definition draws_ok (n : nat) (ds : list nat) : Prop :=
  length ds = n ∧ ∀ k d, ds !! k = Some d → d < n - k.

Lemma perm_draws_ok_draws {A} ds n (arr out : list A) :
  perm_draws ds n arr = Some out → draws_ok n ds.
Proof.
  revert ds arr; induction n as [|i IH]; intros [|d ds] arr H; simpl in *; try done.
  case_decide as Hd; [|done]. destruct (swap arr i d) as [a|] eqn:E; simpl in H; [|done].
  destruct (IH _ _ H) as [Hl Hk]. split; [simpl; lia|].
  intros [|k] x Hx; simpl in Hx.
  - injection Hx as <-. lia.
  - apply Hk in Hx. lia.
Qed.

Lemma perm_loop_draws {A} n ds (arr : list A) :
  (N.of_nat n ≤ 2 ^ 32)%N → draws_ok n ds →
  perm_loop draws_reader ds n arr = (λ out, (out, [])) <$> perm_draws ds n arr.
Proof.
  revert ds arr; induction n as [|i IH]; intros ds arr Hn [Hl Hk].
  - destruct ds; [done|simpl in Hl; lia].
  - destruct ds as [|d ds]; [simpl in Hl; lia|].
    assert (d < S i) as Hd by (specialize (Hk 0 d eq_refl); lia).
    cbn [perm_loop perm_draws]. rewrite randInt_draws by lia.
    rewrite decide_True by lia.
    destruct (swap arr i d) as [arr'|]; [|done]. simpl.
    apply IH; [lia|]. split; [simpl in Hl; lia|].
    intros k x Hx. specialize (Hk (S k) x Hx). lia.
Qed.

Lemma permutation_bijection n (p : list nat) :
  (N.of_nat n ≤ 2 ^ 32)%N → p ≡ₚ seq 0 n →
  ∃ ds, draws_ok n ds ∧ permutation draws_reader ds n = Some (p, []) ∧
    ∀ ds', draws_ok n ds' → permutation draws_reader ds' n = Some (p, []) → ds' = ds.
Proof.
  intros Hn Hp.
  destruct (perm_draws_exists n (seq 0 n) p) as [ds Hds]; [by rewrite seq_length|done| |].
  { intros k Hk. rewrite !lookup_ge_None_2; [done|by rewrite seq_length|].
    by rewrite Hp, seq_length. }
  exists ds. split; [by eapply perm_draws_ok_draws|].
  unfold permutation. split.
  - rewrite perm_loop_draws by eauto using perm_draws_ok_draws. by rewrite Hds.
  - intros ds' Hok' Hds'. rewrite perm_loop_draws in Hds' by done.
    destruct (perm_draws ds' n (seq 0 n)) as [p'|] eqn:E; simpl in Hds'; [|done].
    injection Hds' as ->.
    eapply (perm_draws_unique n (seq 0 n)); [apply NoDup_seq|done..].
Qed.

(** ** Residue counting: how many of the first M numbers are congruent to j mod m. *)
Local Open Scope Z_scope.

Definition residues (m j M : Z) : list Z := (λ q, j + m * q) <$> seqZ 0 ((M - j + m - 1) / m).

Lemma residues_spec m j M x :
  0 < m → 0 ≤ j < m → j ≤ M →
  x ∈ residues m j M ↔ 0 ≤ x < M ∧ x mod m = j.
Proof.
  intros Hm Hj HM. unfold residues. rewrite elem_of_list_fmap. split.
  - intros (q & -> & Hq). apply elem_of_seqZ in Hq.
    assert (q * m < (M - j + m - 1) / m * m) by nia.
    assert (q + 1 ≤ (M - j + m - 1) / m) by lia.
    pose proof (Z.mul_div_le (M - j + m - 1) m Hm).
    split; [nia|]. rewrite (Z.mul_comm m q), Z.mod_add by lia. apply Z.mod_small. lia.
  - intros [Hx Hmod]. exists (x / m).
    pose proof (Z.div_mod x m ltac:(lia)) as Hd. split; [lia|].
    apply elem_of_seqZ. split; [apply Z.div_pos; lia|].
    rewrite Z.add_0_l.
    assert (x / m + 1 ≤ (M - j + m - 1) / m); [|lia].
    apply Z.div_le_lower_bound; [lia|]. nia.
Qed.

Lemma residues_NoDup m j M : 0 < m → NoDup (residues m j M).
Proof.
  intros Hm. unfold residues. apply NoDup_fmap_2_strong; [|apply NoDup_seqZ].
  intros a b _ _ H. nia.
Qed.

Lemma residues_length m j M :
  0 < m → 0 ≤ j < m → m ≤ M →
  Z.of_nat (length (residues m j M)) = M / m ∨ Z.of_nat (length (residues m j M)) = M / m + 1.
Proof.
  intros Hm Hj HM. unfold residues. rewrite fmap_length, seqZ_length.
  assert (0 ≤ (M - j + m - 1) / m) by (apply Z.div_pos; lia).
  rewrite Z2Nat.id by done.
  assert (M / m ≤ (M - j + m - 1) / m).
  { apply Z.div_le_mono; lia. }
  assert ((M - j + m - 1) / m < M / m + 2).
  { apply Z.div_lt_upper_bound; [lia|].
    pose proof (Z.mod_pos_bound M m Hm). pose proof (Z.div_mod M m ltac:(lia)). nia. }
  lia.
Qed.

Lemma residues_length_exact m j M :
  0 < m → 0 ≤ j < m → m ≤ M →
  Z.of_nat (length (residues m j M)) = M / m + (if decide (j < M mod m) then 1 else 0).
Proof.
  intros Hm Hj HM. unfold residues. rewrite fmap_length, seqZ_length.
  assert (0 ≤ (M - j + m - 1) / m) by (apply Z.div_pos; lia).
  rewrite Z2Nat.id by done.
  pose proof (Z.mod_pos_bound M m Hm). pose proof (Z.div_mod M m ltac:(lia)).
  case_decide.
  - symmetry. apply (Z.div_unique _ _ _ (M mod m - j - 1)); lia.
  - symmetry. apply (Z.div_unique _ _ _ (M mod m - j + m - 1)); lia.
Qed.

(** The 4-byte answers of the random source that make [randInt m] return [j]. *)
Definition answers (m j : nat) : list bytes :=
  (λ x, be_enc 4 (Z.to_N x)) <$> residues (Z.of_nat m) (Z.of_nat j) (2 ^ 32).

Lemma answers_spec m j (b : bytes) :
  (0 < m)%nat → (j < m)%nat → Z.of_nat m ≤ 2 ^ 32 →
  b ∈ answers m j ↔
  length b = 4%nat ∧ (randInt (Reader (λ _ : unit, (b, tt))) tt m).1 = j.
Proof.
  intros Hm Hj HM. unfold answers. rewrite elem_of_list_fmap.
  setoid_rewrite residues_spec; [|lia..].
  assert (Hrand : ∀ b, length b = 4%nat →
    (randInt (Reader (λ _ : unit, (b, tt))) tt m).1 = N.to_nat (be_dec b mod N.of_nat m)).
  { intros b' Hb. unfold randInt. simpl. unfold fill4. by rewrite take_app_alt. }
  split.
  - intros (x & -> & Hx & Hmod). rewrite be_enc_length. split; [done|].
    rewrite Hrand by by rewrite be_enc_length.
    rewrite be_dec_enc_small.
    + apply Nat2Z.inj. rewrite N_nat_Z, N2Z.inj_mod, Z2N.id, nat_N_Z by lia. done.
    + change (256 ^ N.of_nat 4)%N with (2^32)%N. lia.
  - intros [Hl Hr]. rewrite Hrand in Hr by done.
    exists (Z.of_N (be_dec b)). split; [|split].
    + rewrite N2Z.id. rewrite <-Hl. by rewrite be_enc_dec.
    + pose proof (be_dec_bound b) as Hb. rewrite Hl in Hb.
      change (256 ^ N.of_nat 4)%N with (2^32)%N in Hb. lia.
    + subst j. by rewrite N_nat_Z, N2Z.inj_mod, nat_N_Z.
Qed.

Lemma answers_NoDup m j : (0 < m)%nat → (j < m)%nat → Z.of_nat m ≤ 2 ^ 32 → NoDup (answers m j).
Proof.
  intros Hm Hj HM. apply NoDup_fmap_2_strong; [|apply residues_NoDup; lia].
  intros x y Hx Hy Heq. apply residues_spec in Hx, Hy; [|lia..].
  apply be_enc_inj in Heq; [lia|..]; change (256 ^ N.of_nat 4)%N with (2^32)%N; lia.
Qed.

Lemma answers_length m j : (0 < m)%nat → (j < m)%nat → Z.of_nat m ≤ 2 ^ 32 →
  Z.of_nat (length (answers m j)) =
  2 ^ 32 / Z.of_nat m + (if decide (Z.of_nat j < 2 ^ 32 mod Z.of_nat m) then 1 else 0).
Proof.
  intros Hm Hj HM. unfold answers. rewrite fmap_length. apply residues_length_exact; lia.
Qed.
