(** C108: how far the order chosen by the shuffle is from uniform, in random words. *)
From Verif.Base Require Import Base.
From Verif.Model Require Import Shuffle.
From Verif.Proofs Require Import ShuffleProofs.
From Verif.Properties Require Import P02_Shuffle.

(** A random source that answers one given list of words, each call the next one. *)
Definition words_reader : reader (list bytes) :=
  Reader (λ ws, match ws with [] => ([], []) | w :: ws => (w, ws) end).
(** The lists of 4-byte words for which the shuffle of [n] onions uses the order [p]. *)
Definition leads_to (n : nat) (p : list nat) (ws : list bytes) : Prop :=
  length ws = n ∧ Forall (λ w, length w = 4) ws ∧ permutation words_reader ws n = Some (p, []).

(** The fewest and the most that there can be: each draw below m is floor(2^32/m) words or one more. *)
Definition fewest (n : nat) : Z := foldr Z.mul 1%Z ((λ m, 2 ^ 32 / Z.of_nat m)%Z <$> seq 1 n).
Definition most (n : nat) : Z := foldr Z.mul 1%Z ((λ m, 2 ^ 32 / Z.of_nat m + 1)%Z <$> seq 1 n).

Fixpoint draws_of (n : nat) (ws : list bytes) : list nat :=
  match n, ws with
  | S i, w :: ws => (randInt (Reader (λ _ : unit, (w, tt))) tt (S i)).1 :: draws_of i ws
  | _, _ => []
  end.
Lemma draws_of_ok n ws : length ws = n → draws_ok n (draws_of n ws).
Proof.
  revert ws; induction n as [|i IH]; intros [|w ws] Hl; simplify_eq/=.
  - split; [done|]. intros k d Hk. by rewrite lookup_nil in Hk.
  - destruct (IH ws eq_refl) as [H1 H2]. split; [simpl; lia|]. intros [|k] d Hk; cbn [lookup list_lookup] in Hk.
    + injection Hk as <-. pose proof (randInt_lt (Reader (λ _ : unit, (w, tt))) tt (S (length ws)) ltac:(lia)). unfold randInt in *. simpl in *. lia.
    + specialize (H2 k d Hk). lia.
Qed.
Lemma perm_loop_words {A} n ws (arr : list A) : length ws = n →
  perm_loop words_reader ws n arr = (λ out, (out, [])) <$> perm_draws (draws_of n ws) n arr.
Proof.
  revert ws arr; induction n as [|i IH]; intros [|w ws] arr Hl; try done.
  injection Hl as Hl. cbn [perm_loop perm_draws draws_of].
  pose proof (randInt_lt (Reader (λ _ : unit, (w, tt))) tt (S i) ltac:(lia)) as Hlt.
  assert (randInt words_reader (w :: ws) (S i) = ((randInt (Reader (λ _ : unit, (w, tt))) tt (S i)).1, ws)) as -> by done.
  rewrite decide_True by lia.
  destruct (swap arr i _) as [arr'|]; [|done]. cbn [mbind option_bind]. by apply IH.
Qed.
Lemma leads_to_draws n p ws : leads_to n p ws ↔
  length ws = n ∧ Forall (λ w, length w = 4) ws ∧ perm_draws (draws_of n ws) n (seq 0 n) = Some p.
Proof.
  unfold leads_to, permutation. split; intros (Hl & Hf & H); (split; [done|]; split; [done|]).
  - rewrite perm_loop_words in H by done. destruct (perm_draws _ _ _); simpl in H; [congruence|done].
  - rewrite perm_loop_words by done. by rewrite H.
Qed.

(** The words behind given draws. *)
Fixpoint words_for (n : nat) (ds : list nat) : list (list bytes) :=
  match n, ds with
  | 0, [] => [[]]
  | S i, d :: ds => w ← answers (S i) d; (w ::.) <$> words_for i ds
  | _, _ => []
  end.
Lemma draws_ok_cons i d ds : draws_ok (S i) (d :: ds) → d < S i ∧ draws_ok i ds.
Proof.
  intros [Hl Hk]. split; [specialize (Hk 0 d eq_refl); lia|]. split; [simpl in Hl; lia|].
  intros k x Hx. specialize (Hk (S k) x Hx). lia.
Qed.
Lemma elem_of_words_for n ds ws : (Z.of_nat n ≤ 2 ^ 32)%Z → draws_ok n ds →
  ws ∈ words_for n ds ↔ length ws = n ∧ Forall (λ w, length w = 4) ws ∧ draws_of n ws = ds.
Proof.
  revert ds ws; induction n as [|i IH]; intros ds ws Hn Hok.
  - destruct ds as [|d ds]; [|by destruct Hok]. cbn [words_for]. rewrite elem_of_list_singleton.
    split; [by intros ->|]. intros (Hl & _). by destruct ws.
  - destruct ds as [|d ds]; [by destruct Hok|]. apply draws_ok_cons in Hok as [Hd Hok].
    cbn [words_for]. rewrite elem_of_list_bind. split.
    + intros (w & Hw & Hin). apply elem_of_list_fmap in Hw as (ws' & -> & Hws').
      apply IH in Hws' as (Hl & Hf & Hds); [|lia|done].
      apply answers_spec in Hin as [Hw Hr]; [|lia..].
      split; [simpl; lia|]. split; [by constructor|]. cbn [draws_of]. by rewrite Hr, Hds.
    + intros (Hl & Hf & Hds). destruct ws as [|w ws]; [done|]. cbn [draws_of] in Hds.
      injection Hds as Hr Hds. apply Forall_cons in Hf as [Hw Hf].
      exists w. split; [|apply answers_spec; [lia..|done]].
      apply elem_of_list_fmap. exists ws. split; [done|]. apply IH; [lia|done|]. split; [simpl in Hl; lia|done].
Qed.
Lemma words_for_NoDup n ds : (Z.of_nat n ≤ 2 ^ 32)%Z → draws_ok n ds → NoDup (words_for n ds).
Proof.
  revert ds; induction n as [|i IH]; intros ds Hn Hok.
  - destruct ds as [|d ds]; [apply NoDup_singleton|constructor].
  - destruct ds as [|d ds]; [constructor|]. apply draws_ok_cons in Hok as [Hd Hok]. cbn [words_for].
    assert (∀ L, NoDup L → NoDup (w ← L; (w ::.) <$> words_for i ds)) as HL; [|apply HL, answers_NoDup; lia].
    induction L as [|w L IHL]; intros HN; [constructor|].
    apply NoDup_cons in HN as [Hw HN]. rewrite bind_cons. apply NoDup_app. split_and!.
    + apply NoDup_fmap_2; [|apply IH; [lia|done]]. intros x y. by injection 1.
    + intros x Hx (w' & Hx' & Hw')%elem_of_list_bind.
      apply elem_of_list_fmap in Hx as (y & -> & _). apply elem_of_list_fmap in Hx' as (y' & [=-> ->] & _). done.
    + by apply IHL.
Qed.
Lemma words_for_length n ds : (Z.of_nat n ≤ 2 ^ 32)%Z → draws_ok n ds →
  (fewest n ≤ Z.of_nat (length (words_for n ds)) ≤ most n)%Z.
Proof.
  revert ds; induction n as [|i IH]; intros ds Hn Hok.
  - destruct ds as [|d ds]; [|by destruct Hok]. unfold fewest, most. simpl. lia.
  - destruct ds as [|d ds]; [by destruct Hok|]. apply draws_ok_cons in Hok as [Hd Hok]. cbn [words_for].
    assert (∀ L : list bytes, length (w ← L; (w ::.) <$> words_for i ds) = length L * length (words_for i ds)) as ->.
    { induction L as [|w L IHL]; [done|]. rewrite bind_cons, app_length, fmap_length, IHL. done. }
    specialize (IH ds ltac:(lia) Hok). rewrite Nat2Z.inj_mul, answers_length by lia.
    assert (fewest (S i) = fewest i * (2 ^ 32 / Z.of_nat (S i)))%Z as ->.
    { unfold fewest. rewrite seq_S, fmap_app, foldr_app. cbn [fmap list_fmap foldr].
      generalize ((λ m, 2 ^ 32 / Z.of_nat m)%Z <$> seq 1 i). intros L.
      replace (1 + i) with (S i) by lia. generalize (2 ^ 32 / Z.of_nat (S i))%Z. intros c. induction L as [|x L IHL]; cbn [foldr]; [lia|]. rewrite IHL. lia. }
    assert (most (S i) = most i * (2 ^ 32 / Z.of_nat (S i) + 1))%Z as ->.
    { unfold most. rewrite seq_S, fmap_app, foldr_app. cbn [fmap list_fmap foldr].
      generalize ((λ m, 2 ^ 32 / Z.of_nat m + 1)%Z <$> seq 1 i). intros L.
      replace (1 + i) with (S i) by lia. generalize (2 ^ 32 / Z.of_nat (S i) + 1)%Z. intros c. induction L as [|x L IHL]; cbn [foldr]; [lia|]. rewrite IHL. lia. }
    assert (0 ≤ 2 ^ 32 / Z.of_nat (S i))%Z by (apply Z.div_pos; lia).
    rewrite (Z.mul_comm (fewest i)), (Z.mul_comm (most i)).
    assert (0 ≤ fewest i)%Z.
    { unfold fewest. clear. induction (seq 1 i) as [|x L IHL]; [simpl; lia|]. cbn [fmap list_fmap foldr].
      apply Z.mul_nonneg_nonneg; [|done]. destruct x; [done|]. apply Z.div_pos; lia. }
    case_decide; split; apply Z.mul_le_mono_nonneg; lia.
Qed.

(** Every order is the result of at least [fewest n] and at most [most n] of the 2^(32 n) answers. *)
Theorem C108_bias (n : nat) (p : list nat) :
  (N.of_nat n ≤ 2 ^ 32)%N → p ≡ₚ seq 0 n →
  ∃ W : list (list bytes), NoDup W ∧ (∀ ws, ws ∈ W ↔ leads_to n p ws) ∧ (fewest n ≤ Z.of_nat (length W) ≤ most n)%Z.
Proof.
  intros Hn Hp. assert (Z.of_nat n ≤ 2 ^ 32)%Z as Hz by lia.
  destruct (perm_draws_exists n (seq 0 n) p) as [ds Hds]; [by rewrite seq_length|done| |].
  { intros k Hk. rewrite !lookup_ge_None_2; [done|by rewrite seq_length|]. by rewrite Hp, seq_length. }
  pose proof (perm_draws_ok_draws _ _ _ _ Hds) as Hok.
  exists (words_for n ds). split; [by apply words_for_NoDup|]. split; [|by apply words_for_length].
  intros ws. rewrite elem_of_words_for, leads_to_draws by done. split.
  - intros (Hl & Hf & ->). done.
  - intros (Hl & Hf & H). split; [done|]. split; [done|].
    eapply (perm_draws_unique n (seq 0 n)); [apply NoDup_seq|done..].
Qed.
Print Assumptions C108_bias.

(** So any two orders of n onions differ in probability by at most the factor (1 + 1/q)^n, q = floor(2^32/n). *)
Theorem C108_ratio (n : nat) (p p' : list nat) (W W' : list (list bytes)) :
  0 < n → (N.of_nat n ≤ 2 ^ 32)%N → p ≡ₚ seq 0 n → p' ≡ₚ seq 0 n →
  NoDup W → (∀ ws, ws ∈ W ↔ leads_to n p ws) → NoDup W' → (∀ ws, ws ∈ W' ↔ leads_to n p' ws) →
  let q := (2 ^ 32 / Z.of_nat n)%Z in
  (Z.of_nat (length W) * q ^ Z.of_nat n ≤ Z.of_nat (length W') * (q + 1) ^ Z.of_nat n)%Z.
Proof.
  intros Hn0 Hn Hp Hp' HN HW HN' HW' q.
  destruct (C108_bias n p Hn Hp) as (V & HV & HVi & HVl). destruct (C108_bias n p' Hn Hp') as (V' & HV' & HVi' & HVl').
  assert (W ≡ₚ V) as ->. { apply NoDup_Permutation; [done..|]. intros x. by rewrite HW, HVi. }
  assert (W' ≡ₚ V') as ->. { apply NoDup_Permutation; [done..|]. intros x. by rewrite HW', HVi'. }
  assert (1 ≤ q)%Z as Hq. { apply Z.div_le_lower_bound; lia. }
  assert (∀ k : nat, k ≤ n → (most k * q ^ Z.of_nat k ≤ fewest k * (q + 1) ^ Z.of_nat k ∧ 0 ≤ fewest k ∧ 0 ≤ most k)%Z) as Hk.
  { intros k Hk. unfold most, fewest. assert (∀ L : list nat, (∀ m, m ∈ L → 0 < m ≤ n) →
      (foldr Z.mul 1 ((λ m, 2 ^ 32 / Z.of_nat m + 1) <$> L) * q ^ Z.of_nat (length L) ≤
       foldr Z.mul 1 ((λ m, 2 ^ 32 / Z.of_nat m) <$> L) * (q + 1) ^ Z.of_nat (length L) ∧
       0 ≤ foldr Z.mul 1 ((λ m, 2 ^ 32 / Z.of_nat m) <$> L) ∧ 0 ≤ foldr Z.mul 1 ((λ m, 2 ^ 32 / Z.of_nat m + 1) <$> L))%Z) as HL.
    { induction L as [|m L IH]; intros HL; [simpl; lia|]. cbn [fmap list_fmap foldr length].
      destruct IH as (I1 & I2 & I3); [intros; apply HL; by constructor|]. destruct (HL m) as [Hm Hmn]; [by constructor|].
      assert (q ≤ 2 ^ 32 / Z.of_nat m)%Z as Hqm. { apply Z.div_le_compat_l; lia. }
      unfold fmap in *.
      set (A := foldr Z.mul 1%Z (list_fmap _ _ (λ m, 2 ^ 32 / Z.of_nat m + 1)%Z L)) in *.
      set (B := foldr Z.mul 1%Z (list_fmap _ _ (λ m, 2 ^ 32 / Z.of_nat m)%Z L)) in *.
      set (x := (2 ^ 32 / Z.of_nat m)%Z) in *. rewrite Nat2Z.inj_succ, !Z.pow_succ_r by lia.
      split; [|split; apply Z.mul_nonneg_nonneg; lia].
      assert ((x + 1) * q ≤ x * (q + 1))%Z as Hx by lia.
      assert (0 ≤ q ^ Z.of_nat (length L))%Z as Hpow by (apply Z.pow_nonneg; lia).
      replace ((x + 1) * A * (q * q ^ Z.of_nat (length L)))%Z with (((x + 1) * q) * (A * q ^ Z.of_nat (length L)))%Z by lia.
      replace (x * B * ((q + 1) * (q + 1) ^ Z.of_nat (length L)))%Z with ((x * (q + 1)) * (B * (q + 1) ^ Z.of_nat (length L)))%Z by lia.
      apply Z.mul_le_mono_nonneg; [apply Z.mul_nonneg_nonneg; lia|done|apply Z.mul_nonneg_nonneg; lia|done]. }
    specialize (HL (seq 1 k)). rewrite seq_length in HL. apply HL. intros m Hm%elem_of_seq. lia. }
  destruct (Hk n (le_n n)) as (H1 & H2 & H3).
  transitivity (most n * q ^ Z.of_nat n)%Z; [apply Z.mul_le_mono_nonneg_r; [apply Z.pow_nonneg; lia|lia]|].
  etransitivity; [exact H1|]. apply Z.mul_le_mono_nonneg_r; [apply Z.pow_nonneg; lia|lia].
Qed.
Print Assumptions C108_ratio.

(** For three onions: two orders that are not equally likely; 1 + 10^-9 times as likely. *)
Example C108_example :
  fewest 3 = (4294967296 * 2147483648 * 1431655765)%Z ∧
  leads_to 3 [1; 2; 0] [[Byte.x00; Byte.x00; Byte.x00; Byte.x03]; [Byte.x00; Byte.x00; Byte.x00; Byte.x02]; [Byte.xff; Byte.x00; Byte.x00; Byte.x02]].
Proof. split; [done|]. split; [done|]. split; [by repeat constructor|by vm_compute]. Qed.
