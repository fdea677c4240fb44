(** C14, C15: shuffling. *)
From Verif.Base Require Import Base.
From Verif.Model Require Import Shuffle.
From Verif.Proofs Require Import ShuffleProofs.

(** C14: for every random source (an arbitrary state machine answering arbitrary bytes) and every
    history of ShuffleOnions calls on one Shuffler, no call panics and each call's result is a
    permutation of its input. *)
Theorem C14_shuffle_permutes {S A} (r : reader S) (s : S) (ins : list (list A)) :
  ∃ outs sh', shuffle_calls r (NewShuffler s) ins = Some (outs, sh') ∧
    Forall2 (≡ₚ) outs ins ∧ Forall2 (λ o i, length o = length i) outs ins.
Proof.
  destruct (shuffle_calls_ok r (NewShuffler s) ins I) as (outs & sh' & H & HF).
  exists outs, sh'. split; [done|]. split; [done|].
  eapply Forall2_impl; [exact HF|]. intros o i Hp. by rewrite Hp.
Qed.
Print Assumptions C14_shuffle_permutes.

(** The permutation depends only on the random source and the length, never on the contents:
    the same permutation p is applied to the positions of any input of that length. *)
Theorem C14_oblivious {S A B} (r : reader S) (s : S) (xs : list A) (ys : list B) :
  length xs = length ys →
  ∃ p ox oy sx, p ≡ₚ seq 0 (length xs) ∧
    ShuffleOnions r (NewShuffler s) xs = Some (ox, sx) ∧
    ShuffleOnions r (NewShuffler s) ys = Some (oy, sx) ∧
    (∀ q, ox !! q = p !! q ≫= λ k, xs !! k) ∧ (∀ q, oy !! q = p !! q ≫= λ k, ys !! k).
Proof.
  intros Hl.
  destruct (ShuffleOnions_ok r (NewShuffler s) xs I) as (ox & sx & p & Ex & _ & Ix & Px & Lx & Hx).
  destruct (ShuffleOnions_ok r (NewShuffler s) ys I) as (oy & sy & q & Ey & _ & Iy & Py & Ly & Hy).
  assert (sx = sy) as <-.
  { unfold ShuffleOnions in Ex, Ey. simpl in Ex, Ey. rewrite Hl in Ex.
    destruct (permutation r s (length ys)) as [[p' s']|]; simpl in *; [|done].
    destruct (assign_loop p' xs _ 0 xs); simpl in Ex; [|done].
    destruct (assign_loop p' ys _ 0 ys); simpl in Ey; [|done]. congruence. }
  exists p, ox, oy, sx. rewrite Px in Py. injection Py as <-.
  unfold perm_inv in Ix. rewrite Px, Lx in Ix. done.
Qed.
Print Assumptions C14_oblivious.

Example C14_example :
  (* a reader stuck at 5 then failing: three calls of two different lengths *)
  ∃ outs sh, shuffle_calls (Reader (λ n : nat, (if decide (n < 3) then [Byte.x00; Byte.x00; Byte.x00; Byte.x05] else [], S n)))
      (NewShuffler 0) [[1;2;3;4]; [5;6;7;8]; [9;10]] = Some (outs, sh) ∧ outs = [[1;4;3;2];[5;8;7;6];[10;9]].
Proof. eexists _, _. vm_compute. split; reflexivity. Qed.

(** C15.  The draws made by [permutation n], in order, for i = n-1, ..., 0, must satisfy j_i <= i
    (specification: position k of the list is the draw for i = n-1-k, so it is < n-k).
    [draws_reader] answers a given list of draws, each as a 4-byte big-endian word. *)
Theorem C15_every_ordering_exactly_once (n : nat) (p : list nat) :
  (N.of_nat n ≤ 2 ^ 32)%N → p ≡ₚ seq 0 n →
  ∃ ds, (length ds = n ∧ ∀ k d, ds !! k = Some d → d < n - k) ∧
    permutation draws_reader ds n = Some (p, []) ∧
    ∀ ds', (length ds' = n ∧ ∀ k d, ds' !! k = Some d → d < n - k) →
       permutation draws_reader ds' n = Some (p, []) → ds' = ds.
Proof. exact (permutation_bijection n p). Qed.
Print Assumptions C15_every_ordering_exactly_once.

(** Each value j < m is the result of randInt m for exactly floor(2^32/m) of the 2^32 possible
    4-byte answers, plus one if j < 2^32 mod m. *)
Theorem C15_draw_bias (m j : nat) :
  0 < m → j < m → (Z.of_nat m ≤ 2 ^ 32)%Z →
  ∃ answers : list bytes, NoDup answers ∧
    (∀ b, b ∈ answers ↔
       length b = 4 ∧ (randInt (Reader (λ _ : unit, (b, tt))) tt m).1 = j) ∧
    (Z.of_nat (length answers) =
       2 ^ 32 / Z.of_nat m + (if decide (Z.of_nat j < 2 ^ 32 mod Z.of_nat m) then 1 else 0))%Z.
Proof.
  intros Hm Hj HM. exists (answers m j). split; [by apply answers_NoDup|].
  split; [intros b; by apply answers_spec|]. by apply answers_length.
Qed.
Print Assumptions C15_draw_bias.

Example C15_example : permutation draws_reader [1; 0; 0] 3 = Some ([2; 0; 1], []).
Proof. by vm_compute. Qed.
