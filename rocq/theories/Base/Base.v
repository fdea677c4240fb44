(** Basic vocabulary of the model: bytes, machine words, outcomes. *)
From Coq Require Export ZArith NArith Lia.
From Coq Require Import Init.Byte Strings.Byte.
From stdpp Require Export base list strings option pretty list_numbers.
From stdpp Require Import numbers.

(** A Go []byte. *)
Notation byte := Byte.byte.
Definition bytes := list byte.

Global Instance byte_eq_dec : EqDecision byte := Byte.byte_eq_dec.

(** Go's outcomes: a value, an error value, or a panic. *)
Inductive outcome (E A : Type) :=
| Ok (a : A)
| Err (e : E)
| Panic.
Arguments Ok {E A} _.
Arguments Err {E A} _.
Arguments Panic {E A}.

Definition obind {E A B} (f : A → outcome E B) (x : outcome E A) : outcome E B :=
  match x with Ok a => f a | Err e => Err e | Panic => Panic end.
Definition omap_out {E A B} (f : A → B) (x : outcome E A) : outcome E B :=
  match x with Ok a => Ok (f a) | Err e => Err e | Panic => Panic end.
Notation "'let!' x := e 'in' k" := (obind (λ x, k) e)
  (at level 200, x pattern, e at level 200, k at level 200).

(** gRPC status codes used by the code, plus plain errors. *)
Inductive code := NotFound | FailedPrecondition | InvalidArgument | Internal | Aborted
                | DeadlineExceeded | Canceled | Unauthenticated | Unknown.
Global Instance code_eq_dec : EqDecision code.
Proof. solve_decision. Defined.

(** byte <-> number *)
Definition N2b (n : N) : byte :=
  match Byte.of_N (n mod 256) with Some b => b | None => Byte.x00 end.
Definition b2N (b : byte) : N := Byte.to_N b.

Lemma b2N_lt b : (b2N b < 256)%N.
Proof. unfold b2N. pose proof (Byte.to_N_bounded b). lia. Qed.

Lemma b2N_N2b n : b2N (N2b n) = (n mod 256)%N.
Proof.
  unfold b2N, N2b.
  destruct (Byte.of_N (n mod 256)) as [b|] eqn:E.
  - by apply Byte.to_of_N.
  - exfalso. apply Byte.of_N_None_iff in E.
    pose proof (N.mod_lt n 256). lia.
Qed.

Lemma N2b_b2N b : N2b (b2N b) = b.
Proof.
  unfold N2b, b2N. rewrite N.mod_small by apply b2N_lt.
  by rewrite Byte.of_to_N.
Qed.

Lemma b2N_inj a b : b2N a = b2N b → a = b.
Proof. intros H. rewrite <-(N2b_b2N a), <-(N2b_b2N b). by rewrite H. Qed.

(** Little-endian words of k bytes: binary.LittleEndian.PutUintXX / UintXX. *)
Fixpoint le_enc (k : nat) (n : N) : bytes :=
  match k with
  | O => []
  | S k => N2b n :: le_enc k (n / 256)
  end.

Fixpoint le_dec (bs : bytes) : N :=
  match bs with
  | [] => 0
  | b :: bs => b2N b + 256 * le_dec bs
  end%N.

(** Big-endian words: binary.BigEndian.PutUintXX / UintXX. *)
Definition be_enc (k : nat) (n : N) : bytes := rev (le_enc k n).
Definition be_dec (bs : bytes) : N := le_dec (rev bs).

Definition be32 (n : N) : bytes := be_enc 4 n.

Lemma le_enc_length k n : length (le_enc k n) = k.
Proof. revert n; induction k as [|k IH]; intros n; simpl; [done|by rewrite IH]. Qed.
Lemma be_enc_length k n : length (be_enc k n) = k.
Proof. unfold be_enc. by rewrite rev_length, le_enc_length. Qed.

Lemma le_dec_enc k n : le_dec (le_enc k n) = (n mod 256 ^ N.of_nat k)%N.
Proof.
  revert n; induction k as [|k IH]; intros n.
  - simpl. by rewrite N.mod_1_r.
  - cbn [le_enc le_dec]. rewrite IH, b2N_N2b.
    rewrite Nat2N.inj_succ, N.pow_succ_r'.
    rewrite N.mod_mul_r; [lia|lia|]. apply N.pow_nonzero; lia.
Qed.

Lemma be_dec_enc k n : be_dec (be_enc k n) = (n mod 256 ^ N.of_nat k)%N.
Proof. unfold be_dec, be_enc. by rewrite rev_involutive, le_dec_enc. Qed.

Lemma be_dec_enc_small k n : (n < 256 ^ N.of_nat k)%N → be_dec (be_enc k n) = n.
Proof. intros H. rewrite be_dec_enc. by apply N.mod_small. Qed.

Lemma le_enc_dec bs : le_enc (length bs) (le_dec bs) = bs.
Proof.
  induction bs as [|b bs IH]; [done|].
  cbn [length le_dec le_enc]. f_equal.
  - apply b2N_inj. rewrite b2N_N2b.
    pose proof (b2N_lt b).
    rewrite N.mul_comm, N.mod_add by lia. by apply N.mod_small.
  - pose proof (b2N_lt b).
    rewrite N.mul_comm, N.div_add by lia.
    rewrite N.div_small by done. rewrite N.add_0_l. apply IH.
Qed.

Lemma be_enc_dec bs : be_enc (length bs) (be_dec bs) = bs.
Proof.
  unfold be_enc, be_dec. rewrite <-(rev_length bs), le_enc_dec. apply rev_involutive.
Qed.

Lemma le_dec_bound bs : (le_dec bs < 256 ^ N.of_nat (length bs))%N.
Proof.
  induction bs as [|b bs IH]; [simpl; lia|].
  cbn [length le_dec]. rewrite Nat2N.inj_succ, N.pow_succ_r'.
  pose proof (b2N_lt b). lia.
Qed.
Lemma be_dec_bound bs : (be_dec bs < 256 ^ N.of_nat (length bs))%N.
Proof. unfold be_dec. rewrite <-(rev_length bs). apply le_dec_bound. Qed.

Lemma be_enc_inj k n m :
  (n < 256 ^ N.of_nat k)%N → (m < 256 ^ N.of_nat k)%N → be_enc k n = be_enc k m → n = m.
Proof.
  intros Hn Hm H. rewrite <-(be_dec_enc_small k n Hn), <-(be_dec_enc_small k m Hm). by rewrite H.
Qed.
