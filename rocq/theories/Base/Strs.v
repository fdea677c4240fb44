(** String lemmas: splitting at a separator, decimal printing (strconv.Itoa / %d). *)
From Coq Require Import Ascii.
From Verif.Base Require Import Base.
From stdpp Require Import pretty.

Local Open Scope string_scope.

Fixpoint str_all (P : ascii → bool) (s : string) : bool :=
  match s with
  | "" => true
  | String c s => P c && str_all P s
  end.

Definition is_digit (c : ascii) : bool :=
  (N.leb 48 (N_of_ascii c) && N.leb (N_of_ascii c) 57)%bool.

Lemma str_cons_app c s1 s2 : String c s1 +:+ s2 = String c (s1 +:+ s2).
Proof. done. Qed.
Lemma str_nil_app s : "" +:+ s = s.
Proof. done. Qed.
Ltac strs := rewrite ?str_cons_app, ?str_nil_app in *.

Lemma str_all_app P s1 s2 : str_all P (s1 +:+ s2) = str_all P s1 && str_all P s2.
Proof. induction s1 as [|c s1 IH]; strs; simpl; [done|]. rewrite IH. by destruct (P c). Qed.

Lemma str_all_impl (P Q : ascii → bool) s :
  (∀ c, P c = true → Q c = true) → str_all P s = true → str_all Q s = true.
Proof.
  intros HPQ. induction s as [|c s IH]; simpl; [done|].
  destruct (P c) eqn:E; simpl; [|done]. rewrite (HPQ _ E). simpl. done.
Qed.

(** Splitting at the first occurrence of c is unique. *)
Lemma str_split_unique c (s1 s2 r1 r2 : string) :
  str_all (λ x, negb (Ascii.eqb x c)) s1 = true →
  str_all (λ x, negb (Ascii.eqb x c)) s2 = true →
  s1 +:+ String c r1 = s2 +:+ String c r2 → s1 = s2 ∧ r1 = r2.
Proof.
  revert s2; induction s1 as [|x s1 IH]; intros [|y s2] H1 H2 Heq; strs; simpl in *.
  - by injection Heq.
  - injection Heq as -> _. rewrite Ascii.eqb_refl in H2. done.
  - injection Heq as -> _. rewrite Ascii.eqb_refl in H1. done.
  - injection Heq as -> Heq.
    apply andb_true_iff in H1 as [_ H1]. apply andb_true_iff in H2 as [_ H2].
    destruct (IH s2 H1 H2 Heq) as [-> ->]. done.
Qed.

Lemma str_app_assoc (a b c : string) : (a +:+ b) +:+ c = a +:+ (b +:+ c).
Proof. induction a as [|x a IH]; strs; simpl; [done|]. by rewrite IH. Qed.

Lemma str_app_nil_r (a : string) : a +:+ "" = a.
Proof. induction a as [|x a IH]; strs; simpl; [done|]. by rewrite IH. Qed.

Lemma str_length_app (a b : string) : String.length (a +:+ b) = String.length a + String.length b.
Proof. induction a as [|x a IH]; strs; simpl; [done|]. by rewrite IH. Qed.

(** Equal-length prefixes. *)
Lemma str_app_inj_len (a a' b b' : string) :
  String.length a = String.length a' → a +:+ b = a' +:+ b' → a = a' ∧ b = b'.
Proof.
  revert a'; induction a as [|x a IH]; intros [|y a'] Hl H; strs; simpl in *; try done.
  injection H as -> H. injection Hl as Hl. destruct (IH _ Hl H) as [-> ->]. done.
Qed.

Lemma str_app_inj_l (a b b' : string) : a +:+ b = a +:+ b' → b = b'.
Proof. intros H. by apply (str_app_inj_len a a) in H as [_ ?]. Qed.

(** Decimal digits. *)
Lemma pretty_N_char_digit x : (x < 10)%N → is_digit (pretty_N_char x) = true.
Proof.
  intros Hx. destruct x as [|p]; [done|].
  do 4 (destruct p as [p|p|]; try done; try lia).
Qed.

Lemma pretty_N_go_digits x s :
  str_all is_digit s = true → str_all is_digit (pretty_N_go x s) = true.
Proof.
  revert s. induction (N.lt_wf_0 x) as [x _ IH]; intros s Hs.
  destruct (decide (0 < x)%N).
  - rewrite pretty_N_go_step by done. apply IH.
    + by apply N.div_lt.
    + cbn [str_all]. rewrite Hs, pretty_N_char_digit; [done|]. by apply N.mod_lt.
  - by assert (x = 0)%N as -> by lia.
Qed.

Lemma pretty_N_digits (x : N) : str_all is_digit (pretty x) = true.
Proof.
  unfold pretty, pretty_N. case_decide; [done|]. by apply pretty_N_go_digits.
Qed.

Lemma pretty_nat_digits (n : nat) : str_all is_digit (pretty n) = true.
Proof. apply pretty_N_digits. Qed.

Lemma digits_no c s : is_digit c = false →
  str_all is_digit s = true → str_all (λ x, negb (Ascii.eqb x c)) s = true.
Proof.
  intros Hc. apply str_all_impl. intros x Hx.
  destruct (Ascii.eqb_spec x c); [congruence|done].
Qed.

Lemma pretty_nat_inj (n m : nat) : pretty n = pretty m → n = m.
Proof. apply (inj pretty). Qed.
