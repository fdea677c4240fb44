(** C25: public shares and their cache. *)
From Coq Require Import ZArith NArith Lia List.
From mathcomp Require Import all_ssreflect all_algebra.
From Verif.Model Require Import Tibe.
From Verif.Model Require Memo.
From Verif.Spec Require Import TibeSpec.
From Verif.Proofs Require Import TibeProofs.
From Verif.Proofs Require MemoProofs.
Set Implicit Arguments.
Unset Strict Implicit.
Unset Printing Implicit Defensive.
Import GRing.Theory.
Local Open Scope ring_scope.

Section C25.
Variables (S : setting) (cs : seq (sF S)).
(** e = P.GetExponentPoly(): Coefs[0], and what is computed on a cache miss. *)
Definition e_coef0 : option (sG1 S) := ohead (GetExponentPoly cs).
Definition e_compute (i : N) : option (sG1 S) := computePublicShare (GetExponentPoly cs) (Z.of_N i).
(** Executions in which any number of goroutines call e.GetPublicShare, in any order and interleaving. *)
Definition execution (ls : seq (Memo.label (sG1 S))) (s : Memo.state (sG1 S)) : Prop :=
  Memo.run e_coef0 e_compute Memo.init ls s.
End C25.

Lemma e_coef0E (S : setting) (cs : seq (sF S)) : cs <> [::] -> e_coef0 cs = Some (poly_at cs 0 *: gen1 S).
Proof. by case: cs => // c cs _; rewrite poly_at_0. Qed.
Lemma e_computeE (S : setting) (cs : seq (sF S)) i :
  pairing_laws S -> cs <> [::] -> e_compute cs i = Some (Eval cs (Z.of_N i) *: gen1 S).
Proof. by move=> laws /eqP ne; exact: computePublicShareE. Qed.

(** Every call returns g^P(i), whatever was asked before or is being asked at the same time; no call
    ever panics. *)
Theorem C25_public_share (S : setting) (cs : seq (sF S)) ls s :
  pairing_laws S -> cs <> [::] -> execution cs ls s ->
  Memo.s_crashed s = false /\
  forall t i v, List.In (Memo.LReturn t i v) ls -> (i < 2 ^ 64)%num ->
    v = poly_at cs (N.to_nat i)%:R *: gen1 S.
Proof.
move=> laws ne hr.
have := @MemoProofs.init_run_ok _ _ _ _ (e_coef0E ne) _ (fun i => e_computeE i laws ne) ls s hr.
case=> hc /List.Forall_forall hl; split=> // t i v /hl /= -> hi.
case: stdpp.base.decide => [-> //|_].
congr (_ *: _); rewrite Eval_sum /scal /uint64 Z.mod_small; last by lia.
by have -> : Z.to_nat (Z.of_N i) = N.to_nat i by lia.
Qed.
Print Assumptions C25_public_share.

(** Nobody waits for ever: as long as a call is pending some pending call can move, and without new
    calls only boundedly many steps are possible. *)
Theorem C25_no_deadlock (S : setting) (cs : seq (sF S)) ls s :
  pairing_laws S -> cs <> [::] -> execution cs ls s ->
  (forall t p, stdpp.base.lookup t (Memo.s_pcs s) = Some p ->
     exists l s', Memo.step (e_coef0 cs) (e_compute cs) s l s' /\ Memo.new_call l = false) /\
  (exists b : nat, forall ls' s', Memo.run (e_coef0 cs) (e_compute cs) s ls' s' ->
     List.Forall (fun l => Memo.new_call l = false) ls' -> (List.length ls' <= b)%coq_nat).
Proof.
move=> laws ne hr; split.
- move=> t p hp.
  apply: (@MemoProofs.init_run_progress _ _ _ _ (e_coef0E ne) _ (fun i => e_computeE i laws ne) ls s t hr).
  by exists p.
- exact: (@MemoProofs.init_run_bound _ _ _ _ (e_coef0E ne) _ (fun i => e_computeE i laws ne) ls s hr).
Qed.
Print Assumptions C25_no_deadlock.

(** Such an execution: goroutine 2 asks for index 3 while goroutine 1 is computing it, and returns first. *)
Example C25_example (S : setting) (cs : seq (sF S)) : pairing_laws S -> cs <> [::] ->
  exists ls s v, execution cs ls s /\ List.In (Memo.LReturn 1 3 v) ls /\ List.In (Memo.LReturn 2 3 v) ls.
Proof.
move=> laws ne; have h3 := e_computeE 3 laws ne.
have [s hs] := @MemoProofs.two_callers _ (e_coef0 cs) _ _ h3.
by eexists; exists s; eexists; split; [exact: hs|split; rewrite /=; tauto].
Qed.

(** VerifyShare accepts exactly the right share. *)
Theorem C25_verify_share (S : setting) (cs : seq (sF S)) (i : N) (share : sF S) :
  pairing_laws S -> cs <> [::] -> (i < 2 ^ 64)%num ->
  exists b : bool, VerifyShare (GetExponentPoly cs) (Z.of_N i) share = Some b /\
    (b = true <-> share = poly_at cs (N.to_nat i)%:R).
Proof.
move=> laws /eqP ne hi; rewrite /VerifyShare computePublicShareE //=; eexists; split; first reflexivity.
rewrite Eval_sum /scal /uint64 Z.mod_small; last by lia.
have -> : Z.to_nat (Z.of_N i) = N.to_nat i by lia.
by split=> [/eqP|->]; [exact: scale_gen_inj|rewrite eqxx].
Qed.
Print Assumptions C25_verify_share.

(** Boundary: without coefficients the first call crashes. *)
Theorem C25_empty_panics (S : setting) : exists s, @execution S [::] [:: Memo.LTau] s /\ Memo.s_crashed s = true.
Proof.
eexists; split; last first.
  2: { apply: (@Memo.run_step _ _ _ Memo.init [::] Memo.init); first exact: Memo.run_nil.
       apply: (@Memo.step_call0_panic _ _ _ Memo.init 0) => //. }
by [].
Qed.
Print Assumptions C25_empty_panics.
