(** The cache is transparent, nobody panics, nobody waits for ever. *)
From stdpp Require Import gmap.
From Verif.Base Require Import Base.
From Verif.Model Require Import Memo.

Section memo.
Context {G : Type} (coef0 : option G) (compute : N → option G).
Notation step := (step coef0 compute).
Notation run := (run coef0 compute).
Context (v0 : G) (Hc0 : coef0 = Some v0) (f : N → G) (Hf : ∀ i, compute i = Some (f i)).

Definition pc_index (p : pc) : N :=
  match p with PLoad i | PGetOnce i | PDo i _ | PStore i _ | PDone i _ | PLast i => i end.
Definition pc_once (p : pc) : option nat :=
  match p with PDo _ o | PStore _ o | PDone _ o => Some o | _ => None end.
Definition inside (p : pc) : bool := match p with PStore _ _ | PDone _ _ => true | _ => false end.

Record Inv (s : state G) : Prop := {
  iv_crash : s_crashed s = false;
  iv_num : ∀ i x, s_cache s !! KNum i = Some x → x = CValue (f i);
  iv_str : ∀ k x, s_cache s !! KStr k = Some x → ∃ i o, k = pretty (i : N) ∧ x = COnce o ∧ o < length (s_onces s);
  iv_inj : ∀ k k' o, s_cache s !! KStr k = Some (COnce o) → s_cache s !! KStr k' = Some (COnce o) → k = k';
  iv_idx : ∀ t p, s_pcs s !! t = Some p → pc_index p ≠ 0%N;
  iv_pc : ∀ t p o, s_pcs s !! t = Some p → pc_once p = Some o → s_cache s !! KStr (pretty (pc_index p)) = Some (COnce o);
  (* a running Once has exactly one caller inside *)
  iv_in : ∀ t p o, s_pcs s !! t = Some p → inside p = true → pc_once p = Some o → s_onces s !! o = Some ORunning;
  iv_uniq : ∀ t t' p p' o, s_pcs s !! t = Some p → s_pcs s !! t' = Some p' → inside p = true → inside p' = true →
            pc_once p = Some o → pc_once p' = Some o → t = t';
  iv_run : ∀ o, s_onces s !! o = Some ORunning → ∃ t p, s_pcs s !! t = Some p ∧ inside p = true ∧ pc_once p = Some o;
  (* once done or stored, the value is there *)
  iv_done : ∀ i o, s_cache s !! KStr (pretty i) = Some (COnce o) → s_onces s !! o = Some ODone → is_Some (s_cache s !! KNum i);
  iv_stored : ∀ t i o, s_pcs s !! t = Some (PDone i o) → is_Some (s_cache s !! KNum i);
  iv_last : ∀ t i, s_pcs s !! t = Some (PLast i) → is_Some (s_cache s !! KNum i)
}.

Lemma init_inv : Inv (init : state G).
Proof using Type. split; unfold init; simpl; intros; try done; rewrite ?lookup_empty in *; try done; by rewrite lookup_nil in *. Qed.

Ltac ins H := apply lookup_insert_Some in H as [[? ?]|[? H]]; simplify_eq/=.

Lemma pc_inv s t p :
  Inv s → (∀ q, s_pcs s !! t = Some q → inside q = false) → inside p = false → pc_index p ≠ 0%N →
  (∀ o, pc_once p = Some o → s_cache s !! KStr (pretty (pc_index p)) = Some (COnce o)) →
  (∀ i, p = PLast i → is_Some (s_cache s !! KNum i)) →
  Inv (with_pc s t p).
Proof using Type.
  intros [] Hq Hp Hi Ho Hl. split; simpl; try done.
  - intros t' p' H'. ins H'; try done; eauto.
  - intros t' p' o H' E. ins H'; eauto.
  - intros t' p' o H' E E'. ins H'; try congruence; eauto.
  - intros t1 t2 p1 p2 o H1 H2 E1 E2 F1 F2. ins H1; try congruence; ins H2; try congruence; eauto.
  - intros o H'. destruct (iv_run0 o H') as (t' & p' & H1 & H2 & H3). exists t', p'. split; [|done].
    rewrite lookup_insert_ne; [done|]. intros <-. rewrite (Hq p') in H2 by done. done.
  - intros t' i o H'. ins H'; try done; eauto.
  - intros t' i H'. ins H'; eauto.
Qed.

Lemma fin_inv s t :
  Inv s → (∀ q, s_pcs s !! t = Some q → inside q = false) → Inv (finished s t).
Proof using Type.
  intros [] Hq. split; simpl; try done.
  - intros t' p' [? H']%lookup_delete_Some. eauto.
  - intros t' p' o [? H']%lookup_delete_Some E. eauto.
  - intros t' p' o [? H']%lookup_delete_Some E E'. eauto.
  - intros t1 t2 p1 p2 o [? H1]%lookup_delete_Some [? H2]%lookup_delete_Some. eauto.
  - intros o H'. destruct (iv_run0 o H') as (t' & p' & H1 & H2 & H3). exists t', p'. split; [|done].
    rewrite lookup_delete_ne; [done|]. intros <-. rewrite (Hq p') in H2 by done. done.
  - intros t' i o [? H']%lookup_delete_Some. eauto.
  - intros t' i [? H']%lookup_delete_Some. eauto.
Qed.

Lemma step_inv s l s' : Inv s → step s l s' → Inv s'.
Proof using Hc0 Hf.
  intros Hinv Hs. pose proof Hinv as []. destruct Hs.
  - apply pc_inv; simpl; naive_solver.
  - done.
  - congruence.
  - apply fin_inv; [done|]. intros q Hq. by simplify_eq.
  - exfalso. match goal with H : s_cache s !! KNum i = _ |- _ => apply iv_num0 in H end. done.
  - apply pc_inv; simpl; [done|naive_solver|done|by apply (iv_idx0 _ _ H0)|done|done].
  - (* new once *)
    pose proof (iv_idx0 _ _ H0) as Hi. simpl in Hi.
    split; simpl; try done.
    + intros j x Hj. rewrite lookup_insert_ne in Hj by done. eauto.
    + intros k x Hk. rewrite app_length. ins Hk.
      * exists i, (length (s_onces s)). simpl. split; [done|]. split; [done|lia].
      * destruct (iv_str0 _ _ Hk) as (j & o & -> & -> & Ho). exists j, o. simpl. split; [done|]. split; [done|lia].
    + intros k k' o Hk Hk'.
      assert (Hbig : ∀ k, s_cache s !! KStr k = Some (COnce (length (s_onces s))) → False).
      { intros k1 (?&?&_&?&?)%iv_str0. simplify_eq. lia. }
      apply lookup_insert_Some in Hk as [[E1 E2]|[_ Hk]]; apply lookup_insert_Some in Hk' as [[E3 E4]|[_ Hk']]; simplify_eq.
      * done. * by destruct (Hbig k'). * by destruct (Hbig k). * eauto.
    + intros t' p' H'. ins H'; try done; eauto.
    + intros t' p' o H' E. ins H'; [by rewrite lookup_insert|].
      rewrite lookup_insert_ne; [eauto|]. intros [=E2]. pose proof (iv_pc0 _ _ _ H' E) as Hx. rewrite <-E2 in Hx. congruence.
    + intros t' p' o H' E E'. ins H'; try done; apply lookup_app_l_Some. eauto.
    + intros t1 t2 p1 p2 o H2 H3 E1 E2 F1 F2. ins H2; try done; ins H3; try done; eauto.
    + intros o Ho. apply lookup_app_Some in Ho as [Ho|[Hl Ho]].
      * destruct (iv_run0 o Ho) as (t' & p' & H2 & H3 & H4). exists t', p'. split; [|done].
        rewrite lookup_insert_ne; [done|]. intros <-. rewrite H0 in H2. by simplify_eq.
      * destruct (o - length (s_onces s)); by simplify_eq/=.
    + intros j o Hj Ho. rewrite lookup_insert_ne by done.
      apply lookup_insert_Some in Hj as [[E1 E2]|[E1 Hj]]; simplify_eq.
      * by rewrite lookup_app_r, Nat.sub_diag in Ho by lia.
      * apply lookup_app_Some in Ho as [Ho|[Hl Ho]]; [eauto|].
        destruct (iv_str0 _ _ Hj) as (? & ? & _ & ? & ?). simplify_eq. lia.
    + intros t' j o H'. rewrite lookup_insert_ne by done. ins H'; try done; eauto.
    + intros t' j H'. rewrite lookup_insert_ne by done. ins H'; try done; eauto.
  - apply pc_inv; simpl; [done|naive_solver|done|by apply (iv_idx0 _ _ H0)|naive_solver|done].
  - exfalso. match goal with H : s_cache s !! KStr _ = _ |- _ => apply iv_str0 in H as (?&?&?&?&?) end. done.
  - (* enter *)
    pose proof (iv_idx0 _ _ H0) as Hi. simpl in Hi. pose proof (iv_pc0 _ _ _ H0 eq_refl) as Hco. simpl in Hco.
    split; simpl; try done.
    + intros k x Hk. rewrite insert_length. eauto.
    + intros t' p' H'. ins H'; try done; eauto.
    + intros t' p' o' H' E. ins H'; try done; eauto.
    + intros t' p' o' H' E E'. ins H'.
      * apply list_lookup_insert. by eapply lookup_lt_Some.
      * destruct (decide (o = o')) as [<-|]; [|rewrite list_lookup_insert_ne by done; eauto].
        apply list_lookup_insert. by eapply lookup_lt_Some.
    + intros t1 t2 p1 p2 o' H2 H3 E1 E2 F1 F2. ins H2; ins H3; [done| | |eauto].
      * pose proof (iv_in0 _ _ _ H3 E2 F2). congruence.
      * pose proof (iv_in0 _ _ _ H2 E1 F1). congruence.
    + intros o' Ho. destruct (decide (o = o')) as [<-|].
      * exists t, (PStore i o). by rewrite lookup_insert.
      * rewrite list_lookup_insert_ne in Ho by done. destruct (iv_run0 o' Ho) as (t' & p' & H2 & H3 & H4).
        exists t', p'. split; [|done]. rewrite lookup_insert_ne; [done|]. intros <-. rewrite H0 in H2. by simplify_eq.
    + intros j o' Hj Ho. destruct (decide (o = o')) as [<-|].
      * rewrite list_lookup_insert in Ho by by eapply lookup_lt_Some. done.
      * rewrite list_lookup_insert_ne in Ho by done. eauto.
    + intros t' j o' H'. ins H'; eauto.
    + intros t' j H'. ins H'; eauto.
  - (* pass *)
    apply pc_inv; simpl; [done|naive_solver|done|by apply (iv_idx0 _ _ H0)|done|].
    intros j [= <-]. eapply iv_done0; [|done]. apply (iv_pc0 _ _ _ H0 eq_refl).
  - (* store *)
    pose proof (iv_idx0 _ _ H0) as Hi. simpl in Hi. pose proof (iv_pc0 _ _ _ H0 eq_refl) as Hco. simpl in Hco.
    split; simpl; try done.
    + intros j x Hj. ins Hj; [|eauto]. rewrite Hf in *. congruence.
    + intros k x Hk. rewrite lookup_insert_ne in Hk by done. eauto.
    + intros k k' o' Hk Hk'. rewrite lookup_insert_ne in Hk by done. rewrite lookup_insert_ne in Hk' by done. eauto.
    + intros t' p' H'. ins H'; try done; eauto.
    + intros t' p' o' H' E. rewrite lookup_insert_ne by done. ins H'; try done; eauto.
    + intros t' p' o' H' E E'. ins H'; [|eauto]. by eapply (iv_in0 _ _ _ H0).
    + intros t1 t2 p1 p2 o' H2 H3 E1 E2 F1 F2. ins H2; ins H3; [done| | |eauto].
      * by eapply (iv_uniq0 _ _ _ _ o' H0 H3).
      * by eapply (iv_uniq0 _ _ _ _ o' H2 H0).
    + intros o' Ho. destruct (iv_run0 o' Ho) as (t' & p' & H2 & H3 & H4). destruct (decide (t = t')) as [<-|].
      * rewrite H0 in H2. simplify_eq/=. exists t, (PDone i o'). by rewrite lookup_insert.
      * exists t', p'. by rewrite lookup_insert_ne.
    + intros j o' Hj Ho. rewrite lookup_insert_ne in Hj by done. destruct (decide (i = j)) as [<-|].
      * rewrite lookup_insert. eauto. * rewrite lookup_insert_ne by congruence. eauto.
    + intros t' j o' H'. ins H'; [rewrite lookup_insert; eauto|].
      destruct (decide (i = j)) as [<-|]; [rewrite lookup_insert; eauto|rewrite lookup_insert_ne by congruence; eauto].
    + intros t' j H'. ins H'.
      destruct (decide (i = j)) as [<-|]; [rewrite lookup_insert; eauto|rewrite lookup_insert_ne by congruence; eauto].
  - rewrite Hf in *. done.
  - (* done *)
    pose proof (iv_idx0 _ _ H0) as Hi. simpl in Hi. pose proof (iv_pc0 _ _ _ H0 eq_refl) as Hco. simpl in Hco.
    pose proof (iv_stored0 _ _ _ H0) as Hst. pose proof (iv_in0 _ _ _ H0 eq_refl eq_refl) as Hrun.
    split; simpl; try done.
    + intros k x Hk. rewrite insert_length. eauto.
    + intros t' p' H'. ins H'; try done; eauto.
    + intros t' p' o' H' E. ins H'; eauto.
    + intros t' p' o' H' E E'. ins H'. destruct (decide (o = o')) as [<-|].
      * exfalso. match goal with H : t ≠ t' |- _ => apply H end. by eapply (iv_uniq0 _ _ _ _ o H0 H').
      * rewrite list_lookup_insert_ne by done. eauto.
    + intros t1 t2 p1 p2 o' H2 H3 E1 E2 F1 F2. ins H2; ins H3. eauto.
    + intros o' Ho. destruct (decide (o = o')) as [<-|].
      * rewrite list_lookup_insert in Ho by by eapply lookup_lt_Some. done.
      * rewrite list_lookup_insert_ne in Ho by done. destruct (iv_run0 o' Ho) as (t' & p' & H2 & H3 & H4).
        exists t', p'. split; [|done]. rewrite lookup_insert_ne; [done|]. intros <-. rewrite H0 in H2. by simplify_eq/=.
    + intros j o' Hj Ho. destruct (decide (o = o')) as [<-|].
      * pose proof (iv_inj0 _ _ _ Hco Hj) as Hij. apply (inj pretty) in Hij. by subst j.
      * rewrite list_lookup_insert_ne in Ho by done. eauto.
    + intros t' j o' H'. ins H'; eauto.
    + intros t' j H'. ins H'; eauto.
  - apply fin_inv; [done|]. intros q Hq. by simplify_eq.
  - exfalso. match goal with H : s_pcs s !! t = _ |- _ => apply iv_last0 in H as [? ?] end. congruence.
  - exfalso. match goal with H : s_cache s !! KNum i = _ |- _ => apply iv_num0 in H end. done.
Qed.

Lemma run_inv s ls s' : Inv s → run s ls s' → Inv s'.
Proof using Hc0 Hf. intros Hi Hr. induction Hr as [|s ls s1 l s2 Hr IH Hs]; [done|]. exact (step_inv s1 l s2 (IH Hi) Hs). Qed.

(** Returned values. *)
Definition good_label (l : label G) : Prop :=
  match l with LReturn _ i v => v = if decide (i = 0%N) then v0 else f i | _ => True end.
Lemma step_label s l s' : Inv s → step s l s' → good_label l.
Proof using Hc0 Hf.
  intros [] Hs. destruct Hs; simpl; try done.
  - congruence.
  - rewrite decide_False by apply (iv_idx0 _ _ H0). apply iv_num0 in H1. congruence.
  - rewrite decide_False by apply (iv_idx0 _ _ H0). apply iv_num0 in H1. congruence.
Qed.
Lemma run_labels s ls s' : Inv s → run s ls s' → Forall good_label ls.
Proof using Hc0 Hf.
  intros Hi Hr. induction Hr; [constructor|]. apply Forall_app. split; [auto|]. constructor; [|constructor].
  eapply step_label; [by eapply run_inv|done].
Qed.

(** Progress: a pending call means an enabled step of a pending call. *)
Lemma progress s t p : Inv s → s_pcs s !! t = Some p → ∃ l s', step s l s' ∧ new_call l = false.
Proof using Hf.
  intros Hinv Hp. pose proof Hinv as [].
  assert (∀ t p, s_pcs s !! t = Some p → inside p = true → ∃ l s', step s l s' ∧ new_call l = false) as Hin.
  { intros t' [] Ht Hi; try done.
    - exists LTau. eexists. split; [|done]. by eapply (step_store _ _ s t' i o (f i)).
    - exists LTau. eexists. split; [|done]. by eapply (step_done _ _ s t' i o). }
  assert (pc_index p ≠ 0%N) as Hidx by eauto.
  destruct p as [i|i|i o|i o|i o|i]; simpl in Hidx; try by eapply Hin.
  - destruct (s_cache s !! KNum i) as [x|] eqn:E.
    + pose proof (iv_num0 _ _ E) as ->. exists (LReturn t i (f i)). eexists. split; [by eapply step_hit|].
      simpl. by rewrite bool_decide_false.
    + exists LTau. eexists. split; [by eapply step_miss|done].
  - destruct (s_cache s !! KStr (pretty i)) as [x|] eqn:E.
    + destruct (iv_str0 _ _ E) as (j & o & _ & -> & _). exists LTau. eexists. split; [by eapply step_old_once|done].
    + exists LTau. eexists. split; [by eapply step_new_once|done].
  - pose proof (iv_pc0 _ _ _ Hp eq_refl) as Hco. simpl in Hco.
    destruct (iv_str0 _ _ Hco) as (j & o' & _ & [= <-] & Hlt).
    apply lookup_lt_is_Some in Hlt as [st Hst]. destruct st.
    + exists LTau. eexists. split; [by eapply step_enter|done].
    + destruct (iv_run0 _ Hst) as (t' & p' & H1 & H2 & H3). by eapply Hin.
    + exists LTau. eexists. split; [by eapply step_pass|done].
  - destruct (iv_last0 _ _ Hp) as [x E]. pose proof (iv_num0 _ _ E) as ->.
    exists (LReturn t i (f i)). eexists. split; [by eapply step_return|]. simpl. by rewrite bool_decide_false.
Qed.

(** Every step of a pending call decreases this measure. *)
Definition pc_cost (p : pc) : nat :=
  match p with PLoad _ => 6 | PGetOnce _ => 5 | PDo _ _ => 4 | PStore _ _ => 3 | PDone _ _ => 2 | PLast _ => 1 end.
Definition cost (s : state G) : nat := map_fold (λ _ p n, pc_cost p + n) 0 (s_pcs s).

Lemma cost_delete (m : gmap nat pc) t p : m !! t = Some p →
  map_fold (λ _ p n, pc_cost p + n) 0 m = pc_cost p + map_fold (λ _ p n, pc_cost p + n) 0 (delete t m).
Proof using Type.
  intros H. rewrite <-(insert_delete m t p H) at 1. apply (map_fold_insert_L (λ _ p n, pc_cost p + n) 0); [|apply lookup_delete]. intros. lia.
Qed.
Lemma cost_insert (m : gmap nat pc) t p q : m !! t = Some p →
  map_fold (λ _ p n, pc_cost p + n) 0 (<[t := q]> m) + pc_cost p = pc_cost q + map_fold (λ _ p n, pc_cost p + n) 0 m.
Proof using Type.
  intros H. rewrite (cost_delete m t p H), (cost_delete (<[t := q]> m) t q) by apply lookup_insert.
  rewrite delete_insert_delete. lia.
Qed.

Lemma step_cost s l s' : Inv s → step s l s' → new_call l = false → cost s' < cost s.
Proof using Hc0 Hf.
  intros Hinv Hs Hl. pose proof Hinv as []. destruct Hs; simpl in Hl; try done; unfold cost; simpl;
    try (rewrite bool_decide_true in Hl by done; done);
    try (match goal with H : s_pcs _ !! ?t = Some ?p |- context [<[?t := ?q]> (s_pcs _)] => pose proof (cost_insert _ _ _ q H) as Hcc; simpl in Hcc; lia end);
    try (match goal with H : s_pcs _ !! ?t = Some ?p |- context [delete ?t _] => pose proof (cost_delete _ _ _ H) as Hcc; simpl in Hcc; lia end);
    exfalso.
  - congruence.
  - match goal with H : s_cache s !! KNum i = _ |- _ => apply iv_num0 in H end. done.
  - match goal with H : s_cache s !! KStr _ = _ |- _ => apply iv_str0 in H as (?&?&?&?&?) end. done.
  - rewrite Hf in *. done.
  - match goal with H : s_pcs s !! t = _ |- _ => apply iv_last0 in H as [? ?] end. congruence.
  - match goal with H : s_cache s !! KNum i = _ |- _ => apply iv_num0 in H end. done.
Qed.

(** Without new calls, every execution is finite and ends with all calls answered. *)
Lemma run_cost s ls s' : Inv s → run s ls s' → Forall (λ l, new_call l = false) ls → length ls + cost s' ≤ cost s.
Proof using Hc0 Hf.
  intros Hi Hr. induction Hr as [|s ls s1 l s2 Hr IH Hs]; intros Hl; [done|].
  apply Forall_app in Hl as [Hl1 Hl2]. rewrite Forall_singleton in Hl2.
  specialize (IH Hi Hl1). pose proof (step_cost s1 l s2 (run_inv _ _ _ Hi Hr) Hs Hl2).
  rewrite app_length. simpl. lia.
Qed.

Lemma init_run_ok ls s : run init ls s → s_crashed s = false ∧ Forall good_label ls.
Proof using Hc0 Hf.
  intros Hr. split; [apply (run_inv _ _ _ init_inv Hr)|by eapply run_labels; [apply init_inv|]].
Qed.
Lemma init_run_progress ls s t : run init ls s → is_Some (s_pcs s !! t) → ∃ l s', step s l s' ∧ new_call l = false.
Proof using Hc0 Hf. intros Hr [p Hp]. eapply progress; [by eapply run_inv; [apply init_inv|]|done]. Qed.
Lemma init_run_bound ls s : run init ls s →
  ∃ b, ∀ ls' s', run s ls' s' → Forall (λ l, new_call l = false) ls' → length ls' ≤ b.
Proof using Hc0 Hf.
  intros Hr. exists (cost s). intros ls' s' Hr' Hl.
  pose proof (run_cost s ls' s' (run_inv _ _ _ init_inv Hr) Hr' Hl). lia.
Qed.
End memo.

Local Tactic Notation "fwd" hyp(R) uconstr(c) :=
  eapply run_step in R; [|eapply c; first [reflexivity|done|eassumption|by vm_compute]]; vm_compute in R.
(** A complete run: caller 1 asks for 3; caller 2 asks for 3 too, while caller 1 is computing, and
    returns first. *)
Lemma two_callers {G} (coef0 : option G) (compute : N → option G) (v : G) :
  compute 3%N = Some v →
  ∃ s, run coef0 compute init
    [LCall 1 3%N; LTau; LTau; LTau; LCall 2 3%N; LTau; LTau; LTau; LTau; LTau; LReturn 2 3%N v; LReturn 1 3%N v] s.
Proof.
  intros Hv. pose proof (run_nil coef0 compute init) as R.
  fwd R (step_call coef0 compute _ 1 3%N).
  fwd R (step_miss coef0 compute _ 1 3%N).
  fwd R (step_new_once coef0 compute _ 1 3%N).
  fwd R (step_enter coef0 compute _ 1 3%N 0).
  fwd R (step_call coef0 compute _ 2 3%N).
  fwd R (step_miss coef0 compute _ 2 3%N).
  fwd R (step_old_once coef0 compute _ 2 3%N 0).
  fwd R (step_store coef0 compute _ 1 3%N 0 v).
  fwd R (step_done coef0 compute _ 1 3%N 0).
  fwd R (step_pass coef0 compute _ 2 3%N 0).
  fwd R (step_return coef0 compute _ 2 3%N v).
  fwd R (step_return coef0 compute _ 1 3%N v).
  eexists. exact R.
Qed.
