(** Every Verify call finishes: a measure for the verifier, and absence of deadlock. *)
From stdpp Require Import gmap vector.
From Verif.Base Require Import Base.
From Verif.Model Require Import Merkle Verifier.
From Verif.Spec Require Import VerifierSpec.
From Verif.Proofs Require Import VerifierExec.

(** Sums over finite maps. *)
Definition msum {A} (f : A → nat) (m : gmap nat A) : nat := sum_list_with (f ∘ snd) (map_to_list m).
Lemma sum_list_with_perm {A} (f : A → nat) l l' : l ≡ₚ l' → sum_list_with f l = sum_list_with f l'.
Proof. induction 1; simpl; lia. Qed.
Lemma msum_insert {A} (f : A → nat) m i x : m !! i = None → msum f (<[i:=x]> m) = f x + msum f m.
Proof. intros Hm. unfold msum. by rewrite (sum_list_with_perm _ _ _ (map_to_list_insert _ _ _ Hm)). Qed.
Lemma msum_delete {A} (f : A → nat) m i x : m !! i = Some x → msum f m = f x + msum f (delete i m).
Proof. intros Hm. rewrite <-(insert_delete m i x Hm) at 1. apply msum_insert, lookup_delete. Qed.
Lemma msum_mono {A} (f g : A → nat) m : (∀ i x, m !! i = Some x → f x ≤ g x) → msum f m ≤ msum g m.
Proof.
  intros Hfg. unfold msum. assert (Hf : ∀ p, p ∈ map_to_list m → f p.2 ≤ g p.2).
  { intros [i x] Hp%elem_of_map_to_list. by eapply Hfg. }
  induction (map_to_list m) as [|p l IH]; simpl; [done|].
  pose proof (Hf p ltac:(left)). assert (∀ p, p ∈ l → f p.2 ≤ g p.2) as Hf' by (intros; apply Hf; by right).
  specialize (IH Hf'). lia.
Qed.
(** Replacing one entry while no other entry's weight grows. *)
Lemma msum_update {A} (f g : A → nat) m i x x' :
  m !! i = Some x → (∀ j y, j ≠ i → m !! j = Some y → g y ≤ f y) →
  msum g (<[i:=x']> m) + f x ≤ msum f m + g x'.
Proof.
  intros Hx Hle. rewrite <-insert_delete_insert, msum_insert by apply lookup_delete.
  rewrite (msum_delete f m i x Hx).
  assert (msum g (delete i m) ≤ msum f (delete i m)); [|lia].
  apply msum_mono. intros j y [Hj Hy]%lookup_delete_Some. eapply Hle; eauto.
Qed.

Section live.
Context (H : bytes → digest) {PK B : Type} (enc : B → option rcert → bytes)
        (sigok : PK → digest → bytes → bool).
Notation vstate := (vstate PK B).

(** A call that has not won a task yet may have to start over. *)
Definition unwon (p : vpc) : bool :=
  match p with PPop | PAuth _ | PStore _ | PCas _ _ | PWait _ _ false | PDel _ _ false | PRetry _ => true | _ => false end.
Definition held (p : vpc) : gset nat :=
  match p with PCas _ t | PSend _ t | PWait _ t _ | PDel _ t _ => {[t]} | _ => ∅ end.
Definition base (p : vpc) : nat :=
  match p with PDone _ => 0 | PRet _ => 1 | PDel _ _ _ => 2 | PWait _ _ _ => 3 | PSend _ _ => 5 | PCas _ _ => 6
  | PStore _ => 10 | PAuth _ => 11 | PPop => 13 | PRetry _ => 14 end.
Definition st_fresh (st : tstate) : bool := match st with TFresh => true | _ => false end.
Definition won (tk : gmap nat (vtask PK)) (t : nat) : Prop := ∃ k, tk !! t = Some k ∧ st_fresh (vt_st k) = false.
Global Instance won_dec tk t : Decision (won tk t).
Proof.
  unfold won. destruct (tk !! t) as [k|]; [|right; by intros (? & ? & ?)].
  destruct (st_fresh (vt_st k)) eqn:E; [right; intros (? & [= <-] & ?); congruence|left; eauto].
Defined.
Definition mrange (mp : gmap digest nat) : gset nat := list_to_set (map_to_list mp).*2.
Lemma elem_mrange mp t : t ∈ mrange mp ↔ ∃ d, mp !! d = Some t.
Proof.
  unfold mrange. rewrite elem_of_list_to_set, elem_of_list_fmap. split.
  - intros ([d t'] & -> & Hin%elem_of_map_to_list). eauto.
  - intros [d Hd]. exists (d, t). split; [done|]. by apply elem_of_map_to_list.
Qed.
(** Decided tasks this call may still run into. *)
Definition seen (s : vstate) (p : vpc) : gset nat := filter (won (v_tasks s)) (held p ∪ mrange (v_map s)).
Definition U (s : vstate) : nat := msum (λ x, if unwon (th_pc x) then 1 else 0) (v_thr s).
Definition weight (u : nat) (s : vstate) (x : vthread PK) : nat :=
  length (th_defers x) + base (th_pc x) + (if unwon (th_pc x) then 20 * (u + size (seen s (th_pc x))) else 0).
Definition tweight (k : vtask PK) : nat := match vt_st k with TFresh => 3 | TTaken => 2 | TQueued => 1 | TReady _ => 0 end.
Definition measure (s : vstate) : nat := msum (weight (U s) s) (v_thr s) + msum tweight (v_tasks s).

(** Invariants needed. *)
Definition linked (s : vstate) (p : vpc) : Prop :=
  match p with
  | PCas c t | PSend c t => ∃ k, v_tasks s !! t = Some k ∧ root_of (vt_cert k) = root_of c
  | PWait c t _ | PDel c t _ => ∃ k, v_tasks s !! t = Some k ∧ root_of (vt_cert k) = root_of c ∧ vt_st k ≠ TFresh
  | _ => True
  end.
Record linv (s : vstate) : Prop := mkLinv {
  l_obj : ∀ i x, v_thr s !! i = Some x → is_Some (v_objs s !! th_obj x);
  l_link : ∀ i x, v_thr s !! i = Some x → linked s (th_pc x);
  l_taken : ∀ t k, v_tasks s !! t = Some k → vt_st k = TTaken → ∃ i x c, v_thr s !! i = Some x ∧ th_pc x = PSend c t;
  l_map : ∀ d t, v_map s !! d = Some t → ∃ k, v_tasks s !! t = Some k ∧ root_of (vt_cert k) = d }.

Definition tk_le (s s' : vstate) : Prop :=
  ∀ t k, v_tasks s !! t = Some k → ∃ k', v_tasks s' !! t = Some k' ∧ vt_cert k' = vt_cert k ∧
    (vt_st k ≠ TFresh → vt_st k' ≠ TFresh).
Lemma linked_mono s s' p : tk_le s s' → linked s p → linked s' p.
Proof.
  intros Hle. destruct p; simpl; try done.
  all: intros (k & Hk & Hr); destruct (Hle _ _ Hk) as (k' & ? & E & ?); exists k'; rewrite E; naive_solver.
Qed.
Lemma linv_move s s' i x x' v :
  linv s → v_thr s !! i = Some x → v_thr s' = <[i:=x']> (v_thr s) → th_obj x' = th_obj x →
  (v_objs s' = v_objs s ∨ v_objs s' = <[th_obj x := v]> (v_objs s)) → tk_le s s' → linked s' (th_pc x') →
  (∀ t k, v_tasks s' !! t = Some k → vt_st k = TTaken →
     (v_tasks s !! t = Some k ∧ ∀ c, th_pc x ≠ PSend c t) ∨ ∃ c, th_pc x' = PSend c t) →
  (∀ d t, v_map s' !! d = Some t → ∃ k, v_tasks s' !! t = Some k ∧ root_of (vt_cert k) = d) →
  linv s'.
Proof.
  intros [Lo Ll Lt Lm] Hx Et Eo Hobj Hle Hlink Htk Hm. constructor.
  - intros j y. rewrite Et. intros Hy. assert (is_Some (v_objs s !! th_obj y)) as Hs.
    { destruct (decide (j = i)) as [->|]; [rewrite lookup_insert in Hy; injection Hy as <-; rewrite Eo; eauto|].
      rewrite lookup_insert_ne in Hy by done. eauto. }
    destruct Hobj as [->| ->]; [done|]. destruct (decide (th_obj x = th_obj y)) as [->|]; [rewrite lookup_insert; eauto|].
    by rewrite lookup_insert_ne.
  - intros j y. rewrite Et. destruct (decide (j = i)) as [->|].
    + rewrite lookup_insert. by intros [= <-].
    + rewrite lookup_insert_ne by done. intros Hy. eapply linked_mono; eauto.
  - intros t k Hk Hst. rewrite Et. destruct (Htk _ _ Hk Hst) as [[Hk' Hno]|[c Hc]].
    + destruct (Lt _ _ Hk' Hst) as (j & y & c & Hy & Hp). destruct (decide (j = i)) as [->|].
      * rewrite Hx in Hy. injection Hy as <-. by destruct (Hno c).
      * exists j, y, c. by rewrite lookup_insert_ne.
    + exists i, x', c. by rewrite lookup_insert.
  - done.
Qed.

Ltac inv_step Hst :=
  inversion Hst as [i pk' o' Hi Ho' Hg|i x v Hi Hp Hv|i x v c Hi Hp Hv|i x c t Hi Hp Hm|i x c t Hi Hp Hm Hk
    |i x c t k Hi Hp Hk Hst'|i x c t k Hi Hp Hk Hst'|i x c t k Hi Hp Hk|t k Hk Hst'|i x c t b k ok Hi Hp Hk Hst'
    |i x c t b k Hi Hp Hk|i x c v Hi Hp Hv|i x r c cs v Hi Hp Hd Hv|i x r Hi Hp Hd|d]; subst.
Lemma tk_le_upd (s s' : vstate) t k k' : v_tasks s !! t = Some k → v_tasks s' = <[t:=k']> (v_tasks s) → vt_cert k' = vt_cert k →
  (vt_st k ≠ TFresh → vt_st k' ≠ TFresh) → tk_le s s'.
Proof.
  intros Hk E Ec Es t0 k0 Hk0. rewrite E. destruct (decide (t = t0)) as [<-|].
  - rewrite lookup_insert. replace k0 with k by congruence. eauto.
  - rewrite lookup_insert_ne by done. eauto.
Qed.
Lemma map_upd (s : vstate) (m : gmap digest nat) t k k' : v_tasks s !! t = Some k → vt_cert k' = vt_cert k →
  (∀ d t, m !! d = Some t → ∃ k, v_tasks s !! t = Some k ∧ root_of (vt_cert k) = d) →
  ∀ d t0, m !! d = Some t0 → ∃ k, <[t:=k']> (v_tasks s) !! t0 = Some k ∧ root_of (vt_cert k) = d.
Proof.
  intros Hk Ec Hm d t0 Hd. destruct (Hm _ _ Hd) as (k0 & Hk0 & E). destruct (decide (t = t0)) as [<-|].
  - rewrite lookup_insert. eexists. split; [done|]. rewrite Ec. congruence.
  - rewrite lookup_insert_ne by done. eauto.
Qed.

Lemma linv_step G s s' : linv s → vstep H enc sigok G s s' → linv s'.
Proof.
  intros Hl Hst. pose proof Hl as [Lo Ll Lt Lm]. inv_step Hst.
  all: try (pose proof (Ll _ _ Hi) as Hlk; rewrite Hp in Hlk; cbn in Hlk).
  - constructor; cbn; try done.
    + intros j y. destruct (decide (j = i)) as [->|]; [rewrite lookup_insert; by intros [= <-]|].
      rewrite lookup_insert_ne by done. eauto.
    + intros j y. destruct (decide (j = i)) as [->|]; [rewrite lookup_insert; by intros [= <-]|].
      rewrite lookup_insert_ne by done. intros Hy. apply (Ll _ _ Hy).
    + intros t k Hk Hst'. destruct (Lt _ _ Hk Hst') as (j & y & c & Hy & Hp). exists j, y, c.
      rewrite lookup_insert_ne; [done|congruence].
  - eapply (linv_move s _ i x); try done; cbn; [by right|by intros ?; eauto|by destruct (ob_cert v)|].
    intros t k Hk _. left. split; [done|]. by rewrite Hp.
  - eapply (linv_move s _ i x _ v); try done; cbn; [by left|by intros ?; eauto|by destruct (auth H enc v c)|].
    intros t k Hk _. left. split; [done|]. by rewrite Hp.
  - destruct (Lo _ _ Hi) as [v Hv]. eapply (linv_move s _ i x _ v); try done; cbn; [by left|by intros ?; eauto| |].
    + by apply Lm.
    + intros t' k Hk _. left. split; [done|]. by rewrite Hp.
  - destruct (Lo _ _ Hi) as [v Hv]. eapply (linv_move s _ i x _ v); try done; cbn; [by left| | | |].
    + intros t' k' Hk'. cbn. rewrite lookup_insert_ne by congruence. eauto.
    + eexists. cbn. rewrite lookup_insert. done.
    + intros t' k'. destruct (decide (t = t')) as [<-|]; [rewrite lookup_insert; by intros [= <-]|].
      rewrite lookup_insert_ne by done. intros Hk' _. left. split; [done|]. by rewrite Hp.
    + intros d t'. destruct (decide (d = to_digest (rc_root c))) as [->|].
      * rewrite lookup_insert. intros [= <-]. rewrite lookup_insert. eauto.
      * rewrite lookup_insert_ne by done. intros (k & Hk' & E)%Lm. exists k. rewrite lookup_insert_ne; [done|congruence].
  - destruct (Lo _ _ Hi) as [v Hv]. destruct Hlk as (k0 & Hk0 & Er). replace k0 with k in * by congruence.
    eapply (linv_move s _ i x _ v); try done; cbn; [by left| | | |].
    + by eapply tk_le_upd.
    + eexists. cbn. rewrite lookup_insert. done.
    + intros t' k'. destruct (decide (t = t')) as [<-|]; [rewrite lookup_insert; eauto|].
      rewrite lookup_insert_ne by done. intros Hk' _. left. split; [done|]. by rewrite Hp.
    + by eapply map_upd.
  - destruct (Lo _ _ Hi) as [v Hv]. destruct Hlk as (k0 & Hk0 & Er). replace k0 with k in * by congruence.
    eapply (linv_move s _ i x _ v); try done; cbn; [by left|by intros ?; eauto|by exists k|].
    intros t' k' Hk' _. left. split; [done|]. by rewrite Hp.
  - destruct (Lo _ _ Hi) as [v Hv]. destruct Hlk as (k0 & Hk0 & Er). replace k0 with k in * by congruence.
    eapply (linv_move s _ i x _ v); try done; cbn; [by left| | | |].
    + by eapply tk_le_upd.
    + eexists. cbn. rewrite lookup_insert. done.
    + intros t' k'. destruct (decide (t = t')) as [<-|]; [rewrite lookup_insert; by intros [= <-]|].
      rewrite lookup_insert_ne by done. intros Hk' _. left. split; [done|]. rewrite Hp. congruence.
    + by eapply map_upd.
  - constructor; cbn; try done.
    + intros j y Hy. eapply linked_mono; [|by eapply Ll]. by eapply tk_le_upd.
    + intros t' k'. destruct (decide (t = t')) as [<-|]; [rewrite lookup_insert; by intros [= <-]|].
      rewrite lookup_insert_ne by done. apply Lt.
    + by eapply map_upd.
  - destruct (Lo _ _ Hi) as [v Hv]. eapply (linv_move s _ i x _ v); try done; cbn; [by left|by intros ?; eauto|by destruct ok|].
    intros t' k' Hk' _. left. split; [done|]. by rewrite Hp.
  - destruct (Lo _ _ Hi) as [v Hv]. eapply (linv_move s _ i x _ v); try done; cbn; [by left|by intros ?; eauto|by destruct (_ && _)| |].
    + intros t' k' Hk' _. left. split; [done|]. by rewrite Hp.
    + intros d t'. rewrite lookup_delete_Some. intros [_ ?]. by apply Lm.
  - eapply (linv_move s _ i x); try done; cbn; [by right|by intros ?; eauto|].
    intros t k Hk _. left. split; [done|]. by rewrite Hp.
  - eapply (linv_move s _ i x); try done; cbn; [by right|by intros ?; eauto|].
    intros t k Hk _. left. split; [done|]. by rewrite Hp.
  - destruct (Lo _ _ Hi) as [v Hv]. eapply (linv_move s _ i x _ v); try done; cbn; [by left|by intros ?; eauto|].
    intros t' k' Hk' _. left. split; [done|]. by rewrite Hp.
  - constructor; cbn; try done. intros d' t. rewrite lookup_delete_Some. intros [_ ?]. by apply Lm.
Qed.
Lemma linv_reach G ob s : rtc (vstep H enc sigok G) (v_init ob) s → linv s.
Proof.
  intros Hr. apply (rtc_ind_r linv (v_init ob)) with (z := s) in Hr; [done| |].
  - constructor; cbn; try done.
  - intros s1 s2 _ Hst Hi. by eapply linv_step.
Qed.

(** *** Progress *)
Lemma progress G s i x : linv s → v_thr s !! i = Some x → active x →
  ∃ s', vstep H enc sigok G s s' ∧ ∀ d, s' ≠ with_map s (delete d (v_map s)).
Proof.
  intros [Lo Ll Lt Lm] Hi Ha. destruct (Lo _ _ Hi) as [v Hv].
  pose proof (Ll _ _ Hi) as Hlk.
  assert (Hneq : ∀ s' x', v_thr s' = <[i:=x']> (v_thr s) → x' ≠ x → ∀ d, s' ≠ with_map s (delete d (v_map s))).
  { intros s' x' E Hne d ->. cbn in E. assert (Some x = Some x') as [= ->]; [|done].
    rewrite <-Hi, E. apply lookup_insert. }
  unfold active in Ha. destruct (th_pc x) eqn:Hp; cbn in Hlk; try done.
  - eexists. split; [eapply V_pop; eauto|]. eapply Hneq; [reflexivity|]. intros E. rewrite <-E in Hp. cbn in Hp. by destruct (ob_cert v).
  - eexists. split; [eapply V_auth; eauto|]. eapply Hneq; [reflexivity|]. intros E. rewrite <-E in Hp. cbn in Hp. by destruct (auth _ _ _ _).
  - destruct (v_map s !! to_digest (rc_root c)) as [t|] eqn:Em.
    + eexists. split; [eapply V_load; eauto|]. eapply Hneq; [reflexivity|]. intros E. by rewrite <-E in Hp.
    + eexists. split; [eapply (V_store _ _ _ _ _ i x c (fresh (dom (v_tasks s)))); eauto|].
      * apply not_elem_of_dom, is_fresh.
      * eapply Hneq; [reflexivity|]. intros E. by rewrite <-E in Hp.
  - destruct Hlk as (k & Hk & _). destruct (st_fresh (vt_st k)) eqn:Ef.
    + eexists. split; [eapply V_cas_won; eauto; by destruct (vt_st k)|]. eapply Hneq; [reflexivity|]. intros E. by rewrite <-E in Hp.
    + eexists. split; [eapply V_cas_lost; eauto; by destruct (vt_st k)|]. eapply Hneq; [reflexivity|]. intros E. by rewrite <-E in Hp.
  - destruct Hlk as (k & Hk & _). eexists. split; [eapply V_send; eauto|]. eapply Hneq; [reflexivity|]. intros E. by rewrite <-E in Hp.
  - destruct Hlk as (k & Hk & _ & Hnf). destruct (vt_st k) as [| | |ok] eqn:Est; [done| | |].
    + destruct (Lt _ _ Hk Est) as (j & y & c' & Hj & Hpj).
      eexists. split; [eapply V_send; eauto|]. intros d E. apply (f_equal v_tasks) in E. cbn in E.
      assert (Some k = Some (set_st k TQueued)) as [= E2]; [|by rewrite E2 in Est].
      rewrite <-Hk, <-E. apply lookup_insert.
    + eexists. split; [eapply V_work; eauto|]. intros d E. apply (f_equal v_tasks) in E. cbn in E.
      assert (Some k = Some (set_st k (TReady (sig_valid sigok (vt_pk k) (vt_cert k))))) as [= E2]; [|by rewrite E2 in Est].
      rewrite <-Hk, <-E. apply lookup_insert.
    + eexists. split; [eapply V_ready; eauto|]. eapply Hneq; [reflexivity|]. intros E. rewrite <-E in Hp. cbn in Hp. by destruct ok.
  - destruct Hlk as (k & Hk & _). eexists. split; [eapply V_delete; eauto|]. eapply Hneq; [reflexivity|]. intros E. rewrite <-E in Hp. cbn in Hp. by destruct (_ && _).
  - eexists. split; [eapply V_retry; eauto|]. eapply Hneq; [reflexivity|]. intros E. by rewrite <-E in Hp.
  - destruct (th_defers x) as [|c cs] eqn:Ed.
    + eexists. split; [eapply V_return; eauto|]. eapply Hneq; [reflexivity|]. intros E. by rewrite <-E in Hp.
    + eexists. split; [eapply V_unwind; eauto|]. eapply Hneq; [reflexivity|]. intros E. rewrite <-E in Ed. cbn in Ed.
      apply (f_equal length) in Ed. cbn in Ed. lia.
Qed.

(** *** Termination *)
Lemma seen_mono (s s' : vstate) p p' :
  (∀ t, won (v_tasks s') t → t ∈ held p' ∪ mrange (v_map s') → won (v_tasks s) t ∧ t ∈ held p ∪ mrange (v_map s)) →
  size (seen s' p') ≤ size (seen s p).
Proof. intros Hs. apply subseteq_size. intros t. unfold seen. rewrite !elem_of_filter. naive_solver. Qed.
Lemma won_upd (tk : gmap nat (vtask PK)) t k k' t0 : tk !! t = Some k → st_fresh (vt_st k') = st_fresh (vt_st k) →
  won (<[t:=k']> tk) t0 ↔ won tk t0.
Proof.
  intros Hk E. unfold won. destruct (decide (t = t0)) as [<-|].
  - rewrite lookup_insert, Hk. split; intros (? & [= <-] & ?); eexists; split; eauto; congruence.
  - by rewrite lookup_insert_ne.
Qed.
Definition nwt (x : vthread PK) : nat := if unwon (th_pc x) then 1 else 0.

(** A step of call i that does not decide a task: nobody's set of decided tasks grows. *)
Lemma measure_move (s s' : vstate) i x x' :
  v_thr s !! i = Some x → v_thr s' = <[i:=x']> (v_thr s) →
  (unwon (th_pc x') = true → unwon (th_pc x) = true) →
  (∀ p, size (seen s' p) ≤ size (seen s p)) →
  (∃ e, msum tweight (v_tasks s') ≤ msum tweight (v_tasks s) + e ∧
   length (th_defers x') + base (th_pc x') + e +
     (if unwon (th_pc x') then 20 * size (seen s' (th_pc x')) else 0) <
   length (th_defers x) + base (th_pc x) + (if unwon (th_pc x) then 20 * size (seen s (th_pc x)) else 0)) →
  measure s' < measure s.
Proof.
  intros Hx Et Hu Hseen (e & He & Hlt).
  assert (HU : U s' ≤ U s).
  { unfold U. rewrite Et. pose proof (msum_update nwt nwt (v_thr s) i x x' Hx ltac:(done)) as Hm.
    unfold nwt in Hm at 2 4. unfold nwt in Hm. destruct (unwon (th_pc x')); [rewrite Hu in Hm by done|]; destruct (unwon (th_pc x)); lia. }
  unfold measure. rewrite Et.
  pose proof (msum_update (weight (U s) s) (weight (U s') s') (v_thr s) i x x' Hx) as Hm.
  assert (Hw : ∀ y, weight (U s') s' y ≤ weight (U s) s y).
  { intros y. unfold weight. specialize (Hseen (th_pc y)). destruct (unwon (th_pc y)); lia. }
  specialize (Hm (λ j y _ _, Hw y)).
  assert (weight (U s') s' x' + e < weight (U s) s x); [|lia].
  unfold weight. destruct (unwon (th_pc x')) eqn:E; [rewrite Hu in * by done; lia|]. destruct (unwon (th_pc x)); lia.
Qed.

Lemma tweight_upd tk t (k k' : vtask PK) : tk !! t = Some k → msum tweight (<[t:=k']> tk) + tweight k = msum tweight tk + tweight k'.
Proof.
  intros Hk. rewrite <-insert_delete_insert, msum_insert by apply lookup_delete.
  rewrite (msum_delete tweight tk t k Hk). lia.
Qed.
Lemma tweight_le (k : vtask PK) : tweight k ≤ 3.
Proof. unfold tweight. destruct (vt_st k); lia. Qed.

Lemma measure_step s s' :
  linv s → senders s → vstep H enc sigok (λ _ _ _, False) s s' → (∀ d, s' ≠ with_map s (delete d (v_map s))) → measure s' < measure s.
Proof.
  intros [Lo Ll Lt Lm] Hsend Hst Hnc. inv_step Hst; [done|..].
  all: try (pose proof (Ll _ _ Hi) as Hlk; rewrite Hp in Hlk; cbn in Hlk).
  - eapply (measure_move s _ i x); [done|reflexivity|by rewrite Hp|done|].
    exists 0. cbn. rewrite Hp. split; [lia|]. destruct (ob_cert v); cbn; try lia.
    match goal with |- context [size (seen ?a ?b)] => change (seen a b) with (seen s PPop) end. lia.
  - eapply (measure_move s _ i x); [done|reflexivity|by rewrite Hp|done|].
    exists 0. cbn. rewrite Hp. split; [lia|]. destruct (auth _ _ _ _); cbn; try lia.
    match goal with |- context [size (seen ?a (PStore c))] => change (seen a (PStore c)) with (seen s (PAuth c)) end. lia.
  - eapply (measure_move s _ i x); [done|reflexivity|by rewrite Hp|done|].
    exists 0. cbn. rewrite Hp. split; [lia|]. cbn.
    assert (size (seen (with_thr s i (set_pc x (PCas c t))) (PCas c t)) ≤ size (seen s (PStore c))); [|lia].
    apply seen_mono. cbn. intros t' Hw Hin. split; [done|]. assert (t ∈ mrange (v_map s)) by (apply elem_mrange; eauto). set_solver.
  - assert (Hw : ∀ t', won (<[t:=mkVTask (th_pk x) c TFresh]> (v_tasks s)) t' → won (v_tasks s) t' ∧ t' ≠ t).
    { intros t' (k & Hk' & E). destruct (decide (t = t')) as [<-|]; [rewrite lookup_insert in Hk'; injection Hk' as <-; done|].
      rewrite lookup_insert_ne in Hk' by done. split; [by exists k|done]. }
    assert (Hr : ∀ t', t' ∈ mrange (<[to_digest (rc_root c):=t]> (v_map s)) → t' = t ∨ t' ∈ mrange (v_map s)).
    { intros t' [d Hd]%elem_mrange. apply lookup_insert_Some in Hd as [[_ <-]|[_ Hd]]; [by left|]. right. apply elem_mrange. eauto. }
    eapply (measure_move s _ i x); [done|reflexivity|by rewrite Hp| |].
    + intros p. apply seen_mono. cbn. intros t' [Hw' Hne]%Hw [Hin|Hin]%elem_of_union; [set_solver|].
      apply Hr in Hin as [?|?]; [done|set_solver].
    + exists 3. cbn. split; [rewrite msum_insert by done; cbn; lia|]. rewrite Hp. cbn.
      match goal with |- context [size (seen ?a (PCas c t))] => assert (size (seen a (PCas c t)) ≤ size (seen s (PStore c))); [|lia] end.
      apply seen_mono. cbn. intros t' [Hw' Hne]%Hw [Hin|Hin]%elem_of_union; [set_solver|].
      apply Hr in Hin as [?|?]; [done|set_solver].
  - (* a call wins a task *)
    destruct Hlk as (k0 & Hk0 & _). replace k0 with k in * by congruence.
    set (s' := with_thr (with_task s t (set_st k TTaken)) i (set_pc x (PSend c t))).
    assert (HU : U s' + 1 ≤ U s).
    { unfold U, s'. cbn. pose proof (msum_update nwt nwt (v_thr s) i x (set_pc x (PSend c t)) Hi ltac:(done)) as Hm.
      unfold nwt in Hm at 2 4. rewrite Hp in Hm. cbn in Hm. unfold nwt in Hm. lia. }
    assert (Hseen : ∀ p, size (seen s' p) ≤ size (seen s p) + 1).
    { intros p. etrans; [apply (subseteq_size _ ({[t]} ∪ seen s p))|].
      - intros t'. unfold seen, s'. cbn. rewrite elem_of_union, !elem_of_filter, elem_of_singleton.
        intros [(k' & Hk' & E) Hin]. destruct (decide (t' = t)) as [->|]; [by left|]. right. split; [|done].
        rewrite lookup_insert_ne in Hk' by done. by exists k'.
      - rewrite size_union_alt. rewrite size_singleton. pose proof (subseteq_size (seen s p ∖ {[t]}) (seen s p) ltac:(set_solver)). lia. }
    unfold measure. change (v_thr s') with (<[i:=set_pc x (PSend c t)]> (v_thr s)).
    pose proof (msum_update (weight (U s) s) (weight (U s') s') (v_thr s) i x (set_pc x (PSend c t)) Hi) as Hm.
    assert (Hw : ∀ y, weight (U s') s' y ≤ weight (U s) s y).
    { intros y. unfold weight. specialize (Hseen (th_pc y)). destruct (unwon (th_pc y)); lia. }
    specialize (Hm (λ j y _ _, Hw y)). unfold weight in Hm at 2 4. rewrite Hp in Hm. cbn in Hm.
    pose proof (tweight_upd (v_tasks s) t k (set_st k TTaken) Hk) as Ht. unfold tweight in Ht at 2 4. rewrite Hst' in Ht. cbn in Ht.
    change (v_tasks s') with (<[t:=set_st k TTaken]> (v_tasks s)). lia.
  - eapply (measure_move s _ i x); [done|reflexivity|by rewrite Hp|done|].
    exists 0. cbn. rewrite Hp. split; [lia|]. cbn.
    match goal with |- context [size (seen ?a (PWait c t false))] => change (seen a (PWait c t false)) with (seen s (PCas c t)) end. lia.
  - destruct Hlk as (k0 & Hk0 & _). replace k0 with k in * by congruence. clear Hk0.
    destruct (Hsend _ _ _ _ Hi Hp) as [(k1 & Hk1 & Hst') _]. replace k1 with k in * by congruence.
    eapply (measure_move s _ i x); [done|reflexivity|by rewrite Hp| |].
    + intros p. apply seen_mono. cbn. intros t' Hw Hin. split; [|done]. apply (won_upd _ t k) in Hw; [done|done|]. by rewrite Hst'.
    + exists 0. cbn. rewrite Hp. split; [|cbn; lia].
      pose proof (tweight_upd (v_tasks s) t k (set_st k TQueued) Hk) as Ht. unfold tweight in Ht at 2 4. rewrite Hst' in Ht. cbn in Ht. lia.
  - (* a worker *)
    unfold measure.
    set (s' := with_task s t (set_st k (TReady (sig_valid sigok (vt_pk k) (vt_cert k))))).
    change (U s') with (U s). change (v_thr s') with (v_thr s).
    assert (msum (weight (U s) s') (v_thr s) ≤ msum (weight (U s) s) (v_thr s)).
    { apply msum_mono. intros j y _. unfold weight. assert (size (seen s' (th_pc y)) ≤ size (seen s (th_pc y))); [|destruct (unwon _); lia].
      apply seen_mono. intros t' Hw Hin. split; [|done]. unfold s' in Hw. cbn in Hw. apply (won_upd _ t k) in Hw; [done|done|]. by rewrite Hst'. }
    pose proof (tweight_upd (v_tasks s) t k (set_st k (TReady (sig_valid sigok (vt_pk k) (vt_cert k)))) Hk) as Ht.
    unfold tweight in Ht at 2 4. rewrite Hst' in Ht. cbn in Ht.
    change (v_tasks s') with (<[t:=set_st k (TReady (sig_valid sigok (vt_pk k) (vt_cert k)))]> (v_tasks s)). lia.
  - eapply (measure_move s _ i x); [done|reflexivity| |done|].
    + rewrite Hp. cbn. by destruct ok, b.
    + exists 0. cbn. rewrite Hp. split; [lia|]. destruct ok; cbn; [destruct b; lia|].
      match goal with |- context [size (seen ?a (PDel c t b))] => change (seen a (PDel c t b)) with (seen s (PWait c t b)) end. destruct b; lia.
  - (* delete *)
    destruct Hlk as (k0 & Hk0 & Er & Hnf). replace k0 with k in * by congruence.
    assert (Hr : ∀ t', t' ∈ mrange (delete (to_digest (rc_root c)) (v_map s)) → t' ∈ mrange (v_map s) ∧ t' ≠ t).
    { intros t' [d Hd]%elem_mrange. apply lookup_delete_Some in Hd as [Hne Hd]. split; [apply elem_mrange; eauto|].
      intros ->. apply Lm in Hd as (k1 & Hk1 & E). replace k1 with k in * by congruence. apply Hne. rewrite <-E. symmetry. exact Er. }
    eapply (measure_move s _ i x); [done|reflexivity| | |].
    + rewrite Hp. cbn. destruct b; cbn; [done|]. by destruct (bool_decide _).
    + intros p. apply seen_mono. cbn. intros t' Hw Hin. split; [done|]. set_solver.
    + exists 0. cbn. rewrite Hp. split; [lia|]. destruct b; cbn; [lia|]. destruct (bool_decide _); cbn; [|lia].
      match goal with |- context [size (seen ?a (PRetry c))] => assert (size (seen a (PRetry c)) < size (seen s (PDel c t false))); [|lia] end.
      apply subset_size. split.
      * intros t'. unfold seen. cbn. rewrite !elem_of_filter. set_solver.
      * intros Hsub. assert (Ht : t ∈ seen s (PDel c t false)).
        { unfold seen. rewrite elem_of_filter. split; [exists k; split; [done|]; by destruct (vt_st k)|]. cbn. set_solver. }
        apply Hsub in Ht. unfold seen in Ht. cbn in Ht. rewrite elem_of_filter in Ht. set_solver.
  - eapply (measure_move s _ i x); [done|reflexivity|by rewrite Hp|done|].
    exists 0. cbn. rewrite Hp. split; [lia|]. cbn.
    match goal with |- context [size (seen ?a PPop)] => change (seen a PPop) with (seen s (PRetry c)) end. lia.
  - eapply (measure_move s _ i x); [done|reflexivity|by rewrite Hp|done|].
    exists 0. cbn. rewrite Hp, Hd. split; [lia|]. cbn. lia.
  - eapply (measure_move s _ i x); [done|reflexivity|by rewrite Hp|done|].
    exists 0. cbn. rewrite Hp. split; [lia|]. cbn. lia.
  - by destruct (Hnc d).
Qed.
Lemma measure_clean (s : vstate) d : measure (with_map s (delete d (v_map s))) ≤ measure s.
Proof.
  unfold measure. change (U (with_map s (delete d (v_map s)))) with (U s). cbn.
  assert (msum (weight (U s) (with_map s (delete d (v_map s)))) (v_thr s) ≤ msum (weight (U s) s) (v_thr s)); [|lia].
  apply msum_mono. intros j y _. unfold weight.
  assert (size (seen (with_map s (delete d (v_map s))) (th_pc y)) ≤ size (seen s (th_pc y))); [|destruct (unwon _); lia].
  apply seen_mono. cbn. intros t' Hw Hin. split; [done|]. apply elem_of_union in Hin as [Hin|Hin]; [set_solver|].
  apply elem_mrange in Hin as [d' Hd]. apply lookup_delete_Some in Hd as [_ Hd]. apply elem_of_union_r, elem_mrange. eauto.
Qed.
End live.
