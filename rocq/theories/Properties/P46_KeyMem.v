(** C101-C104: key objects and the memory they share. *)
From stdpp Require Import gmap.
From Verif.Base Require Import Base.
From Verif.Model Require Import TibeCodec KeyMem.
From Verif.Proofs Require Import KeyMemProofs.
From Verif.Properties Require Import P11_TibeCodec.

Section KeyMem.
Context {K G D : Type} `{EqDecision K} `{EqDecision G} (ops : keyops K G D).
Notation state := (@KeyMem.state K G).
Notation label := (@KeyMem.label K G D).
Notation run := (KeyMem.run ops).
Notation step := (KeyMem.step ops).

(** A history of calls and of the caller's own writes, from the start of the program. *)
Definition history (h : list label) (s : state) : Prop := ∃ rs, run h init = Some (s, rs).
Definition continues (s : state) (h : list label) (s' : state) : Prop := ∃ rs, run h s = Some (s', rs).

(** The value the caller last wrote through a pointer, or the one that was there. *)
Definition lastScalar (x : nat) (h : list label) (v : K) : K :=
  foldl (λ v l, match l with LWriteScalar y w => if decide (y = x) then w else v | _ => v end) v h.
Definition lastPoint (x : nat) (h : list label) (v : G) : G :=
  foldl (λ v l, match l with LWritePoint y w => if decide (y = x) then w else v | _ => v end) v h.

Lemma continues_wf s h s' : wf s → continues s h s' → wf s'.
Proof. intros W [rs Hr]. by eapply run_wf. Qed.
Lemma history_wf h s : history h s → wf s.
Proof. apply continues_wf, wf_init. Qed.

(** An invariant of all continuations. *)
Lemma continues_ind (P : state → Prop) s h s' :
  wf s → P s → (∀ l s1 s2 r, wf s1 → P s1 → l ∈ h → step l s1 = Some (s2, r) → P s2) → continues s h s' → P s'.
Proof.
  intros W HP Hs [rs Hr]. revert s rs W HP Hr. induction h as [|l h IH]; intros s rs W HP; simpl.
  { by intros [= <- <-]. }
  destruct (step l s) as [[s1 r]|] eqn:E; [simpl|done].
  destruct (run h s1) as [[s2 rs2]|] eqn:E2; [simpl|done]. intros [= <- <-].
  eapply (IH (λ l' s1 s2 r W1 HP1 Hl, Hs l' s1 s2 r W1 HP1 (elem_of_list_further _ _ _ Hl)) s1 rs2); [..|exact E2].
  - by eapply f_wf, step_frame.
  - eapply Hs; [exact W|exact HP|left|exact E].
Qed.
Lemma lt_of_sc (s : state) x v : wf s → sc s !! x = Some v → x < next s.
Proof. intros W Hx. destruct (decide (x < next s)); [done|]. rewrite (wf_sc _ W) in Hx; [done|lia]. Qed.
Lemma lt_of_pt (s : state) x v : wf s → pt s !! x = Some v → x < next s.
Proof. intros W Hx. destruct (decide (x < next s)); [done|]. rewrite (wf_pt _ W) in Hx; [done|lia]. Qed.

Lemma step_scalar l s s' r x v : wf s → step l s = Some (s', r) → sc s !! x = Some v →
  sc s' !! x = Some (lastScalar x [l] v).
Proof.
  intros W Hs Hx. pose proof (lt_of_sc _ _ _ W Hx) as Lx.
  assert (writesScalar l x ∨ ¬ writesScalar l x) as [[w ->]|Hn].
  { destruct l; try (right; intros [? ?]; done). destruct (decide (l = x)) as [->|].
    - left. by eexists. - right. intros [? ?]. congruence. }
  - simpl. rewrite decide_True by done. unfold KeyMem.step in Hs.
    destruct (holds _ _); [|done]. simpl in Hs. rewrite Hx in Hs. simpl in Hs. injection Hs as <- <-.
    simpl. by rewrite lookup_insert.
  - rewrite (f_sc _ _ _ (step_frame ops l s s' r W Hs) x Lx Hn), Hx. f_equal. simpl.
    destruct l; try done. destruct (decide (l = x)) as [->|]; [|done]. destruct Hn. by eexists.
Qed.
Lemma step_point l s s' r x v : wf s → step l s = Some (s', r) → pt s !! x = Some v →
  pt s' !! x = Some (lastPoint x [l] v).
Proof.
  intros W Hs Hx. pose proof (lt_of_pt _ _ _ W Hx) as Lx.
  assert (writesPoint l x ∨ ¬ writesPoint l x) as [[w ->]|Hn].
  { destruct l; try (right; intros [? ?]; done). destruct (decide (l = x)) as [->|].
    - left. by eexists. - right. intros [? ?]. congruence. }
  - simpl. rewrite decide_True by done. unfold KeyMem.step in Hs.
    destruct (holds _ _); [|done]. simpl in Hs. rewrite Hx in Hs. simpl in Hs. injection Hs as <- <-.
    simpl. by rewrite lookup_insert.
  - rewrite (f_pt _ _ _ (step_frame ops l s s' r W Hs) x Lx Hn), Hx. f_equal. simpl.
    destruct l; try done. destruct (decide (l = x)) as [->|]; [|done]. destruct Hn. by eexists.
Qed.
Lemma run_scalar s h s' x v : wf s → continues s h s' → sc s !! x = Some v → sc s' !! x = Some (lastScalar x h v).
Proof.
  intros W [rs Hr]. revert s rs v W Hr. induction h as [|l h IH]; intros s rs v W; simpl; [by intros [= <- <-]|].
  destruct (step l s) as [[s1 r]|] eqn:E; [simpl|done].
  destruct (run h s1) as [[s2 rs2]|] eqn:E2; [simpl|done]. intros [= <- <-] Hx.
  change (lastScalar x (l :: h) v) with (lastScalar x h (lastScalar x [l] v)).
  eapply IH; [|exact E2|]; [by eapply f_wf, step_frame|]. by eapply step_scalar.
Qed.
Lemma run_point s h s' x v : wf s → continues s h s' → pt s !! x = Some v → pt s' !! x = Some (lastPoint x h v).
Proof.
  intros W [rs Hr]. revert s rs v W Hr. induction h as [|l h IH]; intros s rs v W; simpl; [by intros [= <- <-]|].
  destruct (step l s) as [[s1 r]|] eqn:E; [simpl|done].
  destruct (run h s1) as [[s2 rs2]|] eqn:E2; [simpl|done]. intros [= <- <-] Hx.
  change (lastPoint x (l :: h) v) with (lastPoint x h (lastPoint x [l] v)).
  eapply IH; [|exact E2|]; [by eapply f_wf, step_frame|]. by eapply step_point.
Qed.

(** ** C101: a node's own keys are fixed when it is created *)

(** What the proof keeps apart: the addresses Q are private. *)
Definition private (Q : nat → Prop) (s : state) : Prop :=
  (∀ l, Q l → l < next s ∧ l ∉ held s) ∧
  (∀ e o l, exps s !! e = Some o → elocs o l → ¬ Q l) ∧
  (∀ p cs l, polys s !! p = Some cs → ¬ Q p → Some l ∈ cs → ¬ Q l).
Lemma private_step Q l s s' r : wf s → private Q s → step l s = Some (s', r) →
  private Q s' ∧ (∀ x, Q x → sc s' !! x = sc s !! x ∧ pt s' !! x = pt s !! x ∧ polys s' !! x = polys s !! x).
Proof.
  intros W (P1&P2&P3) Hs. pose proof (step_frame ops l s s' r W Hs) as F.
  assert (∀ x, x ∈ args l → ¬ Q x) as Na.
  { intros x Hx Hq. apply (P1 x Hq). by eapply step_args. }
  pose proof (f_next _ _ _ F) as Ln.
  split; [split_and!|].
  - intros x Hx. destruct (P1 x Hx) as [? Nh]. split; [lia|]. intros Hh.
    destruct (f_heldn _ _ _ F x Hh) as [?|[?|(e&o&He&Ho)]]; [done|lia|]. by eapply P2.
  - intros e o x He Ho Hq. destruct (P1 x Hq) as [? Nh].
    destruct (f_exl _ _ _ F e o x He Ho) as [?|[?|(o0&Hs0&Ho0)]]; [done|lia|]. by eapply P2.
  - intros p cs x Hp Np Hx Hq. destruct (P1 x Hq) as [? Nh].
    destruct (f_pol _ _ _ F p cs x Hp Hx) as [?|[?|Hp0]]; [done|lia|]. by eapply P3.
  - intros x Hq. destruct (P1 x Hq) as [Lx _]. split_and!.
    + apply (f_sc _ _ _ F); [done|]. intros [w ->]. apply (Na x); [left|done].
    + apply (f_pt _ _ _ F); [done|]. intros [w ->]. apply (Na x); [left|done].
    + apply (f_po _ _ _ F); [done|]. intros [[w ->]|[w ->]]; (apply (Na x); [left|done]).
Qed.

(** Whatever the caller does afterwards (to the polynomial it passed, to anything it is given, with any
    pointer it holds), the decryption keys, the master public key and the shares handed out by the node
    are those of the polynomial as it was when the node was created; and none of these calls panics. *)
Theorem C101_node_keys_fixed h s0 p s1 n a vs h' s2 :
  element_laws (codecs ops) →
  history h s0 → step (LNewNode p) s0 = Some (s1, RPtr (Some n)) → polyValue s0 p = Some (a :: vs) →
  continues s1 h' s2 →
  (∀ id, step (LDecrypter n id) s2 = Some (s2, RKey (idkey ops a id))) ∧
  (∃ s3 l, step (LMpk n) s2 = Some (s3, RPtr (Some l)) ∧ pt s3 !! l = Some (gexp ops a)) ∧
  (∀ k, ∃ s3 r, step (LVssShares n k) s2 = Some (s3, RShares r) ∧ length r = k ∧
     ∀ j v, r !! j = Some v → v_index v = Z.of_nat (1 + j) ∧
       sc s3 !! v_value v = Some (evalp ops (a :: vs) (Z.of_nat (1 + j))) ∧
       expValue s3 (v_exp v) = Some (gexp ops <$> a :: vs) ∧
       pt s3 !! v_mpk v = Some (gexp ops a)).
Proof.
  intros laws Hh Hn Hv Hc. pose proof (history_wf _ _ Hh) as W0.
  pose proof (f_wf _ _ _ (step_frame ops _ _ _ _ W0 Hn)) as W1.
  unfold KeyMem.step in Hn. destruct (holds _ _); [|done]. simpl in Hn.
  destruct (newNode ops p s0) as [[s1' n']|] eqn:En; [simpl in Hn|done]. injection Hn as -> ->.
  destruct (newNode_ok _ _ _ _ _ W0 En) as
    (sA&ls&P&g&k&vs'&v&->&A&Ln&Hno&Fls&LP&Lg&Lk&N1&N2&N3&N4&N5&N6&N7&N8&N9&N10&Hv'&Hv0&HP&HF&Hk&Hg&Hex&Hpo).
  rewrite Hv in Hv'. injection Hv' as <-. simpl in Hv0. injection Hv0 as <-.
  set (Q := λ x, x ∈ ls ∨ x = P ∨ x = g ∨ x = k).
  assert (∀ x, Q x → next s0 ≤ x < next sA) as Qb.
  { rewrite Forall_forall in Fls. intros x [Hx|[->|[->| ->]]]; [by apply Fls|done..]. }
  set (I := λ s : state, private Q s ∧ (∃ o, nodes s !! n = Some o ∧ n_P o = P ∧ n_PK o = g ∧ n_S o = k) ∧
    polys s !! P = Some (Some <$> ls) ∧ Forall2 (λ l v, sc s !! l = Some v) ls (a :: vs) ∧
    sc s !! k = Some a ∧ pt s !! g = Some (gexp ops a) ∧ n ∈ held s).
  assert (I s2) as (HQ&(o&Ho&HoP&HoG&HoS)&HP2&HF2&Hk2&Hg2&Hh2).
  { eapply (continues_ind I); [exact W1|..|exact Hc].
    - split; [split_and!|split_and!]; simpl; try done.
      + intros l Hl. specialize (Qb l Hl). split; [lia|]. rewrite (g_held _ _ (proj2 A)).
        intros [Hi|Hi]%elem_of_union.
        * assert (l = n) as -> by (revert Hi; clear; set_solver).
          destruct Hl as [Hl|[Hl|[Hl|Hl]]]; done.
        * apply (wf_held _ W0) in Hi. lia.
      + intros e o l He Hl Hq. rewrite Hex in He. specialize (Qb l Hq). pose proof (wf_exc _ W0 e o l He Hl). lia.
      + intros q cs l Hq Nq Hl Hql. specialize (Qb l Hql).
        rewrite Hpo in Hq by (intros ->; apply Nq; unfold Q; auto).
        pose proof (wf_poc _ W0 q cs l Hq Hl). lia.
      + by eexists.
      + clear. set_solver.
    - intros l sB sC r WB (HQ&(o&Ho&HoP&HoG&HoS)&HP2&HF2&Hk2&Hg2&Hh2) _ Hs.
      destruct (private_step Q l sB sC r WB HQ Hs) as [HQ' Hsame].
      pose proof (step_frame ops _ _ _ _ WB Hs) as F.
      destruct (Hsame P) as (_&_&EP); [unfold Q; auto|].
      destruct (Hsame g) as (_&Eg&_); [unfold Q; auto|].
      destruct (Hsame k) as (Ek&_&_); [unfold Q; auto|].
      split; [done|]. split_and!; try congruence.
      + destruct (f_nd _ _ _ F n o Ho) as (o'&?&?&?&?&_). exists o'. split_and!; congruence.
      + clear -HF2 Hsame. assert (∀ x, x ∈ ls → sc sC !! x = sc sB !! x) as E.
        { intros x Hx. apply Hsame. unfold Q; auto. }
        clear Hsame Q. revert E. induction HF2 as [|x v ls' vs' Hv HF IH]; intros E; constructor.
        * rewrite E; [done|left].
        * apply IH. intros y Hy. apply E. by right.
      + by apply (f_held _ _ _ F). }
  pose proof (continues_wf _ _ _ W1 Hc) as W2.
  assert (holds s2 [n] = true) as Hhold.
  { unfold holds. rewrite bool_decide_eq_true. by constructor. }
  assert (polyValue s2 P = Some (a :: vs)) as HPv.
  { unfold polyValue. rewrite HP2. simpl. by apply deref_Some. }
  assert (∀ s : state, pt s !! g = Some (gexp ops a) → getMpk ops o s = Some (newPoint (gexp ops a) s)) as Hmpk.
  { intros s Hs. unfold getMpk. rewrite HoG, Hs. simpl. by rewrite (setG_enc _ laws). }
  split_and!.
  - intros id. unfold KeyMem.step. simpl. rewrite Hhold, Ho. simpl. by rewrite HoS, Hk2.
  - unfold KeyMem.step. simpl. rewrite Hhold, Ho. simpl. rewrite (Hmpk s2 Hg2). simpl.
    eexists _, _. split; [done|]. simpl. apply lookup_insert.
  - intros m. unfold KeyMem.step. simpl. rewrite Hhold, Ho. simpl.
    assert (∃ s3 r, vssShares ops o m s2 = Some (s3, r)) as (s3&r&Hvs).
    { unfold vssShares, getExponentPoly. rewrite HoP, HPv. cbn [mbind option_bind].
      destruct (newPoints (gexp ops <$> a :: vs) s2) as [sB cs] eqn:EB.
      destruct (newPoints_ok _ _ _ _ W2 EB) as (B&FB&_&Q1&Q2&_).
      simpl.
      assert (polyValue (newExpObj (Some <$> cs) sB).1 P = Some (a :: vs)) as HPv'.
      { unfold polyValue in *. simpl. by rewrite Q1, Q2. }
      simpl in HPv'. rewrite HPv'. simpl.
      destruct (newExpObj_ok (next s2) (Some <$> cs) sB (proj1 B)) as [WC _];
        [apply (g_next _ _ (proj2 B))|by apply Forall_Some|].
      destruct (newScalars (createShares ops (a :: vs) m) _) as [sD lD] eqn:ED.
      destruct (newScalars_ok _ _ _ _ WC ED) as (DD&_&_&R1&_).
      assert (pt sD !! g = Some (gexp ops a)) as HgD.
      { rewrite R1. simpl. rewrite (g_pt _ _ (proj2 B)); [done|]. by eapply lt_of_pt. }
      assert (∀ ls j (s : state), wf s → pt s !! g = Some (gexp ops a) → is_Some (vssLoop ops o (next sB) j ls s)) as Hloop.
      { clear -Hmpk. induction ls as [|l ls IH]; intros j s W Hs; simpl; [by eexists|].
        rewrite (Hmpk s Hs). simpl.
        pose proof (newPoint_ok (gexp ops a) s W) as [W' G']. simpl in *.
        assert (pt (newPoint (gexp ops a) s).1 !! g = Some (gexp ops a)) as Hs'.
        { simpl. rewrite lookup_insert_ne; [done|]. pose proof (lt_of_pt _ _ _ W Hs). lia. }
        destruct (IH (S j) _ W' Hs') as [[s5 r5] H5]. simpl in H5. rewrite H5. simpl. by eexists. }
      destruct (Hloop lD 1 sD (proj1 DD) HgD) as [[s5 r5] H5]. rewrite H5. simpl. by eexists _, _. }
    rewrite Hvs. simpl. exists s3, r. split; [done|].
    pose proof (wf_ndc _ W2 _ _ Ho) as (_&Hpk&_).
    destruct (vssShares_ok _ _ _ _ _ _ W2 Hpk Hvs) as (sB&e&cs&lD&vsB&->&B&He&Fc&Fl&Fr&Hlen&HvB&Hexp&Fcv&Flv&Hr).
    rewrite HoP, HPv in HvB. injection HvB as <-.
    assert (length lD = m) as Hm.
    { apply Forall2_length in Flv. rewrite Flv. unfold createShares. by rewrite fmap_length, seq_length. }
    split; [lia|]. intros j v Hj. destruct (Hr j v Hj) as (He'&Hi&Hl&g0&g1&Hg0&Hg1&Hm1). split_and!; try done; simpl.
    + destruct (Forall2_lookup_l _ _ _ _ _ Flv Hl) as (w&Hw&Hs). rewrite Hs. f_equal.
      unfold createShares in Hw. rewrite list_lookup_fmap in Hw.
      rewrite lookup_seq_lt in Hw by (apply lookup_lt_Some in Hj; lia). simpl in Hw. congruence.
    + rewrite He'. unfold expValue. simpl. rewrite Hexp. simpl. by apply deref_Some.
    + rewrite Hm1. f_equal. rewrite HoG, Hg2 in Hg0. injection Hg0 as <-.
      rewrite (setG_enc _ laws) in Hg1. by injection Hg1 as <-.
Qed.

(** Creating a node fails exactly on a polynomial without coefficients or with a nil one. *)
Theorem C101_new_node_total (s : state) p : p ∈ held s → is_Some (polys s !! p) →
  (∃ a vs, polyValue s p = Some (a :: vs)) ↔ (∃ s' n, step (LNewNode p) s = Some (s', RPtr (Some n))).
Proof.
  intros Hp _. assert (holds s [p] = true) as Hh by (unfold holds; rewrite bool_decide_eq_true; by constructor).
  unfold KeyMem.step. cbn [args]. rewrite Hh. cbn [exec]. unfold newNode, copyCoefs.
  destruct (polyValue s p) as [[|a vs]|] eqn:E; cbn [mbind option_bind].
  - simpl. split; [by intros (?&?&?)|by intros (?&?&?)].
  - destruct (newScalars (a :: vs) s) as [s1 ls] eqn:E1. cbn [newScalars] in E1. simpl in E1.
    destruct (newScalars vs _) as [s2 ls2] eqn:E2. injection E1 as <- <-. simpl.
    assert (is_Some (sc s2 !! next s)) as [v Hv].
    { clear -E2. assert (∀ vs (s : state) s2 ls2 x, newScalars vs s = (s2, ls2) → is_Some (sc s !! x) → is_Some (sc s2 !! x)) as Hg.
      { clear. induction vs as [|v vs IH]; intros s s2 ls2 x; simpl; [by intros [= <- <-]|].
        destruct (newScalars vs _) as [s3 ls3] eqn:E3. intros [= <- <-] Hx. eapply IH; [exact E3|]. simpl.
        destruct (decide (x = next s)) as [->|]; [by rewrite lookup_insert|by rewrite lookup_insert_ne]. }
      eapply Hg; [exact E2|]. simpl. by rewrite lookup_insert. }
    rewrite Hv. simpl. split; intros _; eauto 10.
  - split; [by intros (?&?&?)|by intros (?&?&?)].
Qed.

(** ** C102: the answers of an exponent polynomial *)

(** The calls that may look up the public share with index i of e. *)
Definition asks (e : nat) (i : N) (l : label) : Prop :=
  match l with
  | LGetPublicShare f j | LVerifyShare f j _ => f = e ∧ j = i
  | LValidate _ _ j _ _ => Z.to_N (j mod 2 ^ 64) = i
  | _ => False
  end.

Lemma getPublicShare_other e i f j s s' c o : getPublicShare ops f j s = Some (s', c) →
  ¬ (f = e ∧ j = i) → exps s' !! e = Some o → ∃ o0, exps s !! e = Some o0 ∧ e_cache o !! i = e_cache o0 !! i.
Proof.
  unfold getPublicShare. destruct (exps s !! f) as [of|] eqn:Ef; [simpl|done].
  destruct (decide (j = 0%N)).
  { destruct (e_coefs of !! 0); [|done]. intros [= <- <-]. eauto. }
  destruct (e_cache of !! j) eqn:Ec; [intros [= <- <-]; eauto|].
  destruct (deref _ _); [simpl|done]. destruct (pshare _ _ _); [simpl|done]. intros [= <- <-] Hn. simpl.
  destruct (decide (f = e)) as [->|].
  - rewrite lookup_insert. intros [= <-]. exists of. split; [done|]. simpl.
    rewrite lookup_insert_ne; [done|]. intros ->. by apply Hn.
  - rewrite lookup_insert_ne by done. eauto.
Qed.
Lemma not_asked_step e i l s s' r : wf s → step l s = Some (s', r) → ¬ asks e i l →
  (∀ o, exps s !! e = Some o → e_cache o !! i = None) → ∀ o, exps s' !! e = Some o → e_cache o !! i = None.
Proof.
  intros W. unfold KeyMem.step. destruct (holds s (args l)) eqn:Hh; [|done]. clear Hh.
  destruct l; cbn [exec asks]; intros Hs Hn Hc.
  - destruct (newScalars vs s) as [s1 ls] eqn:E. simpl in Hs. injection Hs as <- <-. simpl.
    destruct (newScalars_ok _ _ _ _ W E) as (_&_&_&_&_&->&_). done.
  - destruct (copyCoefs p s) as [[s1 ls]|] eqn:E; [simpl in Hs|done]. injection Hs as <- <-. simpl.
    destruct (copyCoefs_ok _ _ _ _ W E) as (_&_&_&_&_&->&_). done.
  - destruct (copyCoefs p s) as [[s1 ls]|] eqn:E; [simpl in Hs|done]. injection Hs as <- <-. simpl.
    destruct (copyCoefs_ok _ _ _ _ W E) as (_&_&_&_&_&->&_). done.
  - destruct (polys s !! p) as [cs|]; [simpl in Hs|done]. destruct (cs !! 0) as [[c|]|]; [simpl in Hs|done..].
    destruct (sc s !! c) as [v|]; [simpl in Hs|done]. injection Hs as <- <-. done.
  - destruct (polyValue s p) as [vs|]; [simpl in Hs|done]. injection Hs as <- <-. done.
  - destruct (getExponentPoly ops p s) as [[s1 [e1 ls]]|] eqn:E; [simpl in Hs|done]. injection Hs as <- <-.
    unfold getExponentPoly in E. destruct (polyValue s p) as [vs|]; [simpl in E|done].
    destruct (newPoints _ s) as [sB cs] eqn:EB. injection E as <- <- <-. simpl.
    destruct (newPoints_ok _ _ _ _ W EB) as (_&_&_&_&_&->&_). intros o Ho.
    destruct (decide (e = next sB)) as [->|].
    + rewrite lookup_insert in Ho. injection Ho as <-. apply lookup_empty.
    + rewrite lookup_insert_ne in Ho by done. by apply Hc.
  - unfold polySetBytes in Hs. destruct (polys s !! p) as [cs|] eqn:Ep; [simpl in Hs|done].
    destruct (decide (length bts < 4)); simpl in Hs; [by injection Hs as <- <-|].
    destruct (decide _); simpl in Hs; [by injection Hs as <- <-|].
    destruct (newScalars _ s) as [s1 ls] eqn:E. injection Hs as <- <-. simpl.
    destruct (newScalars_ok _ _ _ _ W E) as (_&_&_&_&_&->&_). done.
  - destruct (polys s !! p); [simpl in Hs|done]. destruct (polys s !! q); [simpl in Hs|done].
    destruct (equalCoefs _ _ _); [simpl in Hs|done]. by injection Hs as <- <-.
  - destruct (getPublicShare ops e0 i0 s) as [[s1 c]|] eqn:E; [simpl in Hs|done]. injection Hs as <- <-. simpl.
    intros o Ho. destruct (getPublicShare_other e i _ _ _ _ _ o E Hn Ho) as (o0&H1&->). by apply Hc.
  - destruct (sc s !! x); [simpl in Hs|done].
    destruct (getPublicShare ops e0 i0 s) as [[s1 [c|]]|] eqn:E; [simpl in Hs|done..].
    destruct (pt s1 !! c); [simpl in Hs|done]. injection Hs as <- <-.
    intros o Ho. destruct (getPublicShare_other e i _ _ _ _ _ o E Hn Ho) as (o0&H1&->). by apply Hc.
  - unfold expSetBytes in Hs. destruct (exps s !! e0) as [o|] eqn:Ep; [simpl in Hs|done].
    destruct (decide (length bts < 4)); simpl in Hs; [by injection Hs as <- <-|].
    destruct (decide _); simpl in Hs; [by injection Hs as <- <-|].
    destruct (exp_loop _ _ _ _) as [ok cells] eqn:El.
    destruct (newCells _ cells s) as [s1 ls] eqn:E. injection Hs as <- <-. simpl.
    destruct (newCells_ok _ _ _ _ _ W E) as (_&_&_&_&_&->&_).
    intros o' Ho. destruct (decide (e = e0)) as [->|].
    + rewrite lookup_insert in Ho. injection Ho as <-. simpl. by apply Hc.
    + rewrite lookup_insert_ne in Ho by done. by apply Hc.
  - destruct (exps s !! e0); [simpl in Hs|done]. destruct (exps s !! f); [simpl in Hs|done].
    destruct (equalCoefs _ _ _); [simpl in Hs|done]. by injection Hs as <- <-.
  - destruct (newNode ops p s) as [[s1 n]|] eqn:E; [simpl in Hs|done]. injection Hs as <- <-.
    destruct (newNode_ok _ _ _ _ _ W E) as
     (sA&ls&P&g&k&vs'&v&->&A&Ln&Hno&Fls&LP&Lg&Lk&N1&N2&N3&N4&N5&N6&N7&N8&N9&N10&Hv'&Hv0&HP&HF&Hk&Hg&Hex&Hpo).
    simpl. by rewrite Hex.
  - destruct (nodes s !! n) as [o|] eqn:Eo; [simpl in Hs|done].
    destruct (getMpk ops o s) as [[s1 m]|] eqn:E; [simpl in Hs|done]. injection Hs as <- <-. simpl.
    destruct (getMpk_ok _ _ _ _ _ W E) as (A&Hm&_&_&->&_). done.
  - destruct (nodes s !! n) as [o|] eqn:Eo; [simpl in Hs|done].
    destruct (vssShares ops o k s) as [[s1 rr]|] eqn:E; [simpl in Hs|done]. injection Hs as <- <-.
    pose proof (wf_ndc _ W _ _ Eo) as (_&Hpk&_).
    unfold vssShares in E.
    destruct (getExponentPoly ops (n_P o) s) as [[sB [e1 cs]]|] eqn:EB; [simpl in E|done].
    destruct (getExponentPoly_ok _ _ _ _ _ _ W EB) as (B&_).
    destruct (polyValue sB (n_P o)) as [vs|]; [simpl in E|done].
    destruct (newScalars _ sB) as [sC ls] eqn:EC.
    destruct (newScalars_ok _ _ _ _ (proj1 B) EC) as (C&_&_&_&_&Q1&_).
    destruct (vssLoop ops o e1 1 ls sC) as [[sD r']|] eqn:ED; [simpl in E|done]. injection E as <- <-. simpl.
    assert (n_PK o < next sC) as Hpk'. { pose proof (g_next _ _ (proj2 B)). pose proof (g_next _ _ (proj2 C)). lia. }
    destruct (vssLoop_ok _ _ _ _ _ _ _ _ (proj1 C) Hpk' ED) as (_&_&_&_&Q2&_). rewrite Q2, Q1.
    unfold getExponentPoly in EB. destruct (polyValue s (n_P o)) as [vs'|]; [simpl in EB|done].
    destruct (newPoints _ s) as [sE cs'] eqn:EE. injection EB as <- <- <-. simpl.
    destruct (newPoints_ok _ _ _ _ W EE) as (_&_&_&_&_&->&_). intros o' Ho.
    destruct (decide (e = next sE)) as [->|].
    + rewrite lookup_insert in Ho. injection Ho as <-. apply lookup_empty.
    + rewrite lookup_insert_ne in Ho by done. by apply Hc.
  - destruct (nodes s !! n) as [o|] eqn:Eo; [simpl in Hs|done]. destruct (sc s !! n_S o); [simpl in Hs|done].
    by injection Hs as <- <-.
  - destruct (nodes s !! n) as [o|] eqn:Eo; [simpl in Hs|done]. by injection Hs as <- <-.
  - destruct (nodes s !! n) as [o|] eqn:Eo; [simpl in Hs|done].
    destruct (n_shares o !! name) as [v|]; [|by injection Hs as <- <-].
    destruct (sc s !! v_value v); [simpl in Hs|done]. by injection Hs as <- <-.
  - destruct (nodes s !! n) as [o|] eqn:Eo; [simpl in Hs|done].
    destruct (n_shares o !! name) as [v|]; [|by injection Hs as <- <-].
    destruct (getPublicShare _ _ _ s) as [[s1 [c|]]|] eqn:E; [simpl in Hs|done..].
    destruct (pt s1 !! c); [simpl in Hs|done]. injection Hs as <- <-.
    intros o' Ho. assert (¬ (v_exp v = e ∧ Z.to_N (i0 mod 2 ^ 64) = i)) as Hn' by (by intros [_ ?]).
    destruct (getPublicShare_other e i _ _ _ _ _ o' E Hn' Ho) as (o0&H1&->). by apply Hc.
  - destruct (nodes s !! n) as [o|] eqn:Eo; [simpl in Hs|done].
    destruct (n_shares o !! name) as [v|]; [|by injection Hs as <- <-].
    destruct (pt s !! v_mpk v); [simpl in Hs|done]. by injection Hs as <- <-.
  - destruct (sc s !! l) as [v0|] eqn:E; [simpl in Hs|done]. by injection Hs as <- <-.
  - destruct (pt s !! l) as [v0|] eqn:E; [simpl in Hs|done]. by injection Hs as <- <-.
  - destruct (polys s !! p) as [cs|] eqn:E; [simpl in Hs|done]. destruct (decide _); [|done]. by injection Hs as <- <-.
  - destruct (exps s !! e0) as [o|] eqn:E; [simpl in Hs|done]. destruct (decide _); [|done]. injection Hs as <- <-.
    simpl. intros o' Ho. destruct (decide (e = e0)) as [->|].
    + rewrite lookup_insert in Ho. injection Ho as <-. simpl. by apply Hc.
    + rewrite lookup_insert_ne in Ho by done. by apply Hc.
Qed.

(** The first answer for an index i > 0 is computed from the coefficients of that moment; from then on
    every answer for i is the same pointer, whatever happens to the object (also when SetBytes or the
    caller gives it other coefficients), and its value is what the caller last wrote through that pointer,
    if anything; VerifyShare compares with that value. *)
Theorem C102_public_share h s e i s1 r : i ≠ 0%N →
  history h s → Forall (λ l, ¬ asks e i l) h → step (LGetPublicShare e i) s = Some (s1, r) →
  ∃ x cs g, r = RPtr (Some x) ∧ expValue s e = Some cs ∧ pshare ops cs i = Some g ∧
    ∀ h' s2, continues s1 h' s2 →
      pt s2 !! x = Some (lastPoint x h' g) ∧
      (∃ s3, step (LGetPublicShare e i) s2 = Some (s3, RPtr (Some x))) ∧
      (∀ y k, y ∈ held s2 → sc s2 !! y = Some k →
         step (LVerifyShare e i y) s2 = Some (s2, RBool (bool_decide (gexp ops k = lastPoint x h' g)))).
Proof.
  intros Hi Hh Hna Hs. pose proof (history_wf _ _ Hh) as W.
  assert (∀ o, exps s !! e = Some o → e_cache o !! i = None) as Hnone.
  { eapply (continues_ind (λ s, ∀ o, exps s !! e = Some o → e_cache o !! i = None)); [exact wf_init|done|..|exact Hh].
    intros l sA sB rr WA HA Hl HAB. eapply not_asked_step; [exact WA|exact HAB| |exact HA].
    rewrite Forall_forall in Hna. by apply Hna. }
  pose proof (step_frame ops _ _ _ _ W Hs) as F. pose proof (f_wf _ _ _ F) as W1.
  pose proof (step_args ops _ _ _ _ e Hs (elem_of_list_here _ _)) as Heh.
  unfold KeyMem.step in Hs. destruct (holds _ _); [|done]. simpl in Hs.
  unfold getPublicShare in Hs. destruct (exps s !! e) as [o|] eqn:Eo; [simpl in Hs|done].
  rewrite decide_False in Hs by done. rewrite (Hnone o eq_refl) in Hs.
  destruct (deref (pt s) (e_coefs o)) as [cs|] eqn:Ed; [simpl in Hs|done].
  destruct (pshare ops cs i) as [g|] eqn:Eg; [simpl in Hs|done]. injection Hs as <- <-.
  exists (next s), cs, g. split; [done|]. split; [unfold expValue; by rewrite Eo|]. split; [done|].
  intros h' s2 Hc.
  assert (pt s2 !! next s = Some (lastPoint (next s) h' g)) as Hp.
  { eapply run_point; [exact W1|exact Hc|]. simpl. apply lookup_insert. }
  assert (e ∈ held s2 ∧ ∃ o2, exps s2 !! e = Some o2 ∧ e_cache o2 !! i = Some (next s)) as (Hh2&o2&Ho2&Hc2).
  { eapply (continues_ind (λ s2, e ∈ held s2 ∧ ∃ o2, exps s2 !! e = Some o2 ∧ e_cache o2 !! i = Some (next s))); [exact W1|..|exact Hc].
    - split; [by apply (f_held _ _ _ F)|]. simpl. rewrite lookup_insert. eexists. split; [done|]. simpl. apply lookup_insert.
    - intros l sA sB rr WA (HA1&oA&HoA&HcA) _ HAB. pose proof (step_frame ops _ _ _ _ WA HAB) as F2.
      split; [by apply (f_held _ _ _ F2)|]. destruct (f_ex _ _ _ F2 e oA HoA) as (oB&?&_&Hsub).
      exists oB. split; [done|]. by eapply lookup_weaken. }
  assert (getPublicShare ops e i s2 = Some (s2, Some (next s))) as Hg2.
  { unfold getPublicShare. rewrite Ho2. simpl. rewrite decide_False by done. by rewrite Hc2. }
  split; [exact Hp|]. split.
  - eexists. unfold KeyMem.step. simpl. unfold holds. rewrite bool_decide_true by (by constructor).
    rewrite Hg2. done.
  - intros y k Hy Hk. unfold KeyMem.step. simpl. unfold holds.
    rewrite bool_decide_true by (repeat constructor; done). rewrite Hk. simpl. rewrite Hg2. simpl. by rewrite Hp.
Qed.

(** The share with index 0 is the first coefficient itself: the current one, by reference. *)
Theorem C102_index_zero (s : state) e c cs : e ∈ held s → expValue s e = Some (c :: cs) →
  ∃ x s', step (LGetPublicShare e 0) s = Some (s', RPtr (Some x)) ∧ pt s' = pt s ∧ exps s' = exps s ∧
    pt s !! x = Some c ∧ ∃ xs, exps s !! e = Some xs ∧ e_coefs xs !! 0 = Some (Some x).
Proof.
  intros He Hv. unfold expValue in Hv. destruct (exps s !! e) as [o|] eqn:Eo; [simpl in Hv|done].
  unfold deref in Hv. destruct (e_coefs o) as [|[x|] xs] eqn:Ec; [done| |done]. simpl in Hv.
  destruct (pt s !! x) as [g|] eqn:Ex; [simpl in Hv|done].
  destruct (mapM _ xs) as [gs|]; [simpl in Hv|done]. injection Hv as -> ->.
  exists x. eexists. unfold KeyMem.step. simpl. unfold holds. rewrite bool_decide_true by (by constructor).
  unfold getPublicShare. rewrite Eo. simpl. rewrite Ec. simpl. split; [done|]. split_and!; try done.
  exists o. by rewrite Ec.
Qed.

(** SetBytes installs the encoded coefficients ... *)
Theorem C102_set_bytes h s e o cs junk : element_laws (codecs ops) →
  history h s → e ∈ held s → exps s !! e = Some o → (N.of_nat (length cs) < 2 ^ 32)%N →
  ∃ s', step (LExpSetBytes e (ExpMarshal (codecs ops) cs) junk) s = Some (s', RBool true) ∧
    expValue s' e = Some cs ∧ ∀ x, x < next s → pt s' !! x = pt s !! x.
Proof.
  intros laws Hh He Ho Hn. pose proof (history_wf _ _ Hh) as W.
  pose proof (C35_exponent_poly (codecs ops) laws cs [] Hn) as Hset. unfold ExpSetBytes in Hset.
  unfold KeyMem.step. simpl. unfold holds. rewrite bool_decide_true by (by constructor).
  unfold expSetBytes. rewrite Ho. cbn [mbind option_bind].
  destruct (decide (length (ExpMarshal (codecs ops) cs) < 4)); [done|].
  destruct (decide (_ ≠ _)); [done|]. rewrite Hset.
  destruct (newCells junk (CVal <$> cs) s) as [s1 ls] eqn:E.
  destruct (newCells_ok _ _ _ _ _ W E) as (A&_&V&_). destruct (V cs eq_refl) as (ls'&->&F).
  cbn [mbind option_bind]. eexists. split; [done|]. split.
  - unfold expValue. simpl. rewrite lookup_insert. simpl. by apply deref_Some.
  - intros x Hx. simpl. by apply (g_pt _ _ (proj2 A)).
Qed.
(** ... but shares asked for before keep the old polynomial's value: after SetBytes the object holds cs',
    a share of index i is still accepted exactly if it is the share of the former polynomial cs. *)
Theorem C102_stale_after_set_bytes h s e i s1 r cs g cs' junk : i ≠ 0%N →
  element_laws (codecs ops) → (N.of_nat (length cs') < 2 ^ 32)%N →
  history h s → Forall (λ l, ¬ asks e i l) h →
  expValue s e = Some cs → pshare ops cs i = Some g → step (LGetPublicShare e i) s = Some (s1, r) →
  ∃ s2, step (LExpSetBytes e (ExpMarshal (codecs ops) cs') junk) s1 = Some (s2, RBool true) ∧
    expValue s2 e = Some cs' ∧
    ∀ y k, y ∈ held s2 → sc s2 !! y = Some k →
      step (LVerifyShare e i y) s2 = Some (s2, RBool (bool_decide (gexp ops k = g))).
Proof.
  intros Hi laws Hn Hh Hna Hv Hg Hs. pose proof (history_wf _ _ Hh) as W.
  destruct (C102_public_share h s e i s1 r Hi Hh Hna Hs) as (x&cs0&g0&->&Hv0&Hg0&Hcont).
  rewrite Hv in Hv0. injection Hv0 as <-. rewrite Hg in Hg0. injection Hg0 as <-.
  pose proof (step_frame ops _ _ _ _ W Hs) as F.
  assert (history (h ++ [LGetPublicShare e i]) s1) as Hh1.
  { destruct Hh as [rs Hr]. exists (rs ++ [RPtr (Some x)]). clear -Hr Hs.
    revert Hr. generalize (@init K G). revert rs. induction h as [|l h IH]; intros rs s0; simpl.
    - intros [= <- <-]. rewrite Hs. done.
    - destruct (step l s0) as [[sa ra]|]; [simpl|done].
      destruct (run h sa) as [[sb rb]|] eqn:E; [simpl|done]. intros [= <- <-]. by rewrite (IH rb sa E). }
  assert (e ∈ held s1 ∧ is_Some (exps s1 !! e)) as [He1 [o1 Ho1]].
  { split; [apply (f_held _ _ _ F); eapply (step_args ops _ _ _ _ e Hs); left|].
    unfold expValue in Hv. destruct (exps s !! e) as [o|] eqn:Eo; [|done].
    destruct (f_ex _ _ _ F e o Eo) as (o'&->&_). done. }
  destruct (C102_set_bytes _ s1 e o1 cs' junk laws Hh1 He1 Ho1 Hn) as (s2&Hs2&Hv2&_).
  exists s2. split; [done|]. split; [done|]. intros y k Hy Hk.
  assert (continues s1 [LExpSetBytes e (ExpMarshal (codecs ops) cs') junk] s2) as Hc.
  { exists [RBool true]. cbn [KeyMem.run]. rewrite Hs2. done. }
  destruct (Hcont _ _ Hc) as (_&_&Hver). by apply Hver.
Qed.

(** ** C103: polynomials: copies are independent, equality compares values *)

(** A call or write that may change what the polynomial p holds in state s. *)
Definition touches (s : state) (p : nat) (l : label) : Prop :=
  writesPoly l p ∨ ∃ x cs, polys s !! p = Some cs ∧ Some x ∈ cs ∧ writesScalar l x.
(** Only calls and writes that name the polynomial or one of its coefficients change its value. *)
Theorem C103_untouched h s p vs h' s' : history h s → polyValue s p = Some vs →
  continues s h' s' → Forall (λ l, ¬ touches s p l) h' → polyValue s' p = Some vs ∧ polys s' !! p = polys s !! p.
Proof.
  intros Hh Hv Hc Hn. pose proof (history_wf _ _ Hh) as W. rewrite Forall_forall in Hn.
  eapply (continues_ind (λ s', polyValue s' p = Some vs ∧ polys s' !! p = polys s !! p)); [exact W|done|..|exact Hc].
  intros l s1 s2 r W1 [Hv1 Hp1] Hl Hs. pose proof (step_frame ops _ _ _ _ W1 Hs) as F. specialize (Hn l Hl).
  unfold polyValue in Hv1. destruct (polys s1 !! p) as [cs|] eqn:Ep; [simpl in Hv1|done].
  assert (p < next s1) as Lp. { destruct (decide (p < next s1)); [done|]. rewrite (wf_po _ W1) in Ep; [done|lia]. }
  assert (polys s2 !! p = Some cs) as Ep2.
  { rewrite (f_po _ _ _ F p Lp); [done|]. intros ?. apply Hn. by left. }
  split; [|congruence]. unfold polyValue. rewrite Ep2. simpl. eapply deref_ext; [exact Hv1|].
  intros x Hx [w Hw]. apply (f_sc _ _ _ F); [by eapply lt_of_sc|]. intros Hwr. apply Hn. right. exists x, cs.
  split_and!; [congruence|done|done].
Qed.
(** A copy has the same value, and no pointer of it was reachable before: not the object, not a
    coefficient; neither is it a pointer of any existing polynomial. *)
Theorem C103_copy h s p vs : history h s → p ∈ held s → polyValue s p = Some vs →
  ∃ s' q xs, step (LCopy p) s = Some (s', RPtr (Some q)) ∧ polyValue s' q = Some vs ∧ polyValue s' p = Some vs ∧
    polys s' !! q = Some (Some <$> xs) ∧ q ∉ held s ∧ polys s !! q = None ∧
    (∀ x, x ∈ xs → x ∉ held s ∧ sc s !! x = None ∧ ∀ p' cs, polys s !! p' = Some cs → Some x ∉ cs).
Proof.
  intros Hh Hp Hv. pose proof (history_wf _ _ Hh) as W.
  assert (is_Some (step (LCopy p) s)) as [[s' r] Hs].
  { unfold KeyMem.step. simpl. unfold holds. rewrite bool_decide_true by (by constructor).
    unfold copyCoefs. rewrite Hv. simpl. destruct (newScalars vs s). simpl. by eexists. }
  assert (continues s [LCopy p] s') as Hc by (exists [r]; cbn [KeyMem.run]; by rewrite Hs).
  destruct (C103_untouched h s p vs _ _ Hh Hv Hc) as [Hvp _].
  { constructor; [|constructor]. by intros [[(?&?)|(?&?)]|(?&?&_&_&?&?)]. }
  unfold KeyMem.step in Hs. destruct (holds _ _) eqn:Hho; [|done]. simpl in Hs.
  destruct (copyCoefs p s) as [[s1 xs]|] eqn:E; [simpl in Hs|done].
  destruct (copyCoefs_ok _ _ _ _ W E) as (A&F&(vs'&Hv'&V)&_&Q&_).
  rewrite Hv in Hv'. injection Hv' as <-. injection Hs as <- <-.
  pose proof (g_next _ _ (proj2 A)) as L. rewrite Forall_forall in F.
  eexists _, _, xs. unfold KeyMem.step. cbn [args]. cbn [args] in Hho. rewrite Hho. cbn [exec]. rewrite E.
  cbn [mbind option_bind]. split; [reflexivity|]. simpl. split_and!.
  - unfold polyValue. simpl. rewrite lookup_insert. simpl. by apply deref_Some.
  - exact Hvp.
  - by rewrite lookup_insert.
  - intros Hi. apply (wf_held _ W) in Hi. lia.
  - apply (wf_po _ W). lia.
  - intros x Hx. specialize (F x Hx). split_and!.
    + intros Hi. apply (wf_held _ W) in Hi. lia.
    + apply (wf_sc _ W). lia.
    + intros p' cs Hp' Hi. pose proof (wf_poc _ W p' cs x Hp' Hi). lia.
Qed.
(** So writing through the copy leaves the original alone, and the other way round. *)
Theorem C103_copy_independent h s p vs s1 q h' s2 : history h s → polyValue s p = Some vs →
  step (LCopy p) s = Some (s1, RPtr (Some q)) → continues s1 h' s2 →
  (Forall (λ l, (∀ p', writesPoly l p' → p' = q) ∧
                (∀ x, writesScalar l x → ∃ xs, polys s1 !! q = Some xs ∧ Some x ∈ xs)) h' → polyValue s2 p = Some vs) ∧
  (Forall (λ l, (∀ p', writesPoly l p' → p' = p) ∧
                (∀ x, writesScalar l x → ∃ xs, polys s1 !! p = Some xs ∧ Some x ∈ xs)) h' → polyValue s2 q = Some vs).
Proof.
  intros Hh Hv Hs Hc. pose proof (history_wf _ _ Hh) as W.
  assert (p ∈ held s) as Hp by (eapply (step_args ops _ _ _ _ p Hs); left).
  destruct (C103_copy h s p vs Hh Hp Hv) as (s1'&q'&xs&Hs'&Hq&Hp1&Hqx&Hqh&Hqn&Hfresh).
  rewrite Hs in Hs'. injection Hs' as <- <-.
  assert (history (h ++ [LCopy p]) s1) as Hh1.
  { destruct Hh as [rs Hr]. exists (rs ++ [RPtr (Some q)]). clear -Hr Hs.
    revert Hr. generalize (@init K G). revert rs. induction h as [|l h IH]; intros rs s0; simpl.
    - intros [= <- <-]. rewrite Hs. done.
    - destruct (step l s0) as [[sa ra]|]; [simpl|done].
      destruct (run h sa) as [[sb rb]|] eqn:E; [simpl|done]. intros [= <- <-]. by rewrite (IH rb sa E). }
  assert (is_Some (polys s !! p)) as [cs Hcs]. { unfold polyValue in Hv. destruct (polys s !! p); [by eexists|done]. }
  assert (polys s1 !! p = Some cs) as Hcs1.
  { pose proof (step_frame ops _ _ _ _ W Hs) as F. rewrite (f_po _ _ _ F); [done|..].
    - destruct (decide (p < next s)); [done|]. rewrite (wf_po _ W) in Hcs; [done|lia].
    - by intros [(?&?)|(?&?)]. }
  assert (p ≠ q) as Hne by (intros ->; congruence).
  split; intros Hf.
  - eapply (C103_untouched _ s1 p); [exact Hh1|done|exact Hc|]. eapply Forall_impl; [exact Hf|].
    intros l [Hw1 Hw2] [Hw|(x&cs'&Hcs'&Hx&Hw)]; [by apply Hw1 in Hw|].
    destruct (Hw2 x Hw) as (xs'&Hxs'&Hx'). rewrite Hqx in Hxs'. injection Hxs' as <-.
    apply elem_of_list_fmap in Hx' as (y&[= <-]&Hy). destruct (Hfresh x Hy) as (_&_&Hno).
    apply (Hno p cs Hcs). congruence.
  - eapply (C103_untouched _ s1 q); [exact Hh1|done|exact Hc|]. eapply Forall_impl; [exact Hf|].
    intros l [Hw1 Hw2] [Hw|(x&cs'&Hcs'&Hx&Hw)]; [by apply Hw1 in Hw|].
    rewrite Hqx in Hcs'. injection Hcs' as <-.
    apply elem_of_list_fmap in Hx as (y&[= <-]&Hy). destruct (Hfresh x Hy) as (_&_&Hno).
    destruct (Hw2 x Hw) as (xs'&Hxs'&Hx'). apply (Hno p cs Hcs). congruence.
Qed.
(** Secret, Eval, Coeffs and GetExponentPoly answer with memory nobody else has. *)
Theorem C103_fresh_answers h s l s' r : history h s → step l s = Some (s', r) →
  match l with LSecret _ | LEval _ _ | LCoeffs _ | LGetExponentPoly _ | LCopy _ | LMpk _ | LVssShares _ _ => True | _ => False end →
  ∀ x, x ∈ held s' → x ∉ held s → sc s !! x = None ∧ pt s !! x = None ∧ exps s !! x = None ∧ polys s !! x = None.
Proof.
  intros Hh Hs Hl x Hx Hn. pose proof (history_wf _ _ Hh) as W.
  assert (next s ≤ x) as Lx; [|by split_and!; [apply (wf_sc _ W)|apply (wf_pt _ W)|apply (wf_ex _ W)|apply (wf_po _ W)]].
  unfold KeyMem.step in Hs. destruct (holds _ _); [|done].
  destruct l; try done; cbn [exec] in Hs.
  - destruct (copyCoefs p s) as [[s1 ls]|] eqn:E; [simpl in Hs|done]. injection Hs as <- <-.
    destruct (copyCoefs_ok _ _ _ _ W E) as (A&F&_). pose proof (g_next _ _ (proj2 A)).
    simpl in Hx. rewrite (g_held _ _ (proj2 A)) in Hx. rewrite Forall_forall in F.
    apply elem_of_union in Hx as [Hx|?]; [|done]. apply elem_of_union in Hx as [Hx|Hx].
    + apply elem_of_singleton in Hx. lia.
    + apply elem_of_list_to_set in Hx. specialize (F x Hx). lia.
  - destruct (copyCoefs p s) as [[s1 ls]|] eqn:E; [simpl in Hs|done]. injection Hs as <- <-.
    destruct (copyCoefs_ok _ _ _ _ W E) as (A&F&_).
    simpl in Hx. rewrite (g_held _ _ (proj2 A)) in Hx. rewrite Forall_forall in F.
    apply elem_of_union in Hx as [Hx|?]; [|done].
    apply elem_of_list_to_set in Hx. specialize (F x Hx). lia.
  - destruct (polys s !! p) as [cs|]; [simpl in Hs|done]. destruct (cs !! 0) as [[c|]|]; [simpl in Hs|done..].
    destruct (sc s !! c) as [v|]; [simpl in Hs|done]. injection Hs as <- <-. simpl in Hx.
    apply elem_of_union in Hx as [Hx|?]; [|done]. apply elem_of_union in Hx as [Hx|Hx].
    + apply elem_of_singleton in Hx. lia.
    + by apply elem_of_empty in Hx.
  - destruct (polyValue s p) as [vs|]; [simpl in Hs|done]. injection Hs as <- <-. simpl in Hx.
    apply elem_of_union in Hx as [Hx|?]; [|done]. apply elem_of_union in Hx as [Hx|Hx].
    + apply elem_of_singleton in Hx. lia.
    + by apply elem_of_empty in Hx.
  - destruct (getExponentPoly ops p s) as [[s1 [e1 ls]]|] eqn:E; [simpl in Hs|done]. injection Hs as <- <-.
    destruct (getExponentPoly_ok _ _ _ _ _ _ W E) as (A&He&F&_).
    simpl in Hx. rewrite (g_held _ _ (proj2 A)) in Hx. rewrite Forall_forall in F.
    apply elem_of_union in Hx as [Hx|?]; [|done]. apply elem_of_union in Hx as [Hx|Hx].
    + apply elem_of_singleton in Hx. lia.
    + apply elem_of_list_to_set in Hx. specialize (F x Hx). lia.
  - destruct (nodes s !! n) as [o|] eqn:Eo; [simpl in Hs|done].
    destruct (getMpk ops o s) as [[s1 m]|] eqn:E; [simpl in Hs|done]. injection Hs as <- <-.
    destruct (getMpk_ok _ _ _ _ _ W E) as (A&Hm&_).
    simpl in Hx. rewrite (g_held _ _ (proj2 A)) in Hx.
    apply elem_of_union in Hx as [Hx|?]; [|done]. apply elem_of_union in Hx as [Hx|Hx].
    + apply elem_of_singleton in Hx. lia.
    + by apply elem_of_empty in Hx.
  - destruct (nodes s !! n) as [o|] eqn:Eo; [simpl in Hs|done].
    destruct (vssShares ops o k s) as [[s1 rr]|] eqn:E; [simpl in Hs|done]. injection Hs as <- <-.
    pose proof (wf_ndc _ W _ _ Eo) as (_&Hpk&_).
    destruct (vssShares_ok _ _ _ _ _ _ W Hpk E) as (s0&e&cs&ls&vs&->&A&He&Fc&Fl&Fr&_).
    pose proof (proj1 (Forall_forall _ _) Fc) as Fc'. pose proof (proj1 (Forall_forall _ _) Fl) as Fl'.
    pose proof (proj1 (Forall_forall _ _) Fr) as Fr'. simpl in Fc', Fl', Fr'.
    change (held (give (cs ++ e :: ls ++ (v_mpk <$> rr)) s0)) with ((list_to_set (cs ++ e :: ls ++ (v_mpk <$> rr)) : gset nat) ∪ held s0) in Hx.
    rewrite (g_held _ _ (proj2 A)) in Hx.
    apply elem_of_union in Hx as [Hx|?]; [|done]. apply elem_of_list_to_set in Hx.
    apply elem_of_app in Hx as [Hx|Hx]; [specialize (Fc' x Hx); lia|].
    apply elem_of_cons in Hx as [->|Hx]; [lia|].
    apply elem_of_app in Hx as [Hx|Hx]; [specialize (Fl' x Hx); lia|].
    apply elem_of_list_fmap in Hx as (v&->&Hv). specialize (Fr' v Hv). lia.
Qed.
(** Equal: exactly the same coefficients, of whatever objects. *)
Lemma equalCoefs_ok {V} `{EqDecision V} (m : gmap nat V) a b u v :
  deref m a = Some u → deref m b = Some v → equalCoefs m a b = Some (bool_decide (u = v)).
Proof.
  intros Ha Hb.
  assert (length a = length u) as La by (by eapply mapM_length).
  assert (length b = length v) as Lb by (by eapply mapM_length).
  unfold equalCoefs. destruct (decide (length a ≠ length b)) as [Hl|Hl].
  { f_equal. symmetry. apply bool_decide_eq_false. intros ->. lia. }
  apply dec_stable in Hl. revert b u v Ha Hb La Lb Hl.
  induction a as [|x a IH]; intros [|y b] [|u us] [|v vs] Ha Hb La Lb Hl; simpl in *; try done.
  destruct x as [x|]; [|done]. destruct y as [y|]; [|done]. unfold deref in *. simpl in *.
  destruct (m !! x) as [u'|]; [|done]. destruct (m !! y) as [v'|]; [|done]. simpl in *.
  destruct (mapM _ a) as [us'|] eqn:Ea; [|done]. destruct (mapM _ b) as [vs'|] eqn:Eb; [|done]. simpl in *.
  injection Ha as -> ->. injection Hb as -> ->.
  destruct (decide (u = v)) as [->|Hne].
  - rewrite (IH b us vs) by (first [done|lia]). f_equal. apply bool_decide_ext. naive_solver.
  - f_equal. symmetry. apply bool_decide_eq_false. naive_solver.
Qed.
Theorem C103_equal (s : state) a b : a ∈ held s → b ∈ held s →
  (∀ u v, polyValue s a = Some u → polyValue s b = Some v →
     step (LPolyEqual a b) s = Some (s, RBool (bool_decide (u = v)))) ∧
  (∀ u v, expValue s a = Some u → expValue s b = Some v →
     step (LExpEqual a b) s = Some (s, RBool (bool_decide (u = v)))).
Proof.
  intros Ha Hb. unfold KeyMem.step. cbn [args]. unfold holds.
  rewrite bool_decide_true by (repeat constructor; done). cbn [exec]. split; intros u v Hu Hv.
  - unfold polyValue in *. destruct (polys s !! a); [simpl in *|done]. destruct (polys s !! b); [simpl in *|done].
    by rewrite (equalCoefs_ok _ _ _ u v).
  - unfold expValue in *. destruct (exps s !! a); [simpl in *|done]. destruct (exps s !! b); [simpl in *|done].
    by rewrite (equalCoefs_ok _ _ _ u v).
Qed.

(** ** C104: a received share is kept by reference *)

Definition receivesFor (n : nat) (name : string) (l : label) : Prop := ∃ v, l = LReceive n name v.
Lemma shares_step l (s s' : state) r n name o v : wf s → step l s = Some (s', r) → ¬ receivesFor n name l →
  nodes s !! n = Some o → n_shares o !! name = Some v →
  ∃ o', nodes s' !! n = Some o' ∧ n_shares o' !! name = Some v.
Proof.
  intros W Hs Hn Ho Hv. pose proof (step_frame ops _ _ _ _ W Hs) as F.
  assert (receives l n ∨ ¬ receives l n) as [(nm&w&->)|Hr].
  { destruct l; try (right; intros (?&?&?); done). destruct (decide (n0 = n)) as [->|].
    - left. by eexists _, _. - right. intros (?&?&?). congruence. }
  - unfold KeyMem.step in Hs. destruct (holds _ _); [|done]. simpl in Hs. rewrite Ho in Hs. simpl in Hs.
    injection Hs as <- <-. simpl. rewrite lookup_insert. eexists; split; [done|]. simpl.
    rewrite lookup_insert_ne; [done|]. intros ->. apply Hn. by eexists.
  - destruct (f_nd _ _ _ F n o Ho) as (o'&?&_&_&_&E). exists o'. split; [done|]. by rewrite (E Hr).
Qed.
(** After ReceiveShare the node's votes, encryptions and vote checks for that name use the objects it was
    given, as they are at the time of the call: writes by whoever shares these objects show, and nothing
    else replaces them but another ReceiveShare for the name. *)
Theorem C104_share_by_reference h s n name v s1 r h' s2 k g :
  history h s → step (LReceive n name v) s = Some (s1, r) →
  sc s !! v_value v = Some k → pt s !! v_mpk v = Some g →
  continues s1 h' s2 → Forall (λ l, ¬ receivesFor n name l) h' →
  (∀ id, step (LVote n name id) s2 = Some (s2, RVote (v_index v) (idkey ops (lastScalar (v_value v) h' k) id))) ∧
  step (LEncryptFor n name) s2 = Some (s2, RPoint (lastPoint (v_mpk v) h' g)) ∧
  (∀ i id sg s3 b, step (LValidate n name i id sg) s2 = Some (s3, RBool b) →
     ∃ s3' x q, step (LGetPublicShare (v_exp v) (Z.to_N (i mod 2 ^ 64))) s2 = Some (s3', RPtr (Some x)) ∧
       pt s3' !! x = Some q ∧ b = sigok ops q id sg).
Proof.
  intros Hh Hs Hk Hg Hc Hn. pose proof (history_wf _ _ Hh) as W.
  pose proof (step_frame ops _ _ _ _ W Hs) as F. pose proof (f_wf _ _ _ F) as W1.
  assert (n ∈ held s ∧ v_exp v ∈ held s) as [Hnh Heh].
  { split; eapply (step_args ops _ _ _ _ _ Hs); simpl; [left|right; left]. }
  assert (∃ o1, nodes s1 !! n = Some o1 ∧ n_shares o1 !! name = Some v) as Ho1.
  { unfold KeyMem.step in Hs. destruct (holds _ _); [|done]. simpl in Hs.
    destruct (nodes s !! n) as [o|]; [simpl in Hs|done]. injection Hs as <- <-. simpl. rewrite lookup_insert.
    eexists; split; [done|]. simpl. apply lookup_insert. }
  pose proof (step_scalar _ _ _ _ _ _ W Hs Hk) as Hk1. pose proof (step_point _ _ _ _ _ _ W Hs Hg) as Hg1.
  simpl in Hk1, Hg1.
  pose proof (run_scalar _ _ _ _ _ W1 Hc Hk1) as Hk2. pose proof (run_point _ _ _ _ _ W1 Hc Hg1) as Hg2.
  rewrite Forall_forall in Hn.
  assert (n ∈ held s2 ∧ v_exp v ∈ held s2 ∧ ∃ o, nodes s2 !! n = Some o ∧ n_shares o !! name = Some v) as (Hn2&He2&o&Ho&Hov).
  { eapply (continues_ind (λ s2, n ∈ held s2 ∧ v_exp v ∈ held s2 ∧ ∃ o, nodes s2 !! n = Some o ∧ n_shares o !! name = Some v));
      [exact W1|..|exact Hc].
    - split_and!; [by apply (f_held _ _ _ F)..|done].
    - intros l sA sB rr WA (HA1&HA2&oA&HoA&HvA) Hl HAB. pose proof (step_frame ops _ _ _ _ WA HAB) as F2.
      split_and!; [by apply (f_held _ _ _ F2)..|]. eapply shares_step; [exact WA|exact HAB|by apply Hn|done..]. }
  assert (holds s2 [n] = true) as Hhold by (unfold holds; rewrite bool_decide_eq_true; by constructor).
  assert (holds s2 [v_exp v] = true) as Hhold' by (unfold holds; rewrite bool_decide_eq_true; by constructor).
  unfold KeyMem.step. cbn [args]. rewrite Hhold, Hhold'. cbn [exec]. rewrite Ho. simpl. rewrite Hov. simpl.
  rewrite Hk2, Hg2. simpl. split_and!; [done..|]. intros i id sg s3 b Hval.
  destruct (getPublicShare ops (v_exp v) _ s2) as [[sA [x|]]|] eqn:E; [simpl in Hval|done..].
  destruct (pt sA !! x) as [q|] eqn:Ex; [simpl in Hval|done]. injection Hval as <- <-.
  eexists _, x, q. split; [done|]. done.
Qed.
End KeyMem.
Print Assumptions C101_node_keys_fixed.
Print Assumptions C101_new_node_total.
Print Assumptions C102_public_share.
Print Assumptions C102_index_zero.
Print Assumptions C102_set_bytes.
Print Assumptions C102_stale_after_set_bytes.
Print Assumptions C103_untouched.
Print Assumptions C103_copy.
Print Assumptions C103_copy_independent.
Print Assumptions C103_fresh_answers.
Print Assumptions C103_equal.
Print Assumptions C104_share_by_reference.

(** Histories that meet the hypotheses: bytes as scalars and points, polynomials over Z/256. *)
Definition toy_horner (cs : list byte) (x : N) : byte := N2b (foldr (λ c v, (v * x + b2N c) mod 256)%N 0%N cs).
Definition toy_ops : keyops byte byte byte :=
  KeyOps _ _ _ id (λ cs i, match cs with [] => None | _ => Some (toy_horner cs i) end)
    (λ cs i, toy_horner cs (Z.to_N (i mod 2 ^ 64))) (λ k _, k) (λ _ _ _, true) toy_codecs.
Definition toy_b (n : N) : byte := N2b n.
(** A polynomial (object 2, coefficients 0 and 1), its exponent polynomial (5); a node made from it (11); the shares handed out by the node. *)
Definition toy_h0 : list (label (K:=byte) (G:=byte) (D:=byte)) := [LNewPoly [toy_b 7; toy_b 2]; LGetExponentPoly 2].
Definition toy_h1 : list (label (K:=byte) (G:=byte) (D:=byte)) :=
  [LWriteScalar 0 (toy_b 99); LPolySetBytes 2 (PolyMarshal toy_codecs [toy_b 1]); LMpk 11; LWritePoint 13 (toy_b 55); LVssShares 11 2].
(** C101: the caller overwrites a coefficient, replaces the polynomial and writes to a returned public key. *)
Example C101_example : ∃ s0 s1 s2 rs,
  history toy_ops toy_h0 s0 ∧ KeyMem.step toy_ops (LNewNode 2) s0 = Some (s1, RPtr (Some 11)) ∧
  polyValue s0 2 = Some [toy_b 7; toy_b 2] ∧ KeyMem.run toy_ops toy_h1 s1 = Some (s2, rs) ∧
  polyValue s2 2 = Some [toy_b 1] ∧ pt s2 !! 13 = Some (toy_b 55).
Proof.
  destruct (KeyMem.run toy_ops toy_h0 init) as [[s0 rs0]|] eqn:E0; [|vm_compute in E0; discriminate].
  destruct (KeyMem.step toy_ops (LNewNode 2) s0) as [[s1 r1]|] eqn:E1.
  2: { exfalso. vm_compute in E0. injection E0 as <- <-. vm_compute in E1. discriminate. }
  destruct (KeyMem.run toy_ops toy_h1 s1) as [[s2 rs]|] eqn:E2.
  2: { exfalso. vm_compute in E0. injection E0 as <- <-. vm_compute in E1. injection E1 as <- <-.
       vm_compute in E2. discriminate. }
  exists s0, s1, s2, rs. split; [by exists rs0|].
  vm_compute in E0. injection E0 as <- <-. vm_compute in E1. injection E1 as <- <-.
  vm_compute in E2. injection E2 as <- <-. split_and!; vm_compute; reflexivity.
Qed.
(** C102: after SetBytes with the polynomial 1 (constant), the share 13 = 7 + 2 * 3 of the former one is
    still accepted for index 3 and the right share 1 refused, while the object equals a fresh one. *)
Definition C102_h : list (label (K:=byte) (G:=byte) (D:=byte)) :=
  [LNewPoly [toy_b 7; toy_b 2]; LGetExponentPoly 2; LGetPublicShare 5 3;
   LExpSetBytes 5 (ExpMarshal toy_codecs [toy_b 1]) (toy_b 0);
   LNewPoly [toy_b 1]; LGetExponentPoly 9; LExpEqual 5 11; LEval 2 3; LVerifyShare 5 3 12; LEval 9 3;
   LVerifyShare 5 3 13; LVerifyShare 11 3 13].
Example C102_example : ∃ s, KeyMem.run toy_ops C102_h init = Some (s,
  [RPtr (Some 2); RPtr (Some 5); RPtr (Some 6); RBool true; RPtr (Some 9); RPtr (Some 11); RBool true;
   RPtr (Some 12); RBool true; RPtr (Some 13); RBool false; RBool true]).
Proof. eexists. vm_compute. reflexivity. Qed.
(** C103, C104: a copy survives writes to the original; a share held by two nodes of one process. *)
Definition C103_h : list (label (K:=byte) (G:=byte) (D:=byte)) :=
  [LNewPoly [toy_b 7; toy_b 2]; LCopy 2; LPolyEqual 2 5; LWriteScalar 0 (toy_b 9); LPolyEqual 2 5].
Example C103_example : ∃ s, KeyMem.run toy_ops C103_h init = Some (s,
  [RPtr (Some 2); RPtr (Some 5); RBool true; RNone; RBool false]) ∧ polyValue s 5 = Some [toy_b 7; toy_b 2].
Proof. eexists. split; vm_compute; reflexivity. Qed.
(** C104: a node (8) receives a share of index 1 (scalar 12, master key 13, exponent polynomial 11); the caller then overwrites the scalar
    of the share, and the vote changes from 9 to 200. *)
Definition C104_h : list (label (K:=byte) (G:=byte) (D:=byte)) :=
  [LNewPoly [toy_b 7; toy_b 2]; LNewNode 2; LVssShares 8 1].
Example C104_example : ∃ s s1 r rs s2, history toy_ops C104_h s ∧
  KeyMem.step toy_ops (LReceive 8 "peer" (mkVshare 11 1 12 13)) s = Some (s1, r) ∧
  sc s !! 12 = Some (toy_b 9) ∧ pt s !! 13 = Some (toy_b 7) ∧
  KeyMem.run toy_ops [LVote 8 "peer" []; LWriteScalar 12 (toy_b 200); LVote 8 "peer" []] s1 =
    Some (s2, rs) ∧ rs = [RVote 1 (toy_b 9); RNone; RVote 1 (toy_b 200)].
Proof.
  destruct (KeyMem.run toy_ops C104_h init) as [[s rs0]|] eqn:E0; [|vm_compute in E0; discriminate].
  vm_compute in E0. injection E0 as <- <-.
  eexists _, _, _, _, _. split; [eexists; vm_compute; reflexivity|]. split_and!; vm_compute; reflexivity.
Qed.
