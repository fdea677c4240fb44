(** C126: the cleanup of a shared map beside other goroutines (Model/CleanMap.v). *)
From stdpp Require Import gmap.
From Verif.Base Require Import Base.
From Verif.Model Require Import Gc SyncMap CleanMap.

(** ** Specification *)
(** The call may change what is under k. *)
Definition touches {K V O} (k : K) (o : mop K V O) : Prop :=
  match o with
  | Load _ => False
  | Store k' _ | Delete k' | LoadAndDelete k' | LoadOrStore k' _ | RawStore k' _ => k' = k
  end.
Definition under {K} `{Countable K} {V O} (s : clstate K V O) (k : K) : option (any V O) := m_map (cl_map s) !! k.

Ltac proj := cbn [m_map m_ranges cl_map cl_pending r_seen r_must r_visited r_stop noticed map_do] in *.

Section proofs.
Context {K : Type} `{Countable K} {V O : Type} (zero : V) (is_nil : V → bool) (gcable : any V O → option Z) (ttl : Z).
Notation steps := (clsteps (K:=K) zero is_nil gcable ttl).
Notation step := (clstep (K:=K) zero is_nil gcable ttl).
Notation label := (cllabel K V O).

Lemma op_same (s s' : mstate K V O) o r k : mstep zero is_nil s (MOp o r) s' → ¬ touches k o → m_map s' !! k = m_map s !! k.
Proof.
  intros Hs Ht. inversion Hs as [? ? m ? Hd| | |]; subst. destruct o as [k'|k' v'|k'|k'|k' v'|k' a']; simpl in *; simplify_eq; try done.
  - by rewrite lookup_insert_ne.
  - by rewrite lookup_delete_ne.
  - by rewrite lookup_delete_ne.
  - destruct (m_map s !! k'); simplify_eq; [done|]. by rewrite lookup_insert_ne.
  - by rewrite lookup_insert_ne.
Qed.
Lemma steps_snoc_inv s tr l s2 : steps s (tr ++ [l]) s2 → ∃ s1, steps s tr s1 ∧ step s1 l s2.
Proof.
  intros Hs. remember (tr ++ [l]) as t eqn:Heq. destruct Hs as [s|s tr' s1 l' s2 Hs1 Hs2]; [by destruct tr|].
  apply app_inj_2 in Heq as [-> Heq]; [|done]. simplify_eq. eauto.
Qed.
Lemma steps_snoc_nil s l s2 : steps s [l] s2 → step s l s2.
Proof. intros (s1 & H1 & H2)%(steps_snoc_inv _ []). remember [] as t eqn:Heq. destruct H1 as [s|s tr s1 l' s3 ? ?]; [done|by destruct tr]. Qed.

(** What the pass knows of key k, whose value a nobody else touches. *)
Definition sweep_inv (k : K) (a : any V O) (tr : list label) (s : clstate K V O) : Prop :=
  ∃ r, m_ranges (cl_map s) !! 0 = Some r ∧ r_stop r = false ∧
  (((∀ a' n', CVisit k a' n' ∉ tr) ∧ under s k = Some a ∧ cl_pending s ≠ Some k ∧ k ∈ r_must r ∧
     (∀ a', (k, a') ∈ r_seen r → a' = a) ∧ k ∉ r_visited r) ∨
   (∃ pre now post, tr = pre ++ CVisit k a now :: post ∧ (∀ a' n', CVisit k a' n' ∉ pre ++ post) ∧ k ∈ r_visited r ∧
     ((keeps gcable ttl now a ∧ under s k = Some a ∧ cl_pending s ≠ Some k) ∨
      (¬ keeps gcable ttl now a ∧ (cl_pending s = Some k ∨ under s k = None ∧ cl_pending s ≠ Some k))))).

Lemma sweep_progress s1 tr s k a :
  steps s1 (CBegin :: tr) s → CEnd ∉ tr → under s1 k = Some a → (∀ o r, CUser o r ∈ tr → ¬ touches k o) →
  sweep_inv k a tr s.
Proof.
  revert s. induction tr as [|l tr IH] using rev_ind; intros s Hs Hend Hk Hu.
  { unfold sweep_inv. apply steps_snoc_nil in Hs. inversion Hs as [|m m' Hm| | | |]; subst. inversion Hm; subst. unfold under in *. proj.
    eexists. split; [apply lookup_insert|]. split; [done|]. left. proj. repeat split; [|done|done| | |].
    - intros a' n' Hin. by apply elem_of_nil in Hin.
    - apply elem_of_dom. eauto.
    - intros a' Hin%elem_of_map_to_list. congruence.
    - set_solver. }
  rewrite app_comm_cons in Hs. apply steps_snoc_inv in Hs as (s2 & Hss & Hs).
  destruct (IH s2 Hss ltac:(set_solver) Hk ltac:(set_solver)) as (r & Hr & Hstop & Hcase). clear IH. unfold sweep_inv.
  assert (Hext : (∀ a' n', l ≠ CVisit k a' n') → ∀ pre now post, tr = pre ++ CVisit k a now :: post → (∀ a' n', CVisit k a' n' ∉ pre ++ post) →
    tr ++ [l] = pre ++ CVisit k a now :: (post ++ [l]) ∧ ∀ a' n', CVisit k a' n' ∉ pre ++ (post ++ [l])).
  { intros Hl pre now post -> Hno. split; [by rewrite <- app_assoc|]. intros a' n' Hin. rewrite app_assoc in Hin.
    apply elem_of_app in Hin as [Hin|Hin%elem_of_list_singleton]; [by apply Hno in Hin|]. by apply (Hl a' n'). }
  assert (Hnov : (∀ a' n', l ≠ CVisit k a' n') → (∀ a' n', CVisit k a' n' ∉ tr) → ∀ a' n', CVisit k a' n' ∉ tr ++ [l]).
  { intros Hl Hno a' n' [Hin|Hin%elem_of_list_singleton]%elem_of_app; [by apply Hno in Hin|]. by apply (Hl a' n'). }
  inversion Hs as [m p o res m' Hm|m m' Hm|m m' k' a' now Hm Hkeep|m m' k' a' now Hm Hkeep|m m' k' Hm|m m' Hm]; subst.
  - (* another goroutine *)
    assert (Hnt : ¬ touches k o) by (apply (Hu o res); set_solver).
    pose proof (op_same _ _ _ _ _ Hm Hnt) as Hsame. inversion Hm as [? ? mm ? Hd| | |]; subst.
    unfold under in *. proj. exists (noticed mm r). split; [by rewrite lookup_fmap, Hr|]. split; [done|].
    destruct Hcase as [(H1 & H2 & H3 & H4 & H5 & H6)|(pre & now & post & H1 & H2 & H3 & H4)].
    + left. proj. split; [by apply Hnov|]. rewrite Hsame. split; [done|]. split; [done|]. split; [|split; [|done]].
      * apply elem_of_intersection. split; [done|]. apply elem_of_dom. rewrite Hsame. eauto.
      * intros a' [Hin|Hin%elem_of_map_to_list]%elem_of_app; [by apply H5|]. congruence.
    + right. destruct (Hext ltac:(done) pre now post H1 H2) as [-> Hno]. exists pre, now, (post ++ [CUser o res]).
      split; [done|]. split; [done|]. split; [done|]. rewrite Hsame. done.
  - (* a second Range cannot begin *)
    inversion Hm as [|? ? Hnone| |]; subst. proj. congruence.
  - (* a value that stays *)
    inversion Hm as [| |? ? r' ? ? ? Hr' Hst' Hv' Hs'|]; subst. unfold under in *. proj. rewrite Hr in Hr'. simplify_eq.
    exists (mkRanging (r_seen r') (r_must r') ({[k']} ∪ r_visited r') false). split; [apply lookup_insert|]. split; [done|]. proj.
    destruct Hcase as [(H1 & H2 & H3 & H4 & H5 & H6)|(pre & now' & post & H1 & H2 & H3 & H4)].
    + destruct (decide (k' = k)) as [->|Hne].
      * right. assert (a' = a) as -> by (by apply H5). exists tr, now, []. rewrite app_nil_r. split; [done|]. split; [done|].
        split; [set_solver|]. left. done.
      * left. split; [apply Hnov; [intros; congruence|done]|]. split; [done|]. split; [done|]. split; [done|]. split; [done|set_solver].
    + assert (k' ≠ k) by (intros ->; done). right.
      destruct (Hext ltac:(intros; congruence) pre now' post H1 H2) as [-> Hno]. eexists pre, now', _.
      split; [done|]. split; [done|]. split; [set_solver|done].
  - (* an expired value *)
    inversion Hm as [| |? ? r' ? ? ? Hr' Hst' Hv' Hs'|]; subst. unfold under in *. proj. rewrite Hr in Hr'. simplify_eq.
    exists (mkRanging (r_seen r') (r_must r') ({[k']} ∪ r_visited r') false). split; [apply lookup_insert|]. split; [done|]. proj.
    destruct Hcase as [(H1 & H2 & H3 & H4 & H5 & H6)|(pre & now' & post & H1 & H2 & H3 & H4)].
    + destruct (decide (k' = k)) as [->|Hne].
      * right. assert (a' = a) as -> by (by apply H5). exists tr, now, []. rewrite app_nil_r. split; [done|]. split; [done|].
        split; [set_solver|]. right. split; [done|]. by left.
      * left. split; [apply Hnov; [intros; congruence|done]|]. split; [done|]. split; [congruence|]. split; [done|]. split; [done|set_solver].
    + assert (k' ≠ k) by (intros ->; done). right.
      destruct (Hext ltac:(intros; congruence) pre now' post H1 H2) as [-> Hno]. eexists pre, now', _.
      split; [done|]. split; [done|]. split; [set_solver|].
      destruct H4 as [(? & ? & ?)|(? & [?|[? ?]])]; [left; repeat split; [done|done|congruence]|done|].
      right. split; [done|]. right. split; [done|congruence].
  - (* the cleaner deletes *)
    inversion Hm as [? ? mm ? Hd| | |]; subst. unfold under in *. proj. simplify_eq.
    exists (noticed (delete k' (m_map m)) r). split; [by rewrite lookup_fmap, Hr|]. split; [done|].
    destruct Hcase as [(H1 & H2 & H3 & H4 & H5 & H6)|(pre & now & post & H1 & H2 & H3 & H4)].
    + assert (k' ≠ k) by congruence. left. proj. split; [by apply Hnov|]. rewrite lookup_delete_ne by done.
      split; [done|]. split; [done|]. split; [|split; [|done]].
      * apply elem_of_intersection. split; [done|]. apply elem_of_dom. rewrite lookup_delete_ne by done. eauto.
      * intros a' [Hin|Hin%elem_of_map_to_list]%elem_of_app; [by apply H5|]. rewrite lookup_delete_ne in Hin by done. congruence.
    + right. destruct (Hext ltac:(done) pre now post H1 H2) as [-> Hno]. exists pre, now, (post ++ [CDrop k']).
      split; [done|]. split; [done|]. split; [done|].
      destruct H4 as [(? & ? & ?)|(? & Hc)].
      * left. split; [done|]. rewrite lookup_delete_ne by congruence. done.
      * right. split; [done|]. right. split; [|done]. destruct Hc as [Hc|[Hc ?]]; [simplify_eq; apply lookup_delete|].
        rewrite lookup_delete_None. by right.
  - exfalso. apply Hend. set_solver.
Qed.

(** ** C126 *)
(** An entry that is there when a pass begins, and that nobody else touches while it runs, is looked at exactly once; it is
    still there afterwards, unchanged, if it was young when looked at, and gone otherwise. *)
Theorem C126_sweep s1 tr s2 k a :
  steps s1 (CBegin :: tr ++ [CEnd]) s2 → CEnd ∉ tr → under s1 k = Some a → (∀ o r, CUser o r ∈ tr → ¬ touches k o) →
  ∃ pre now post, tr = pre ++ CVisit k a now :: post ∧ (∀ a' n', CVisit k a' n' ∉ pre ++ post) ∧
    (keeps gcable ttl now a → under s2 k = Some a) ∧ (¬ keeps gcable ttl now a → under s2 k = None).
Proof.
  intros Hs Hend Hk Hu. rewrite app_comm_cons in Hs. apply steps_snoc_inv in Hs as (s & Hss & Hs).
  destruct (sweep_progress _ _ _ _ _ Hss Hend Hk Hu) as (r & Hr & Hstop & Hcase).
  inversion Hs as [| | | | |m m' Hm]; subst. inversion Hm as [| | |? ? r' Hr' Hdone]; subst. unfold under in *. proj.
  rewrite Hr in Hr'. simplify_eq. destruct Hdone as [?|Hsub]; [congruence|].
  destruct Hcase as [(_ & _ & _ & Hm1 & _ & Hnv)|(pre & now & post & -> & Hno & _ & Hc)]; [by apply Hsub in Hm1|].
  exists pre, now, post. split; [done|]. split; [done|].
  destruct Hc as [(? & ? & _)|(? & [?|[? _]])]; done.
Qed.

(** The same by age, when the clock shows n0 to n1 during the pass: what stays young until n1 stays, what has reached the limit
    at n0 goes, and so does whatever has no age. *)
Theorem C126_by_age s1 tr s2 k a n0 n1 :
  steps s1 (CBegin :: tr ++ [CEnd]) s2 → CEnd ∉ tr → under s1 k = Some a → (∀ o r, CUser o r ∈ tr → ¬ touches k o) →
  (∀ k' a' now, CVisit k' a' now ∈ tr → (n0 ≤ now ≤ n1)%Z) → (0 < ttl ≤ maxDuration)%Z →
  match gcable a with
  | Some t => ((n1 - t < ttl)%Z → under s2 k = Some a) ∧ ((ttl ≤ n0 - t)%Z → under s2 k = None)
  | None => under s2 k = None
  end.
Proof.
  intros Hs Hend Hk Hu Hclock Httl. destruct (C126_sweep _ _ _ _ _ Hs Hend Hk Hu) as (pre & now & post & -> & _ & Hkeep & Hdrop).
  assert (n0 ≤ now ≤ n1)%Z as Hnow by (apply (Hclock k a now); set_solver).
  unfold keeps in Hkeep, Hdrop. destruct (gcable a) as [t|]; [|tauto].
  unfold Since, maxDuration, minDuration in *. split; intros Ht; [apply Hkeep; lia|apply Hdrop; lia].
Qed.

(** The cleaner deletes only after having met, under that key and in this pass, a value that had expired; between the look
    and the deletion only others act. *)
Theorem C126_drops s1 tr s2 k :
  steps s1 (CBegin :: tr ++ [CDrop k]) s2 → CEnd ∉ tr → cl_pending s1 = None →
  ∃ pre a now post, tr = pre ++ CVisit k a now :: post ∧ ¬ keeps gcable ttl now a ∧
    (∀ l, l ∈ post → ∃ o r, l = CUser o r) ∧
    ∃ pre1 pre2 s', pre = pre1 ++ pre2 ∧ steps s1 (CBegin :: pre1) s' ∧ under s' k = Some a.
Proof.
  intros Hs Hend Hp. rewrite app_comm_cons in Hs. apply steps_snoc_inv in Hs as (s & Hss & Hs).
  assert (Hinv : (∃ r, m_ranges (cl_map s) !! 0 = Some r ∧ ∀ k' a, (k', a) ∈ r_seen r →
      ∃ pre1 pre2 s', tr = pre1 ++ pre2 ∧ steps s1 (CBegin :: pre1) s' ∧ under s' k' = Some a) ∧
    (∀ k, cl_pending s = Some k → ∃ pre a now post, tr = pre ++ CVisit k a now :: post ∧ ¬ keeps gcable ttl now a ∧
      (∀ l, l ∈ post → ∃ o r, l = CUser o r) ∧
      ∃ pre1 pre2 s', pre = pre1 ++ pre2 ∧ steps s1 (CBegin :: pre1) s' ∧ under s' k = Some a)).
  { clear Hs s2 k. revert s Hss. induction tr as [|l tr IH] using rev_ind; intros s Hss.
    { pose proof Hss as Hss'. apply steps_snoc_nil in Hss. inversion Hss as [|m m' Hm| | | |]; subst. inversion Hm; subst. proj.
      split; [|done]. eexists. split; [apply lookup_insert|]. proj. intros k' a Hin%elem_of_map_to_list.
      eexists [], [], _. split; [done|]. split; [exact Hss'|done]. }
    pose proof Hss as Hall. rewrite app_comm_cons in Hss. apply steps_snoc_inv in Hss as (s' & Hss & Hs).
    destruct (IH ltac:(set_solver) s' Hss) as [(r & Hr & Hseen) Hpend]. clear IH.
    assert (Hseen' : ∀ k' a, (k', a) ∈ r_seen r → ∃ pre1 pre2 s', tr ++ [l] = pre1 ++ pre2 ∧ steps s1 (CBegin :: pre1) s' ∧ under s' k' = Some a).
    { intros k' a Hin. destruct (Hseen k' a Hin) as (p1 & p2 & s3 & -> & ? & ?). exists p1, (p2 ++ [l]), s3. by rewrite <- app_assoc. }
    assert (Hmap : ∀ k' a, m_map (cl_map s) !! k' = Some a → ∃ pre1 pre2 s', tr ++ [l] = pre1 ++ pre2 ∧ steps s1 (CBegin :: pre1) s' ∧ under s' k' = Some a).
    { intros k' a Hin. exists (tr ++ [l]), [], s. rewrite app_nil_r. done. }
    inversion Hs as [m p o res m' Hm|m m' Hm|m m' k' a' now Hm Hkeep|m m' k' a' now Hm Hkeep|m m' k' Hm|m m' Hm]; subst; proj.
    - inversion Hm as [? ? mm ? Hd| | |]; subst. proj. split.
      + exists (noticed mm r). split; [by rewrite lookup_fmap, Hr|]. proj.
        intros k' a [Hin|Hin%elem_of_map_to_list]%elem_of_app; [by apply Hseen'|by apply Hmap].
      + intros k Hk. destruct (Hpend k Hk) as (pre & a & now & post & -> & Hnk & Hpo & Hw). exists pre, a, now, (post ++ [CUser o res]).
        split; [by rewrite <- app_assoc|]. split; [done|]. split; [|done].
        intros l [Hl| ->%elem_of_list_singleton]%elem_of_app; [by apply Hpo|eauto].
    - inversion Hm; subst. congruence.
    - inversion Hm as [| |? ? r' ? ? ? Hr' ? ? ?|]; subst. proj. rewrite Hr in Hr'. simplify_eq. split; [|done].
      eexists. split; [apply lookup_insert|]. proj. done.
    - inversion Hm as [| |? ? r' ? ? ? Hr' Hst Hnv Hin|]; subst. proj. rewrite Hr in Hr'. simplify_eq. split.
      + eexists. split; [apply lookup_insert|]. proj. done.
      + intros k Hk. simplify_eq. exists tr, a', now, []. split; [done|]. split; [done|]. split; [intros l Hl; by apply elem_of_nil in Hl|].
        by apply Hseen.
    - inversion Hm as [? ? mm ? Hd| | |]; subst. proj. split; [|done].
      exists (noticed mm r). split; [by rewrite lookup_fmap, Hr|]. proj.
      intros k2 a [Hin|Hin%elem_of_map_to_list]%elem_of_app; [by apply Hseen'|by apply Hmap].
    - exfalso. apply Hend. set_solver. }
  inversion Hs; subst. by apply Hinv.
Qed.

(** That is the only way: what the cleaner deletes has expired, unless another goroutine touched the key during the pass. *)
Lemma untouched s tr s' k : steps s tr s' → (∀ o r, CUser o r ∈ tr → ¬ touches k o) → under s' k = under s k ∨ under s' k = None.
Proof.
  induction 1 as [|s tr s1 l s2 Hs IH Hl]; intros Hu; [by left|].
  assert (Hu' : ∀ o r, CUser o r ∈ tr → ¬ touches k o) by (intros o r Hin; apply (Hu o r); set_solver). specialize (IH Hu').
  enough (under s2 k = under s1 k ∨ under s2 k = None) as [->| ->] by auto.
  inversion Hl as [m p o res m' Hm|m m' Hm|m m' k' a' now Hm Hkeep|m m' k' a' now Hm Hkeep|m m' k' Hm|m m' Hm]; subst; unfold under; proj.
  - left. eapply op_same; [exact Hm|]. apply (Hu o res). set_solver.
  - inversion Hm; subst; by left.
  - inversion Hm; subst; by left.
  - inversion Hm; subst; by left.
  - inversion Hm as [? ? mm ? Hd| | |]; subst. proj. simplify_eq. destruct (decide (k' = k)) as [->|].
    + right. apply lookup_delete.
    + left. by rewrite lookup_delete_ne.
  - inversion Hm; subst; by left.
Qed.
Lemma touched_dec (tr : list label) k : (∃ o r, CUser o r ∈ tr ∧ touches k o) ∨ ∀ o r, CUser o r ∈ tr → ¬ touches k o.
Proof.
  induction tr as [|l tr IH]; [right; intros o r Hin; by apply elem_of_nil in Hin|].
  destruct IH as [(o & r & ? & ?)|IH]; [left; exists o, r; set_solver|].
  assert (Hd : ∀ o : mop K V O, touches k o ∨ ¬ touches k o).
  { intros o. destruct o as [k'|k' v'|k'|k'|k' v'|k' a']; simpl; [right; tauto|..]; destruct (decide (k' = k)); auto. }
  destruct l as [o r| | | |]; try (right; intros o' r' [?|?]%elem_of_cons; [done|by eapply IH]).
  destruct (Hd o) as [Ht|Ht]; [left; exists o, r; set_solver|].
  right. intros o' r' [?|?]%elem_of_cons; [by simplify_eq|by eapply IH].
Qed.
Theorem C126_only_replaced s1 tr s s2 k a :
  steps s1 (CBegin :: tr) s → step s (CDrop k) s2 → CEnd ∉ tr → cl_pending s1 = None → under s k = Some a →
  (∃ now, CVisit k a now ∈ tr ∧ ¬ keeps gcable ttl now a) ∨ (∃ o r, CUser o r ∈ tr ∧ touches k o).
Proof.
  intros Hs Hd Hend Hp Hk. destruct (touched_dec tr k) as [|Hu]; [by right|left].
  assert (Hfull : steps s1 (CBegin :: tr ++ [CDrop k]) s2) by (rewrite app_comm_cons; by econstructor).
  destruct (C126_drops _ _ _ _ Hfull Hend Hp) as (pre & a0 & now & post & -> & Hnk & _ & pre1 & pre2 & s' & -> & Hs' & Hk').
  exists now. enough (a0 = a) as <- by (split; [set_solver|done]).
  assert (Hu1 : ∀ o r, CUser o r ∈ CBegin :: pre1 → ¬ touches k o).
  { intros o r [?|Hin]%elem_of_cons; [done|]. apply (Hu o r). rewrite !elem_of_app. auto. }
  assert (Hu2 : ∀ o r, CUser o r ∈ CBegin :: (pre1 ++ pre2) ++ CVisit k a0 now :: post → ¬ touches k o).
  { intros o r [?|Hin]%elem_of_cons; [done|]. by apply (Hu o r). }
  destruct (untouched _ _ _ _ Hs' Hu1) as [E1|E1]; destruct (untouched _ _ _ _ Hs Hu2) as [E2|E2]; congruence.
Qed.

(** FINDING: looking and deleting are two steps (gc.go:23, 28), and the deletion does not check the value.  A young entry
    stored under the same key in between is deleted at once. *)
Theorem C126_young_lost k old young now :
  is_nil old = false → ¬ keeps gcable ttl now (AVal old) → keeps gcable ttl now (AVal young) →
  ∃ s, steps (mkCl empty_map None)
         [CUser (Store k old) RDone; CBegin; CVisit k (AVal old) now; CUser (Store k young) RDone; CDrop k; CEnd] s ∧
       under s k = None.
Proof.
  intros Hn Ho _. eexists. split.
  - eapply (cls_snoc _ _ _ _ _ [_; _; _; _; _]). 1: eapply (cls_snoc _ _ _ _ _ [_; _; _; _]). 1: eapply (cls_snoc _ _ _ _ _ [_; _; _]).
    1: eapply (cls_snoc _ _ _ _ _ [_; _]). 1: eapply (cls_snoc _ _ _ _ _ [_]). 1: eapply (cls_snoc _ _ _ _ _ []). 1: constructor.
    + apply cl_user. eapply ms_op. reflexivity.
    + apply cl_begin. eapply ms_range. apply fmap_empty || reflexivity.
    + eapply cl_expired; [|done]. eapply ms_visit; [apply lookup_insert|done|set_solver|]. proj. apply elem_of_map_to_list.
      unfold box. rewrite Hn. apply lookup_insert.
    + apply cl_user. eapply ms_op. reflexivity.
    + apply cl_drop. eapply ms_op. reflexivity.
    + apply cl_end. eapply ms_end; [simpl; rewrite !lookup_fmap, lookup_insert; reflexivity|]. right. proj. set_solver.
  - unfold under. proj. apply lookup_delete.
Qed.
End proofs.

(** ** A pass that meets the hypotheses: values are their start times, ttl 10; key 1 has expired, key 2 has not, and another
    goroutine stores a third entry and reads the second meanwhile. *)
Definition ex_gcable (a : any Z unit) : option Z := match a with AVal t => Some t | _ => None end.
Definition ex_pass : list (cllabel nat Z unit) :=
  [CVisit 1 (AVal 0%Z) 100; CUser (Store 3 99%Z) RDone; CDrop 1; CUser (Load 2) (RVal 95%Z true); CVisit 2 (AVal 95%Z) 101].
Definition ex_start : clstate nat Z unit := mkCl (mkM {[1 := AVal 0%Z; 2 := AVal 95%Z]} ∅) None.
Example C126_example :
  (∃ s, clsteps 0%Z (λ _, false) ex_gcable 10 ex_start (CBegin :: ex_pass ++ [CEnd]) s ∧
        under s 1 = None ∧ under s 2 = Some (AVal 95%Z) ∧ under s 3 = Some (AVal 99%Z)) ∧
  CEnd ∉ ex_pass ∧ under ex_start 1 = Some (AVal 0%Z) ∧ (∀ o r, CUser o r ∈ ex_pass → ¬ touches 1 o ∧ ¬ touches 2 o) ∧
  ¬ keeps ex_gcable 10 100 (AVal 0%Z) ∧ keeps ex_gcable 10 101 (AVal 95%Z).
Proof.
  assert (Hold : ¬ keeps ex_gcable 10 100 (AVal 0%Z)) by (vm_compute; discriminate).
  assert (Hyoung : keeps ex_gcable 10 101 (AVal 95%Z)) by (vm_compute; reflexivity).
  split; [|split; [|split; [reflexivity|split; [|done]]]].
  - eexists. split; [|split; [|split]].
    + unfold ex_pass, ex_start. simpl app.
      eapply (cls_snoc _ _ _ _ _ [_; _; _; _; _; _]). 1: eapply (cls_snoc _ _ _ _ _ [_; _; _; _; _]). 1: eapply (cls_snoc _ _ _ _ _ [_; _; _; _]).
      1: eapply (cls_snoc _ _ _ _ _ [_; _; _]). 1: eapply (cls_snoc _ _ _ _ _ [_; _]). 1: eapply (cls_snoc _ _ _ _ _ [_]).
      1: eapply (cls_snoc _ _ _ _ _ []). 1: constructor.
      * apply cl_begin. eapply ms_range. reflexivity.
      * eapply cl_expired; [|exact Hold]. eapply ms_visit; [reflexivity|reflexivity|set_solver|]. simpl. apply elem_of_map_to_list. reflexivity.
      * apply cl_user. eapply ms_op. reflexivity.
      * apply cl_drop. eapply ms_op. reflexivity.
      * apply cl_user. eapply ms_op. reflexivity.
      * eapply cl_keep; [|exact Hyoung]. eapply ms_visit; [reflexivity|reflexivity|set_solver|]. simpl. rewrite !elem_of_app.
        left. left. left. apply elem_of_map_to_list. reflexivity.
      * apply cl_end. eapply ms_end; [reflexivity|]. right. simpl. set_solver.
    + reflexivity.
    + reflexivity.
    + reflexivity.
  - intros Hin. repeat (apply elem_of_cons in Hin as [Hin|Hin]; [done|]). by apply elem_of_nil in Hin.
  - intros o r Hin. repeat (apply elem_of_cons in Hin as [Hin|Hin]; [simplify_eq; simpl; lia|]). by apply elem_of_nil in Hin.
Qed.
