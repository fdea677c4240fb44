(** Particular executions of the certificate verifier. *)
From stdpp Require Import gmap vector.
From Verif.Base Require Import Base.
From Verif.Model Require Import Merkle Verifier.
From Verif.Spec Require Import VerifierSpec.

Section exec.
Context (H : bytes → digest) {PK B : Type} (enc : B → option rcert → bytes)
        (sigok : PK → digest → bytes → bool) (G : vstate PK B → PK → nat → Prop).
Notation vstate := (vstate PK B).
Notation step := (vstep H enc sigok G).
Notation path_valid := (path_valid H enc).
Notation signed_by := (signed_by sigok).

Local Arguments auth : simpl never.
Local Arguments sig_valid : simpl never.
Ltac norm := cbv [with_thr with_obj with_task with_map set_pc set_cert set_st]; cbn; repeat rewrite insert_insert.
Ltac lk := cbn; repeat first [rewrite lookup_insert | rewrite lookup_insert_ne by done]; try done; try eassumption; eauto.
Ltac go T := eapply rtc_l; [eapply T; [lk|..]; lk|]; norm.

Lemma auth_none b c : path_valid b c → auth H enc (mkVObj b None) c = true.
Proof. done. Qed.

(** A call that finds a good task for its root. *)
Lemma solo_hit ob tk mp th i pk o b c t k :
  th !! i = None → ob !! o = Some (mkVObj b (Some c)) → path_valid b c →
  mp !! root_of c = Some t → tk !! t = Some k → vt_st k = TReady true →
  G (mkV ob tk mp th) pk o →
  rtc step (mkV ob tk mp th) (mkV ob tk mp (<[i := mkVThr pk o [] (PDone RNil)]> th)).
Proof.
  intros Hi Ho Hp Hm Ht Hk Hg.
  go (V_start H enc sigok G (mkV ob tk mp th) i pk o).
  go (V_pop H enc sigok G (mkV ob tk mp (<[i:=mkVThr pk o [] PPop]> th)) i).
  eapply rtc_l; [eapply (V_auth _ _ _ _ _ i); [lk|..]; lk|]. norm. rewrite auth_none by done.
  eapply rtc_l; [eapply (V_load _ _ _ _ _ i); [lk|..]; lk|]. norm.
  eapply rtc_l; [eapply (V_cas_lost _ _ _ _ _ i); [lk|..]; lk; by rewrite Hk|]. norm.
  eapply rtc_l; [eapply (V_ready _ _ _ _ _ i _ _ _ _ k true); [lk|..]; lk|]. norm.
  eapply rtc_l; [eapply (V_unwind _ _ _ _ _ i); [lk|..]; lk|]. norm.
  eapply rtc_l; [eapply (V_return _ _ _ _ _ i); [lk|..]; lk|]. norm.
  rewrite (insert_id ob) by done. apply rtc_refl.
Qed.
(** A call that finds no task for its root. *)
Lemma solo_miss ob tk mp th i pk o b c t :
  th !! i = None → ob !! o = Some (mkVObj b (Some c)) → path_valid b c →
  mp !! root_of c = None → tk !! t = None → signed_by pk c →
  G (mkV ob tk mp th) pk o →
  rtc step (mkV ob tk mp th) (mkV ob (<[t := mkVTask pk c (TReady true)]> tk) (<[root_of c := t]> mp)
     (<[i := mkVThr pk o [] (PDone RNil)]> th)).
Proof.
  intros Hi Ho Hp Hm Ht Hs Hg.
  go (V_start H enc sigok G (mkV ob tk mp th) i pk o).
  eapply rtc_l; [eapply (V_pop _ _ _ _ _ i); [lk|..]; lk|]. norm.
  eapply rtc_l; [eapply (V_auth _ _ _ _ _ i); [lk|..]; lk|]. norm. rewrite auth_none by done.
  eapply rtc_l; [eapply (V_store _ _ _ _ _ i _ _ t); [lk|..]; lk|]. norm.
  eapply rtc_l; [eapply (V_cas_won _ _ _ _ _ i); [lk|..]; lk|]. norm.
  eapply rtc_l; [eapply (V_send _ _ _ _ _ i); [lk|..]; lk|]. norm.
  eapply rtc_l; [eapply (V_work _ _ _ _ _ t); [lk|..]; lk|]. norm.
  replace (sig_valid sigok pk c) with true by (symmetry; exact Hs).
  eapply rtc_l; [eapply (V_ready _ _ _ _ _ i _ _ _ _ _ true); [lk|..]; lk|]. norm.
  eapply rtc_l; [eapply (V_unwind _ _ _ _ _ i); [lk|..]; lk|]. norm.
  eapply rtc_l; [eapply (V_return _ _ _ _ _ i); [lk|..]; lk|]. norm.
  rewrite (insert_id ob) by done. apply rtc_refl.
Qed.

(** A good call that shares the task of a bad one. *)
Lemma poisoned ob o1 o2 b1 b2 c1 c2 pk1 pk2 :
  o1 ≠ o2 → ob !! o1 = Some (mkVObj b1 (Some c1)) → ob !! o2 = Some (mkVObj b2 (Some c2)) →
  path_valid b1 c1 → path_valid b2 c2 → root_of c1 = root_of c2 → rc_sig c1 ≠ rc_sig c2 →
  ¬ signed_by pk1 c1 →
  G (v_init ob) pk1 o1 → (G (mkV ob ∅ ∅ {[1 := mkVThr pk1 o1 [] PPop]}) pk2 o2) →
  ∃ s, rtc step (v_init ob) s ∧
    v_thr s !! 1 = Some (mkVThr pk1 o1 [] (PDone RSig)) ∧ v_thr s !! 2 = Some (mkVThr pk2 o2 [] (PDone RSig)).
Proof.
  intros Hne Ho1 Ho2 Hp1 Hp2 Hr Hsg Hs Hg1 Hg2. unfold v_init.
  assert (Ho1' : ∀ v, <[o1:=v]> ob !! o2 = Some (mkVObj b2 (Some c2))) by (intros v; by rewrite lookup_insert_ne).
  eexists. split.
  - eapply rtc_l; [eapply (V_start _ _ _ _ _ 1 pk1 o1); [lk|..]; lk|]. norm.
    eapply rtc_l; [eapply (V_start _ _ _ _ _ 2 pk2 o2); [lk|..]; lk|]. norm.
    eapply rtc_l; [eapply (V_pop _ _ _ _ _ 1); [lk|..]; lk|]. norm.
    eapply rtc_l; [eapply (V_pop _ _ _ _ _ 2); [lk|..]; lk|]. norm.
    eapply rtc_l; [eapply (V_auth _ _ _ _ _ 1); [lk|..]; lk|]. norm. rewrite auth_none by done.
    eapply rtc_l; [eapply (V_auth _ _ _ _ _ 2); [lk|..]; lk|]. norm. rewrite auth_none by done.
    eapply rtc_l; [eapply (V_store _ _ _ _ _ 1 _ _ 0); [lk|..]; lk|]. norm.
    eapply rtc_l; [eapply (V_load _ _ _ _ _ 2 _ c2 0); [lk|..]; lk; change (<[root_of c1 := 0]> (∅ : gmap digest nat) !! root_of c2 = Some 0); rewrite Hr; lk|]. norm.
    eapply rtc_l; [eapply (V_cas_won _ _ _ _ _ 1); [lk|..]; lk|]. norm.
    eapply rtc_l; [eapply (V_cas_lost _ _ _ _ _ 2); [lk|..]; lk|]. norm.
    eapply rtc_l; [eapply (V_send _ _ _ _ _ 1); [lk|..]; lk|]. norm.
    eapply rtc_l; [eapply (V_work _ _ _ _ _ 0); [lk|..]; lk|]. norm.
    replace (sig_valid sigok pk1 c1) with false by (symmetry; by apply not_true_is_false).
    eapply rtc_l; [eapply (V_ready _ _ _ _ _ 1 _ _ _ _ _ false); [lk|..]; lk|]. norm.
    eapply rtc_l; [eapply (V_ready _ _ _ _ _ 2 _ _ _ _ _ false); [lk|..]; lk|]. norm.
    eapply rtc_l; [eapply (V_delete _ _ _ _ _ 1); [lk|..]; lk|]. norm.
    eapply rtc_l; [eapply (V_delete _ _ _ _ _ 2); [lk|..]; lk|]. norm. rewrite bool_decide_eq_false_2 by done.
    eapply rtc_l; [eapply (V_unwind _ _ _ _ _ 1); [lk|..]; lk|]. norm.
    eapply rtc_l; [eapply (V_unwind _ _ _ _ _ 2); [lk|..]; lk|]. norm.
    eapply rtc_l; [eapply (V_return _ _ _ _ _ 1); [lk|..]; lk|]. norm.
    eapply rtc_l; [eapply (V_return _ _ _ _ _ 2); [lk|..]; lk|]. norm.
    apply rtc_refl.
  - cbn. by repeat first [rewrite lookup_insert | rewrite lookup_insert_ne by done].
Qed.

(** Two calls on one object: the second finds the certificate field empty and later "restores" that. *)
Lemma lost_cert ob o b c pk1 pk2 :
  ob !! o = Some (mkVObj b (Some c)) → path_valid b c → signed_by pk1 c → (∀ s pk o, G s pk o) →
  ∃ s, rtc step (v_init ob) s ∧ v_thr s !! 1 = Some (mkVThr pk1 o [] (PDone RNil)) ∧
    v_thr s !! 2 = Some (mkVThr pk2 o [] (PDone REmpty)) ∧ v_objs s !! o = Some (mkVObj b None) ∧ (∀ i x, v_thr s !! i = Some x → i = 1 ∨ i = 2).
Proof.
  intros Ho Hp Hs Hg. unfold v_init.
  eexists. split.
  - eapply rtc_l; [eapply (V_start _ _ _ _ _ 1 pk1 o); [lk|..]; lk|]. norm.
    eapply rtc_l; [eapply (V_start _ _ _ _ _ 2 pk2 o); [lk|..]; lk|]. norm.
    eapply rtc_l; [eapply (V_pop _ _ _ _ _ 1); [lk|..]; lk|]. norm.
    eapply rtc_l; [eapply (V_pop _ _ _ _ _ 2); [lk|..]; lk|]. norm.
    eapply rtc_l; [eapply (V_auth _ _ _ _ _ 1); [lk|..]; lk|]. norm. rewrite auth_none by done.
    eapply rtc_l; [eapply (V_store _ _ _ _ _ 1 _ _ 0); [lk|..]; lk|]. norm.
    eapply rtc_l; [eapply (V_cas_won _ _ _ _ _ 1); [lk|..]; lk|]. norm.
    eapply rtc_l; [eapply (V_send _ _ _ _ _ 1); [lk|..]; lk|]. norm.
    eapply rtc_l; [eapply (V_work _ _ _ _ _ 0); [lk|..]; lk|]. norm.
    replace (sig_valid sigok pk1 c) with true by (symmetry; exact Hs).
    eapply rtc_l; [eapply (V_ready _ _ _ _ _ 1 _ _ _ _ _ true); [lk|..]; lk|]. norm.
    eapply rtc_l; [eapply (V_unwind _ _ _ _ _ 1); [lk|..]; lk|]. norm.
    eapply rtc_l; [eapply (V_return _ _ _ _ _ 1); [lk|..]; lk|]. norm.
    eapply rtc_l; [eapply (V_unwind _ _ _ _ _ 2); [lk|..]; lk|]. norm.
    eapply rtc_l; [eapply (V_return _ _ _ _ _ 2); [lk|..]; lk|]. norm.
    apply rtc_refl.
  - cbn. split_and!; try (by repeat first [rewrite lookup_insert | rewrite lookup_insert_ne by done]).
    intros i x. destruct (decide (i = 1)) as [->|]; [by left|]. destruct (decide (i = 2)) as [->|]; [by right|].
    repeat rewrite lookup_insert_ne by done. by rewrite lookup_empty.
Qed.

(** Whoever is about to send a task is its only sender, and it has not been sent. *)
Definition senders (s : vstate) : Prop :=
  ∀ i x c t, v_thr s !! i = Some x → th_pc x = PSend c t →
    (∃ k, v_tasks s !! t = Some k ∧ vt_st k = TTaken) ∧
    ∀ j y c', v_thr s !! j = Some y → th_pc y = PSend c' t → j = i.
Lemma senders_other s s' i x' :
  senders s → v_thr s' = <[i := x']> (v_thr s) → (∀ c t, th_pc x' ≠ PSend c t) →
  (∀ t k, v_tasks s !! t = Some k → vt_st k = TTaken →
     (∃ x c, v_thr s !! i = Some x ∧ th_pc x = PSend c t) ∨ v_tasks s' !! t = Some k) → senders s'.
Proof.
  intros Hs Et Hx' Hk j y c t Hy Hp. rewrite Et in Hy. destruct (decide (j = i)) as [->|Hji].
  { rewrite lookup_insert in Hy. injection Hy as <-. by destruct (Hx' c t). }
  rewrite lookup_insert_ne in Hy by done. destruct (Hs _ _ _ _ Hy Hp) as [(k & Hk1 & Hk2) Hu]. split.
  - destruct (Hk _ _ Hk1 Hk2) as [(x & c' & Hx & Hp')|?]; [|eauto]. destruct Hji. symmetry. eauto.
  - intros j' y' c' Hy' Hp'. rewrite Et in Hy'. destruct (decide (j' = i)) as [->|Hji'].
    { rewrite lookup_insert in Hy'. injection Hy' as <-. by destruct (Hx' c' t). }
    rewrite lookup_insert_ne in Hy' by done. eauto.
Qed.
Lemma senders_step s s' : step s s' → senders s → senders s'.
Proof.
  intros Hst Hs.
  inversion Hst as [j pk' o' Hi Ho' Hg|j y v Hi Hp Hv|j y v c Hi Hp Hv|j y c t Hi Hp Hm|j y c t Hi Hp Hm Hk
    |j y c t k Hi Hp Hk Hst'|j y c t k Hi Hp Hk Hst'|j y c t k Hi Hp Hk|t k Hk Hst'|j y c t b k ok Hi Hp Hk Hst'
    |j y c t b k Hi Hp Hk|j y c v Hi Hp Hv|j y r c cs v Hi Hp Hd Hv|j y r Hi Hp Hd|d]; subst s'.
  all: try (eapply senders_other; [exact Hs|reflexivity| |]; cbn; [|by right]; intros c0 t0; repeat case_match; done).
  - eapply senders_other; [exact Hs|reflexivity|done|]. cbn. intros t' k' Hk' _. right.
    rewrite lookup_insert_ne; [done|congruence].
  - intros j' y' c' t' Hy' Hp'. cbn in Hy'. cbn. destruct (decide (t' = t)) as [->|Htt].
    + split; [rewrite lookup_insert; eexists; split; [reflexivity|done]|].
      assert (Hall : ∀ j'' y'' c'', <[j:=set_pc y (PSend c t)]> (v_thr s) !! j'' = Some y'' → th_pc y'' = PSend c'' t → j'' = j).
      { intros j'' y'' c'' Hy'' Hp''. destruct (decide (j'' = j)) as [->|Hne]; [done|].
        rewrite lookup_insert_ne in Hy'' by done. destruct (Hs _ _ _ _ Hy'' Hp'') as [(k'' & Hk'' & Hst'') _].
        rewrite Hk in Hk''. injection Hk'' as <-. congruence. }
      intros. assert (j' = j) by eauto. subst. eauto.
    + destruct (decide (j' = j)) as [->|Hne].
      { rewrite lookup_insert in Hy'. injection Hy' as <-. cbn in Hp'. congruence. }
      rewrite lookup_insert_ne in Hy' by done. destruct (Hs _ _ _ _ Hy' Hp') as [(k' & Hk' & Hst2) Hu]. split.
      * exists k'. by rewrite lookup_insert_ne.
      * intros j'' y'' c'' Hy'' Hp''. destruct (decide (j'' = j)) as [->|Hne''].
        { rewrite lookup_insert in Hy''. injection Hy'' as <-. cbn in Hp''. congruence. }
        rewrite lookup_insert_ne in Hy'' by done. eauto.
  - eapply senders_other; [exact Hs|reflexivity|done|]. cbn. intros t' k' Hk' _.
    destruct (decide (t' = t)) as [->|Hne]; [left; eauto|]. right. by rewrite lookup_insert_ne.
  - intros j' y' c' t' Hy' Hp'. cbn in *. destruct (Hs _ _ _ _ Hy' Hp') as [(k' & Hk' & Hst2) Hu]. split; [|done].
    exists k'. rewrite lookup_insert_ne; [done|congruence].
  - exact Hs.
Qed.
Lemma senders_reach ob s : rtc step (v_init ob) s → senders s.
Proof.
  intros Hr. apply (rtc_ind_r senders (v_init ob)) with (z := s) in Hr; [done| |].
  - intros i x c t Hx. cbn in Hx. by rewrite lookup_empty in Hx.
  - intros s1 s2 _ Hst Hi. by eapply senders_step.
Qed.

(** A call that has looked up a good task returns nil, whatever happens. *)
Definition sure (s : vstate) (i : nat) (pk : PK) (o : nat) : Prop :=
  ∃ x, v_thr s !! i = Some x ∧ th_pk x = pk ∧ th_obj x = o ∧
    match th_pc x with
    | PCas _ t | PWait _ t _ => ∃ k, v_tasks s !! t = Some k ∧ vt_st k = TReady true
    | PRet r | PDone r => r = RNil
    | _ => False
    end.
Lemma sure_step s s' i pk o : senders s → step s s' → sure s i pk o → sure s' i pk o.
Proof.
  intros Hsend Hst (x & Hx & Hpk & Ho & Hpc).
  assert (Hother : ∀ s'', v_thr s'' !! i = Some x →
    (∀ t k, v_tasks s !! t = Some k → vt_st k = TReady true → v_tasks s'' !! t = Some k) → sure s'' i pk o).
  { intros s'' Hx' Ht. exists x. split_and!; try done.
    destruct (th_pc x); try done; destruct Hpc as (k & Hk & Hr); eauto. }
  inversion Hst as [j pk' o' Hi Ho' Hg|j y v Hi Hp Hv|j y v c Hi Hp Hv|j y c t Hi Hp Hm|j y c t Hi Hp Hm Hk
    |j y c t k Hi Hp Hk Hst'|j y c t k Hi Hp Hk Hst'|j y c t k Hi Hp Hk|t k Hk Hst'|j y c t b k ok Hi Hp Hk Hst'
    |j y c t b k Hi Hp Hk|j y c v Hi Hp Hv|j y r c cs v Hi Hp Hd Hv|j y r Hi Hp Hd|d]; subst s'.
  (* steps of call i itself *)
  all: try (destruct (decide (j = i)) as [->|Hji];
      [rewrite Hx in Hi; try done; injection Hi as <-; rewrite Hp in Hpc; try done|
       try (apply Hother; cbn; [by rewrite lookup_insert_ne|done])]).
  - apply Hother; cbn; [by rewrite lookup_insert_ne|]. intros t' k0 Hk0 _. rewrite lookup_insert_ne; [done|congruence].
  - destruct Hpc as (k' & Hk' & Hr). rewrite Hk in Hk'. injection Hk' as <-. congruence.
  - apply Hother; cbn; [by rewrite lookup_insert_ne|]. intros t' k0 Hk0 Hr0. rewrite lookup_insert_ne; [done|congruence].
  - eexists. cbn. rewrite lookup_insert. split_and!; done.
  - apply Hother; cbn; [by rewrite lookup_insert_ne|]. intros t' k0 Hk0 Hr0.
    destruct (Hsend _ _ _ _ Hi Hp) as [(k' & Hk' & Hst2) _]. rewrite lookup_insert_ne; [done|]. congruence.
  - apply Hother; [done|]. cbn. intros t' k0 Hk0 Hr0. rewrite lookup_insert_ne; [done|congruence].
  - destruct Hpc as (k' & Hk' & Hr). rewrite Hk in Hk'. injection Hk' as <-. rewrite Hr in Hst'. injection Hst' as <-.
    eexists. cbn. rewrite lookup_insert. done.
  - eexists. cbn. rewrite lookup_insert. done.
  - eexists. cbn. rewrite lookup_insert. by subst.
  - by apply Hother.
Qed.
Lemma sure_steps s s' i pk o : senders s → rtc step s s' → sure s i pk o → sure s' i pk o.
Proof.
  intros Hs Hr. induction Hr as [|s s1 s2 Hst Hr IH]; [done|]. intros Hsure.
  apply IH; [by eapply senders_step|by eapply sure_step].
Qed.
End exec.
