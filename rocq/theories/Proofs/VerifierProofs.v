(** Invariant of the certificate verifier when calls use objects exclusively. *)
From stdpp Require Import gmap vector.
From Verif.Base Require Import Base.
From Verif.Model Require Import Merkle Verifier.
From Verif.Spec Require Import VerifierSpec.

Section proofs.
Context (H : bytes → digest) {PK B : Type} (enc : B → option rcert → bytes)
        (sigok : PK → digest → bytes → bool).
Context (objs0 : gmap nat (vobj B)).
Notation vstate := (vstate PK B).
Notation asked := (asked objs0).
Notation path_valid := (path_valid H enc).
Notation signed_by := (signed_by sigok).

Definition verdict (s : vstate) (v0 : vobj B) (r : vres) : Prop :=
  match r with
  | REmpty => ob_cert v0 = None
  | RPath => ∃ c, ob_cert v0 = Some c ∧ ¬ path_valid (ob_body v0) c
  | RNil => ∃ c, ob_cert v0 = Some c ∧ path_valid (ob_body v0) c ∧
      ∃ pk' c', asked s pk' c' ∧ root_of c' = root_of c ∧ signed_by pk' c'
  | RSig => ∃ c, ob_cert v0 = Some c ∧ path_valid (ob_body v0) c ∧
      ∃ pk' c', asked s pk' c' ∧ root_of c' = root_of c ∧ ¬ signed_by pk' c'
  end.
Definition holds_task (s : vstate) (c : rcert) (t : nat) : Prop :=
  ∃ k, v_tasks s !! t = Some k ∧ root_of (vt_cert k) = root_of c.
Definition thr_ok (s : vstate) (x : vthread PK) : Prop :=
  ∃ v0 v, objs0 !! th_obj x = Some v0 ∧ v_objs s !! th_obj x = Some v ∧
    Forall (eq (ob_cert v0)) (th_defers x) ∧
    match th_pc x with PPop | PRet _ | PDone _ => True | _ => th_defers x ≠ [] end ∧
    match th_pc x with
    | PPop => ob_cert v = ob_cert v0
    | PAuth c => ob_cert v0 = Some c ∧ ob_cert v = None
    | PStore c => ob_cert v0 = Some c ∧ path_valid (ob_body v0) c
    | PCas c t | PSend c t | PWait c t _ => ob_cert v0 = Some c ∧ path_valid (ob_body v0) c ∧ holds_task s c t
    | PDel c t _ => ob_cert v0 = Some c ∧ path_valid (ob_body v0) c ∧ holds_task s c t ∧
        ∃ pk' c', asked s pk' c' ∧ root_of c' = root_of c ∧ ¬ signed_by pk' c'
    | PRetry c => ob_cert v0 = Some c
    | PRet r => (th_defers x = [] → ob_cert v = ob_cert v0) ∧ verdict s v0 r
    | PDone r => verdict s v0 r
    end.
Definition task_ok (s : vstate) (k : vtask PK) : Prop :=
  asked s (vt_pk k) (vt_cert k) ∧
  (∀ ok, vt_st k = TReady ok → ok = sigok (vt_pk k) (root_of (vt_cert k)) (rc_sig (vt_cert k))).

Record inv (s : vstate) : Prop := mkInv {
  i_dom : ∀ o, is_Some (objs0 !! o) ↔ is_Some (v_objs s !! o);
  i_body : ∀ o v v0, v_objs s !! o = Some v → objs0 !! o = Some v0 → ob_body v = ob_body v0;
  i_uniq : ∀ i j x y, v_thr s !! i = Some x → v_thr s !! j = Some y → i ≠ j →
     active x → active y → th_obj x ≠ th_obj y;
  i_idle : ∀ o v v0, v_objs s !! o = Some v → objs0 !! o = Some v0 → ¬ in_use s o → ob_cert v = ob_cert v0;
  i_task : ∀ t k, v_tasks s !! t = Some k → task_ok s k;
  i_map : ∀ d t, v_map s !! d = Some t → ∃ k, v_tasks s !! t = Some k ∧ root_of (vt_cert k) = d;
  i_thr : ∀ i x, v_thr s !! i = Some x → thr_ok s x }.

Definition tasks_le (s s' : vstate) : Prop :=
  ∀ t k, v_tasks s !! t = Some k → ∃ k', v_tasks s' !! t = Some k' ∧ vt_cert k' = vt_cert k.
Definition thr_le (s s' : vstate) : Prop :=
  ∀ i x, v_thr s !! i = Some x → ∃ x', v_thr s' !! i = Some x' ∧ th_pk x' = th_pk x ∧ th_obj x' = th_obj x.
Lemma asked_mono s s' pk c : thr_le s s' → asked s pk c → asked s' pk c.
Proof.
  intros Hle (i & x & v & Hx & <- & Hv & Hc). destruct (Hle _ _ Hx) as (x' & Hx' & E1 & E2).
  exists i, x', v. by rewrite E1, E2.
Qed.
Lemma verdict_mono s s' v0 r : thr_le s s' → verdict s v0 r → verdict s' v0 r.
Proof.
  intros Hle. destruct r; simpl; try done; intros (c & ? & ? & pk' & c' & ? & ? & ?);
    exists c; split_and!; try done; exists pk', c'; split_and!; try done; by eapply asked_mono.
Qed.
Lemma holds_mono s s' c t : tasks_le s s' → holds_task s c t → holds_task s' c t.
Proof. intros Hle (k & Hk & E). destruct (Hle _ _ Hk) as (k' & ? & ?). exists k'. split; [done|congruence]. Qed.
Lemma thr_ok_mono s s' x : thr_le s s' → tasks_le s s' →
  (active x → v_objs s' !! th_obj x = v_objs s !! th_obj x) → is_Some (v_objs s' !! th_obj x) →
  thr_ok s x → thr_ok s' x.
Proof.
  intros Ht Hk Ho [v' Hv'] (v0 & v & Hv0 & Hv & Hf & Hd & Hpc).
  unfold thr_ok. unfold active in Ho.
  destruct (th_pc x) eqn:Epc;
    try (rewrite (Ho I) in Hv'; rewrite Hv in Hv'; injection Hv' as <-; exists v0, v; rewrite (Ho I);
      split; [done|]; split; [done|]; split; [done|]; split; [done|]; naive_solver eauto using verdict_mono, holds_mono, asked_mono).
  exists v0, v'. split; [done|]. split; [done|]. split; [done|]. split; [done|]. by eapply verdict_mono.
Qed.

Lemma inv_init : inv (v_init objs0).
Proof.
  constructor; simpl; try done.
  - intros o v v0 E1 E2. congruence.
  - intros o v v0 E1 E2 _. congruence.
Qed.

Lemma not_active_done (x : vthread PK) : ¬ active x → ∃ r, th_pc x = PDone r.
Proof. unfold active. destruct (th_pc x); eauto; tauto. Qed.

(** One thread moves. *)
Lemma inv_move s s' i x x' v v' :
  inv s → v_thr s !! i = Some x → active x →
  v_thr s' = <[i := x']> (v_thr s) → th_pk x' = th_pk x → th_obj x' = th_obj x →
  v_objs s !! th_obj x = Some v → ob_body v' = ob_body v → v_objs s' = <[th_obj x := v']> (v_objs s) →
  tasks_le s s' →
  (∀ t k, v_tasks s' !! t = Some k → task_ok s' k) →
  (∀ d t, v_map s' !! d = Some t → ∃ k, v_tasks s' !! t = Some k ∧ root_of (vt_cert k) = d) →
  thr_ok s' x' →
  (active x' ∨ ∀ v0, objs0 !! th_obj x = Some v0 → ob_cert v' = ob_cert v0) →
  inv s'.
Proof.
  intros [Id Ib Iu Ii It Im Ir] Hx Hact Ethr Epk Eobj Hv Ebody Eobjs Htl Ht' Hm' Hok Hlast.
  assert (Htle : thr_le s s').
  { intros j y Hy. rewrite Ethr. destruct (decide (i = j)) as [<-|Hne].
    - rewrite lookup_insert. exists x'. replace y with x by congruence. done.
    - rewrite lookup_insert_ne by done. eauto. }
  constructor.
  - intros o. rewrite Eobjs, Id. destruct (decide (o = th_obj x)) as [->|Hne].
    + rewrite lookup_insert, Hv. naive_solver eauto.
    + by rewrite lookup_insert_ne.
  - intros o w w0. rewrite Eobjs. destruct (decide (o = th_obj x)) as [->|Hne].
    + rewrite lookup_insert. intros [= <-] Hw0. rewrite Ebody. by eapply Ib.
    + rewrite lookup_insert_ne by done. apply Ib.
  - intros a b y z. rewrite Ethr. intros Ha Hb Hab Aa Ab.
    destruct (decide (a = i)) as [->|Hai], (decide (b = i)) as [->|Hbi]; [done| | |].
    + rewrite lookup_insert in Ha. rewrite lookup_insert_ne in Hb by done. injection Ha as <-.
      rewrite Eobj. by apply (Iu i b x z).
    + rewrite lookup_insert in Hb. rewrite lookup_insert_ne in Ha by done. injection Hb as <-.
      rewrite Eobj. by apply (Iu a i y x).
    + rewrite lookup_insert_ne in Ha, Hb by done. by apply (Iu a b).
  - intros o w w0 Hw Hw0 Hnu. destruct (decide (o = th_obj x)) as [->|Hne].
    + rewrite Eobjs, lookup_insert in Hw. injection Hw as <-. destruct Hlast as [Hl|Hl]; [|by apply Hl].
      destruct Hnu. exists i, x'. rewrite Ethr, lookup_insert. done.
    + rewrite Eobjs, lookup_insert_ne in Hw by done. apply (Ii o w w0 Hw Hw0).
      intros (j & y & Hy & Ey & Ay). apply Hnu. destruct (decide (j = i)) as [->|Hji]; [congruence|].
      exists j, y. by rewrite Ethr, lookup_insert_ne.
  - done.
  - done.
  - intros j y Hy. rewrite Ethr in Hy. destruct (decide (j = i)) as [->|Hji].
    + rewrite lookup_insert in Hy. by injection Hy as <-.
    + rewrite lookup_insert_ne in Hy by done. apply (thr_ok_mono s s'); [done|done| | |by eapply Ir].
      * intros Ay. rewrite Eobjs, lookup_insert_ne; [done|]. apply (Iu i j x y); auto.
      * destruct (Ir _ _ Hy) as (w0 & w & _ & Hw & _). rewrite Eobjs.
        destruct (decide (th_obj x = th_obj y)) as [E|E]; [rewrite E, lookup_insert; eauto|].
        rewrite lookup_insert_ne by done. eauto.
Qed.

Lemma task_ok_mono s s' k : thr_le s s' → task_ok s k → task_ok s' k.
Proof. intros Hle [Ha Hr]. split; [by eapply asked_mono|done]. Qed.

Lemma thr_le_upd s i x x' s'' : v_thr s !! i = Some x → th_pk x' = th_pk x → th_obj x' = th_obj x →
  v_thr s'' = <[i:=x']> (v_thr s) → thr_le s s''.
Proof.
  intros Hx E1 E2 E j y Hy. rewrite E. destruct (decide (i = j)) as [<-|Hne].
  - rewrite lookup_insert. exists x'. replace y with x by congruence. done.
  - rewrite lookup_insert_ne by done. eauto.
Qed.

Ltac tle := eapply thr_le_upd; [ | | |reflexivity]; [eassumption|reflexivity|reflexivity].
Ltac start_case :=
  match goal with
  | Ir : (∀ i x, v_thr _ !! i = Some x → thr_ok _ x), Hi : v_thr _ !! _ = Some ?x, Hpc : th_pc ?x = _ |- _ =>
    let v1 := fresh "vv" in
    destruct (Ir _ _ Hi) as (v0 & v1 & Hv0 & Hv1 & Hf & Hde & Hp); rewrite Hpc in Hp, Hde;
    try match goal with Hv : v_objs _ !! th_obj x = Some ?v |- _ =>
      lazymatch v with v1 => fail | _ => rewrite Hv in Hv1; injection Hv1 as <- end end;
    try (rename v1 into v; rename Hv1 into Hv)
  end.
Ltac is_active := unfold active; match goal with Hpc : th_pc ?x = _ |- match th_pc ?x with _ => _ end => by rewrite Hpc end.
Ltac old_tasks := let t := fresh "t" in let k := fresh "k" in let Hk := fresh "Hk" in
  intros t k Hk; eapply task_ok_mono; [tle|]; eauto.
Ltac task_upd Hk := let t := fresh "t" in let k := fresh "k" in let Hk' := fresh "Hk" in
  intros t k Hk'; simpl; match type of Hk with _ !! ?t0 = Some ?k0 =>
    destruct (decide (t0 = t)) as [<-|]; [rewrite lookup_insert; rewrite Hk in Hk'; injection Hk' as <-; eexists; split; [done|done]
      |rewrite lookup_insert_ne by done; eauto] end.
Ltac map_upd Hk := let t := fresh "t" in let k := fresh "k" in let Hk' := fresh "Hk" in let E := fresh "E" in
  let d := fresh "d" in intros d t;
  match goal with Im : (∀ (d : digest) t, _ → ∃ k, _) |- _ => intros (k & Hk' & E)%Im end;
  simpl; match type of Hk with _ !! ?t0 = Some ?k0 =>
    destruct (decide (t0 = t)) as [<-|]; [rewrite lookup_insert; rewrite Hk in Hk'; injection Hk' as <-; eexists; split; [done|done]
      |rewrite lookup_insert_ne by done; eauto] end.
Ltac task_upd2 Hk := let t := fresh "t" in let k := fresh "k" in 
  intros t k; match type of Hk with _ !! ?t0 = Some ?k0 =>
    destruct (decide (t0 = t)) as [<-|];
     [ rewrite lookup_insert; intros [= <-];
      match goal with It : (∀ t k, _ → task_ok _ _) |- _ => let Ha := fresh "Ha" in destruct (It _ _ Hk) as [Ha _]; 
      split; [eapply asked_mono; [|exact Ha]|done] end; tle
     |rewrite lookup_insert_ne by done; intros; eapply task_ok_mono; [tle|eauto]] end.

Lemma inv_step s s' : inv s → vstep H enc sigok exclusive s s' → inv s'.
Proof.
  intros Hinv Hst. pose proof Hinv as [Id Ib Iu Ii It Im Ir].
  inversion Hst as [i pk o Hi Ho Hg|i x v Hi Hpc Hv|i x v c Hi Hpc Hv|i x c t Hi Hpc Hm|i x c t Hi Hpc Hm Hk
    |i x c t k Hi Hpc Hk Hst'|i x c t k Hi Hpc Hk Hst'|i x c t k Hi Hpc Hk|t k Hk Hst'|i x c t b k ok Hi Hpc Hk Hst'
    |i x c t b k Hi Hpc Hk|i x c v Hi Hpc Hv|i x r c cs v Hi Hpc Hd Hv|i x r Hi Hpc Hd|d]; subst s'.
  - (* start *)
    assert (Htle : thr_le s (with_thr s i (mkVThr pk o [] PPop))).
    { intros j y Hy. simpl. rewrite lookup_insert_ne by congruence. eauto. }
    destruct Ho as [v Hv]. destruct (proj2 (Id o) ltac:(eauto)) as [v0 Hv0].
    constructor; simpl; try done.
    + intros a b y z Ha Hb Hab Aa Ab.
      destruct (decide (a = i)) as [->|Hai], (decide (b = i)) as [->|Hbi]; [done| | |].
      * rewrite lookup_insert in Ha. rewrite lookup_insert_ne in Hb by done. injection Ha as <-. simpl.
        intros ->. apply Hg. by exists b, z.
      * rewrite lookup_insert in Hb. rewrite lookup_insert_ne in Ha by done. injection Hb as <-. simpl.
        intros <-. apply Hg. by exists a, y.
      * rewrite lookup_insert_ne in Ha, Hb by done. by apply (Iu a b).
    + intros o' w w0 Hw Hw0 Hnu. apply (Ii _ _ _ Hw Hw0). intros (j & y & Hy & Ey & Ay). apply Hnu.
      exists j, y. simpl. by rewrite lookup_insert_ne by congruence.
    + intros t k Hk. eapply task_ok_mono; [exact Htle|]. by eapply It.
    + intros j y Hy. destruct (decide (j = i)) as [->|Hji].
      * rewrite lookup_insert in Hy. injection Hy as <-. exists v0, v. simpl. split; [done|]. split; [done|].
        split; [constructor|]. split; [done|]. by apply (Ii o v v0).
      * rewrite lookup_insert_ne in Hy by done. eapply thr_ok_mono; [exact Htle|by intros ?; eauto|done| |by eapply Ir].
        destruct (Ir _ _ Hy) as (w0 & w & _ & Hw & _). eauto.
  - (* pop *)
    start_case.
    eapply (inv_move s _ i x _ v (set_cert v None)); try done; simpl; [by is_active|by intros t k Hk; eauto|old_tasks| |].
    + exists v0, (set_cert v None). simpl. rewrite lookup_insert. split; [done|]. split; [done|].
      split; [constructor; congruence|]. rewrite Hp. by destruct (ob_cert v0) as [c|] eqn:Ec.
    + left. unfold active. simpl. by destruct (ob_cert v).
  - (* auth *)
    start_case. destruct Hp as [Hc0 Hcv].
    eapply (inv_move s _ i x _ v v); try done; simpl; [by is_active|by rewrite insert_id|by intros t k Hk; eauto|old_tasks| |].
    + exists v0, v. simpl. split; [done|]. split; [done|]. split; [done|].
      assert (Hauth : auth H enc v c = true ↔ path_valid (ob_body v0) c).
      { unfold auth, VerifierSpec.path_valid. rewrite Hcv, (Ib _ _ _ Hv Hv0). done. }
      destruct (auth H enc v c); [split; [done|]; split; [done|]; by apply Hauth|]. split; [done|]. split; [done|].
      simpl. exists c. split; [done|]. intros Hpv. apply Hauth in Hpv. done.
    + left. unfold active. simpl. by destruct (auth H enc v c).
  - (* load *)
    start_case. destruct Hp as [Hc0 Hpv].
    eapply (inv_move s _ i x _ v v); try done; simpl; [by is_active|by rewrite insert_id|by intros t' k Hk; eauto|old_tasks| |by left].
    exists v0, v. simpl. split_and!; try done. by apply Im in Hm.
  - (* store *)
    start_case. destruct Hp as [Hc0 Hpv].
    assert (Hle : tasks_le s (with_thr (with_map (with_task s t (mkVTask (th_pk x) c TFresh))
      (<[to_digest (rc_root c):=t]> (v_map s))) i (set_pc x (PCas c t)))).
    { intros t' k Hk'. simpl. rewrite lookup_insert_ne by congruence. eauto. }
    eapply (inv_move s _ i x _ v v); try done; simpl; [by is_active|by rewrite insert_id| | | |by left].
    + intros t' k. destruct (decide (t = t')) as [<-|Hne].
      * rewrite lookup_insert. intros [= <-]. split; [|done]. simpl. exists i. eexists _, v0. simpl.
        rewrite lookup_insert. done.
      * rewrite lookup_insert_ne by done. intros Hk'. eapply task_ok_mono; [tle|]. by eapply It.
    + intros d t'. destruct (decide (d = to_digest (rc_root c))) as [->|Hne].
      * rewrite lookup_insert. intros [= <-]. rewrite lookup_insert. eauto.
      * rewrite lookup_insert_ne by done. intros (k & Hk' & E)%Im. apply Hle in Hk' as (k' & ? & E'). exists k'. split; [done|congruence].
    + exists v0, v. simpl. split_and!; try done. eexists. simpl. rewrite lookup_insert. done.
  - (* cas won *)
    start_case. destruct Hp as (Hc0 & Hpv & Hh).
    eapply (inv_move s _ i x _ v v); try done; simpl; [by is_active|by rewrite insert_id|task_upd Hk|task_upd2 Hk|map_upd Hk| |by left].
    exists v0, v. simpl. split_and!; try done. eapply holds_mono; [|exact Hh]. task_upd Hk.
  - (* cas lost *)
    start_case. destruct Hp as (Hc0 & Hpv & Hh).
    eapply (inv_move s _ i x _ v v); try done; simpl; [by is_active|by rewrite insert_id|by intros t' k' Hk'; eauto|old_tasks| |by left].
    exists v0, v. simpl. split_and!; try done.
  - (* send *)
    start_case. destruct Hp as (Hc0 & Hpv & Hh).
    eapply (inv_move s _ i x _ v v); try done; simpl; [by is_active|by rewrite insert_id|task_upd Hk|task_upd2 Hk|map_upd Hk| |by left].
    exists v0, v. simpl. split_and!; try done. eapply holds_mono; [|exact Hh]. task_upd Hk.
  - (* work *)
    assert (Hle : tasks_le s (with_task s t (set_st k (TReady (sig_valid sigok (vt_pk k) (vt_cert k)))))) by task_upd Hk.
    constructor; simpl; try done.
    + intros t' k'. destruct (decide (t = t')) as [<-|Hne].
      * rewrite lookup_insert. intros [= <-]. destruct (It _ _ Hk) as [Ha _]. split; [exact Ha|].
        intros ok [= <-]. done.
      * rewrite lookup_insert_ne by done. apply It.
    + map_upd Hk.
    + intros j y Hy. eapply thr_ok_mono; [|exact Hle|done| |by eapply Ir]; [by intros ?; eauto|].
      destruct (Ir _ _ Hy) as (w0 & w & _ & Hw & _). eauto.
  - (* ready *)
    start_case. destruct Hp as (Hc0 & Hpv & Hh).
    eapply (inv_move s _ i x _ v v); try done; simpl; [by is_active|by rewrite insert_id|by intros t' k' Hk'; eauto|old_tasks| |left; unfold active; simpl; by destruct ok].
    destruct Hh as (k' & Hk' & Eroot). rewrite Hk in Hk'. injection Hk' as <-.
    destruct (It _ _ Hk) as [Ha Hok]. specialize (Hok _ Hst').
    assert (Ha' : asked (with_thr s i (set_pc x (if ok then PRet RNil else PDel c t b))) (vt_pk k) (vt_cert k)).
    { eapply asked_mono; [|exact Ha]. tle. }
    exists v0, v. simpl. destruct ok; split_and!; try done.
    + exists c. split_and!; try done. eexists _, _. split; [exact Ha'|]. split; [done|]. by unfold VerifierSpec.signed_by.
    + by exists k.
    + eexists _, _. split; [exact Ha'|]. split; [done|]. unfold VerifierSpec.signed_by. by rewrite <-Hok.
  - (* delete *)
    start_case. destruct Hp as (Hc0 & Hpv & Hh & Hbad).
    eapply (inv_move s _ i x _ v v); try done; simpl; [by is_active|by rewrite insert_id|by intros t' k' Hk'; eauto|old_tasks| | |left; unfold active; simpl; by destruct (_ && _)].
    + intros d t'. rewrite lookup_delete_Some. intros [_ ?]. by apply Im.
    + exists v0, v. simpl. split; [done|]. split; [done|]. split; [done|].
      destruct (negb b && _); split_and!; try done. exists c. split_and!; try done.
      destruct Hbad as (pk' & c' & ? & ? & ?). exists pk', c'. split_and!; try done. eapply asked_mono; [tle|done].
  - (* retry *)
    start_case.
    eapply (inv_move s _ i x _ v (set_cert v (Some c))); try done; simpl; [by is_active|by intros t k Hk; eauto|old_tasks| |by left].
    exists v0, (set_cert v (Some c)). simpl. rewrite lookup_insert. done.
  - (* unwind *)
    start_case. destruct Hp as [Hlast Hvd]. rewrite Hd in Hf. apply Forall_cons in Hf as [<- Hf].
    eapply (inv_move s _ i x _ v (set_cert v (ob_cert v0))); try done; simpl; [by is_active|by intros t k Hk; eauto|old_tasks| |by left].
    exists v0, (set_cert v (ob_cert v0)). simpl. rewrite lookup_insert. split_and!; try done.
    eapply verdict_mono; [tle|done].
  - (* return *)
    start_case. destruct Hp as [Hlast Hvd].
    eapply (inv_move s _ i x _ v v); try done; simpl; [by is_active|by rewrite insert_id|by intros t' k Hk; eauto|old_tasks| |].
    + exists v0, v. simpl. split_and!; try done. eapply verdict_mono; [tle|done].
    + right. intros v0' Hv0'. rewrite Hv0 in Hv0'. injection Hv0' as <-. by apply Hlast.
  - (* clean *)
    constructor; simpl; try done. intros d' t. rewrite lookup_delete_Some. intros [_ ?]. by apply Im.
Qed.

Lemma inv_reachable s : execution H enc sigok exclusive (v_init objs0) s → inv s.
Proof.
  unfold execution. intros Hr. apply (rtc_ind_r inv (v_init objs0)) with (z := s) in Hr; [done|apply inv_init|].
  intros s1 s2 _ Hst Hi. by eapply inv_step.
Qed.
End proofs.
