From stdpp Require Import gmap.
From Verif.Base Require Import Base Strs.
From Verif.Model Require Import Topology Shuffle Onion Mixer Rounds System.
From Verif.Spec Require Import MixerSpec MessagesSpec RoundsSpec SystemSpec.
From Verif.Proofs Require Import TopologyProofs OnionProofs MixerInv MixerProps MixerLive MixerExec RoundsProofs.
From Verif.Properties Require Import P01_Topology P04_Mixer P05_Rounds.

(** ** Lists *)
Lemma Forall2_perm {A B} (R : A → B → Prop) xs xs' ys :
  Forall2 R xs ys → xs ≡ₚ xs' → ∃ ys', Forall2 R xs' ys' ∧ ys ≡ₚ ys'.
Proof.
  intros HF Hp. revert ys HF. induction Hp as [|x xs xs' Hp IH|x y xs|xs1 xs2 xs3 _ IH1 _ IH2]; intros ys HF.
  - apply Forall2_nil_inv_l in HF as ->. by exists [].
  - apply Forall2_cons_inv_l in HF as (z & zs & Hz & HF & ->).
    destruct (IH _ HF) as (ys' & H1 & H2). exists (z :: ys'). split; [by constructor|]. by rewrite H2.
  - apply Forall2_cons_inv_l in HF as (z & zs & Hz & HF & ->).
    apply Forall2_cons_inv_l in HF as (z' & zs' & Hz' & HF & ->).
    exists (z' :: z :: zs'). split; [by repeat constructor|]. apply perm_swap.
  - destruct (IH1 _ HF) as (y1 & H1 & H2). destruct (IH2 _ H1) as (y2 & H3 & H4).
    exists y2. split; [done|]. by rewrite H2.
Qed.
Lemma submseteq_full {A} (xs ys : list A) : xs ⊆+ ys → length ys ≤ length xs → xs ≡ₚ ys.
Proof. intros H1 H2. by apply submseteq_Permutation_length_le. Qed.
Lemma prefix_submseteq {A} (l1 l2 : list A) : l1 `prefix_of` l2 → l1 ⊆+ l2.
Proof. intros [k ->]. by apply submseteq_inserts_r. Qed.
Lemma prefix_take' {A} (l : list A) k : take k l `prefix_of` l.
Proof. exists (drop k l). by rewrite take_drop. Qed.
Lemma elem_of_concat {A} (x : A) (ls : list (list A)) : x ∈ concat ls ↔ ∃ l, x ∈ l ∧ l ∈ ls.
Proof.
  induction ls as [|l ls IH]; simpl.
  - split; [by intros ?%elem_of_nil|]. by intros (? & _ & ?%elem_of_nil).
  - rewrite elem_of_app, IH. split.
    + intros [Hx|(l' & Hx & Hl)]; [exists l|exists l']; (split; [done|]); [left|by right].
    + intros (l' & Hx & [->|Hl]%elem_of_cons); [by left|right]. eauto.
Qed.
Lemma concat_perm {A} (xss yss : list (list A)) : xss ≡ₚ yss → concat xss ≡ₚ concat yss.
Proof.
  induction 1 as [|x xs ys H IH|x y xs|? ? ? _ IH1 _ IH2]; simpl; [done|by rewrite IH| |by rewrite IH1].
  by rewrite !app_assoc, (Permutation_app_comm x y).
Qed.
Lemma concat_submseteq {A} (xss yss : list (list A)) : xss ⊆+ yss → concat xss ⊆+ concat yss.
Proof.
  intros H. apply submseteq_Permutation in H as (zss & H). apply concat_perm in H. rewrite concat_app in H.
  rewrite H. apply submseteq_inserts_r. done.
Qed.
Lemma filter_at_most_one (P : nat → Prop) `{!∀ x, Decision (P x)} (l : list nat) :
  NoDup l → (∀ x y, x ∈ l → y ∈ l → P x → P y → x = y) → length (filter P l) ≤ 1.
Proof.
  intros Hnd Hu. destruct (filter P l) as [|x [|y ys]] eqn:E; simpl; try lia.
  assert (Hin : ∀ z, z ∈ filter P l → z ∈ l ∧ P z) by (intros z Hz; by apply elem_of_list_filter in Hz as [? ?]).
  rewrite E in Hin.
  assert (x = y) as ->.
  { apply Hu; apply Hin; set_solver. }
  pose proof (NoDup_filter P l Hnd) as Hn. rewrite E in Hn. apply NoDup_cons in Hn as [Hn _]. set_solver.
Qed.

(** ** Traces *)
Definition host_trace (h : string) (tr : list ylabel) : list label :=
  omap (λ l, match l with
    | YDeliver c => if decide (cl_to c = h) then Some (LAdd (rq_msgs (cl_rq c))) else None
    | YHost h' l => if decide (h' = h) then Some l else None
    | YTake h' o _ | YCrash h' o => if decide (h' = h) then Some (LRecv o) else None
    | _ => None end) tr.
Definition msgs_to (h : string) (cs : list call) : list Messages :=
  concat ((λ c, if decide (cl_to c = h) then rq_msgs (cl_rq c) else []) <$> cs).
Definition posted (h : string) (tr : list ylabel) : list Messages :=
  concat ((λ l, match l with
    | YClient h' rq => if decide (h' = h) then rq_msgs rq else []
    | YTake _ _ cs => msgs_to h cs
    | _ => [] end) <$> tr).
Definition lost (h : string) (tr : list ylabel) : list Messages :=
  concat ((λ l, match l with YLose c => if decide (cl_to c = h) then rq_msgs (cl_rq c) else [] | _ => [] end) <$> tr).
Definition takes (n : string) (tr : list ylabel) : list mixoutput :=
  omap (λ l, match l with YTake _ o _ => if decide (mo_sender o = n) then Some o else None | _ => None end) tr.

Lemma host_trace_app h tr tr' : host_trace h (tr ++ tr') = host_trace h tr ++ host_trace h tr'.
Proof. apply omap_app. Qed.
Lemma msgs_to_app h cs cs' : msgs_to h (cs ++ cs') = msgs_to h cs ++ msgs_to h cs'.
Proof. unfold msgs_to. by rewrite fmap_app, concat_app. Qed.
Lemma msgs_to_cons h c cs : msgs_to h (c :: cs) = (if decide (cl_to c = h) then rq_msgs (cl_rq c) else []) ++ msgs_to h cs.
Proof. done. Qed.
Lemma posted_app h tr tr' : posted h (tr ++ tr') = posted h tr ++ posted h tr'.
Proof. unfold posted. by rewrite fmap_app, concat_app. Qed.
Lemma lost_app h tr tr' : lost h (tr ++ tr') = lost h tr ++ lost h tr'.
Proof. unfold lost. by rewrite fmap_app, concat_app. Qed.
Lemma takes_app n tr tr' : takes n (tr ++ tr') = takes n tr ++ takes n tr'.
Proof. apply omap_app. Qed.
Lemma client_calls_app tr tr' : client_calls (tr ++ tr') = client_calls tr ++ client_calls tr'.
Proof. apply omap_app. Qed.

(** Outputs put on the channel: those received, then those still in it. *)
Definition emits (tr : list label) : list mixoutput :=
  omap (λ l, match l with LEmit o => Some o | _ => None end) tr.
Definition recvs (tr : list label) : list mixoutput :=
  omap (λ l, match l with LRecv o => Some o | _ => None end) tr.
Lemma emits_recvs peel wk tc oc s0 tr s :
  mm_out s0 = [] → run peel wk tc oc s0 tr s → emits tr = recvs tr ++ mm_out s.
Proof.
  intros H0. induction 1 as [|tr l s s' Hr IH Hs]; [done|].
  unfold emits, recvs in *. rewrite !omap_app, IH. cbn [omap list_omap].
  inversion Hs; subst; simpl; rewrite ?app_nil_r; try done.
  - by rewrite app_assoc.
  - rewrite <-app_assoc. simpl. congruence.
Qed.
Lemma emits_cnt n tr : length (filter (λ o, mo_sender o = n) (emits tr)) = cnt (is_emit n) tr.
Proof.
  induction tr as [|l tr IH]; [done|].
  change (l :: tr) with ([l] ++ tr). rewrite cnt_app. unfold emits in *. rewrite omap_app, filter_app, app_length, IH.
  f_equal. destruct l; simpl; try done. unfold cnt. rewrite !filter_cons. simpl.
  destruct (decide (mo_sender o = n)) as [Hc|Hc]; [rewrite (bool_decide_true _ Hc)|rewrite (bool_decide_false _ Hc)]; done.
Qed.
Lemma emits_elem o tr : o ∈ emits tr ↔ LEmit o ∈ tr.
Proof.
  unfold emits. rewrite elem_of_list_omap. split.
  - intros (l & Hl & He). destruct l; try done. by injection He as ->.
  - intros Hl. by exists (LEmit o).
Qed.

Section sys.
Context (waits : bool) (t : topology) (round : Z) (peel : string → onion → option (option onion))
        (workers taskCap outCap : string → nat).
Notation ystep := (ystepg waits t round peel workers taskCap outCap).
Notation yrun := (yrung waits t round peel workers taskCap outCap).
Notation hrun := (λ h, run (peel h) (workers h) (taskCap h) (outCap h)).

Lemma run_host s0 tr s : yrun s0 tr s → ∀ h,
  match sy_srv s0 !! h with
  | Some m0 => ∃ m, sy_srv s !! h = Some m ∧ hrun h m0 (host_trace h tr) m
  | None => sy_srv s !! h = None
  end.
Proof.
  induction 1 as [|tr l s s' Hr IH Hs]; intros h.
  - destruct (sy_srv s0 !! h) as [m0|]; [|done]. exists m0. split; [done|constructor].
  - specialize (IH h). rewrite host_trace_app.
    assert (Hupd : ∀ h' m m' lb, sy_srv s !! h' = Some m → hstep peel workers taskCap outCap h' m lb m' →
      sy_srv s' = <[h' := m']> (sy_srv s) → host_trace h [l] = (if decide (h' = h) then [lb] else []) →
      match sy_srv s0 !! h with
      | Some m0 => ∃ m, sy_srv s' !! h = Some m ∧ hrun h m0 (host_trace h tr ++ host_trace h [l]) m
      | None => sy_srv s' !! h = None
      end).
    { intros h' m m' lb Hm Hst -> ->. destruct (decide (h' = h)) as [->|Hne].
      - destruct (sy_srv s0 !! h) as [m0|]; [|congruence]. destruct IH as (m1 & Hm1 & Hr1).
        exists m'. rewrite lookup_insert. split; [done|]. econstructor; [exact Hr1|].
        rewrite Hm in Hm1. injection Hm1 as <-. exact Hst.
      - rewrite lookup_insert_ne by done. by rewrite app_nil_r. }
    inversion Hs; subst; simpl in *; rewrite ?app_nil_r; try exact IH.
    all: match goal with H : up _ _ _ |- _ => destruct H as (? & ? & ?) end.
    1,3,4: eapply Hupd; [done|done|done|]; unfold host_trace; cbn [omap list_omap]; by case_decide.
    all: try exact IH.
    eapply Hupd; [done|done|done|]; unfold host_trace; cbn [omap list_omap]; by case_decide.
Qed.

(** Nothing is duplicated on the way. *)
Lemma conservation s0 tr s h :
  sy_queue s0 = [] → sy_net s0 = [] → yrun s0 tr s →
  added (host_trace h tr) ++ msgs_to h (sy_net s) ++ msgs_to h (sy_queue s) ++ lost h tr ≡ₚ posted h tr.
Proof.
  intros Hq Hn. induction 1 as [|tr l s s' Hr IH Hs].
  - rewrite Hq, Hn. done.
  - rewrite host_trace_app, added_app, lost_app, posted_app, <-IH. clear IH.
    inversion Hs; subst; unfold host_trace, added, lost, posted; cbn [omap list_omap concat fmap list_fmap sy_net sy_queue with_srv].
    all: rewrite ?app_nil_r.
    + rewrite !msgs_to_app, msgs_to_cons. cbn [cl_to cl_rq]. unfold msgs_to at 2. cbn [fmap list_fmap concat].
      rewrite app_nil_r. rewrite <-!app_assoc. f_equiv. f_equiv. rewrite Permutation_app_comm, <-!app_assoc. done.
    + match goal with H : sy_net s = _ |- _ => rewrite H end. rewrite !msgs_to_app, msgs_to_cons.
      rewrite <-!app_assoc. f_equiv. case_decide; cbn [omap list_omap concat]; rewrite ?app_nil_r; [|done].
      rewrite !app_assoc. f_equiv. f_equiv. f_equiv. rewrite (Permutation_app_comm (msgs_to h n1)). done.
    + match goal with H : sy_net s = _ |- _ => rewrite H end. rewrite !msgs_to_app, msgs_to_cons.
      rewrite <-!app_assoc. f_equiv. f_equiv.
      case_decide; rewrite ?app_nil_r; [|done]. 
      rewrite !app_assoc, (Permutation_app_comm _ (rq_msgs _)), !app_assoc. done.
    + case_decide; [|by rewrite ?app_nil_r].
      match goal with H : own_label _ |- _ => destruct l0; simpl in H; try done; by rewrite ?app_nil_r end.
    + rewrite msgs_to_app. rewrite <-!app_assoc.
      assert (concat (omap (λ l0 : label, match l0 with LAdd ms => Some ms | _ => None end)
        match (if decide (h0 = h) then Some (LRecv o) else None) with Some y => [y] | None => [] end) = []) as ->
        by (by case_decide).
      simpl. f_equiv. f_equiv. f_equiv. apply Permutation_app_comm.
    + by case_decide; rewrite ?app_nil_r.
    + match goal with H : sy_queue s = _ |- _ => rewrite H end. rewrite !msgs_to_app, !msgs_to_cons.
      unfold msgs_to at 3. cbn [fmap list_fmap concat]. rewrite app_nil_r, <-!app_assoc. f_equiv. f_equiv.
      rewrite !app_assoc. f_equiv. f_equiv. apply Permutation_app_comm.
Qed.

(** ** The cascade *)
Context (servers : list string) (L : nat) (w : gmap string Z) (fuel : nat) (req : gmap string N).
Hypothesis Ht : CreateCascadeTopology servers (Z.of_nat L) = Some t.
Hypothesis HL : 0 < L.
Hypothesis HL31 : (Z.of_nat L ≤ 2 ^ 31)%Z.

Lemma casc : ∃ mixes, t = mkTopo (grid servers L (final_mix servers L)) mixes ∧ mixes_inv servers L 0 mixes.
Proof.
  destruct (cascade_form servers L) as (mixes & E & Hinv). rewrite Ht in E. injection E as ->. eauto.
Qed.
Lemma tp_len : length (tp_layers t) = L.
Proof. destruct casc as (mixes & -> & _). apply grid_length. Qed.
Lemma deref_inj l i x l' i' x' :
  deref t (l, i) = Some x → deref t (l', i') = Some x' → mx_name x = mx_name x' → l = l' ∧ i = i' ∧ x = x'.
Proof.
  intros H1 H2 H3. destruct (proj2 (proj2 (proj2 (C02_names_identify_mixes _ _ _ Ht))) _ _ _ _ _ _ H1 H2 H3) as [-> ->].
  split; [done|]. split; [done|]. congruence.
Qed.
Lemma deref_bound l i x : deref t (l, i) = Some x → l < L ∧ i < length servers.
Proof. destruct casc as (mixes & -> & _). intros (? & ? & _)%cascade_deref_Some. done. Qed.
Lemma deref_ex l i : l < L → i < length servers → ∃ x, deref t (l, i) = Some x.
Proof. intros Hl Hi. destruct casc as (mixes & -> & _). eexists. by apply cascade_deref. Qed.
Lemma deref_host l i x : deref t (l, i) = Some x → mx_host x ∈ servers.
Proof.
  destruct casc as (mixes & -> & _). intros (? & ? & ->)%cascade_deref_Some. cbn [final_mix mx_host].
  apply elem_of_list_lookup_total_2. apply rot_lt. by eapply Nat.le_lt_trans; [apply Nat.le_0_l|].
Qed.
Lemma deref_layer l i x : deref t (l, i) = Some x → mx_layer x = Z.of_nat l.
Proof.
  intros Hd. pose proof (deref_bound _ _ _ Hd) as [Hl _]. revert Hd.
  destruct casc as (mixes & -> & _). intros (? & ? & ->)%cascade_deref_Some. cbn [final_mix mx_layer].
  unfold to_int32. rewrite Z.mod_small; lia.
Qed.
Lemma deref_preds0 i x : deref t (0, i) = Some x → mx_preds x = [GenesisName].
Proof. destruct casc as (mixes & -> & _). intros (? & ? & ->)%cascade_deref_Some. done. Qed.
Lemma deref_preds l i x p : deref t (S l, i) = Some x → deref t (l, i) = Some p → mx_preds x = [mx_name p].
Proof. destruct casc as (mixes & -> & _). intros (? & ? & ->)%cascade_deref_Some (? & ? & ->)%cascade_deref_Some. done. Qed.
Lemma deref_get l i x : deref t (l, i) = Some x → GetMix t (mx_name x) = Some x.
Proof. apply (proj1 (C02_names_identify_mixes _ _ _ Ht)). Qed.
Lemma deref_not_genesis l i x : deref t (l, i) = Some x → mx_name x ≠ GenesisName.
Proof. destruct casc as (mixes & -> & _). intros (? & ? & ->)%cascade_deref_Some. apply mix_name_not_genesis. Qed.
Lemma chain_lookup i l : i < length servers → chain_mixes t i !! l = deref t (l, i).
Proof.
  intros Hi. destruct casc as (mixes & -> & _). unfold chain_mixes, deref. cbn [tp_layers fst snd].
  assert (Hg : ∀ k a, omap (λ row : list LogicalMix, row !! i)
     ((λ l, final_mix servers L l <$> seq 0 (length servers)) <$> seq a k) = (λ l, final_mix servers L l i) <$> seq a k).
  { induction k as [|k IH]; intros a; [done|]. cbn [seq fmap list_fmap omap list_omap].
    rewrite grid_row_lookup, decide_True by done. by rewrite IH. }
  unfold grid at 1. rewrite Hg. rewrite grid_lookup, list_lookup_fmap.
  destruct (decide (l < L)) as [Hl|Hl].
  - rewrite lookup_seq_lt by done. simpl. by rewrite grid_row_lookup, decide_True.
  - rewrite lookup_seq_ge by lia. done.
Qed.
Lemma chain_drop l i x : deref t (l, i) = Some x → drop l (chain_mixes t i) = x :: drop (S l) (chain_mixes t i).
Proof.
  intros Hd. destruct (deref_bound _ _ _ Hd) as [_ Hi]. apply drop_S. by rewrite chain_lookup.
Qed.
Lemma chain_len i : i < length servers → length (chain_mixes t i) = L.
Proof.
  intros Hi. destruct (decide (length (chain_mixes t i) = L)) as [|Hne]; [done|]. exfalso.
  destruct (decide (length (chain_mixes t i) < L)) as [Hlt|Hge].
  - destruct (deref_ex _ i Hlt Hi) as [x Hx]. rewrite <-chain_lookup in Hx by done.
    apply lookup_lt_Some in Hx. lia.
  - assert (is_Some (chain_mixes t i !! L)) as [x Hx] by (apply lookup_lt_is_Some; lia).
    rewrite chain_lookup in Hx by done. apply deref_bound in Hx. lia.
Qed.
Lemma names_nodup h ms : hosted t h ms → NoDup (mx_name <$> ms).
Proof.
  intros Hh. unfold hosted in Hh. rewrite Hh. destruct casc as (mixes & Et & Hinv).
  assert (Hsub : ∀ (es : list (string * (nat * nat))), NoDup es.*1 → (∀ e, e ∈ es → e ∈ map_to_list (tp_mixes t)) →
    (∀ m, m ∈ omap (λ e, deref t e.2) es → mx_name m ∈ es.*1) ∧
    NoDup (mx_name <$> omap (λ e, deref t e.2) es)).
  { induction es as [|[k [l i]] es IH]; intros Hnd Hin; simpl.
    { split; [by intros ? ?%elem_of_nil|constructor]. }
    apply NoDup_cons in Hnd as [Hk Hnd]. destruct IH as [IH1 IH2]; [done|set_solver|].
    destruct (deref t (l, i)) as [m|] eqn:E; simpl; [|split; [set_solver|done]].
    assert (mx_name m = k) as Hmk.
    { specialize (Hin (k, (l, i)) ltac:(left)). apply elem_of_map_to_list in Hin.
      rewrite Et in Hin, E. simpl in Hin. apply Hinv in Hin as [_ ->].
      apply cascade_deref_Some in E as (_ & _ & ->). done. }
    rewrite <-Hmk. split.
    - intros m' [->|Hm']%elem_of_cons; [left|]. right. by apply IH1.
    - apply NoDup_cons. split; [|done]. intros Hc. apply elem_of_list_fmap in Hc as (m' & Hn & Hm').
      apply Hk. rewrite <-Hmk, Hn. by apply IH1. }
  assert (Hfil : ∀ xs : list LogicalMix, NoDup (mx_name <$> xs) → NoDup (mx_name <$> filter (λ m, mx_host m = h) xs)).
  { induction xs as [|x xs IH]; intros Hnd; [constructor|]. rewrite filter_cons. simpl in Hnd.
    apply NoDup_cons in Hnd as [Hx Hnd]. case_decide; [|by apply IH]. simpl. apply NoDup_cons.
    split; [|by apply IH]. intros Hc. apply Hx. apply elem_of_list_fmap in Hc as (y & -> & [_ Hy]%elem_of_list_filter).
    by apply elem_of_list_fmap_1. }
  apply Hfil, (Hsub (map_to_list (tp_mixes t))); [apply NoDup_fst_map_to_list|done].
Qed.
Hypothesis Hw : round_workload fuel t req = Some (Ok w).
Lemma deref_workload l i x : deref t (l, i) = Some x → workload_of w (mx_name x) = announced t w i.
Proof.
  intros Hd. destruct (deref_bound _ _ _ Hd) as [_ Hi]. destruct (deref_ex 0 i HL Hi) as [x0 Hx0].
  destruct (proj2 (C05_propagation _ _ _ req Ht HL) _ _ Hw) as [_ Hc].
  destruct (Hc _ _ _ _ Hx0 Hd) as (k & Hk & Hwk). destruct (Hc _ _ _ _ Hx0 Hx0) as (k' & Hk' & Hwk').
  unfold announced, workload_of. rewrite Hx0. simpl. rewrite Hwk, Hwk'. congruence.
Qed.
Lemma sender_of_mix l i p : deref t (l, i) = Some p → sender_of t (mx_name p) = (mx_host p, mx_name p).
Proof.
  intros Hp. unfold sender_of. rewrite decide_False by (by eapply deref_not_genesis).
  by rewrite (deref_get _ _ _ Hp).
Qed.
Lemma delivers_take ms1 ms2 o msg : delivers t (opens peel) (ms1 ++ ms2) o msg ↔
  ∃ o', delivers t (opens peel) ms1 o o' ∧ delivers t (opens peel) ms2 o' msg.
Proof.
  revert o. induction ms1 as [|m ms1 IH]; intros o; simpl.
  - split; [eauto|]. by intros (? & -> & ?).
  - split.
    + intros (H1 & o' & H2 & H3). apply IH in H3 as (o2 & H4 & H5). eauto 10.
    + intros (o2 & (H1 & o' & H2 & H3) & H4). split; [done|]. exists o'. split; [done|]. apply IH. eauto.
Qed.
Lemma opens_Some h o r : opens peel h o = Some r ↔ peel h o = Some (Some r).
Proof. unfold opens. destruct (peel h o) as [[x|]|]; simpl; split; intros H; try done; by injection H as ->. Qed.


(** ** A round *)
Context (s0 : system).
Hypothesis Hop : round_opened t servers w s0.

Definition from_ok (l i : nat) (m : Messages) : Prop :=
  match l with
  | O => msg_phys m = GenesisName ∧ msg_lsender m = GenesisName
  | S l' => ∃ p, deref t (l', i) = Some p ∧ msg_phys m = mx_host p ∧ msg_lsender m = mx_name p
  end.
Definition good (h : string) (m : Messages) : Prop :=
  ∃ l i x, deref t (l, i) = Some x ∧ mx_host x = h ∧ msg_recv m = mx_name x ∧ msg_onions m ≠ [] ∧
    from_ok l i m ∧
    ∀ o, o ∈ msg_onions m → ∃ msg, delivers t (opens peel) (drop l (chain_mixes t i)) o msg.
Definition all_good (tr : list ylabel) : Prop := ∀ h m, m ∈ posted h tr → good h m.

Lemma host_state tr s x l i : yrun s0 tr s → deref t (l, i) = Some x →
  ∃ ms m0 m, hosted t (mx_host x) ms ∧ NewMixers t ms w = Some m0 ∧ sy_srv s !! mx_host x = Some m ∧
    hrun (mx_host x) m0 (host_trace (mx_host x) tr) m ∧ x ∈ ms ∧ NoDup (mx_name <$> ms).
Proof.
  intros Hr Hx. destruct Hop as (H1 & _). destruct (H1 _ (deref_host _ _ _ Hx)) as (ms & m0 & Hh & Hm0 & E0).
  pose proof (run_host _ _ _ Hr (mx_host x)) as Hrh. rewrite E0 in Hrh. destruct Hrh as (m & Hm & Hrm).
  exists ms, m0, m. do 4 (split; [done|]). split; [|by eapply names_nodup].
  eapply hosted_all; eauto.
Qed.
Lemma added_posted tr s h : yrun s0 tr s → added (host_trace h tr) ⊆+ posted h tr.
Proof.
  intros Hr. destruct Hop as (_ & _ & H1 & H2 & _). rewrite <-(conservation _ _ _ h H1 H2 Hr).
  by apply submseteq_inserts_r.
Qed.
Lemma to_mix_submseteq n ms ms' : ms ⊆+ ms' → to_mix n ms ⊆+ to_mix n ms'.
Proof.
  intros H. apply submseteq_Permutation in H as (k & H). unfold to_mix. rewrite H, filter_app.
  by apply submseteq_inserts_r.
Qed.
Lemma elem_posted tr s h m : yrun s0 tr s → m ∈ added (host_trace h tr) → m ∈ posted h tr.
Proof. intros Hr Hm. eapply elem_of_submseteq; [exact Hm|]. by eapply added_posted. Qed.

Lemma outputs_good tr s l i x m v : yrun s0 tr s → all_good tr →
  deref t (l, i) = Some x → sy_srv s !! mx_host x = Some m → can_return m (mx_name x) v →
  length v = Z.to_nat (announced t w i) ∧
  ∀ r, r ∈ v → ∃ o' msg, r = Some o' ∧ delivers t (opens peel) (drop (S l) (chain_mixes t i)) o' msg.
Proof.
  intros Hr Hg Hx Hm Hv. destruct (host_state _ _ _ _ _ Hr Hx) as (ms & m0 & m' & Hh & Hm0 & Hm' & Hrm & Hin & Hnd).
  rewrite Hm in Hm'. injection Hm' as <-.
  destruct (C08_outputs_are_decryptions _ _ _ _ _ _ _ _ _ _ _ _ Hm0 Hrm Hv) as (k & rs & Hk & Hle & Hpre & HF & Hp).
  split.
  { rewrite Hp. apply Forall2_length in HF. rewrite take_length in HF. rewrite (deref_workload _ _ _ Hx) in Hk. lia. }
  intros r Hrv. rewrite Hp in Hrv. apply elem_of_list_lookup in Hrv as [j Hj].
  destruct (Forall2_lookup_r _ _ _ _ _ HF Hj) as (o & Ho & Hpe).
  assert (o ∈ concat (msg_onions <$> to_mix (mx_name x) (added (host_trace (mx_host x) tr)))) as Hoin.
  { destruct Hpre as [z ->]. apply elem_of_app. left. apply elem_of_list_lookup_2 in Ho.
    rewrite <-(take_drop k). apply elem_of_app. by left. }
  apply elem_of_concat in Hoin as (os & Ho1 & Ho2). apply elem_of_list_fmap in Ho2 as (mm & -> & Hmm).
  apply elem_of_list_filter in Hmm as [Hrecv Hmm]. eapply elem_posted in Hmm; [|done].
  destruct (Hg _ _ Hmm) as (l' & i' & x' & Hx' & _ & Hr' & _ & _ & Hd).
  rewrite Hrecv in Hr'. destruct (deref_inj _ _ _ _ _ _ Hx Hx' Hr') as (<- & <- & <-).
  destruct (Hd _ Ho1) as (msg & Hmsg). rewrite (chain_drop _ _ _ Hx) in Hmsg.
  destruct Hmsg as (_ & o' & Hpo & Hdel). apply opens_Some in Hpo. rewrite Hpo in Hpe. injection Hpe as <-. eauto.
Qed.

Lemma taken tr s h o m m' : yrun s0 tr s → sy_srv s !! h = Some m →
  hstep peel workers taskCap outCap h m (LRecv o) m' →
  ∃ l i x, deref t (l, i) = Some x ∧ mx_host x = h ∧ mx_name x = mo_sender o ∧ S l < L ∧
    can_return m (mx_name x) (mo_onions o).
Proof.
  intros Hr Hm Hs. destruct Hop as (H1 & H1' & _).
  destruct (decide (h ∈ servers)) as [Hh|Hh].
  2:{ pose proof (run_host _ _ _ Hr h) as Hrh. rewrite (H1' _ Hh) in Hrh. congruence. }
  destruct (H1 _ Hh) as (ms & m0 & Hho & Hm0 & E0).
  pose proof (run_host _ _ _ Hr h) as Hrh. rewrite E0 in Hrh. destruct Hrh as (m1 & Hm1 & Hrm).
  rewrite Hm in Hm1. injection Hm1 as <-.
  pose proof (NewMixers_init_ok _ _ _ _ Hm0) as Hi.
  assert (mm_out m0 = []) as Hout by (by destruct Hi as (_ & _ & _ & _ & _ & ? & _)).
  pose proof (emits_recvs _ _ _ _ _ _ _ Hout Hrm) as He.
  assert (LEmit o ∈ host_trace h tr) as Hem.
  { apply emits_elem. rewrite He. apply elem_of_app. right. inversion Hs; subst.
    match goal with H : mm_out m = _ |- _ => rewrite H end. left. }
  destruct (i3_emit _ _ _ (run_inv3 _ _ _ _ _ _ _ Hi Hrm) o Hem) as (st & Est & _).
  assert (is_Some (mm_states m0 !! mo_sender o)) as Hst0.
  { apply not_eq_None_Some. intros Hn.
    apply (co_dom _ _ _ _ _ (in_core _ _ _ _ (run_inv _ _ _ _ _ _ _ Hi Hrm))) in Hn. congruence. }
  apply (NewMixers_dom _ _ _ _ _ Hm0) in Hst0. apply elem_of_list_fmap in Hst0 as (x & Hxn & Hx).
  destruct (hosted_elem _ _ _ _ Hho Hx) as (Hxh & l & i & Hd).
  exists l, i, x. split; [done|]. split; [done|]. split; [done|].
  destruct (C12_emissions _ _ _ _ _ _ _ _ _ _ x (names_nodup _ _ Hho) Hm0 Hrm Hx) as (Hlast & _ & _ & Hret).
  split; [|by apply Hret].
  destruct (decide (S l = L)) as [Hl|Hl].
  2:{ pose proof (deref_bound _ _ _ Hd). lia. }
  exfalso. assert (cnt (is_emit (mx_name x)) (host_trace h tr) = 0) as Hc.
  { apply Hlast. rewrite (deref_layer _ _ _ Hd), tp_len. lia. }
  assert (0 < cnt (is_emit (mx_name x)) (host_trace h tr)); [|lia].
  apply cnt_pos. exists (LEmit o). split; [done|]. simpl. by rewrite bool_decide_true.
Qed.

Lemma calls_facts tr s h o m m' calls : yrun s0 tr s → all_good tr → sy_srv s !! h = Some m →
  hstep peel workers taskCap outCap h m (LRecv o) m' →
  sender_iteration round t h (sender_input o) (mo_sender o) calls →
  ∃ l i x q cs, deref t (l, i) = Some x ∧ mx_host x = h ∧ mx_name x = mo_sender o ∧
    deref t (S l, i) = Some q ∧ can_return m (mx_name x) (mo_onions o) ∧ calls = Some cs ∧
    length (sender_input o) = Z.to_nat (announced t w i) ∧
    (∀ c, c ∈ calls_of h cs → cl_to c = mx_host q ∧
       ∀ mm, mm ∈ rq_msgs (cl_rq c) → msg_recv mm = mx_name q ∧ good (mx_host q) mm) ∧
    concat (msg_onions <$> concat ((λ c, rq_msgs (cl_rq c)) <$> calls_of h cs)) ≡ₚ sender_input o.
Proof.
  intros Hr Hg Hm Hs Hit. destruct (taken _ _ _ _ _ _ Hr Hm Hs) as (l & i & x & Hx & Hxh & Hxn & Hl & Hret).
  destruct (deref_bound _ _ _ Hx) as [_ Hi]. destruct (deref_ex (S l) i Hl Hi) as [q Hq].
  subst h. destruct (outputs_good _ _ _ _ _ _ _ Hr Hg Hx Hm Hret) as [Hlen Hout].
  assert (Hin : ∀ o', o' ∈ sender_input o →
    ExtractMixConfig t o' = Some q ∧ ∃ msg, delivers t (opens peel) (drop (S l) (chain_mixes t i)) o' msg).
  { intros o' Ho'. unfold sender_input in Ho'. apply elem_of_list_fmap in Ho' as (r & -> & Hrin).
    destruct (Hout _ Hrin) as (o' & msg & -> & Hd). simpl. split; [|eauto].
    rewrite (chain_drop _ _ _ Hq) in Hd. apply Hd. }
  assert (∃ cs, calls = Some cs) as [cs ->].
  { destruct calls as [cs|]; [eauto|]. exfalso.
    apply sender_iteration_panics_iff in Hit. apply Hit; [done|]. split.
    - destruct (deref_ex 0 i HL Hi) as [y Hy]. unfold deref in Hy. cbn [fst snd] in Hy.
      destruct (tp_layers t !! 0) as [l0|]; [|done]. simpl in Hy. exists l0. split; [done|]. by intros ->.
    - apply Forall_forall. intros o' Ho'. destruct (Hin _ Ho') as [-> _]. eauto. }
  exists l, i, x, q, cs. do 6 (split; [done|]). split; [unfold sender_input; by rewrite fmap_length|].
  apply sender_iteration_spec in Hit as (_ & Hperm & Hc).
  assert (Hcs : concat (msg_onions <$> concat ((λ c, rq_msgs (cl_rq c)) <$> calls_of (mx_host x) cs)) =
    concat (request_onions <$> cs.*2)).
  { clear. induction cs as [|[h rq] cs IH]; [done|]. cbn [calls_of fmap list_fmap concat cl_rq fst snd].
    rewrite fmap_app, concat_app. f_equal. exact IH. }
  rewrite Hcs. split; [|done].
  intros c Hcin. unfold calls_of in Hcin. apply elem_of_list_fmap in Hcin as ([h rq] & -> & Hcin).
  cbn [cl_to cl_rq fst snd]. destruct (Hc _ _ Hcin) as (_ & _ & _ & Hne & Hmm).
  assert (Hmem : ∀ mm o', mm ∈ rq_msgs rq → o' ∈ msg_onions mm → o' ∈ sender_input o).
  { intros mm o' H1 H2. rewrite <-Hperm. apply elem_of_concat. exists (request_onions rq). split.
    - unfold request_onions. apply elem_of_concat. exists (msg_onions mm). split; [done|].
      by apply elem_of_list_fmap_1.
    - apply elem_of_list_fmap. exists rq. split; [done|]. apply elem_of_list_fmap. by exists (h, rq). }
  assert (Hto : ∀ mm, mm ∈ rq_msgs rq → h = mx_host q ∧ msg_recv mm = mx_name q).
  { intros mm Hmmin. destruct (Hmm _ Hmmin) as (_ & _ & Hon & Hmix).
    destruct (msg_onions mm) as [|o' os] eqn:Eo; [done|].
    destruct (Hmix o' ltac:(left)) as (mix & E1 & E2 & E3).
    destruct (Hin o') as [E4 _]; [eapply Hmem; [done|rewrite Eo; left]|].
    rewrite E4 in E1. injection E1 as <-. done. }
  split.
  - destruct (rq_msgs rq) as [|mm mms] eqn:Em; [done|]. by apply (Hto mm); left.
  - intros mm Hmmin. destruct (Hto _ Hmmin) as [_ Hrecv]. split; [done|].
    exists (S l), i, q. destruct (Hmm _ Hmmin) as (Hph & Hls & Hon & _).
    do 4 (split; [done|]). split.
    + exists x. split; [done|]. split; [done|congruence].
    + intros o' Ho'. apply Hin. by eapply Hmem.
Qed.


Lemma honest_prefix tr tr' : honest_clients t peel (tr ++ tr') → honest_clients t peel tr.
Proof. intros Hh h rq m Hin. apply Hh. rewrite client_calls_app. apply elem_of_app. by left. Qed.

Lemma good_run tr s : yrun s0 tr s → honest_clients t peel tr →
  all_good tr ∧ (∀ h o, YCrash h o ∉ tr) ∧ sy_down s = ∅.
Proof.
  induction 1 as [|tr l s s' Hr IH Hs]; intros Hh.
  { split; [by intros h m ?%elem_of_nil|]. split; [by intros h o ?%elem_of_nil|].
    by destruct Hop as (_ & _ & _ & _ & ?). }
  destruct (IH (honest_prefix _ _ Hh)) as (IHg & IHc & IHd). clear IH.
  assert (Hnew : (∀ h m, m ∈ posted h [l] → good h m) → all_good (tr ++ [l])).
  { intros Hn h m. rewrite posted_app. intros [Hm|Hm]%elem_of_app; [by apply IHg|by apply Hn]. }
  assert (Hcr : (∀ h o, l ≠ YCrash h o) → ∀ h o, YCrash h o ∉ tr ++ [l]).
  { intros Hl h o [Hin|Hin%elem_of_list_singleton]%elem_of_app; [by eapply IHc|]. by eapply Hl. }
  inversion Hs; subst; cbn [sy_down with_srv].
  all: try (split; [|split; [by apply Hcr|done]]).
  all: try (apply Hnew; by intros ? ? ?%elem_of_nil).
  - apply Hnew. intros h' m. unfold posted. cbn [fmap list_fmap concat]. rewrite app_nil_r.
    case_decide as Hc; [subst h'|by intros ?%elem_of_nil]. intros Hm.
    destruct (Hh h rq m) as (H1 & H2 & H3 & i & x & H4 & H5 & H6 & H7); [|done|].
    { rewrite client_calls_app. apply elem_of_app. right. left. }
    exists 0, i, x. rewrite drop_0. done.
  - apply Hnew. intros h' mm. unfold posted. cbn [fmap list_fmap concat]. rewrite app_nil_r.
    destruct H as (Hm & _).
    destruct (calls_facts _ _ _ _ _ _ _ Hr IHg Hm H1 H2) as (l & i & x & q & cs' & _ & _ & _ & _ & _ & Ecs & _ & Hcs & _).
    injection Ecs as <-. unfold msgs_to. intros Hin. apply elem_of_concat in Hin as (ms & Hmm & Hms).
    apply elem_of_list_fmap in Hms as (c & -> & Hc). destruct (Hcs _ Hc) as [Hto Hgood].
    case_decide as Hd; [|by apply elem_of_nil in Hmm]. rewrite <-Hd, Hto. by apply Hgood.
  - exfalso. destruct H as (Hm & _).
    destruct (calls_facts _ _ _ _ _ _ _ Hr IHg Hm H1 H2) as (l & i & x & q & cs' & _ & _ & _ & _ & _ & Ecs & _). done.
Qed.

(** What was ever sent towards a mix. *)
Definition stream (x : LogicalMix) (tr : list ylabel) : list onion :=
  concat (msg_onions <$> to_mix (mx_name x) (posted (mx_host x) tr)).
Lemma stream_app x tr tr' : stream x (tr ++ tr') = stream x tr ++ stream x tr'.
Proof. unfold stream. by rewrite posted_app, to_mix_app, fmap_app, concat_app. Qed.
Lemma sent_app i tr tr' : sent_into t i (tr ++ tr') = sent_into t i tr ++ sent_into t i tr'.
Proof. unfold sent_into. by rewrite client_calls_app, fmap_app, concat_app, filter_app, fmap_app, concat_app. Qed.
Lemma stream_nil x l : (∀ m, m ∈ posted (mx_host x) [l] → msg_recv m ≠ mx_name x) → stream x [l] = [].
Proof.
  intros Hn. unfold stream. replace (to_mix (mx_name x) (posted (mx_host x) [l])) with (@nil Messages); [done|].
  symmetry. unfold to_mix. induction (posted (mx_host x) [l]) as [|m ms IH]; [done|].
  rewrite filter_cons, decide_False by (apply Hn; left). apply IH. intros m' Hm'. apply Hn. by right.
Qed.
Lemma to_mix_all n ms : (∀ m, m ∈ ms → msg_recv m = n) → to_mix n ms = ms.
Proof.
  intros Ha. unfold to_mix. induction ms as [|m ms IH]; [done|].
  rewrite filter_cons, decide_True by (apply Ha; left). f_equal. apply IH. intros m' Hm'. apply Ha. by right.
Qed.

Lemma flow_first tr s i x : yrun s0 tr s → honest_clients t peel tr → deref t (0, i) = Some x →
  stream x tr = sent_into t i tr.
Proof.
  intros Hr Hh Hx. induction Hr as [|tr l s s' Hr IH Hs]; [done|].
  pose proof (honest_prefix _ _ Hh) as Hh'. rewrite stream_app, sent_app, (IH Hh'). f_equal.
  destruct (good_run _ _ Hr Hh') as (Hg & _ & _).
  inversion Hs; subst; try done.
  - unfold stream, sent_into, posted. cbn [fmap list_fmap concat client_calls omap list_omap snd]. rewrite !app_nil_r.
    f_equal. f_equal. rewrite Hx. cbn [fmap option_fmap option_map].
    assert (Hho : ∀ m, m ∈ rq_msgs rq → mx_name x = msg_recv m → h = mx_host x).
    { intros m Hm Hn. destruct (Hh h rq m) as (_ & _ & _ & i' & x' & H4 & H5 & H6 & _); [|done|].
      { rewrite client_calls_app. apply elem_of_app. right. left. }
      rewrite <-H5 in Hn. destruct (deref_inj _ _ _ _ _ _ Hx H4 Hn) as (_ & _ & ->). done. }
    clear -Hho. unfold to_mix. case_decide as Hc.
    + apply list_filter_iff. intros m. split; [by intros ->|congruence].
    + induction (rq_msgs rq) as [|m ms IH]; [done|]. rewrite filter_cons, decide_False.
      * apply IH. intros m' Hm'. apply Hho. by right.
      * intros [= Hn]. apply Hc. eapply Hho; [left|done].
  - apply stream_nil. intros mm. unfold posted. cbn [fmap list_fmap concat]. rewrite app_nil_r.
    destruct H as (Hm & _).
    destruct (calls_facts _ _ _ _ _ _ _ Hr Hg Hm H1 H2) as (l & i' & x' & q & cs' & _ & _ & _ & Hq & _ & Ecs & _ & Hcs & _).
    injection Ecs as <-. unfold msgs_to. intros Hin. apply elem_of_concat in Hin as (ms & Hmm & Hms).
    apply elem_of_list_fmap in Hms as (c & -> & Hc). destruct (Hcs _ Hc) as [Hto Hgood].
    case_decide as Hd; [|by apply elem_of_nil in Hmm]. destruct (Hgood _ Hmm) as [-> _].
    intros Hn. by destruct (deref_inj _ _ _ _ _ _ Hq Hx Hn) as (? & _).
Qed.

Lemma flow_next tr s l i x q : yrun s0 tr s → honest_clients t peel tr →
  deref t (l, i) = Some x → deref t (S l, i) = Some q →
  stream q tr ≡ₚ concat (sender_input <$> takes (mx_name x) tr).
Proof.
  intros Hr Hh Hx Hq. induction Hr as [|tr lb s s' Hr IH Hs]; [done|].
  pose proof (honest_prefix _ _ Hh) as Hh'. rewrite stream_app, takes_app, fmap_app, concat_app, (IH Hh'). f_equiv.
  destruct (good_run _ _ Hr Hh') as (Hg & _ & _).
  inversion Hs; subst; try done.
  - rewrite stream_nil; [done|]. intros m. unfold posted. cbn [fmap list_fmap concat]. rewrite app_nil_r.
    case_decide as Hc; [|by intros ?%elem_of_nil]. intros Hm Hn.
    destruct (Hh h rq m) as (_ & _ & _ & i' & x' & H4 & H5 & H6 & _); [|done|].
    { rewrite client_calls_app. apply elem_of_app. right. left. }
    rewrite <-H5 in Hn. by destruct (deref_inj _ _ _ _ _ _ H4 Hq Hn) as (? & _).
  - destruct H as (Hm & _).
    destruct (calls_facts _ _ _ _ _ _ _ Hr Hg Hm H1 H2) as (l' & i' & x' & q' & cs' & Hx' & _ & Hn' & Hq' & _ & Ecs & _ & Hcs & Hperm).
    injection Ecs as <-. unfold takes. cbn [omap list_omap].
    assert (Hall : ∀ mm, mm ∈ concat ((λ c, rq_msgs (cl_rq c)) <$> calls_of h cs) → msg_recv mm = mx_name q').
    { intros mm Hmm. apply elem_of_concat in Hmm as (ms & Hmm & Hms).
      apply elem_of_list_fmap in Hms as (c & -> & Hc). by apply (Hcs _ Hc). }
    destruct (decide (mo_sender o = mx_name x)) as [Hsx|Hsx].
    + rewrite Hsx in Hn'. destruct (deref_inj _ _ _ _ _ _ Hx' Hx Hn') as (-> & -> & ->).
      rewrite Hq in Hq'. injection Hq' as <-. cbn [fmap list_fmap concat]. rewrite app_nil_r, <-Hperm.
      unfold stream, posted. cbn [fmap list_fmap concat]. rewrite app_nil_r.
      assert (msgs_to (mx_host q) (calls_of h cs) = concat ((λ c, rq_msgs (cl_rq c)) <$> calls_of h cs)) as ->.
      { unfold msgs_to. f_equal. apply list_fmap_ext. intros k c Hk. apply elem_of_list_lookup_2 in Hk.
        destruct (Hcs _ Hk) as [-> _]. by rewrite decide_True. }
      by rewrite to_mix_all.
    + rewrite stream_nil; [done|]. intros mm. unfold posted. cbn [fmap list_fmap concat]. rewrite app_nil_r.
      unfold msgs_to. intros Hin. apply elem_of_concat in Hin as (ms & Hmm & Hms).
      apply elem_of_list_fmap in Hms as (c & -> & Hc). destruct (Hcs _ Hc) as [Hto Hgood].
      case_decide as Hd; [|by apply elem_of_nil in Hmm]. destruct (Hgood _ Hmm) as [-> _].
      intros Hn. destruct (deref_inj _ _ _ _ _ _ Hq' Hq Hn) as ([= ->] & -> & _).
      rewrite Hx in Hx'. injection Hx' as ->. by apply Hsx.
Qed.

Lemma takes_recvs tr s l i x : yrun s0 tr s → honest_clients t peel tr → deref t (l, i) = Some x →
  takes (mx_name x) tr = filter (λ o, mo_sender o = mx_name x) (recvs (host_trace (mx_host x) tr)).
Proof.
  intros Hr Hh Hx. induction Hr as [|tr lb s s' Hr IH Hs]; [done|].
  pose proof (honest_prefix _ _ Hh) as Hh'.
  destruct (good_run _ _ (yrun_snoc _ _ _ _ _ _ _ _ _ _ _ _ Hr Hs) Hh) as (_ & Hnc & _).
  rewrite takes_app, host_trace_app. unfold recvs in *. rewrite omap_app, filter_app, (IH Hh'). f_equal.
  inversion Hs; subst; try done; unfold host_trace; cbn [omap list_omap].
  - by case_decide.
  - case_decide; [|done]. match goal with H : own_label ?lb |- _ => by destruct lb end.
  - destruct H as (Hm & _). destruct (taken _ _ _ _ _ _ Hr Hm H1) as (l' & i' & x' & Hx' & Hxh & Hxn & _).
    unfold takes. cbn [omap list_omap]. case_decide as Hc.
    + rewrite Hc in Hxn. destruct (deref_inj _ _ _ _ _ _ Hx' Hx Hxn) as (_ & _ & ->).
      rewrite decide_True by done. cbn [omap list_omap]. rewrite filter_cons, decide_True by done. done.
    + case_decide; [|done]. cbn [omap list_omap]. rewrite filter_cons, decide_False by done. done.
  - exfalso. eapply Hnc. apply elem_of_app. right. left.
Qed.

(** A mix whose only predecessor sends no empty batches is complete once. *)
Lemma completing_once x k bs : mx_preds x = [k] →
  (∀ m, m ∈ bs → (msg_phys m, msg_lsender m) = sender_of t k ∧ msg_onions m ≠ []) →
  completing t w x bs ≤ 1.
Proof.
  intros Hp Hb. unfold completing. apply filter_at_most_one; [apply NoDup_seq|].
  assert (Hmono : ∀ a b, a < b → b ≤ length bs → (sum_from (sender_of t k) (take a bs) < sum_from (sender_of t k) (take b bs))%Z).
  { assert (Hstep : ∀ a m, bs !! a = Some m →
      (sum_from (sender_of t k) (take (S a) bs) = sum_from (sender_of t k) (take a bs) + Z.of_nat (length (msg_onions m)))%Z).
    { intros a m Ha. rewrite (take_S_r _ _ _ Ha). unfold sum_from. rewrite fmap_app, foldr_add_app. simpl.
      destruct (Hb m) as [-> _]; [by eapply elem_of_list_lookup_2|]. rewrite decide_True by done. lia. }
    intros a b Hab Hle. induction b as [|b IH]; [lia|].
    destruct (lookup_lt_is_Some_2 bs b) as [m Hm]; [lia|]. rewrite (Hstep _ _ Hm).
    destruct (Hb m) as [_ Hne]; [by eapply elem_of_list_lookup_2|].
    assert (0 < length (msg_onions m)) by (destruct (msg_onions m); simpl; [done|lia]).
    destruct (decide (a = b)) as [->|]; [lia|]. assert (a < b) by lia. specialize (IH ltac:(lia) ltac:(lia)). lia. }
  assert (Heq : ∀ a, all_delivered t w x (take a bs) → sum_from (sender_of t k) (take a bs) = quota w x k).
  { intros a. unfold all_delivered. rewrite Hp. by rewrite Forall_singleton. }
  intros a b Ha%elem_of_seq Hb'%elem_of_seq HPa%Heq HPb%Heq.
  destruct (lt_eq_lt_dec a b) as [[Hlt|?]|Hlt]; [|done|]; exfalso.
  - specialize (Hmono a b Hlt ltac:(lia)). lia.
  - specialize (Hmono b a Hlt ltac:(lia)). lia.
Qed.


Lemma batches_elem tr s l i x m : yrun s0 tr s → deref t (l, i) = Some x →
  m ∈ batches (mx_name x) (host_trace (mx_host x) tr) →
  m ∈ posted (mx_host x) tr ∧ msg_recv m = mx_name x.
Proof.
  intros Hr Hx Hm. destruct (host_state _ _ _ _ _ Hr Hx) as (ms & m0 & m' & _ & Hm0 & _ & Hrm & _ & _).
  rewrite batches_all in Hm. apply elem_of_list_filter in Hm as [Hn Hm]. split; [|done].
  eapply elem_posted; [done|].
  rewrite (i3_added _ _ _ (run_inv3 _ _ _ _ _ _ _ (NewMixers_init_ok _ _ _ _ Hm0) Hrm)).
  apply elem_of_app. by left.
Qed.

Lemma pred_facts tr s l i x : yrun s0 tr s → honest_clients t peel tr → deref t (l, i) = Some x →
  ∃ k, mx_preds x = [k] ∧ quota w x k = announced t w i ∧
    ∀ m, m ∈ posted (mx_host x) tr → msg_recv m = mx_name x →
      (msg_phys m, msg_lsender m) = sender_of t k ∧ msg_onions m ≠ [].
Proof.
  intros Hr Hh Hx. destruct (good_run _ _ Hr Hh) as (Hg & _ & _).
  assert (Hfrom : ∀ m, m ∈ posted (mx_host x) tr → msg_recv m = mx_name x → from_ok l i m ∧ msg_onions m ≠ []).
  { intros m Hm Hn. destruct (Hg _ _ Hm) as (l' & i' & x' & Hx' & _ & Hn' & Hne & Hf & _).
    rewrite Hn in Hn'. destruct (deref_inj _ _ _ _ _ _ Hx Hx' Hn') as (<- & <- & _). done. }
  destruct l as [|l].
  - exists GenesisName. split; [by eapply deref_preds0|]. split.
    { unfold quota. rewrite decide_True by done. by eapply deref_workload. }
    intros m Hm Hn. destruct (Hfrom _ Hm Hn) as [[-> ->] Hne]. split; [|done].
    unfold sender_of. by rewrite decide_True.
  - destruct (deref_bound _ _ _ Hx) as [Hl Hi]. destruct (deref_ex l i ltac:(lia) Hi) as [p Hp].
    exists (mx_name p). split; [by eapply deref_preds|]. split.
    { unfold quota. rewrite decide_False by (by eapply deref_not_genesis). by eapply deref_workload. }
    intros m Hm Hn. destruct (Hfrom _ Hm Hn) as [(p' & Hp' & -> & ->) Hne]. split; [|done].
    rewrite Hp in Hp'. injection Hp' as <-. by rewrite (sender_of_mix _ _ _ Hp).
Qed.

Lemma take_facts tr s l i x : yrun s0 tr s → honest_clients t peel tr → deref t (l, i) = Some x →
  length (takes (mx_name x) tr) ≤ 1 ∧
  ∀ o, o ∈ takes (mx_name x) tr → ∃ m, sy_srv s !! mx_host x = Some m ∧ can_return m (mx_name x) (mo_onions o).
Proof.
  intros Hr Hh Hx. destruct (host_state _ _ _ _ _ Hr Hx) as (ms & m0 & m & Hho & Hm0 & Hm & Hrm & Hin & Hnd).
  pose proof (NewMixers_init_ok _ _ _ _ Hm0) as Hi.
  assert (mm_out m0 = []) as Hout by (by destruct Hi as (_ & _ & _ & _ & _ & ? & _)).
  pose proof (emits_recvs _ _ _ _ _ _ _ Hout Hrm) as He.
  destruct (C12_emissions _ _ _ _ _ _ _ _ _ _ x Hnd Hm0 Hrm Hin) as (Hlast & Hle & _ & Hret).
  rewrite (takes_recvs _ _ _ _ _ Hr Hh Hx). split.
  - assert (cnt (is_emit (mx_name x)) (host_trace (mx_host x) tr) ≤ 1) as Hc.
    { destruct (decide (mx_layer x = Z.of_nat (length (tp_layers t)) - 1)%Z) as [Hl|Hl].
      - rewrite (Hlast Hl). lia.
      - destruct (pred_facts _ _ _ _ _ Hr Hh Hx) as (k & Hk & _ & Hb).
        specialize (Hle Hl). etrans; [exact Hle|]. eapply completing_once; [exact Hk|].
        intros mm Hmm. destruct (batches_elem _ _ _ _ _ _ Hr Hx Hmm). by apply Hb. }
    rewrite <-emits_cnt, He, filter_app, app_length in Hc. lia.
  - intros o [Hn Ho]%elem_of_list_filter. exists m. split; [done|]. apply Hret; [|done].
    apply emits_elem. rewrite He. apply elem_of_app. by left.
Qed.

Lemma stream_bound tr s l i x : yrun s0 tr s → honest_clients t peel tr → within_announced t w tr →
  deref t (l, i) = Some x → length (stream x tr) ≤ Z.to_nat (announced t w i).
Proof.
  intros Hr Hh Hwi Hx. destruct l as [|l].
  - rewrite (flow_first _ _ _ _ Hr Hh Hx). specialize (Hwi _ _ Hx). lia.
  - destruct (deref_bound _ _ _ Hx) as [Hl Hi]. destruct (deref_ex l i ltac:(lia) Hi) as [p Hp].
    rewrite (flow_next _ _ _ _ _ _ Hr Hh Hp Hx).
    destruct (take_facts _ _ _ _ _ Hr Hh Hp) as [H1 H2].
    destruct (takes (mx_name p) tr) as [|o [|o' os]]; cbn [length fmap list_fmap concat] in *; [lia| |lia].
    rewrite app_nil_r. destruct (H2 o ltac:(left)) as (m & Hm & Hret).
    destruct (good_run _ _ Hr Hh) as (Hg & _ & _).
    destruct (outputs_good _ _ _ _ _ _ _ Hr Hg Hp Hm Hret) as [Hlen _].
    unfold sender_input. rewrite fmap_length. etrans; [|exact (Nat.eq_le_incl _ _ Hlen)]. done.
Qed.

Lemma announced_nonneg l i x : deref t (l, i) = Some x → (0 ≤ announced t w i)%Z.
Proof.
  intros Hx. destruct (host_state _ _ _ _ _ (yrun_nil _ _ _ _ _ _ _ _) Hx) as (ms & m0 & m & _ & Hm0 & _ & _ & Hin & Hnd).
  destruct (NewMixers_one _ _ _ _ _ Hm0 Hnd Hin) as (st & Est & _).
  destruct (NewMixers_left _ _ _ _ _ _ Hm0 Est) as [_ Hn]. by rewrite (deref_workload _ _ _ Hx) in Hn.
Qed.

(** What a readable mix returns: the onions sent into its chain, opened as far as that mix. *)
Lemma delivered tr s l i x m v : yrun s0 tr s → honest_clients t peel tr → within_announced t w tr →
  deref t (l, i) = Some x → sy_srv s !! mx_host x = Some m → can_return m (mx_name x) v →
  ∃ outs, Forall2 (delivers t (opens peel) (take (S l) (chain_mixes t i))) (sent_into t i tr) outs ∧
    v ≡ₚ Some <$> outs.
Proof.
  intros Hr Hh Hwi. destruct (good_run _ _ Hr Hh) as (Hg & _ & _). revert x m v.
  induction l as [|l IH]; intros x m v Hx Hm Hv.
  all: pose proof (deref_bound _ _ _ Hx) as [Hl Hi].
  all: destruct (host_state _ _ _ _ _ Hr Hx) as (ms & m0 & m' & Hh' & Hm0 & Hm' & Hrm & Hin & Hnd);
    rewrite Hm in Hm'; injection Hm' as <-;
    destruct (C08_outputs_are_decryptions _ _ _ _ _ _ _ _ _ _ _ _ Hm0 Hrm Hv) as (k & rs & Hk & Hle & Hpre & HF & Hp);
    pose proof (stream_bound _ _ _ _ _ Hr Hh Hwi Hx) as Hbound;
    rewrite (deref_workload _ _ _ Hx) in Hk; pose proof (announced_nonneg _ _ _ Hx) as Hnn.
  all: assert (Hperm : take k (handed (mx_name x) (host_trace (mx_host x) tr)) ≡ₚ stream x tr).
  1,3: apply submseteq_full;
    [|rewrite take_length; lia];
    etrans; [apply prefix_submseteq; etrans; [apply prefix_take'|exact Hpre]|];
    unfold stream; apply concat_submseteq;
    assert (Hsub := to_mix_submseteq (mx_name x) _ _ (added_posted _ _ (mx_host x) Hr));
    apply submseteq_Permutation in Hsub as (z & ->); rewrite fmap_app; by apply submseteq_inserts_r.
  all: destruct (Forall2_perm _ _ _ _ HF Hperm) as (rs' & HF' & Hrs); rewrite Hrs in Hp.
  all: assert (Hopen : Forall2 (λ o r, ∃ o', r = Some o' ∧ opens peel (mx_host x) o = Some o' ∧ ExtractMixConfig t o = Some x) (stream x tr) rs').
  1,3: apply Forall2_same_length_lookup; split; [by eapply Forall2_length|]; intros j o r Ho Hrr;
    pose proof (Forall2_lookup_lr _ _ _ _ _ _ HF' Ho Hrr) as Hpe; simpl in Hpe;
    apply elem_of_list_lookup_2 in Ho; unfold stream in Ho; apply elem_of_concat in Ho as (os & Ho & Hos);
    apply elem_of_list_fmap in Hos as (mm & -> & [Hrecv Hmm]%elem_of_list_filter);
    destruct (Hg _ _ Hmm) as (l' & i' & x' & Hx' & _ & Hn' & _ & _ & Hd);
    rewrite Hrecv in Hn'; destruct (deref_inj _ _ _ _ _ _ Hx Hx' Hn') as (<- & <- & _);
    destruct (Hd _ Ho) as (msg & Hmsg); rewrite (chain_drop _ _ _ Hx) in Hmsg;
    destruct Hmsg as (Hext & o' & Hop' & _); exists o'; split; [|done];
    apply opens_Some in Hop'; congruence.
  - rewrite (flow_first _ _ _ _ Hr Hh Hx) in Hopen.
    assert (Hch : take 1 (chain_mixes t i) = [x]).
    { pose proof (chain_drop _ _ _ Hx) as Hd. rewrite drop_0 in Hd. rewrite Hd. done. }
    rewrite Hch.
    assert (∃ outs, rs' = Some <$> outs ∧ Forall2 (delivers t (opens peel) [x]) (sent_into t i tr) outs) as (outs & -> & HD).
    { clear -Hopen. induction Hopen as [|o r xs rs (o' & -> & H1 & H2) HF (outs & -> & IH)]; [by exists []|].
      exists (o' :: outs). split; [done|]. constructor; [|done]. simpl. eauto. }
    eauto.
  - destruct (deref_ex l i ltac:(lia) Hi) as [p Hpd].
    pose proof (flow_next _ _ _ _ _ _ Hr Hh Hpd Hx) as Hflow.
    destruct (take_facts _ _ _ _ _ Hr Hh Hpd) as [Ht1 Ht2].
    assert (Hlen : length (stream x tr) = k).
    { rewrite <-Hperm, take_length. lia. }
    destruct (takes (mx_name p) tr) as [|o [|o' os]]; simpl in Ht1; [|  |lia].
    + (* nothing was announced for the chain *)
      simpl in Hflow. apply Permutation_nil_r in Hflow. rewrite Hflow in Hlen, Hopen. simpl in Hlen. subst k.
      apply Forall2_nil_inv_l in Hopen as ->.
      destruct (deref_ex 0 i HL Hi) as [x0 Hx0]. specialize (Hwi _ _ Hx0).
      assert (sent_into t i tr = []) as -> by (apply nil_length_inv; lia).
      exists []. split; [constructor|done].
    + destruct (Ht2 o ltac:(left)) as (mp & Hmp & Hret).
      destruct (IH _ _ _ Hpd Hmp Hret) as (outs & HF1 & HP1).
      simpl in Hflow. rewrite app_nil_r in Hflow. unfold sender_input in Hflow. rewrite HP1 in Hflow.
      assert (Hid : default [] <$> (Some <$> outs) = outs).
      { rewrite <-list_fmap_compose. clear. induction outs as [|a outs IH]; [done|]. simpl. f_equal. exact IH. }
      assert (Hflow2 : stream x tr ≡ₚ outs).
      { etrans; [exact Hflow|]. exact (eq_rect _ (λ z, z ≡ₚ outs) (reflexivity outs) _ (eq_sym Hid)). }
      destruct (Forall2_perm _ _ _ _ Hopen Hflow2) as (rs2 & HF2 & Hrs2).
      rewrite Hrs2 in Hp.
      assert (Hch : take (S (S l)) (chain_mixes t i) = take (S l) (chain_mixes t i) ++ [x]).
      { apply take_S_r. by rewrite chain_lookup. }
      rewrite Hch.
      assert (∃ outs2, rs2 = Some <$> outs2 ∧ Forall2 (delivers t (opens peel) [x]) outs outs2) as (outs2 & -> & HD).
      { clear -HF2. induction HF2 as [|o r xs rs (o' & -> & H1 & H2) HF (outs & -> & IH)]; [by exists []|].
        exists (o' :: outs). split; [done|]. constructor; [|done]. simpl. eauto. }
      exists outs2. split; [|done].
      clear -HF1 HD. revert outs2 HD. induction HF1 as [|a b as_ bs Hab HF IH]; intros outs2 HD.
      * apply Forall2_nil_inv_l in HD as ->. constructor.
      * apply Forall2_cons_inv_l in HD as (c & cs & Hc & HD & ->). constructor; [|by apply IH].
        apply delivers_take. eauto.
Qed.


(** ** Nothing crashes *)
Lemma host_well_behaved tr s h : yrun s0 tr s → honest_clients t peel tr → within_announced t w tr →
  YHost h LClose ∉ tr → h ∈ servers →
  ∃ ms m0 m, hosted t h ms ∧ NewMixers t ms w = Some m0 ∧ sy_srv s !! h = Some m ∧
    hrun h m0 (host_trace h tr) m ∧ NoDup (mx_name <$> ms) ∧ well_behaved (peel h) ms w (host_trace h tr).
Proof.
  intros Hr Hh Hwi Hcl Hs. destruct (good_run _ _ Hr Hh) as (Hg & _ & _).
  destruct Hop as (H1 & _). destruct (H1 _ Hs) as (ms & m0 & Hho & Hm0 & E0).
  pose proof (run_host _ _ _ Hr h) as Hrh. rewrite E0 in Hrh. destruct Hrh as (m & Hm & Hrm).
  exists ms, m0, m. do 4 (split; [done|]). split; [by eapply names_nodup|].
  assert (Hall : ∀ mm, mm ∈ added (host_trace h tr) → good h mm).
  { intros mm Hmm. apply Hg. by eapply elem_posted. }
  split; [|split; [|split]].
  - intros Hc. apply elem_of_list_omap in Hc as (lb & Hlb & He). apply Hcl.
    destruct lb; try done; try (case_decide; [|done]); try done; injection He as ->; subst; done.
  - intros mm Hmm. destruct (Hall _ Hmm) as (l & i & x & Hx & Hxh & -> & _).
    apply elem_of_list_fmap_1. eapply hosted_all; eauto.
  - intros mm o Hmm Ho. destruct (Hall _ Hmm) as (l & i & x & Hx & Hxh & _ & _ & _ & Hd).
    destruct (Hd _ Ho) as (msg & Hmsg). rewrite (chain_drop _ _ _ Hx) in Hmsg.
    destruct Hmsg as (_ & o' & Hop' & _). apply opens_Some in Hop'. rewrite Hxh in Hop'. by rewrite Hop'.
  - intros n Hn. apply elem_of_list_fmap in Hn as (x & -> & Hx).
    destruct (hosted_elem _ _ _ _ Hho Hx) as (Hxh & l & i & Hd).
    rewrite (deref_workload _ _ _ Hd). pose proof (stream_bound _ _ _ _ _ Hr Hh Hwi Hd) as Hb.
    pose proof (announced_nonneg _ _ _ Hd) as Hnn.
    assert (total (to_mix (mx_name x) (added (host_trace h tr))) ≤ length (stream x tr)) as Hle; [|lia].
    unfold total, stream. apply submseteq_length, concat_submseteq. rewrite Hxh.
    assert (Hsub := to_mix_submseteq (mx_name x) _ _ (added_posted _ _ h Hr)).
    apply submseteq_Permutation in Hsub as (z & ->). rewrite fmap_app. by apply submseteq_inserts_r.
Qed.

Lemma no_crash tr s : yrun s0 tr s → honest_clients t peel tr → within_announced t w tr →
  (∀ h, YHost h LClose ∉ tr) →
  sy_down s = ∅ ∧ (∀ h m, sy_srv s !! h = Some m → mm_panic m = false) ∧
  (∀ h o, YCrash h o ∉ tr) ∧ (∀ h, YHost h LPanic ∉ tr).
Proof.
  intros Hr Hh Hwi Hcl. destruct (good_run _ _ Hr Hh) as (Hg & Hnc & Hd). split; [done|].
  assert (Hhost : ∀ h, h ∈ servers → ∃ m, sy_srv s !! h = Some m ∧ LPanic ∉ host_trace h tr ∧ mm_panic m = false).
  { intros h Hs. destruct (host_well_behaved _ _ h Hr Hh Hwi (Hcl h) Hs) as (ms & m0 & m & _ & Hm0 & Hm & Hrm & _ & Hwb).
    exists m. split; [done|]. exact (C10_no_crash _ _ _ _ _ _ _ _ _ _ Hm0 Hrm Hwb). }
  split; [|split; [done|]].
  - intros h m Hm. destruct (decide (h ∈ servers)) as [Hs|Hs].
    + destruct (Hhost h Hs) as (m' & Hm' & _ & Hp). rewrite Hm in Hm'. by injection Hm' as <-.
    + pose proof (run_host _ _ _ Hr h) as Hrh. destruct Hop as (_ & H1' & _). rewrite (H1' _ Hs) in Hrh. congruence.
  - intros h Hin. destruct (decide (h ∈ servers)) as [Hs|Hs].
    + destruct (Hhost h Hs) as (m' & _ & Hp & _). apply Hp. apply elem_of_list_omap.
      exists (YHost h LPanic). split; [done|]. by rewrite decide_True.
    + assert (∀ tr s, yrun s0 tr s → YHost h LPanic ∉ tr) as Hno; [|by eapply Hno].
      clear -Hop Hs. intros tr s Hr. induction Hr as [|tr lb s s' Hr IH Hst]; [by intros ?%elem_of_nil|].
      intros [?|Heq%elem_of_list_singleton]%elem_of_app; [done|]. subst lb. inversion Hst; subst.
      pose proof (run_host _ _ _ Hr h) as Hrh. destruct Hop as (_ & H1' & _). rewrite (H1' _ Hs) in Hrh.
      match goal with H : up _ _ _ |- _ => destruct H as (? & _) end. congruence.
Qed.

(** ** Completion *)
Lemma sender_iteration_total r h o ls : ∃ calls, sender_iteration r t h o ls calls.
Proof.
  unfold sender_iteration. destruct (GroupOnionsByHostname o t) as [g|]; [|by exists None].
  assert (∀ order : list (string * list onion), ∃ rqs, Forall2 (λ e q, createRRPCRequest r t h e.2 ls e.1 q) order rqs) as Hex.
  { induction order as [|e order (rqs & IH)]; [by exists []|].
    assert (∃ q, createRRPCRequest r t h e.2 ls e.1 q) as [q Hq].
    { unfold createRRPCRequest. destruct (GroupOnionsByMixName e.2 t) as [mp|]; [|by exists None].
      eexists. exists (map_to_list mp). split; [done|]. reflexivity. }
    exists (q :: rqs). by constructor. }
  destruct (Hex (map_to_list g)) as (rqs & HF). eexists. exists (map_to_list g), rqs. done.
Qed.

(** Calls under way were made by senders of servers, to servers, or by clients. *)
Lemma calls_inv tr s : yrun s0 tr s → honest_clients t peel tr →
  (∀ c, c ∈ sy_queue s → ∃ h, cl_from c = Some h ∧ h ∈ servers) ∧
  (∀ c h, c ∈ sy_queue s ++ sy_net s → cl_from c = Some h → cl_to c ∈ servers).
Proof.
  induction 1 as [|tr lb s s' Hr IH Hs]; intros Hh.
  { destruct Hop as (_ & _ & -> & -> & _). split; [by intros c ?%elem_of_nil|by intros c h ?%elem_of_nil]. }
  destruct (IH (honest_prefix _ _ Hh)) as [IH1 IH2]. clear IH.
  destruct (good_run _ _ Hr (honest_prefix _ _ Hh)) as (Hg & _ & _).
  assert (Hmono : ∀ q n, q ⊆ sy_queue s → n ⊆ sy_net s →
    (∀ c, c ∈ q → ∃ h, cl_from c = Some h ∧ h ∈ servers) ∧
    (∀ c h, c ∈ q ++ n → cl_from c = Some h → cl_to c ∈ servers)).
  { intros q n Hq Hn. split; [intros c Hc; apply IH1; by apply Hq|].
    intros c h Hc. apply IH2. apply elem_of_app. apply elem_of_app in Hc as [Hc|Hc]; [left; by apply Hq|right; by apply Hn]. }
  inversion Hs; subst; cbn [sy_queue sy_net with_srv].
  - split; [done|]. intros c h'. rewrite app_assoc. intros [Hc|Hc%elem_of_list_singleton]%elem_of_app; [by apply IH2|by subst c].
  - apply Hmono; [done|]. match goal with H : sy_net s = _ |- _ => rewrite H end. intros z. rewrite !elem_of_app, elem_of_cons. tauto.
  - apply Hmono; [done|]. match goal with H : sy_net s = _ |- _ => rewrite H end. intros z. rewrite !elem_of_app, elem_of_cons. tauto.
  - by apply Hmono.
  - destruct H as (Hm & _).
    destruct (calls_facts _ _ _ _ _ _ _ Hr Hg Hm H1 H2) as (l & i & x & q & cs' & Hx & Hxh & _ & Hq & _ & Ecs & _ & Hcs & _).
    injection Ecs as <-. pose proof (deref_host _ _ _ Hx) as Hhs. rewrite Hxh in Hhs. split.
    + intros c [Hc|Hc]%elem_of_app; [by apply IH1|]. apply elem_of_list_fmap in Hc as (e & -> & _). exists h. done.
    + intros c h'. rewrite !elem_of_app. intros [[Hc|Hc]|Hc] Hf.
      * eapply IH2; [|done]. apply elem_of_app. by left.
      * destruct (Hcs _ Hc) as [-> _]. by eapply deref_host.
      * eapply IH2; [|done]. apply elem_of_app. by right.
  - by apply Hmono.
  - match goal with H : sy_queue s = _ |- _ => rewrite H in IH1, IH2 end. split.
    + intros c' Hc'. apply IH1. apply elem_of_app. apply elem_of_app in Hc' as [?|?]; [by left|right; by right].
    + intros c' h' Hc'. apply IH2. revert Hc'. rewrite !elem_of_app, !elem_of_cons, elem_of_nil. tauto.
Qed.

Notation settled := (settledg waits t round peel workers taskCap outCap).

Lemma holder_progress pl wk tc oc m0 tr m :
  0 < wk → 0 < tc → Inv pl m0 tr m → mm_panic m = false → mm_holder m ≠ None →
  ∃ l m', own_label l ∧ internal l = true ∧ step pl wk tc oc m l m'.
Proof.
  clear Ht HL HL31 Hw Hop. intros Hw' Ht' HI Hnp Hne.
  destruct (mm_inflight m) as [|tk fl] eqn:Efl.
  2:{ destruct (pl (tk_in tk)) as [r|] eqn:Ep.
      2:{ eexists _, _. split; [|split; [|eapply (step_decrypt_bad _ _ _ _ m [] tk fl); done]]; done. }
      destruct (co_tasks _ _ _ _ _ (in_core _ _ _ _ HI) tk) as (st0 & k & E0 & _ & _).
      { unfold alltasks. rewrite Efl. set_solver. }
      destruct (mm_states m !! tk_mix tk) as [st|] eqn:E.
      2:{ apply (co_dom _ _ _ _ _ (in_core _ _ _ _ HI)) in E. congruence. }
      destruct (decide (0 ≤ tk_idx tk ∧ tk_idx tk < Z.of_nat (length (st_outs st)))%Z) as [[H1 H2]|Hn].
      - eexists _, _. split; [|split; [|eapply (step_decrypt _ _ _ _ m [] tk fl); done]]; done.
      - eexists _, _. split; [|split; [|eapply (step_decrypt_idx _ _ _ _ m [] tk fl); try done; lia]]; done. }
  destruct (mm_tasks m) as [|tk ts] eqn:Ets.
  2:{ eexists _, _. split; [|split; [|eapply step_take; try done]]; [done|done|]. rewrite Efl. simpl. lia. }
  destruct (mm_holder m) as [[[|mm ms]|mix [|tk ts] ms|mix ms]|] eqn:Eh; [..|done].
  - eexists _, _. split; [|split; [|eapply step_return; done]]; done.
  - destruct (mm_states m !! msg_recv mm) as [st|] eqn:E.
    + eexists _, _. split; [|split; [|eapply step_batch; done]]; done.
    + eexists _, _. split; [|split; [|eapply step_batch_nil; done]]; done.
  - eexists _, _. split; [|split; [|eapply step_pushed; done]]; done.
  - destruct (mm_closed m) eqn:Ec.
    + eexists _, _. split; [|split; [|eapply step_push_closed; done]]; done.
    + eexists _, _. split; [|split; [|eapply step_push; try done]]; [done|done|]. rewrite Ets. simpl. lia.
  - pose proof (in_holder _ _ _ _ HI) as Hh. rewrite Eh in Hh. destruct Hh as [st E].
    eexists _, _. split; [|split; [|eapply step_check; done]]; done.
Qed.

Lemma settled_facts tr s : yrun s0 tr s → honest_clients t peel tr → within_announced t w tr →
  (∀ h, YHost h LClose ∉ tr) → (∀ h, h ∈ servers → 0 < workers h ∧ 0 < taskCap h ∧ 0 < outCap h) →
  settled s →
  sy_queue s = [] ∧ (∀ c, c ∈ sy_net s → cl_to c ∉ servers) ∧
  ∀ h, h ∈ servers → ∃ m, sy_srv s !! h = Some m ∧ quiescent (peel h) (workers h) (taskCap h) (outCap h) m ∧
    idle m.
Proof.
  intros Hr Hh Hwi Hcl Hcap Hset. destruct (no_crash _ _ Hr Hh Hwi Hcl) as (Hd & Hp & _ & _).
  destruct (calls_inv _ _ Hr Hh) as [Hc1 Hc2].
  assert (Hup : ∀ h, h ∈ servers → ∃ m, sy_srv s !! h = Some m ∧ up s h m).
  { intros h Hs. destruct (host_well_behaved _ _ h Hr Hh Hwi (Hcl h) Hs) as (ms & m0 & m & _ & _ & Hm & _).
    exists m. split; [done|]. split; [done|]. split; [rewrite Hd; set_solver|]. by eapply Hp. }
  assert (Hhold : ∀ h m, h ∈ servers → sy_srv s !! h = Some m → mm_holder m = None).
  { intros h m Hs Hm. destruct (host_well_behaved _ _ h Hr Hh Hwi (Hcl h) Hs) as (ms & m0 & m' & _ & Hm0 & Hm' & Hrm & Hnd & Hwb).
    rewrite Hm in Hm'. injection Hm' as <-. destruct (Hcap h Hs) as (C1 & C2 & C3).
    destruct (Hup h Hs) as (m' & Hm' & Hu). rewrite Hm in Hm'. injection Hm' as <-.
    pose proof (NewMixers_init_ok _ _ _ _ Hm0) as Hi.
    destruct (decide (mm_holder m = None)) as [?|Hne]; [done|]. exfalso.
    destruct (holder_progress (peel h) (workers h) (taskCap h) (outCap h) _ _ _ C1 C2 (run_inv _ _ _ _ _ _ _ Hi Hrm) (Hp _ _ Hm) Hne) as (l & m' & Ho & Hint & Hst).
    assert (ystep s (YHost h l) (with_srv s h m')) as Hy by (by eapply y_host).
    specialize (Hset _ _ Hy). simpl in Hset. congruence. }
  assert (Hnet : ∀ c, c ∈ sy_net s → cl_to c ∉ servers).
  { intros c Hc Hs. apply elem_of_list_split in Hc as (n1 & n2 & Hn). destruct (Hup _ Hs) as (m & Hm & Hu).
    assert (ystep s (YDeliver c) (mkSystem (<[cl_to c := with_holder m (Some (HMsgs (rq_msgs (cl_rq c))))]> (sy_srv s)) (sy_queue s) (n1 ++ n2) (sy_down s))) as Hy.
    { eapply y_deliver; [done|done|]. apply step_add; [by eapply Hp|by eapply Hhold]. }
    by specialize (Hset _ _ Hy). }
  assert (Hfree : ∀ c h, c ∈ sy_net s → cl_from c ≠ Some h).
  { intros c h Hc Hf. apply (Hnet _ Hc). eapply Hc2; [|done]. apply elem_of_app. by right. }
  assert (Hq : sy_queue s = []).
  { destruct (sy_queue s) as [|c q] eqn:Eq; [done|]. exfalso.
    destruct (Hc1 c ltac:(left)) as (h & Hf & Hs). destruct (Hup _ Hs) as (m & Hm & Hu).
    assert (ystep s (YSend c) (mkSystem (sy_srv s) ([] ++ q) (sy_net s ++ [c]) (sy_down s))) as Hy.
    { eapply (y_send _ _ _ _ _ _ _ s []); [exact Eq|done|done|]. intros _ c' Hc'. by apply Hfree. }
    by specialize (Hset _ _ Hy). }
  split; [done|]. split; [done|]. intros h Hs.
  destruct (host_well_behaved _ _ h Hr Hh Hwi (Hcl h) Hs) as (ms & m0 & m & _ & Hm0 & Hm & Hrm & Hnd & Hwb).
  destruct (Hup h Hs) as (m' & Hm' & Hu). rewrite Hm in Hm'. injection Hm' as <-.
  destruct (Hcap h Hs) as (C1 & C2 & C3). pose proof (NewMixers_init_ok _ _ _ _ Hm0) as Hi.
  assert (Hqs : quiescent (peel h) (workers h) (taskCap h) (outCap h) m).
  { intros l m' Hst. destruct (internal l) eqn:Hint; [|done]. exfalso.
    assert ((∃ o, l = LRecv o) ∨ ¬ ∃ o, l = LRecv o) as [Ho|Hno].
    { destruct l; try (right; by intros [??]); left; eauto. }
    - destruct Ho as [o ->].
      assert (Hidle : sender_idle s h).
      { intros c. rewrite Hq. simpl. intros Hc. by apply Hfree. }
      destruct (sender_iteration_total round h (sender_input o) (mo_sender o)) as [[cs|] Hit].
      + assert (Hy := y_take waits t round peel workers taskCap outCap s h o m m' cs Hu (λ _, Hidle) Hst Hit).
        by specialize (Hset _ _ Hy).
      + assert (Hy := y_crash waits t round peel workers taskCap outCap s h o m m' Hu (λ _, Hidle) Hst Hit).
        by specialize (Hset _ _ Hy).
    - assert (own_label l) as Ho.
      { destruct l; try done. by destruct Hno; eauto. }
      assert (Hy := y_host waits t round peel workers taskCap outCap s h l m m' Hu Ho Hst).
      specialize (Hset _ _ Hy). simpl in Hset. congruence. }
  exists m. split; [done|]. split; [done|].
  eapply quiescent_idle; [exact C1|exact C2|exact C3|exact Hi|exact Hrm|exact Hqs|by eapply Hp].
Qed.

(** Everything sent into a chain comes out of it, if no call with a batch for one of its mixes was lost. *)
Lemma completes_chain i tr s : yrun s0 tr s → honest_clients t peel tr → within_announced t w tr →
  (∀ h, YHost h LClose ∉ tr) →
  (∀ c m l x, YLose c ∈ tr → m ∈ rq_msgs (cl_rq c) → deref t (l, i) = Some x → msg_recv m ≠ mx_name x) →
  (∀ h, h ∈ servers → 0 < workers h ∧ 0 < taskCap h ∧ 0 < outCap h) → settled s →
  sent_into t i tr ≠ [] → Z.of_nat (length (sent_into t i tr)) = announced t w i →
  ∀ l x, deref t (l, i) = Some x → ∃ m v, sy_srv s !! mx_host x = Some m ∧ can_return m (mx_name x) v.
Proof.
  intros Hr Hh Hwi Hcl Hlo Hcap Hset Hne Hlen.
  destruct (settled_facts _ _ Hr Hh Hwi Hcl Hcap Hset) as (Hq & Hnet & Hhost).
  assert (Hlost : ∀ l x h, deref t (l, i) = Some x → to_mix (mx_name x) (lost h tr) = []).
  { intros l x h Hx. clear -Hlo Hx. induction tr as [|lb tr IH]; [done|]. unfold lost. cbn [fmap list_fmap concat].
    assert (to_mix (mx_name x) (lost h tr) = []) as IH' by (apply IH; intros c m l' x' Hc; eapply Hlo; by right).
    unfold lost in IH'. rewrite to_mix_app, IH', app_nil_r. destruct lb; try done. case_decide; [|done].
    destruct (filter (λ m, msg_recv m = mx_name x) (rq_msgs (cl_rq c))) as [|m ms] eqn:E; [done|]. exfalso.
    assert (m ∈ filter (λ m, msg_recv m = mx_name x) (rq_msgs (cl_rq c))) as [H1 H2]%elem_of_list_filter by (rewrite E; left).
    eapply (Hlo c m); [left|done|exact Hx|done]. }
  assert (Hall : ∀ l x, deref t (l, i) = Some x →
    to_mix (mx_name x) (added (host_trace (mx_host x) tr)) ≡ₚ to_mix (mx_name x) (posted (mx_host x) tr)).
  { intros l x Hx. pose proof (deref_host _ _ _ Hx) as Hs. destruct Hop as (_ & _ & H1 & H2 & _).
    assert (msgs_to (mx_host x) (sy_net s) = []) as Hn0.
    { clear -Hnet Hs. unfold msgs_to. induction (sy_net s) as [|c cs IH]; [done|]. cbn [fmap list_fmap concat].
      rewrite decide_False; [apply IH; intros c' Hc'; apply Hnet; by right|].
      intros E. eapply Hnet; [left|rewrite E; exact Hs]. }
    pose proof (conservation _ _ _ (mx_host x) H1 H2 Hr) as Hc. rewrite Hq, Hn0 in Hc. simpl in Hc.
    unfold to_mix. rewrite <-Hc. fold (to_mix (mx_name x) (added (host_trace (mx_host x) tr))).
    rewrite filter_app. fold (to_mix (mx_name x) (lost (mx_host x) tr)). rewrite (Hlost _ _ _ Hx), app_nil_r. done. }
  assert (Hkey : ∀ l x, deref t (l, i) = Some x → length (stream x tr) = length (sent_into t i tr) →
    ∃ m v, sy_srv s !! mx_host x = Some m ∧ can_return m (mx_name x) v ∧
      (S l < L → length (takes (mx_name x) tr) = 1)).
  { intros l x Hx Hst. pose proof (deref_host _ _ _ Hx) as Hs.
    destruct (host_well_behaved _ _ _ Hr Hh Hwi (Hcl _) Hs) as (ms & m0 & m & Hho & Hm0 & Hm & Hrm & Hnd & Hwb).
    destruct (Hhost _ Hs) as (m' & Hm' & Hqs & Hid). rewrite Hm in Hm'. injection Hm' as <-.
    destruct (Hcap _ Hs) as (C1 & C2 & C3).
    assert (Hin : x ∈ ms) by (eapply hosted_all; eauto).
    destruct (pred_facts _ _ _ _ _ Hr Hh Hx) as (k & Hk & Hquo & Hfrom).
    set (fed := to_mix (mx_name x) (added (host_trace (mx_host x) tr))).
    assert (Hfed : fed ≡ₚ to_mix (mx_name x) (posted (mx_host x) tr)).
    { exact (Hall _ _ Hx). }
    assert (Htot : total fed = length (sent_into t i tr)).
    { unfold total. rewrite <-Hst. unfold stream. apply Permutation_length, concat_perm. by rewrite Hfed. }
    assert (Hfne : fed ≠ []).
    { intros E. rewrite E in Htot. unfold total in Htot. simpl in Htot. destruct (sent_into t i tr); done. }
    assert (Hsum : ∀ bs : list Messages, (∀ mm, mm ∈ bs → (msg_phys mm, msg_lsender mm) = sender_of t k) →
      sum_from (sender_of t k) bs = Z.of_nat (total bs)).
    { clear. induction bs as [|mm bs IH]; intros Hb; [done|]. unfold sum_from in *. cbn [fmap list_fmap foldr].
      rewrite IH by (intros m' Hm'; apply Hb; by right). rewrite decide_True by (apply Hb; left).
      rewrite total_cons. lia. }
    assert (Hdel : all_delivered t w x fed).
    { unfold all_delivered. rewrite Hk. rewrite Forall_singleton, Hquo, Hsum, Htot; [done|].
      intros mm Hmm. rewrite Hfed in Hmm. apply elem_of_list_filter in Hmm as [Hn Hmm]. by apply Hfrom. }
    destruct (C10_completes _ _ _ _ _ _ _ _ _ _ C1 C2 C3 Hnd Hm0 Hrm Hwb Hqs) as (Hhd & _ & _ & Hout & Hret).
    destruct (Hret x Hin Hfne Hdel) as (v & Hv).
    { fold fed. rewrite Htot, Hlen. symmetry. by eapply deref_workload. }
    exists m, v. split; [done|]. split; [done|]. intros HSl.
    destruct (C12_emissions _ _ _ _ _ _ _ _ _ _ x Hnd Hm0 Hrm Hin) as (_ & _ & Hex & _).
    pose proof (NewMixers_init_ok _ _ _ _ Hm0) as Hi.
    assert (Hb : batches (mx_name x) (host_trace (mx_host x) tr) = fed).
    { rewrite batches_all. unfold fed. rewrite (i3_added _ _ _ (run_inv3 _ _ _ _ _ _ _ Hi Hrm)), Hhd.
      simpl. by rewrite app_nil_r. }
    assert (Hec : cnt (is_emit (mx_name x)) (host_trace (mx_host x) tr) = completing t w x fed).
    { rewrite <-Hb. apply Hex; [|exact C1|exact C2|exact C3|exact Hqs| |].
      - rewrite (deref_layer _ _ _ Hx), tp_len. lia.
      - by apply (C10_no_crash _ _ _ _ _ _ _ _ _ _ Hm0 Hrm Hwb).
      - rewrite handed_total, Hb, Htot, (deref_workload _ _ _ Hx). lia. }
    assert (1 ≤ completing t w x fed) as Hone.
    { unfold completing.
      assert (length fed ∈ filter (λ k, all_delivered t w x (take k fed)) (seq 1 (length fed))) as Hf.
      { apply elem_of_list_filter. rewrite take_ge by lia. split; [done|]. apply elem_of_seq.
        destruct fed; [done|]. simpl. lia. }
      destruct (filter _ _); [by apply elem_of_nil in Hf|]. simpl. lia. }
    destruct (take_facts _ _ _ _ _ Hr Hh Hx) as [Htk _].
    assert (length (takes (mx_name x) tr) = cnt (is_emit (mx_name x)) (host_trace (mx_host x) tr)) as Hteq; [|lia].
    rewrite (takes_recvs _ _ _ _ _ Hr Hh Hx), <-emits_cnt.
    assert (mm_out m0 = []) as Ho0 by (by destruct Hi as (_ & _ & _ & _ & _ & ? & _)).
    rewrite (emits_recvs _ _ _ _ _ _ _ Ho0 Hrm), Hout, app_nil_r. done. }
  assert (Hstr : ∀ l x, deref t (l, i) = Some x → length (stream x tr) = length (sent_into t i tr)).
  { induction l as [|l IH]; intros x Hx.
    - by rewrite (flow_first _ _ _ _ Hr Hh Hx).
    - destruct (deref_bound _ _ _ Hx) as [Hl Hi]. destruct (deref_ex l i ltac:(lia) Hi) as [p Hp].
      destruct (Hkey l p Hp (IH _ Hp)) as (mp & vp & Hmp & Hvp & Htk). specialize (Htk Hl).
      rewrite (flow_next _ _ _ _ _ _ Hr Hh Hp Hx).
      destruct (take_facts _ _ _ _ _ Hr Hh Hp) as [_ Ht2].
      destruct (takes (mx_name p) tr) as [|o [|? ?]]; try done.
      destruct (Ht2 o ltac:(left)) as (m & Hm & Hret). cbn [fmap list_fmap concat]. rewrite app_nil_r.
      destruct (good_run _ _ Hr Hh) as (Hg & _ & _).
      destruct (outputs_good _ _ _ _ _ _ _ Hr Hg Hp Hm Hret) as [Hle _].
      assert (length (sender_input o) = length (mo_onions o)) as -> by (unfold sender_input; by rewrite fmap_length).
      lia. }
  intros l x Hx. destruct (Hkey l x Hx (Hstr _ _ Hx)) as (m & v & Hm & Hv & _). eauto.
Qed.
Lemma completes tr s : yrun s0 tr s → honest_clients t peel tr → within_announced t w tr →
  (∀ h, YHost h LClose ∉ tr) → (∀ c, YLose c ∉ tr) →
  (∀ h, h ∈ servers → 0 < workers h ∧ 0 < taskCap h ∧ 0 < outCap h) → settled s →
  ∀ i, sent_into t i tr ≠ [] → Z.of_nat (length (sent_into t i tr)) = announced t w i →
  ∀ l x, deref t (l, i) = Some x → ∃ m v, sy_srv s !! mx_host x = Some m ∧ can_return m (mx_name x) v.
Proof.
  intros Hr Hh Hwi Hcl Hlo Hcap Hset i. apply (completes_chain i tr s); try done. intros c m l x Hc. by destruct (Hlo c).
Qed.

(** ** A bound on the number of steps *)
Definition ccost (c : call) : nat := cost_msgs (rq_msgs (cl_rq c)).
Definition hmu (s : system) (h : string) : nat := from_option mu 0 (sy_srv s !! h).
Definition Phi (s : system) : nat :=
  sum_list_with (hmu s) (remove_dups servers) +
  sum_list_with (λ c, 2 + ccost c) (sy_queue s) + sum_list_with (λ c, 1 + ccost c) (sy_net s).
Definition budget1 (l : ylabel) : nat :=
  match l with
  | YClient _ rq => 1 + cost_msgs (rq_msgs rq)
  | YTake _ _ cs => sum_list_with (λ c, 2 + ccost c) cs
  | _ => 0 end.

Lemma sum_upd (f f' : string → nat) h hs : NoDup hs → h ∈ hs → (∀ h', h' ≠ h → f' h' = f h') →
  sum_list_with f' hs + f h = sum_list_with f hs + f' h.
Proof.
  intros Hnd Hin Hne.
  assert (∀ hs, h ∉ hs → sum_list_with f' hs = sum_list_with f hs) as Hsame.
  { clear -Hne. induction hs as [|h' hs IH]; intros Hn; [done|]. simpl.
    rewrite not_elem_of_cons in Hn. rewrite IH, Hne; [done|naive_solver|naive_solver]. }
  induction hs as [|h' hs IH]; [by apply elem_of_nil in Hin|]. apply NoDup_cons in Hnd as [Hh Hnd]. simpl.
  destruct (decide (h' = h)) as [->|Hd].
  - rewrite (Hsame hs Hh). lia.
  - rewrite (Hne h') by done. apply elem_of_cons in Hin as [?|Hin]; [done|]. specialize (IH Hnd Hin). lia.
Qed.
Lemma srv_upd s h m m' : sy_srv s !! h = Some m → h ∈ servers → ∀ srv', srv' = <[h := m']> (sy_srv s) →
  sum_list_with (λ h, from_option mu 0 (srv' !! h)) (remove_dups servers) + mu m =
  sum_list_with (hmu s) (remove_dups servers) + mu m'.
Proof.
  intros Hm Hs srv' ->.
  pose proof (sum_upd (hmu s) (λ h', from_option mu 0 (<[h := m']> (sy_srv s) !! h')) h (remove_dups servers)) as H.
  cbn beta in H. rewrite lookup_insert in H. assert (hmu s h = mu m) as E by (unfold hmu; by rewrite Hm).
  rewrite E in H. apply H.
  - apply NoDup_remove_dups.
  - by apply elem_of_remove_dups.
  - intros h' Hne. unfold hmu. by rewrite lookup_insert_ne.
Qed.

Lemma amortised tr s : yrun s0 tr s →
  length (filter (λ l, own_step l = true) tr) + Phi s ≤ Phi s0 + sum_list_with budget1 tr.
Proof.
  intros Hr. induction Hr as [|tr lb s s' Hr IH Hs]; [simpl; lia|].
  rewrite filter_app, app_length, sum_list_with_app.
  assert (Hin : ∀ h m, up s h m → h ∈ servers).
  { intros h m (Hm & _). pose proof (run_host _ _ _ Hr h) as Hrh. destruct Hop as (_ & H1' & _).
    destruct (decide (h ∈ servers)) as [|Hn]; [done|]. rewrite (H1' _ Hn) in Hrh. congruence. }
  assert (length (filter (λ l, own_step l = true) [lb]) + Phi s' ≤ Phi s + sum_list_with budget1 [lb]); [|lia].
  clear IH. rewrite filter_cons, filter_nil.
  inversion Hs; subst; cbn [own_step budget1 sum_list_with]; unfold Phi;
    cbn [sy_queue sy_net with_srv sy_srv]; unfold hmu at 1; cbn [sy_srv with_srv].
  - rewrite decide_False by done. rewrite sum_list_with_app. cbn [sum_list_with length]. unfold hmu.
    assert (ccost (mkCall None h rq) = cost_msgs (rq_msgs rq)) as -> by done. lia.
  - rewrite decide_True by done. pose proof (srv_upd _ _ _ m' (proj1 H0) (Hin _ _ H0) _ eq_refl) as E.
    rewrite H, !sum_list_with_app. simpl.
    assert (mu m' ≤ mu m + ccost c) as Hmu.
    { unfold hstep in H1. inversion H1; subst. unfold mu, ccost. simpl. match goal with Hh : mm_holder m = None |- _ => rewrite Hh end.
      simpl. lia. }
    lia.
  - rewrite decide_False by done. rewrite H, !sum_list_with_app. simpl. unfold hmu. lia.
  - pose proof (srv_upd _ _ _ m' (proj1 H) (Hin _ _ H) _ eq_refl) as E.
    destruct (internal l) eqn:Hint.
    + rewrite decide_True by done. pose proof (step_measure _ _ _ _ _ _ _ H1 Hint). simpl. lia.
    + rewrite decide_False by done. simpl.
      assert (mu m' ≤ mu m); [|lia].
      destruct l; try done; unfold hstep in H1; inversion H1; subst; unfold mu; simpl; lia.
  - rewrite decide_True by done. pose proof (srv_upd _ _ _ m' (proj1 H) (Hin _ _ H) _ eq_refl) as E.
    pose proof (step_measure _ _ _ _ _ _ _ H1 eq_refl). rewrite sum_list_with_app. simpl. lia.
  - rewrite decide_True by done. pose proof (srv_upd _ _ _ m' (proj1 H) (Hin _ _ H) _ eq_refl) as E.
    pose proof (step_measure _ _ _ _ _ _ _ H1 eq_refl). simpl. lia.
  - rewrite decide_True by done. rewrite H, !sum_list_with_app. simpl. unfold hmu. lia.
Qed.

Definition take_names (tr : list ylabel) : list string :=
  omap (λ l, match l with YTake _ o _ => Some (mo_sender o) | _ => None end) tr.
Definition all_announced : nat := sum_list_with (λ i, Z.to_nat (announced t w i)) (seq 0 (length servers)).

Lemma sum_elem {A} (f : A → nat) x xs : x ∈ xs → f x ≤ sum_list_with f xs.
Proof. induction 1 as [x xs|x y xs _ IH]; simpl; lia. Qed.

Lemma takes_in tr n : n ∈ take_names tr → takes n tr ≠ [].
Proof.
  intros Hn. apply elem_of_list_omap in Hn as (lb & Hin & Hlb). destruct lb; try done. injection Hlb as <-.
  intros E. assert (o ∈ takes (mo_sender o) tr) as Ho; [|rewrite E in Ho; by apply elem_of_nil in Ho].
  apply elem_of_list_omap. eexists. split; [exact Hin|]. simpl. by destruct (decide (mo_sender o = mo_sender o)).
Qed.

Lemma takes_once tr s : yrun s0 tr s → honest_clients t peel tr →
  NoDup (take_names tr) ∧ take_names tr ⊆ elements (dom (tp_mixes t)) ∧
  sum_list_with (λ l, match l with YTake _ _ cs => sum_list_with (λ c, 2 + ccost c) cs | _ => 0 end) tr
    ≤ length (take_names tr) * (13 * all_announced).
Proof.
  induction 1 as [|tr lb s s' Hr IH Hs]; intros Hh.
  { split; [constructor|]. split; [by intros ? ?%elem_of_nil|simpl; lia]. }
  destruct (IH (honest_prefix _ _ Hh)) as (IH1 & IH2 & IH3). clear IH.
  pose proof (yrun_snoc _ _ _ _ _ _ _ _ _ _ _ _ Hr Hs) as Hr'.
  unfold take_names in *. rewrite omap_app, sum_list_with_app, app_length. fold (take_names tr) in *.
  destruct lb as [| | | |h o cs| |]; try (cbn [omap list_omap sum_list_with length]; rewrite app_nil_r, !Nat.add_0_r; done).
  cbn [omap list_omap sum_list_with length].
  destruct (good_run _ _ Hr (honest_prefix _ _ Hh)) as (Hg & _ & _).
  inversion Hs as [| | | |s1 h1 o1 m m' cs' Hu Hid Hst Hit E1 E2 E3| |]; subst. destruct Hu as (Hm & _).
  destruct (calls_facts _ _ _ _ _ _ _ Hr Hg Hm Hst Hit) as (l & i & x & q & cs & Hx & Hxh & Hxn & Hq & _ & Ecs & Hlen & Hcs & Hperm).
  injection Ecs as <-. split; [|split].
  - apply NoDup_app. split; [done|]. split; [|by apply NoDup_singleton].
    intros n Hn Hn'. apply elem_of_list_singleton in Hn'. subst n. apply takes_in in Hn.
    destruct (take_facts _ _ _ _ _ Hr' Hh Hx) as [Hle _]. rewrite takes_app, app_length, Hxn in Hle.
    assert (takes (mo_sender o) [YTake h o (calls_of h cs')] = [o]) as E.
    { unfold takes. simpl. by rewrite decide_True. }
    rewrite E in Hle. simpl in Hle. destruct (takes (mo_sender o) tr); [done|]. simpl in Hle. lia.
  - intros n [Hn|Hn%elem_of_list_singleton]%elem_of_app; [by apply IH2|]. subst n. rewrite <-Hxn.
    pose proof (deref_get _ _ _ Hx) as Hget. unfold GetMix in Hget. apply elem_of_elements, elem_of_dom.
    destruct (tp_mixes t !! mx_name x); [eauto|done].
  - assert (sum_list_with (λ c, 2 + ccost c) (calls_of h cs') ≤ 13 * all_announced) as Hc; [|lia].
    assert (length (sender_input o) ≤ all_announced) as Ho.
    { rewrite Hlen. apply (sum_elem (λ i, Z.to_nat (announced t w i))). apply elem_of_seq.
      destruct (deref_bound _ _ _ Hx). lia. }
    rewrite <-Hperm in Ho.
    apply sender_iteration_spec in Hit as (_ & _ & Hne).
    assert (∀ c, c ∈ calls_of h cs' → rq_msgs (cl_rq c) ≠ [] ∧ ∀ mm, mm ∈ rq_msgs (cl_rq c) → msg_onions mm ≠ []) as Hn.
    { intros c Hc. pose proof Hc as Hc'. apply elem_of_list_fmap in Hc' as ([h' rq] & Ec & Hin).
      destruct (Hne _ _ Hin) as (_ & _ & _ & Hn1 & Hn2). subst c. cbn [cl_rq snd]. split; [done|].
      intros mm Hmm. by destruct (Hn2 _ Hmm) as (_ & _ & ? & _). }
    clear -Hn Ho. revert Ho. generalize all_announced. intros A Ho.
    enough (sum_list_with (λ c, 2 + ccost c) (calls_of h cs') ≤
      13 * length (concat (msg_onions <$> concat ((λ c, rq_msgs (cl_rq c)) <$> calls_of h cs')))) as Hen.
    { etrans; [exact Hen|]. apply Nat.mul_le_mono_l. exact Ho. }
    clear Ho. induction (calls_of h cs') as [|c cl IH]; [simpl; lia|].
    cbn [fmap list_fmap concat sum_list_with]. rewrite fmap_app, concat_app, app_length.
    assert (IH' := IH (λ c Hc, Hn c (elem_of_list_further _ _ _ Hc))). clear IH.
    destruct (Hn c (elem_of_list_here _ _)) as [Hn1 Hn2]. clear Hn.
    assert (2 + ccost c ≤ 13 * length (concat (msg_onions <$> rq_msgs (cl_rq c)))); [|lia].
    unfold ccost. clear IH'. destruct (rq_msgs (cl_rq c)) as [|m0 ms]; [done|]. clear Hn1.
    assert (cost_msgs (m0 :: ms) + 2 ≤ 3 + 10 * length (concat (msg_onions <$> m0 :: ms))) as Hb.
    { revert Hn2. generalize (m0 :: ms). clear. intros ms Hn2. unfold cost_msgs.
      induction ms as [|mm ms IH]; [simpl; lia|]. cbn [fmap list_fmap concat foldr]. rewrite app_length.
      specialize (IH (λ z Hz, Hn2 z (elem_of_list_further _ _ _ Hz))).
      pose proof (Hn2 mm (elem_of_list_here _ _)). destruct (msg_onions mm); [done|]. cbn [length]. cbn [length] in *. lia. }
    pose proof (Hn2 m0 (elem_of_list_here _ _)) as Hm0.
    assert (1 ≤ length (concat (msg_onions <$> m0 :: ms))) as H1.
    { cbn [fmap list_fmap concat]. rewrite app_length. destruct (msg_onions m0); [done|]. simpl. lia. }
    lia.
Qed.

Lemma bounded : ∀ cs, ∃ N, ∀ tr s, yrun s0 tr s → honest_clients t peel tr → client_calls tr = cs →
  length (filter (λ l, own_step l = true) tr) ≤ N.
Proof.
  intros cs.
  exists (Phi s0 + sum_list_with (λ e, 1 + cost_msgs (rq_msgs e.2)) cs + size (dom (tp_mixes t)) * (13 * all_announced)).
  intros tr s Hr Hh Hcs. pose proof (amortised _ _ Hr) as Ha. destruct (takes_once _ _ Hr Hh) as (H1 & H2 & H3).
  assert (length (take_names tr) ≤ size (dom (tp_mixes t))) as Hl.
  { unfold size, set_size. simpl. apply submseteq_length, NoDup_submseteq; done. }
  assert (sum_list_with budget1 tr = sum_list_with (λ e, 1 + cost_msgs (rq_msgs e.2)) cs +
    sum_list_with (λ l, match l with YTake _ _ cs => sum_list_with (λ c, 2 + ccost c) cs | _ => 0 end) tr) as Hb.
  { rewrite <-Hcs. clear. induction tr as [|lb tr IH]; [done|]. unfold client_calls in *. cbn [sum_list_with omap list_omap].
    rewrite IH. destruct lb; cbn [budget1 sum_list_with]; try lia. fold (client_calls tr). simpl. lia. }
  assert (length (take_names tr) * (13 * all_announced) ≤ size (dom (tp_mixes t)) * (13 * all_announced)) by (apply Nat.mul_le_mono_r; done).
  lia.
Qed.

(** ** Every reachable state can settle *)
Lemma idle_quiescent pl wk tc oc m : idle m → quiescent pl wk tc oc m.
Proof.
  intros (H1 & H2 & H3 & H4 & H5) l m' Hst.
  destruct (internal l) eqn:Hint; [|done]. exfalso.
  inversion Hst; subst; try done; try congruence;
    try (match goal with E : mm_inflight m = ?a ++ _ :: _ |- _ => rewrite E in H3; by destruct a end);
    match goal with E : mm_pend m = ?a ++ (?n, ?p) :: ?b |- _ =>
      destruct (H5 n p) as (Ep & st' & E1 & E2); [rewrite E; apply elem_of_app; right; left|]; try done; congruence end.
Qed.

Definition quiet (s : system) : Prop :=
  sy_queue s = [] ∧ (∀ c, c ∈ sy_net s → cl_to c ∉ servers) ∧
  ∀ h, h ∈ servers → ∃ m, sy_srv s !! h = Some m ∧ idle m.

Lemma quiet_settled tr s : yrun s0 tr s → quiet s → settled s.
Proof.
  intros Hr (Hq & Hn & Hi) lb s' Hst.
  assert (Hin : ∀ h m, up s h m → idle m ∧ h ∈ servers).
  { intros h m (Hm & _). pose proof (run_host _ _ _ Hr h) as Hrh. destruct Hop as (_ & H1' & _).
    destruct (decide (h ∈ servers)) as [Hs|Hs]; [|rewrite (H1' _ Hs) in Hrh; congruence].
    destruct (Hi _ Hs) as (m' & Hm' & Hid). rewrite Hm in Hm'. by injection Hm' as <-. }
  inversion Hst; subst; simpl; try done.
  - exfalso. destruct (Hin _ _ H0) as [_ Hs]. apply (Hn c); [|done]. rewrite H. apply elem_of_app. right. left.
  - destruct (Hin _ _ H) as [Hid _]. eapply idle_quiescent; [exact Hid|exact H1].
  - exfalso. destruct (Hin _ _ H) as [Hid _]. by pose proof (idle_quiescent _ _ _ _ _ Hid _ _ H1).
  - exfalso. destruct (Hin _ _ H) as [Hid _]. by pose proof (idle_quiescent _ _ _ _ _ Hid _ _ H1).
  - exfalso. rewrite Hq in H. by destruct q1.
Qed.

Lemma list_search {A} (P Q : A → Prop) (xs : list A) : (∀ x, x ∈ xs → P x ∨ Q x) → (∀ x, x ∈ xs → P x) ∨ ∃ x, x ∈ xs ∧ Q x.
Proof.
  induction xs as [|x xs IH]; intros H; [left; by intros ? ?%elem_of_nil|].
  destruct (H x ltac:(left)) as [Hp|Hq]; [|right; exists x; split; [left|done]].
  destruct IH as [IH|(y & Hy & IH)].
  - intros y Hy. apply H. by right.
  - left. intros y [->|Hy]%elem_of_cons; [done|by apply IH].
  - right. exists y. split; [by right|done].
Qed.

Lemma sys_progress tr s : yrun s0 tr s → honest_clients t peel tr → within_announced t w tr →
  (∀ h, YHost h LClose ∉ tr) → (∀ h, h ∈ servers → 0 < workers h ∧ 0 < taskCap h ∧ 0 < outCap h) →
  quiet s ∨ ∃ l s', own_step l = true ∧ ystep s l s'.
Proof.
  intros Hr Hh Hwi Hcl Hcap. destruct (no_crash _ _ Hr Hh Hwi Hcl) as (Hd & Hp & _ & _).
  destruct (calls_inv _ _ Hr Hh) as [Hc1 Hc2].
  assert (Hup : ∀ h, h ∈ servers → ∃ m m0 tr, sy_srv s !! h = Some m ∧ up s h m ∧ init_ok m0 ∧ Inv (peel h) m0 tr m ∧
      mm_panic m = false).
  { intros h Hs. destruct (host_well_behaved _ _ h Hr Hh Hwi (Hcl h) Hs) as (ms & m0 & m & _ & Hm0 & Hm & Hrm & _).
    pose proof (NewMixers_init_ok _ _ _ _ Hm0) as Hi.
    exists m, m0, (host_trace h tr). split; [done|]. split; [split; [done|]; split; [rewrite Hd; set_solver|]; by eapply Hp|].
    split; [done|]. split; [by eapply run_inv|by eapply Hp]. }
  (* calls to servers *)
  assert ((∀ c, c ∈ sy_net s → cl_to c ∉ servers) ∨ ∃ c, c ∈ sy_net s ∧ cl_to c ∈ servers) as [Hnet|(c & Hc & Hs)].
  { apply list_search. intros c _. destruct (decide (cl_to c ∈ servers)); [by right|by left]. }
  2:{ right. destruct (Hup _ Hs) as (m & m0 & htr & Hm & Hu & Hi & HI & Hnp). destruct (Hcap _ Hs) as (C1 & C2 & C3).
      destruct (decide (mm_holder m = None)) as [Hno|Hne].
      - apply elem_of_list_split in Hc as (n1 & n2 & Hn). eexists (YDeliver c), _. split; [done|].
        eapply y_deliver; [done|done|]. by apply step_add.
      - destruct (holder_progress (peel (cl_to c)) (workers (cl_to c)) (taskCap (cl_to c)) (outCap (cl_to c)) _ _ _ C1 C2 HI Hnp Hne)
          as (l & m' & Ho & Hint & Hst).
        exists (YHost (cl_to c) l), (with_srv s (cl_to c) m'). split; [done|]. by eapply y_host. }
  assert (Hfree : ∀ c h, c ∈ sy_net s → cl_from c ≠ Some h).
  { intros c h Hc Hf. apply (Hnet _ Hc). eapply Hc2; [|done]. apply elem_of_app. by right. }
  destruct (sy_queue s) as [|c q] eqn:Eq.
  2:{ right. destruct (Hc1 c ltac:(left)) as (h & Hf & Hs). destruct (Hup _ Hs) as (m & m0 & htr & Hm & Hu & _).
      eexists (YSend c), _. split; [done|]. eapply (y_send _ _ _ _ _ _ _ s []); [exact Eq|done|done|]. intros _ c' Hc'. by apply Hfree. }
  destruct (list_search (λ h, ∃ m, sy_srv s !! h = Some m ∧ idle m) (λ h, ∃ l s', own_step l = true ∧ ystep s l s') servers)
    as [Hall|(h & _ & Hex)]; [|left; done|by right].
  intros h Hs. destruct (Hup _ Hs) as (m & m0 & htr & Hm & Hu & Hi & HI & Hnp). destruct (Hcap _ Hs) as (C1 & C2 & C3).
  destruct (progress (peel h) (workers h) (taskCap h) (outCap h) _ _ _ C1 C2 C3 Hi HI Hnp) as [Hid|(l & m' & Hint & Hst)];
    [left; eauto|right].
  assert ((∃ o, l = LRecv o) ∨ ¬ ∃ o, l = LRecv o) as [[o ->]|Hno].
  { destruct l; try (right; by intros [??]); left; eauto. }
  - assert (Hidle : sender_idle s h).
    { intros c. rewrite Eq. simpl. intros Hc. by apply Hfree. }
    destruct (sender_iteration_total round h (sender_input o) (mo_sender o)) as [[cs|] Hit].
    + assert (Hy := y_take waits t round peel workers taskCap outCap s h o m m' cs Hu (λ _, Hidle) Hst Hit). eexists _, _. split; [|exact Hy]. done.
    + assert (Hy := y_crash waits t round peel workers taskCap outCap s h o m m' Hu (λ _, Hidle) Hst Hit). eexists _, _. split; [|exact Hy]. done.
  - assert (own_label l) as Ho.
    { destruct l; try done. by destruct Hno; eauto. }
    assert (Hy := y_host waits t round peel workers taskCap outCap s h l m m' Hu Ho Hst). eexists _, _. split; [|exact Hy]. done.
Qed.

Lemma own_extends tr l : own_step l = true → client_calls (tr ++ [l]) = client_calls tr.
Proof. intros Ho. rewrite client_calls_app. destruct l; try done; unfold client_calls at 2; simpl; by rewrite app_nil_r. Qed.
Lemma honest_calls tr tr' : client_calls tr' = client_calls tr → honest_clients t peel tr → honest_clients t peel tr'.
Proof. unfold honest_clients. by intros ->. Qed.
Lemma within_calls tr tr' : client_calls tr' = client_calls tr → within_announced t w tr → within_announced t w tr'.
Proof. unfold within_announced, sent_into. by intros ->. Qed.

Lemma settles tr s : yrun s0 tr s → honest_clients t peel tr → within_announced t w tr →
  (∀ h, YHost h LClose ∉ tr) → (∀ h, h ∈ servers → 0 < workers h ∧ 0 < taskCap h ∧ 0 < outCap h) →
  ∃ tr' s', yrun s0 (tr ++ tr') s' ∧ Forall (λ l, own_step l = true) tr' ∧ settled s'.
Proof.
  intros Hr Hh Hwi Hcl Hcap. destruct (bounded (client_calls tr)) as [N HN].
  remember (N - length (filter (λ l, own_step l = true) tr)) as k eqn:Ek.
  revert tr s Ek Hr Hh Hwi Hcl HN. induction k as [k IH] using lt_wf_ind. intros tr s Ek Hr Hh Hwi Hcl HN.
  destruct (sys_progress _ _ Hr Hh Hwi Hcl Hcap) as [Hq|(l & s' & Ho & Hst)].
  - exists [], s. rewrite app_nil_r. split; [done|]. split; [constructor|]. by eapply quiet_settled.
  - pose proof (yrun_snoc _ _ _ _ _ _ _ _ _ _ _ _ Hr Hst) as Hr'. pose proof (own_extends tr l Ho) as Ec.
    pose proof (honest_calls _ _ Ec Hh) as Hh'. pose proof (HN _ _ Hr' Hh' Ec) as Hb.
    rewrite filter_app, app_length, filter_cons, filter_nil, decide_True in Hb by done. simpl in Hb.
    assert (N - length (filter (λ l, own_step l = true) (tr ++ [l])) < k) as Hlt.
    { subst k. rewrite filter_app, app_length, filter_cons, filter_nil, decide_True by done. simpl. lia. }
    destruct (IH _ Hlt (tr ++ [l]) s' eq_refl Hr' Hh') as (tr' & s2 & H1 & H2 & H3).
    + by eapply within_calls.
    + intros h [Hin|Hin%elem_of_list_singleton]%elem_of_app; [by eapply Hcl|]. by subst l.
    + intros tr1 s1. rewrite Ec. apply HN.
    + exists (l :: tr'), s2. rewrite cons_middle, app_assoc. split; [done|]. split; [by constructor|done].
Qed.

End sys.
