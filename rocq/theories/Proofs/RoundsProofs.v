(** Proofs about the round table. *)
From stdpp Require Import gmap.
From Verif.Base Require Import Base.
From Verif.Model Require Import Topology Shuffle Onion Mixer Rounds.
From Verif.Spec Require Import MixerSpec RoundsSpec.
From Verif.Proofs Require Import TopologyProofs MixerInv MixerProps MixerLive MixerExec.

(** ** Workload propagation *)
Lemma propagate_mono fuel fuel' t load curr w r :
  propagate fuel t load curr w = Some r → fuel ≤ fuel' → propagate fuel' t load curr w = Some r.
Proof.
  revert fuel' curr w. induction fuel as [|fuel IH]; intros fuel' curr w H Hle; destruct curr as [m|]; simpl in *.
  - done.
  - destruct fuel'; done.
  - destruct fuel' as [|fuel']; [lia|]. simpl. destruct (mx_succs m); [done|]. apply IH; [done|lia].
  - destruct fuel'; done.
Qed.
Lemma propagate_all_mono fuel fuel' t ms w r :
  propagate_all fuel t ms w = Some r → fuel ≤ fuel' → propagate_all fuel' t ms w = Some r.
Proof.
  revert w. induction ms as [|m ms IH]; intros w H Hle; cbn [propagate_all] in *; [done|].
  destruct (w !! mx_name m); [|done].
  destruct (propagate fuel t z (Some m) w) as [x|] eqn:E; [|done].
  rewrite (propagate_mono _ _ _ _ _ _ _ E Hle). destruct x; [by apply IH|done..].
Qed.
Lemma round_workload_mono fuel fuel' t req r :
  round_workload fuel t req = Some r → fuel ≤ fuel' → round_workload fuel' t req = Some r.
Proof. unfold round_workload. destruct (tp_layers t !! 0); [apply propagate_all_mono|done]. Qed.
Lemma round_workload_det fuel fuel' t req r r' :
  round_workload fuel t req = Some r → round_workload fuel' t req = Some r' → r = r'.
Proof.
  intros H H'. apply (round_workload_mono _ (fuel `max` fuel')) in H; [|lia].
  apply (round_workload_mono _ (fuel `max` fuel')) in H'; [|lia]. congruence.
Qed.

Definition set_all (load : Z) (ms : list LogicalMix) (w : gmap string Z) : gmap string Z :=
  foldl (λ w m, <[mx_name m := load]> w) w ms.
Lemma set_all_lookup load ms w nm :
  set_all load ms w !! nm = if decide (nm ∈ mx_name <$> ms) then Some load else w !! nm.
Proof.
  revert w. induction ms as [|m ms IH]; intros w; simpl; [done|].
  rewrite IH. destruct (decide (nm ∈ mx_name <$> ms)) as [Hin|Hni].
  - rewrite decide_True by (by right). done.
  - destruct (decide (nm = mx_name m)) as [->|Hne].
    + rewrite decide_True by left. by rewrite lookup_insert.
    + rewrite decide_False by (intros [?|?]%elem_of_cons; done). by rewrite lookup_insert_ne.
Qed.
Lemma propagate_walk t load curr ms : walk t curr ms →
  ∀ fuel w, length ms ≤ fuel → propagate fuel t load curr w = Some (Ok (set_all load ms w)).
Proof.
  induction 1 as [|m s ss ms Hs Hw IH]; intros fuel w Hle.
  - by destruct fuel.
  - simpl in Hle. destruct fuel as [|fuel]; [lia|]. simpl. rewrite Hs. apply IH. lia.
Qed.

Section cascade.
Context (servers : list string) (L : nat) (mixes : gmap string (nat * nat)).
Hypothesis Hinv : mixes_inv servers L 0 mixes.
Hypothesis HL : 0 < L.
Notation n := (length servers).
Notation t := (mkTopo (grid servers L (final_mix servers L)) mixes).

Definition chain (i : nat) : list LogicalMix := (λ l, final_mix servers L l i) <$> seq 0 L.

Lemma chain_names i nm : nm ∈ mx_name <$> chain i ↔ ∃ l, l < L ∧ nm = mix_name l (pos servers l i).
Proof.
  unfold chain. rewrite <-list_fmap_compose, elem_of_list_fmap. simpl. split.
  - intros (l & -> & Hl%elem_of_seq). exists l. split; [lia|done].
  - intros (l & Hl & ->). exists l. split; [done|]. apply elem_of_seq. lia.
Qed.
Lemma chain_names_inj l l' i i' :
  i < n → i' < n → mix_name l (pos servers l i) = mix_name l' (pos servers l' i') → l = l' ∧ i = i'.
Proof.
  intros Hi Hi' H. apply mix_name_inj in H as [-> H]. split; [done|]. unfold pos in H. by eapply rot_inj.
Qed.

Lemma propagate_chain fuel load i w :
  L ≤ fuel → i < n →
  propagate fuel t load (Some (final_mix servers L 0 i)) w = Some (Ok (set_all load (chain i) w)).
Proof.
  intros Hf Hi. apply propagate_walk.
  - pose proof (walk_cascade servers L mixes i L Hinv Hi (le_n _) HL) as Hw. simpl in Hw.
    rewrite Nat.sub_diag in Hw. done.
  - unfold chain. rewrite fmap_length, seq_length. done.
Qed.

Definition first_name (i : nat) : string := mix_name 0 (pos servers 0 i).

(** The loop from chain k on. *)
Lemma propagate_all_cascade fuel j : ∀ k w, L ≤ fuel → k + j = n →
  match propagate_all fuel t (final_mix servers L 0 <$> seq k j) w with
  | Some (Err c) => c = FailedPrecondition ∧ ∃ i, k ≤ i < n ∧ w !! first_name i = None
  | Some (Ok w') =>
      (∀ i, k ≤ i < n → is_Some (w !! first_name i)) ∧
      (∀ l i, l < L → k ≤ i < n → w' !! mix_name l (pos servers l i) = w !! first_name i) ∧
      (∀ nm, (∀ l i, l < L → k ≤ i < n → nm ≠ mix_name l (pos servers l i)) → w' !! nm = w !! nm)
  | _ => False
  end.
Proof.
  induction j as [|j IH]; intros k w Hf Hk; cbn [seq fmap list_fmap propagate_all].
  - split; [intros i ?; lia|]. split; [intros l i ? ?; lia|]. done.
  - change (mx_name (final_mix servers L 0 k)) with (first_name k).
    destruct (w !! first_name k) as [load|] eqn:E.
    2:{ split; [done|]. exists k. split; [lia|done]. }
    rewrite propagate_chain by lia. set (w1 := set_all load (chain k) w).
    assert (Hw1 : ∀ nm, w1 !! nm = if decide (nm ∈ mx_name <$> chain k) then Some load else w !! nm)
      by (intros nm; apply set_all_lookup).
    assert (Hfirst : ∀ i, k < i < n → w1 !! first_name i = w !! first_name i).
    { intros i Hi. rewrite Hw1, decide_False; [done|]. rewrite chain_names. intros (l & Hl & Heq).
      unfold first_name in Heq. apply chain_names_inj in Heq as [_ ?]; lia. }
    specialize (IH (S k) w1 Hf ltac:(lia)).
    destruct (propagate_all fuel t (final_mix servers L 0 <$> seq (S k) j) w1) as [[w'|c|]|]; try done.
    + destruct IH as (I1 & I2 & I3). split; [|split].
      * intros i Hi. destruct (decide (i = k)) as [->|Hne]; [by rewrite E|].
        rewrite <-Hfirst by lia. apply I1. lia.
      * intros l i Hl Hi. destruct (decide (i = k)) as [->|Hne].
        -- rewrite E, I3.
           ++ rewrite Hw1, decide_True; [done|]. apply chain_names. eauto.
           ++ intros l' i' Hl' Hi' Heq. apply chain_names_inj in Heq as [_ ?]; lia.
        -- rewrite I2 by lia. apply Hfirst. lia.
      * intros nm Hnm. rewrite I3.
        -- rewrite Hw1, decide_False; [done|]. rewrite chain_names. intros (l & Hl & ->).
           apply (Hnm l k); [done|lia|done].
        -- intros l i Hl Hi. apply Hnm; [done|lia].
    + destruct IH as (-> & i & Hi & Hn). split; [done|]. exists i. split; [lia|].
      rewrite <-Hfirst by lia. done.
Qed.

Lemma round_workload_cascade fuel req :
  L ≤ fuel →
  match round_workload fuel t req with
  | Some (Err c) => c = FailedPrecondition ∧ ∃ i, i < n ∧ req !! first_name i = None
  | Some (Ok w') =>
      (∀ i, i < n → is_Some (req !! first_name i)) ∧
      (∀ l i, l < L → i < n → w' !! mix_name l (pos servers l i) = to_int64 <$> req !! first_name i) ∧
      (∀ nm, (∀ l i, l < L → i < n → nm ≠ mix_name l (pos servers l i)) → w' !! nm = to_int64 <$> req !! nm)
  | _ => False
  end.
Proof.
  intros Hf. unfold round_workload. simpl. rewrite grid_lookup, decide_True by lia.
  pose proof (propagate_all_cascade fuel n 0 (request_workload req) Hf eq_refl) as H.
  unfold request_workload in *.
  destruct (propagate_all fuel t (final_mix servers L 0 <$> seq 0 n) (to_int64 <$> req)) as [[w'|c|]|]; try done.
  - destruct H as (H1 & H2 & H3). split; [|split].
    + intros i Hi. specialize (H1 i ltac:(lia)). rewrite lookup_fmap in H1.
      destruct (req !! first_name i); [by eexists|by destruct H1].
    + intros l i Hl Hi. rewrite H2 by lia. by rewrite lookup_fmap.
    + intros nm Hnm. rewrite H3; [by rewrite lookup_fmap|]. intros l i Hl Hi. apply Hnm; [done|lia].
  - destruct H as (-> & i & Hi & Hn). split; [done|]. exists i. split; [lia|].
    rewrite lookup_fmap in Hn. by destruct (req !! first_name i).
Qed.

(** newMixState fails (panics) for a mix of the cascade only because of a negative workload. *)
Lemma newMixState_cascade w l i :
  l < L → i < n →
  (newMixState t w (final_mix servers L l i) = None ↔
   (workload_of w (mix_name l (pos servers l i)) < 0)%Z).
Proof.
  intros Hl Hi. unfold newMixState, workload_of. cbn [mx_name mx_preds final_mix].
  case_decide; [done|]. split; [|lia].
  destruct l as [|l]; cbn [preds_of pred_map].
  - unfold pred_entry. by rewrite decide_True.
  - unfold pred_entry. rewrite decide_False by apply mix_name_not_genesis.
    rewrite (GetMix_cascade servers L mixes l i) by (done || lia). done.
Qed.
End cascade.

(** ** The round table *)
Lemma round_open_snoc tr l r : round_open (tr ++ [l]) r = open_step r (round_open tr r) l.
Proof. unfold round_open. by rewrite foldl_app. Qed.

(** Object the table holds for round r, as a function of the history. *)
Definition cur_step (r : N) (b : option nat) (l : slabel) : option nat :=
  match l with
  | SNew r' _ (Ok id) => if decide (r' = r) then Some id else b
  | SEnd r' (Ok _) => if decide (r' = r) then None else b
  | _ => b
  end.
Definition current (tr : list slabel) (r : N) : option nat := foldl (cur_step r) None tr.
Lemma current_snoc tr l r : current (tr ++ [l]) r = cur_step r (current tr r) l.
Proof. unfold current. by rewrite foldl_app. Qed.
Lemma round_open_current tr r : round_open tr r = true ↔ is_Some (current tr r).
Proof.
  induction tr as [|l tr IH] using rev_ind.
  - split; [done|]. intros [? ?]. done.
  - rewrite round_open_snoc, current_snoc.
    destruct l as [r' ? [?|?|]|r' [?|?|]|? ? [?|?|]|? ? [?|?|]|? ? ?|? ?|? ?]; simpl; try done.
    + case_decide; [|done]. split; [by eexists|done].
    + case_decide; [|done]. split; [done|]. by intros [? ?].
Qed.

(** AddMessages calls accepted for object id, and the calls its mutex has admitted. *)
Definition sent_to (id : nat) (tr : list slabel) : list (list Messages) :=
  omap (λ l, match l with SAdd _ ms (Ok id') => if decide (id' = id) then Some ms else None | _ => None end) tr.
Definition entered (tr : list label) : list (list Messages) :=
  omap (λ l, match l with LAdd ms => Some ms | _ => None end) tr.
Definition calls_to (id : nat) (cs : list (nat * list Messages)) : list (list Messages) :=
  omap (λ c, if decide (c.1 = id) then Some c.2 else None) cs.
Lemma sent_to_app id tr tr' : sent_to id (tr ++ tr') = sent_to id tr ++ sent_to id tr'.
Proof. apply omap_app. Qed.
Lemma entered_app tr tr' : entered (tr ++ tr') = entered tr ++ entered tr'.
Proof. apply omap_app. Qed.
Lemma calls_to_app id cs cs' : calls_to id (cs ++ cs') = calls_to id cs ++ calls_to id cs'.
Proof. apply omap_app. Qed.
Lemma added_entered tr : added tr = concat (entered tr).
Proof. done. Qed.

Section server.
Context (connected : bool) (t : topology) (host : string)
        (peel : N → onion → option (option onion)) (workers taskCap : nat).
Notation sstep := (sstep connected t host peel workers taskCap).
Notation srun := (srun connected t host peel workers taskCap).

Record obj_ok (tr : list slabel) (s : server) (id : nat) (o : robject) : Prop := {
  oo_run : run (peel (ro_round o)) workers taskCap (ro_cap o) (ro_init o) (ro_trace o) (ro_state o);
  oo_panic : sv_panic s = false → mm_panic (ro_state o) = false;
  oo_made : ∃ fuel req w ms, round_workload fuel t req = Some (Ok w) ∧ hosted t host ms ∧
     NewMixers t ms w = Some (ro_init o) ∧ ro_cap o = 2 * length ms ∧
     SNew (ro_round o) req (Ok id) ∈ tr;
  oo_adds : sent_to id tr ≡ₚ entered (ro_trace o) ++ calls_to id (sv_calls s);
  oo_closed : mm_closed (ro_state o) = true ↔ LClose ∈ ro_trace o
}.

Record SInv (tr : list slabel) (s : server) : Prop := {
  si_cur : ∀ r, sv_states s !! r = current tr r;
  si_obj : ∀ id o, sv_objs s !! id = Some o → obj_ok tr s id o;
  si_tab : ∀ r id, sv_states s !! r = Some id → ∃ o, sv_objs s !! id = Some o ∧ ro_round o = r ∧
     LClose ∉ ro_trace o ∧ id ∉ sv_closing s;
  si_clo : NoDup (sv_closing s) ∧ ∀ id, id ∈ sv_closing s → ∃ o, sv_objs s !! id = Some o ∧ LClose ∉ ro_trace o;
  si_calls : ∀ id ms, (id, ms) ∈ sv_calls s → is_Some (sv_objs s !! id);
  si_reads : ∀ id n, (id, n) ∈ sv_reads s → is_Some (sv_objs s !! id);
  si_sent : ∀ id, sent_to id tr ≠ [] → is_Some (sv_objs s !! id)
}.

Lemma obj_ok_mono tr l s s' id o :
  obj_ok tr s id o →
  (sv_panic s' = false → sv_panic s = false) → sv_calls s' = sv_calls s →
  sent_to id [l] = [] → obj_ok (tr ++ [l]) s' id o.
Proof.
  intros [A1 A2 A3 A4 A5] Hp Hc Hs. split; try done.
  - auto.
  - destruct A3 as (fuel & req & w & ms & H1 & H2 & H3 & H4 & H5). exists fuel, req, w, ms.
    do 4 (split; [done|]). set_solver.
  - rewrite sent_to_app, Hs, app_nil_r, Hc. done.
Qed.

(** A step that leaves everything but the readers unchanged. *)
Lemma SInv_same tr l s s' :
  SInv tr s → (∀ r b, cur_step r b l = b) → (∀ id, sent_to id [l] = []) →
  sv_states s' = sv_states s → sv_objs s' = sv_objs s → sv_calls s' = sv_calls s →
  sv_closing s' = sv_closing s → (sv_panic s' = false → sv_panic s = false) →
  (∀ id n, (id, n) ∈ sv_reads s' → is_Some (sv_objs s !! id)) →
  SInv (tr ++ [l]) s'.
Proof.
  intros [I1 I2 I3 I4 I5 I6 I7] Hc Hse E1 E2 E3 E4 E5 E6.
  split; rewrite ?E1, ?E2, ?E3, ?E4; try done.
  - intros r. rewrite current_snoc, Hc. apply I1.
  - intros id o Ho. eapply obj_ok_mono; eauto.
  - intros id. rewrite sent_to_app, Hse, app_nil_r. apply I7.
Qed.

Lemma obj_no_close_step (o : robject) l s' tr s id :
  obj_ok tr s id o → ostep peel workers taskCap o (ro_state o) l s' →
  mm_closed s' = true ↔ LClose ∈ ro_trace o ++ [l].
Proof.
  intros Ho Hs. pose proof (oo_closed _ _ _ _ Ho) as Hc.
  assert (Hne : l ≠ LClose → mm_closed s' = mm_closed (ro_state o) → mm_closed s' = true ↔ LClose ∈ ro_trace o ++ [l]).
  { intros Hl ->. rewrite Hc. rewrite elem_of_app, elem_of_list_singleton.
    split; [by left|]. intros [?|?]; done. }
  unfold ostep in Hs. inversion Hs; subst; try (apply Hne; done).
  simpl. split; [set_solver|done].
Qed.

Lemma SInv_obj tr s id o l s' calls' closing' :
  SInv tr s → sv_panic s = false → sv_objs s !! id = Some o →
  ostep peel workers taskCap o (ro_state o) l s' →
  (∀ id', calls_to id' (sv_calls s) ≡ₚ (if decide (id' = id) then entered [l] else []) ++ calls_to id' calls') →
  (∀ c, c ∈ calls' → c ∈ sv_calls s) →
  (l = LClose → (∀ r, sv_states s !! r ≠ Some id) ∧ id ∉ closing') →
  NoDup closing' → (∀ c, c ∈ closing' → c ∈ sv_closing s) →
  SInv (tr ++ [SObj id l])
    (with_obj (mkServer (sv_states s) (sv_objs s) calls' closing' (sv_reads s) (sv_panic s)) id (obj_step o l s')).
Proof.
  intros HI Hp Ho Hs Hcalls Hsub Hclo Hnd Hclsub. pose proof HI as [I1 I2 I3 I4 I5 I6 I7].
  pose proof (I2 _ _ Ho) as Hok.
  assert (Hlen : id < length (sv_objs s)) by (by eapply lookup_lt_Some).
  split; simpl.
  - intros r. rewrite current_snoc. simpl. apply I1.
  - intros id' o' Ho'. destruct (decide (id' = id)) as [->|Hne].
    + rewrite list_lookup_insert in Ho' by done. injection Ho' as <-.
      destruct Hok as [A1 A2 A3 A4 A5] eqn:EHok. split; simpl.
      * by econstructor.
      * intros Hpp. apply orb_false_iff in Hpp as [_ Hpp]. done.
      * destruct A3 as (fuel & req & w & ms & H1 & H2 & H3 & H4 & H5). exists fuel, req, w, ms.
        do 4 (split; [done|]). set_solver.
      * rewrite sent_to_app, entered_app. simpl. rewrite app_nil_r, A4, (Hcalls id), decide_True by done.
        by rewrite app_assoc.
      * by eapply obj_no_close_step.
    + rewrite list_lookup_insert_ne in Ho' by done. destruct (I2 _ _ Ho') as [A1 A2 A3 A4 A5]. split; simpl; try done.
      * intros _. by apply A2.
      * destruct A3 as (fuel & req & w & ms & H1 & H2 & H3 & H4 & H5). exists fuel, req, w, ms.
        do 4 (split; [done|]). set_solver.
      * rewrite sent_to_app. simpl. rewrite app_nil_r, A4, (Hcalls id'), decide_False by done. done.
  - intros r id' Hr. destruct (I3 _ _ Hr) as (o' & Ho' & Hro & Hnc & Hncl).
    destruct (decide (id' = id)) as [->|Hne].
    + rewrite list_lookup_insert by done. rewrite Ho in Ho'. injection Ho' as <-.
      eexists. split; [done|]. simpl. split; [done|]. split.
      * rewrite elem_of_app, elem_of_list_singleton. intros [?|Heq]; [done|].
        destruct (Hclo (eq_sym Heq)) as [Hno _]. by apply (Hno r).
      * intros Hin. apply Hncl. by apply Hclsub.
    + rewrite list_lookup_insert_ne by done. exists o'. split; [done|]. split; [done|]. split; [done|].
      intros Hin. apply Hncl. by apply Hclsub.
  - split; [done|]. intros id' Hid'. destruct I4 as [_ I4].
    destruct (I4 id') as (o' & Ho' & Hnc); [by apply Hclsub|].
    destruct (decide (id' = id)) as [->|Hne].
    + rewrite list_lookup_insert by done. eexists. split; [done|]. simpl.
      rewrite elem_of_app, elem_of_list_singleton. rewrite Ho in Ho'. injection Ho' as <-.
      intros [?|Heq]; [done|]. by destruct (Hclo (eq_sym Heq)) as [_ ?].
    + rewrite list_lookup_insert_ne by done. eauto.
  - intros id' ms Hin.
    destruct (decide (id' = id)) as [->|Hne]; [rewrite list_lookup_insert by done; by eexists|].
    rewrite list_lookup_insert_ne by done. eapply I5. by apply Hsub.
  - intros id' n Hin.
    destruct (decide (id' = id)) as [->|Hne]; [rewrite list_lookup_insert by done; by eexists|].
    rewrite list_lookup_insert_ne by done. by eapply I6.
  - intros id'. rewrite sent_to_app. simpl. rewrite app_nil_r. intros Hin.
    destruct (decide (id' = id)) as [->|Hne]; [rewrite list_lookup_insert by done; by eexists|].
    rewrite list_lookup_insert_ne by done. by eapply I7.
Qed.

Lemma step_SInv tr s l s' : SInv tr s → sstep s l s' → SInv (tr ++ [l]) s'.
Proof.
  intros HI Hs. pose proof HI as [I1 I2 I3 I4 I5 I6 I7].
  inversion Hs; subst; try (eapply (SInv_same tr); [exact HI|..]; done).
  - (* new *)
    set (id := length (sv_objs s)).
    assert (Hnone : sv_objs s !! id = None) by (apply lookup_ge_None; done).
    assert (Hfresh : ∀ x, is_Some (sv_objs s !! x) → x ≠ id) by (intros x [? ?] ->; congruence).
    assert (Hlk : ∀ x, is_Some (sv_objs s !! x) → ∀ y, (sv_objs s ++ [y]) !! x = sv_objs s !! x).
    { intros x [o Hx] y. rewrite lookup_app_l; [done|]. by eapply lookup_lt_Some. }
    split; simpl.
    + intros r'. rewrite current_snoc. simpl.
      destruct (decide (r = r')) as [->|Hne]; [by rewrite lookup_insert|].
      rewrite lookup_insert_ne by done. apply I1.
    + intros id' o' Ho'. apply lookup_app_Some in Ho' as [Ho'|[Hge Ho']].
      * eapply (obj_ok_mono tr _ s); eauto.
      * apply list_lookup_singleton_Some in Ho' as [Hz <-].
        assert (id' = id) as -> by (unfold id; lia).
        assert (Hcl : calls_to id (sv_calls s) = []).
        { destruct (calls_to id (sv_calls s)) as [|c cs] eqn:E; [done|]. exfalso.
          assert (c ∈ calls_to id (sv_calls s)) as Hin by (rewrite E; left).
          apply elem_of_list_omap in Hin as ([i ms'] & Hin & Hc). simpl in Hc. case_decide; [|done]. subst i.
          apply (Hfresh id); [by eapply I5|done]. }
        assert (Hst : sent_to id tr = []).
        { destruct (sent_to id tr) eqn:E; [done|]. exfalso. apply (Hfresh id); [|done]. apply I7. by rewrite E. }
        split; simpl; try done.
        -- constructor.
        -- intros _. by destruct (NewMixers_init_ok _ _ _ _ H3) as (_&_&_&_&_&_&?&_).
        -- exists fuel, req, w, ms. do 4 (split; [done|]). set_solver.
        -- rewrite sent_to_app, Hst, Hcl. done.
        -- destruct (NewMixers_init_ok _ _ _ _ H3) as (_&->&_). split; [done|].
           by intros ?%elem_of_nil.
    + intros r' id' Hr. apply lookup_insert_Some in Hr as [[<- <-]|[Hne Hr]].
      * exists (mkRobject r m (2 * length ms) [] m). split.
        { rewrite lookup_app_r by done. by rewrite Nat.sub_diag. }
        split; [done|]. split; [apply not_elem_of_nil|].
        intros Hin. destruct I4 as [_ I4]. destruct (I4 _ Hin) as (o & Ho & _). fold id in Ho. congruence.
      * destruct (I3 _ _ Hr) as (o & Ho & ?). exists o. split; [|done]. rewrite Hlk by eauto. done.
    + split; [apply I4|]. intros id' Hin. destruct I4 as [_ I4]. destruct (I4 _ Hin) as (o & Ho & ?).
      exists o. split; [|done]. rewrite Hlk by eauto. done.
    + intros id' ms' Hin. rewrite Hlk; by eapply I5.
    + intros id' n Hin. rewrite Hlk; by eapply I6.
    + intros id'. rewrite sent_to_app. simpl. rewrite app_nil_r. intros Hin. rewrite Hlk; by apply I7.
  - (* end *)
    match goal with H : sv_states s !! r = Some id |- _ => rename H into Hr end.
    destruct (I3 _ _ Hr) as (o & Ho & Hro & Hnc & Hncl).
    split; simpl.
    + intros r'. rewrite current_snoc. simpl. destruct (decide (r = r')) as [->|Hne].
      * by rewrite lookup_delete.
      * rewrite lookup_delete_ne by done. apply I1.
    + intros id' o' Ho'. eapply (obj_ok_mono tr _ s); eauto.
    + intros r' id' Hr'. apply lookup_delete_Some in Hr' as [Hne Hr'].
      destruct (I3 _ _ Hr') as (o' & Ho' & Hro' & ? & ?). exists o'. split; [done|]. split; [done|]. split; [done|].
      rewrite elem_of_app, elem_of_list_singleton. intros [?| ->]; [done|]. congruence.
    + destruct I4 as [I4 I4']. split.
      * apply NoDup_app. split; [done|]. split; [|apply NoDup_singleton].
        intros x Hx. rewrite elem_of_list_singleton. by intros ->.
      * intros id'. rewrite elem_of_app, elem_of_list_singleton. intros [?| ->]; [by apply I4'|]. eauto.
    + done.
    + done.
    + intros id'. rewrite sent_to_app. simpl. rewrite app_nil_r. apply I7.
  - (* close *)
    match goal with H : sv_closing s = _ |- _ => rename H into Hc end.
    match goal with H : sv_objs s !! id = Some o |- _ => rename H into Ho end.
    destruct I4 as [I4 I4']. rewrite Hc in I4. apply NoDup_app in I4 as (N1 & N2 & N3).
    apply NoDup_cons in N3 as [N3 N4].
    eapply SInv_obj; try done.
    + intros id'. match goal with H : _ ∨ _ |- _ => destruct H as [->| ->] end; simpl; by case_decide.
    + intros _. split.
      * intros r Hr. destruct (I3 _ _ Hr) as (o' & _ & _ & _ & Hn). apply Hn. rewrite Hc. set_solver.
      * rewrite elem_of_app. intros [?|?]; [|done]. apply (N2 id); [done|left].
    + apply NoDup_app. split; [done|]. split; [|done]. intros x Hx Hx'. apply (N2 x Hx). by right.
    + intros c Hin. rewrite Hc. set_solver.
  - (* add *)
    match goal with H : sv_states s !! r = Some id |- _ => rename H into Hr end.
    destruct (I3 _ _ Hr) as (o & Ho & Hro & Hnc & Hncl).
    split; simpl; try done.
    + intros r'. rewrite current_snoc. simpl. apply I1.
    + intros id' o' Ho'. destruct (I2 _ _ Ho') as [A1 A2 A3 A4 A5]. split; simpl; try done.
      * intros _. by apply A2.
      * destruct A3 as (fuel & req & w & ms & H1 & H2 & H3 & H4 & H5). exists fuel, req, w, ms.
        do 4 (split; [done|]). set_solver.
      * rewrite sent_to_app, calls_to_app, A4. rewrite <-app_assoc. f_equiv. f_equiv.
        unfold sent_to, calls_to. simpl. by destruct (decide (id = id')).
    + intros id' ms. rewrite elem_of_app, elem_of_list_singleton. intros [?|[= -> ->]]; [by eapply I5|eauto].
    + intros id'. rewrite sent_to_app. intros Hne. destruct (decide (id = id')) as [<-|Hd]; [eauto|].
      apply I7. intros Hnil. apply Hne. rewrite Hnil. unfold sent_to. simpl. by rewrite decide_False.
  - (* enter *)
    match goal with H : sv_calls s = _ |- _ => rename H into Hc end.
    destruct I4 as [I4 I4'].
    eapply SInv_obj; try done.
    + intros id'. rewrite Hc, !calls_to_app. simpl. unfold calls_to at 2. simpl.
      destruct (decide (id = id')) as [->|Hne].
      * rewrite decide_True by done. simpl. fold (calls_to id' c2). by rewrite <-Permutation_middle.
      * rewrite decide_False by congruence. done.
    + intros c Hin. rewrite Hc. set_solver.
  - (* obj *)
    destruct I4 as [I4 I4']. destruct s as [sts objs calls clos reads pan].
    match goal with Hst : ostep _ _ _ ?o0 _ ?l0 ?s0, Hla : ∀ m, ?l0 ≠ LAdd m |- _ =>
      eapply (SInv_obj tr (mkServer sts objs calls clos reads pan) id o0 l0 s0); try done;
      intros id'; assert (entered [l0] = []) as ->; [destruct l0; try done; by destruct (Hla _ eq_refl)|by case_decide] end.
  - (* get *)
    apply (SInv_same tr _ s); try done. simpl.
    intros id' n. rewrite elem_of_app, elem_of_list_singleton. intros [?|[= -> ->]]; [by eapply I6|eauto].
  - (* got *)
    apply (SInv_same tr _ s); try done. simpl. intros id' n Hin. apply (I6 id' n).
    match goal with H : sv_reads s = _ |- _ => rewrite H end. set_solver.
Qed.

Lemma srun_SInv tr s : srun tr s → SInv tr s.
Proof.
  induction 1 as [|tr l s s' Hr IH Hs]; [|by eapply step_SInv].
  split; simpl; try done.
  - split; [constructor|]. intros id Hin. by apply elem_of_nil in Hin.
  - intros id ms Hin. by apply elem_of_nil in Hin.
  - intros id n Hin. by apply elem_of_nil in Hin.
Qed.

Lemma srun_split tr1 tr2 s : srun (tr1 ++ tr2) s → ∃ s1, srun tr1 s1.
Proof.
  revert s. induction tr2 as [|l tr2 IH] using rev_ind; intros s Hr.
  - rewrite app_nil_r in Hr. eauto.
  - rewrite app_assoc in Hr. inversion Hr as [Hn|tr' l' s1 s2 Hr' Hs Heq]; [by destruct (tr1 ++ tr2)|].
    apply app_inj_tail in Heq as [-> ->]. eauto.
Qed.
Lemma srun_split_step tr1 l tr2 s : srun (tr1 ++ l :: tr2) s → ∃ s1 s2, srun tr1 s1 ∧ sstep s1 l s2.
Proof.
  intros Hr. change (l :: tr2) with ([l] ++ tr2) in Hr. rewrite app_assoc in Hr.
  destruct (srun_split _ _ _ Hr) as (s2 & Hr2).
  inversion Hr2 as [Hn|tr' l' s1 s2' Hr' Hs Heq]; [by destruct tr1|].
  apply app_inj_tail in Heq as [-> ->]. eauto.
Qed.

(** What GetMessages answers, in terms of the accepted calls. *)
Lemma sgot_spec tr s id mix v s' :
  srun tr s → sstep s (SGot id mix v) s' →
  ∃ o, sv_objs s !! id = Some o ∧ can_return (ro_state o) mix v ∧ obj_ok tr s id o.
Proof.
  intros Hr Hs. pose proof (srun_SInv _ _ Hr) as [_ I2 _ _ _ _ _].
  inversion Hs; subst. eauto.
Qed.

(** An object that left the table without being closed is never closed. *)
Definition orphan (s : server) (id : nat) : Prop :=
  (∀ r, sv_states s !! r ≠ Some id) ∧ id ∉ sv_closing s ∧ id < length (sv_objs s).
Lemma orphan_step s l s' id :
  orphan s id → sstep s l s' → orphan s' id ∧ l ≠ SObj id LClose ∧ l ≠ SObj id LCloseTwice ∧
  (∀ r ms, l ≠ SAdd r ms (Ok id)) ∧ (∀ r mix, l ≠ SGet r mix (Ok id)).
Proof.
  intros (O1 & O2 & O3) Hs. inversion Hs; subst; unfold orphan, with_obj; simpl; try (split; [done|done]).
  - split; [|done]. split; [|split]; [|done|rewrite app_length; simpl; lia].
    intros r'. rewrite lookup_insert_Some. intros [[_ Hid]|[_ ?]]; [|by eapply O1]. lia.
  - split; [|done]. split; [|split]; [|rewrite elem_of_app, elem_of_list_singleton; intros [?| ->]; [done|by eapply O1]|done].
    intros r'. rewrite lookup_delete_Some. intros [_ ?]. by eapply O1.
  - match goal with Hc : sv_closing s = _ |- _ => rewrite Hc in O2 end.
    split; [split; [done|split; [set_solver|by rewrite insert_length]]|].
    split; [|split; [|done]]; intros [= -> _]; set_solver.
  - split; [done|]. split; [done|]. split; [done|]. split; [|done]. intros r' ms' [= -> -> ->]. by eapply O1.
  - split; [|done]. split; [done|]. split; [done|]. by rewrite insert_length.
  - split; [|naive_solver]. split; [done|]. split; [done|]. by rewrite insert_length.
  - split; [done|]. split; [done|]. split; [done|]. split; [done|]. intros r' mix' [= -> -> ->]. by eapply O1.
Qed.
(** Executions from a given state. *)
Lemma srun_app_inv tr1 tr2 s : srun (tr1 ++ tr2) s → ∃ s1, srun tr1 s1 ∧
  rtc (λ x y, ∃ l, l ∈ tr2 ∧ sstep x l y) s1 s.
Proof.
  revert s. induction tr2 as [|l tr2 IH] using rev_ind; intros s Hr.
  - rewrite app_nil_r in Hr. exists s. split; [done|constructor].
  - rewrite app_assoc in Hr. inversion Hr as [Hn|tr' l' s1 s2 Hr' Hs Heq]; [by destruct (tr1 ++ tr2)|].
    apply app_inj_tail in Heq as [-> ->]. destruct (IH _ Hr') as (s0 & Hrs0 & Hrt).
    exists s0. split; [done|]. eapply rtc_r.
    + eapply rtc_subrel; [|exact Hrt]. intros x y (l'' & ? & ?). exists l''. set_solver.
    + exists l. set_solver.
Qed.
Lemma orphan_future tr1 tr2 s1 s id :
  (∀ s1', srun tr1 s1' → orphan s1' id) → srun (tr1 ++ tr2) s → s1 = s →
  orphan s id ∧ SObj id LClose ∉ tr2 ∧ (∀ r ms, SAdd r ms (Ok id) ∉ tr2) ∧ (∀ r mix, SGet r mix (Ok id) ∉ tr2).
Proof.
  intros Ho Hr _. revert s Hr. induction tr2 as [|l tr2 IH] using rev_ind; intros s Hr.
  - rewrite app_nil_r in Hr. split; [by apply Ho|]. repeat split; intros; apply not_elem_of_nil.
  - rewrite app_assoc in Hr. inversion Hr as [Hn|tr' l' s0 s2 Hr' Hs Heq]; [by destruct (tr1 ++ tr2)|].
    apply app_inj_tail in Heq as [-> ->]. destruct (IH _ Hr') as (O & A & B & C).
    destruct (orphan_step _ _ _ _ O Hs) as (O' & A1 & A2 & A3 & A4). split; [done|].
    split; [|split; intros x y]; rewrite elem_of_app, elem_of_list_singleton;
      (intros [?|?]; [try done|congruence]).
    + by eapply B.
    + by eapply C.
Qed.

(** A server object's own steps lifted to the server. *)
Lemma lift_run tr s id o ltr ms' :
  srun tr s → sv_panic s = false → sv_objs s !! id = Some o →
  run (peel (ro_round o)) workers taskCap (ro_cap o) (ro_state o) ltr ms' →
  Forall (λ l, internal l = true) ltr → mm_panic ms' = false →
  ∃ s' o', srun (tr ++ (SObj id <$> ltr)) s' ∧ sv_panic s' = false ∧ sv_objs s' !! id = Some o' ∧
    ro_state o' = ms' ∧ ro_round o' = ro_round o ∧ ro_cap o' = ro_cap o ∧ ro_init o' = ro_init o ∧
    ro_trace o' = ro_trace o ++ ltr ∧
    sv_states s' = sv_states s ∧ sv_reads s' = sv_reads s ∧ sv_calls s' = sv_calls s ∧ sv_closing s' = sv_closing s.
Proof.
  intros Hr Hp Ho Hrun. induction Hrun as [|ltr l m1 m2 Hrun IH Hst]; intros Hf Hpan.
  - exists s, o. rewrite app_nil_r. simpl. rewrite app_nil_r. done.
  - apply Forall_app in Hf as [Hf Hl]. rewrite Forall_singleton in Hl.
    assert (Hp1 : mm_panic m1 = false).
    { destruct (mm_panic m1) eqn:E; [|done]. inversion Hst; subst; congruence. }
    destruct (IH Hf Hp1) as (s1 & o1 & Hr1 & Hps & Ho1 & E1 & E2 & E3 & E4 & E5 & E6 & E7 & E8 & E9).
    eexists _, (obj_step o1 l m2). rewrite fmap_app, app_assoc. simpl.
    split; [econstructor; [exact Hr1|]|].
    { eapply ss_obj; [done|exact Ho1|..]; try (by intros ->). { intros msgs ->. done. }
      unfold ostep. rewrite E1, E2, E3. exact Hst. }
    simpl. rewrite Hps, Hpan. split; [done|]. split.
    { rewrite list_lookup_insert; [done|]. by eapply lookup_lt_Some. }
    do 4 (split; [done|]). split; [by rewrite E5, app_assoc|]. done.
Qed.
End server.
