(** Several rounds: every round of a network is a run of the one-round network (Model/System.v). *)
From stdpp Require Import gmap.
From Verif.Base Require Import Base.
From Verif.Model Require Import Topology Shuffle Onion Mixer Rounds System Fleet.
From Verif.Spec Require Import MixerSpec MessagesSpec RoundsSpec SystemSpec FleetSpec.
From Verif.Proofs Require Import RoundsProofs.

(** ** One server *)
Definition rounds_of (tr : list slabel) : list N :=
  omap (λ l, match l with SNew r _ (Ok _) => Some r | _ => None end) tr.
Definition requests_of (r : N) (tr : list slabel) : list (gmap string N) :=
  omap (λ l, match l with SNew r' req (Ok _) => if decide (r' = r) then Some req else None | _ => None end) tr.

Section server.
Context (connected : bool) (t : topology) (host : string)
        (peel : N → onion → option (option onion)) (workers taskCap : nat).
Notation sstep := (sstep connected t host peel workers taskCap).
Notation srun := (srun connected t host peel workers taskCap).
Notation ostep := (ostep peel workers taskCap).

Lemma sstep_up sv l sv' : sstep sv l sv' → sv_panic sv = false.
Proof. by destruct 1. Qed.
Lemma sstep_kind sv l sv' : sstep sv l sv' →
  (∃ id lb o s', l = SObj id lb ∧ sv_objs sv !! id = Some o ∧ ostep o (ro_state o) lb s' ∧
     sv_objs sv' = <[id := obj_step o lb s']> (sv_objs sv)) ∨
  (∃ r req ob, l = SNew r req (Ok (length (sv_objs sv))) ∧ sv_objs sv' = sv_objs sv ++ [ob] ∧ ro_round ob = r ∧
     ro_state ob = ro_init ob) ∨
  ((∀ id lb, l ≠ SObj id lb) ∧ (∀ r req id, l ≠ SNew r req (Ok id)) ∧ sv_objs sv' = sv_objs sv).
Proof.
  destruct 1; try (right; right; done); try (left; eexists _, _, _, _; done).
  right; left. eexists _, _, _. done.
Qed.

Lemma srun_rounds tr s : srun tr s → ro_round <$> sv_objs s = rounds_of tr.
Proof.
  induction 1 as [|tr l s s' Hr IH Hst]; [done|]. unfold rounds_of. rewrite omap_app. fold (rounds_of tr).
  destruct (sstep_kind _ _ _ Hst) as [(id & lb & o & x & -> & Ho & _ & ->)|[(r & req & ob & -> & -> & Hro & _)|(H1 & H2 & ->)]].
  - cbn. rewrite app_nil_r, <-IH, list_fmap_insert. apply list_insert_id. cbn. by rewrite list_lookup_fmap, Ho.
  - cbn. rewrite fmap_app, IH. cbn. by rewrite Hro.
  - rewrite IH. destruct l as [? ? [?|?|]|? [?|?|]|? ? [?|?|]|? ? [?|?|]|? ? ?|? ?|? ?]; cbn; rewrite ?app_nil_r; try done.
    by destruct (H2 r req a).
Qed.
Lemma requests_rounds r tr : length (requests_of r tr) = length (filter (λ x, x = r) (rounds_of tr)).
Proof.
  unfold requests_of, rounds_of. induction tr as [|l tr IH]; [done|].
  destruct l as [? ? [?|?|]|? [?|?|]|? ? [?|?|]|? ? [?|?|]|? ? ?|? ?|? ?]; cbn [omap list_omap]; try exact IH.
  rewrite filter_cons. repeat case_decide; try done. cbn [length]. by f_equal.
Qed.
Lemma filter_two {A} (P : A → Prop) `{∀ x, Decision (P x)} (l : list A) i j a b :
  length (filter P l) ≤ 1 → l !! i = Some a → l !! j = Some b → P a → P b → i = j.
Proof.
  revert i j. induction l as [|x l IH]; intros i j Hl Ha Hb Pa Pb; [done|].
  rewrite filter_cons in Hl.
  assert (∀ k c, l !! k = Some c → P c → 0 < length (filter P l)) as Hpos.
  { intros k c Hk Pc. assert (c ∈ filter P l) as Hin by (apply elem_of_list_filter; split; [done|by eapply elem_of_list_lookup_2]).
    destruct (filter P l); [by apply elem_of_nil in Hin|simpl; lia]. }
  destruct i as [|i], j as [|j]; cbn in Ha, Hb; simplify_eq.
  - done.
  - rewrite decide_True in Hl by done. specialize (Hpos _ _ Hb Pb). simpl in Hl. lia.
  - rewrite decide_True in Hl by done. specialize (Hpos _ _ Ha Pa). simpl in Hl. lia.
  - f_equal. eapply IH; [|done..]. case_decide; simpl in Hl; lia.
Qed.
Lemma srun_unique tr s r i j a b : srun tr s → length (requests_of r tr) ≤ 1 →
  sv_objs s !! i = Some a → sv_objs s !! j = Some b → ro_round a = r → ro_round b = r → i = j.
Proof.
  intros Hr Hl Ha Hb Ra Rb. rewrite requests_rounds, <-(srun_rounds _ _ Hr) in Hl.
  eapply (filter_two (λ x, x = r) (ro_round <$> sv_objs s)); [exact Hl| | |exact Ra|exact Rb].
  - by rewrite list_lookup_fmap, Ha.
  - by rewrite list_lookup_fmap, Hb.
Qed.
Lemma srun_requests tr s id ob : srun tr s → sv_objs s !! id = Some ob →
  ∃ req fuel w ms, req ∈ requests_of (ro_round ob) tr ∧ round_workload fuel t req = Some (Ok w) ∧ hosted t host ms ∧
    NewMixers t ms w = Some (ro_init ob) ∧ ro_cap ob = 2 * length ms.
Proof.
  intros Hr Ho. apply srun_SInv in Hr. destruct (oo_made _ _ _ _ _ _ _ _ _ (si_obj _ _ _ _ _ _ _ Hr _ _ Ho)) as (fuel & req & w & ms & H1 & H2 & H3 & H4 & H5).
  exists req, fuel, w, ms. split_and!; try done. apply elem_of_list_omap. eexists. split; [exact H5|]. cbn. by rewrite decide_True.
Qed.

(** Ended rounds. *)
Lemma srun_closing tr s id : srun tr s → id ∈ sv_closing s →
  ∃ ob, sv_objs s !! id = Some ob ∧ SEnd (ro_round ob) (Ok id) ∈ tr.
Proof.
  intros Hr. induction Hr as [|tr l s s' Hr IH Hst]; [by intros ?%elem_of_nil|]. intros Hin.
  assert (id ∈ sv_closing s ∨ ∃ r, l = SEnd r (Ok id) ∧ sv_states s !! r = Some id) as [Hold|(r & -> & Hs)].
  { destruct Hst; cbn [sv_closing with_obj] in Hin; try (by left).
    - apply elem_of_app in Hin as [?|Hin]; [by left|]. apply elem_of_list_singleton in Hin as ->. right. by eexists.
    - left. rewrite H0. set_solver. }
  - destruct (IH Hold) as (ob & Ho & He).
    destruct (sstep_kind _ _ _ Hst) as [(id' & lb & o & x & -> & Ho' & _ & ->)|[(r & req & ob' & -> & -> & Hro & _)|(H1 & H2 & ->)]].
    + destruct (decide (id' = id)) as [->|Hne].
      * simplify_eq. eexists. rewrite list_lookup_insert by (by eapply lookup_lt_Some). split; [done|]. cbn. set_solver.
      * exists ob. rewrite list_lookup_insert_ne by done. split; [done|set_solver].
    + exists ob. split; [by apply lookup_app_l_Some|set_solver].
    + exists ob. split; [done|set_solver].
  - pose proof (srun_SInv _ _ _ _ _ _ _ _ Hr) as HI. destruct (si_tab _ _ _ _ _ _ _ HI _ _ Hs) as (ob & Ho & Hro & _).
    exists ob. destruct (sstep_kind _ _ _ Hst) as [(id' & lb & o & x & ? & _)|[(r' & req & ob' & ? & _)|(H1 & H2 & ->)]]; try done.
    split; [done|]. rewrite Hro. set_solver.
Qed.
(** A round that was opened and not ended is in the table. *)
Lemma srun_open tr s id ob : srun tr s → sv_objs s !! id = Some ob → length (requests_of (ro_round ob) tr) ≤ 1 →
  (∀ id, SEnd (ro_round ob) (Ok id) ∉ tr) → sv_states s !! ro_round ob = Some id.
Proof.
  intros Hr Ho Hl He. set (r := ro_round ob) in *.
  enough (is_Some (sv_states s !! r)) as [id' Hid].
  { pose proof (srun_SInv _ _ _ _ _ _ _ _ Hr) as HI. destruct (si_tab _ _ _ _ _ _ _ HI _ _ Hid) as (ob' & Ho' & Hro' & _).
    by rewrite (srun_unique _ _ _ _ _ _ _ Hr Hl Ho Ho' eq_refl Hro'). }
  assert (r ∈ rounds_of tr) as Hin.
  { rewrite <-(srun_rounds _ _ Hr). apply elem_of_list_fmap. exists ob. split; [done|]. by eapply elem_of_list_lookup_2. }
  clear Ho Hl. rewrite (si_cur _ _ _ _ _ _ _ (srun_SInv _ _ _ _ _ _ _ _ Hr)). clear Hr.
  induction tr as [|l tr IH] using rev_ind; [by apply elem_of_nil in Hin|].
  rewrite current_snoc. unfold rounds_of in Hin. rewrite omap_app, elem_of_app in Hin. destruct Hin as [Hin|Hin].
  - assert (is_Some (current tr r)) as Hc. { apply IH; [|done]. intros id' Hx. apply (He id'). set_solver. }
    destruct l as [? ? [?|?|]|? [?|?|]|? ? [?|?|]|? ? [?|?|]|? ? ?|? ?|? ?]; cbn; try done.
    + by case_decide.
    + case_decide; [|done]. exfalso. subst. apply (He a). set_solver.
  - destruct l as [? ? [?|?|]|? [?|?|]|? ? [?|?|]|? ? [?|?|]|? ? ?|? ?|? ?]; cbn in Hin; try (by apply elem_of_nil in Hin).
    apply elem_of_list_singleton in Hin as ->. cbn. by rewrite decide_True.
Qed.
End server.

(** ** The network *)
(** What server h did. *)
Definition hlabel (h : string) (l : flabel) : option slabel :=
  match l with
  | FServer h' l => if decide (h' = h) then Some l else None
  | FAccept c id => if decide (fc_to c = h) then Some (SAdd (rq_round (fc_rq c)) (rq_msgs (fc_rq c)) (Ok id)) else None
  | FRefuse c => if decide (fc_to c = h) then Some (SAdd (rq_round (fc_rq c)) (rq_msgs (fc_rq c)) (Err NotFound)) else None
  | FEnter c id => if decide (fc_to c = h) then Some (SObj id (LAdd (rq_msgs (fc_rq c)))) else None
  | FTake h' id o _ | FCrash h' id o => if decide (h' = h) then Some (SObj id (LRecv o)) else None
  | _ => None
  end.
Definition hlabels (h : string) (tr : list flabel) : list slabel := omap (hlabel h) tr.
Lemma hlabels_snoc h tr l : hlabels h (tr ++ [l]) = hlabels h tr ++ match hlabel h l with Some x => [x] | None => [] end.
Proof. unfold hlabels. rewrite omap_app. done. Qed.
Lemma openings_hlabels r h tr : openings r h tr = requests_of r (hlabels h tr).
Proof.
  induction tr as [|l tr IH]; [done|]. unfold openings, requests_of, hlabels in *.
  destruct l as [| h' [? ? [?|?|]|? [?|?|]|? ? [?|?|]|? ? [?|?|]|? ? ?|? ?|? ?]| | | | | | | | |]; cbn; rewrite ?IH;
    repeat (case_decide; cbn); try done; try (by f_equal); try naive_solver.
Qed.

Section net.
Context (t : topology) (peel : string → N → onion → option (option onion)) (workers taskCap : string → nat).
Notation fstep := (fstep t peel workers taskCap).
Notation hsstep := (hsstep t peel workers taskCap).
Notation hrun h := (srun true t h (peel h) (workers h) (taskCap h)).

Lemma frun_app_inv f0 tr1 tr2 f : frun t peel workers taskCap f0 (tr1 ++ tr2) f →
  ∃ f1, frun t peel workers taskCap f0 tr1 f1 ∧ frun t peel workers taskCap f1 tr2 f.
Proof.
  revert f. induction tr2 as [|l tr2 IH] using rev_ind; intros f.
  - rewrite app_nil_r. intros H. exists f. split; [done|constructor].
  - rewrite app_assoc. intros H. inversion H as [E|tr' l' f1 f2 Hr Hs E]; [by destruct tr1, tr2|].
    apply app_inj_tail in E as [-> ->]. destruct (IH _ Hr) as (g & Hg1 & Hg2). exists g. split; [done|]. by econstructor.
Qed.
Lemma frun_app f0 tr1 tr2 f1 f : frun t peel workers taskCap f0 tr1 f1 → frun t peel workers taskCap f1 tr2 f →
  frun t peel workers taskCap f0 (tr1 ++ tr2) f.
Proof.
  intros H1 H2. induction H2 as [|tr2 l f2 f3 H2 IH Hst]; [by rewrite app_nil_r|]. rewrite app_assoc. by econstructor.
Qed.

(** What a step does to the servers. *)
Definition downable (l : flabel) : bool := match l with FCrash _ _ _ => true | _ => false end.
Lemma fstep_srv f l f' : fstep f l f' → ∀ h,
  (hlabel h l = None ∧ fl_srv f' !! h = fl_srv f !! h) ∨
  (∃ x sv sv', hlabel h l = Some x ∧ fl_srv f !! h = Some sv ∧ hsstep h sv x sv' ∧
     fl_srv f' !! h = Some (if downable l then downed sv' else sv')).
Proof.
  intros Hst hh. destruct Hst; cbn [hlabel downable fl_srv with_server]; try (by left);
  try (match goal with |- context [decide (?a = hh)] => destruct (decide (a = hh)) as [<-|Hne];
    [right; rewrite lookup_insert; eexists _, _, _; by split_and!|left; rewrite lookup_insert_ne by done; done] end).
  destruct (decide (fc_to c = hh)) as [<-|Hne]; [right; rewrite lookup_insert; eexists _, _, _; split_and!; [|done..]|left; by rewrite lookup_insert_ne].
  destruct e; try done; unfold hsstep in *; match goal with H : sstep _ _ _ _ _ _ _ _ _ |- _ => inversion H end.
Qed.

Context (servers : list string).
Notation frun := (frun t peel workers taskCap (fleet_start servers)).

Lemma start_srv h : fl_srv (fleet_start servers) !! h = if decide (h ∈ servers) then Some NewMixServer else None.
Proof.
  unfold fleet_start. cbn [fl_srv]. induction servers as [|a l IH]; [done|]. cbn. destruct (decide (a = h)) as [->|Hne].
  - rewrite lookup_insert. rewrite decide_True by left. done.
  - rewrite lookup_insert_ne by done. rewrite IH. destruct (decide (h ∈ l)) as [?|?]; [by rewrite decide_True by by right|].
    rewrite decide_False; [done|]. intros [?|?]%elem_of_cons; done.
Qed.
Lemma frun_dom tr f h : frun tr f → is_Some (fl_srv f !! h) ↔ h ∈ servers.
Proof.
  intros Hr. induction Hr as [|tr l f f' Hr IH Hst].
  - rewrite start_srv. case_decide; [|split; [by intros [? ?]|done]]. split; [done|by eexists].
  - destruct (fstep_srv _ _ _ Hst h) as [(_ & ->)|(x & sv & sv' & _ & E & _ & ->)]; [done|]. rewrite <-IH, E. split; by eexists.
Qed.
Lemma frun_host tr f h sv : frun tr f → fl_srv f !! h = Some sv →
  ∃ sv0, hrun h (hlabels h tr) sv0 ∧ (sv = sv0 ∨ sv = downed sv0).
Proof.
  intros Hr. revert sv. induction Hr as [|tr l f f' Hr IH Hst]; intros sv Hsv.
  - rewrite start_srv in Hsv. case_decide; [|done]. simplify_eq. exists NewMixServer. split; [constructor|by left].
  - rewrite hlabels_snoc. destruct (fstep_srv _ _ _ Hst h) as [(-> & E)|(x & sv1 & sv' & -> & E & Hs & E')].
    + rewrite app_nil_r. apply IH. by rewrite <-E.
    + destruct (IH _ E) as (sv0 & Hrun & [->| ->]); [|by apply sstep_up in Hs].
      exists sv'. split; [by econstructor|]. rewrite E' in Hsv. injection Hsv as <-. destruct (downable l); auto.
Qed.
Lemma frun_objs tr f h sv id ob : frun tr f → fl_srv f !! h = Some sv → sv_objs sv !! id = Some ob →
  ∃ req fuel w ms, req ∈ openings (ro_round ob) h tr ∧ round_workload fuel t req = Some (Ok w) ∧ hosted t h ms ∧
    NewMixers t ms w = Some (ro_init ob) ∧ ro_cap ob = 2 * length ms.
Proof.
  intros Hr Hsv Ho. destruct (frun_host _ _ _ _ Hr Hsv) as (sv0 & Hrun & Hd).
  assert (sv_objs sv0 !! id = Some ob) as Ho' by (destruct Hd; by subst).
  rewrite openings_hlabels. by eapply srun_requests.
Qed.
Lemma frun_unique tr f h sv r i j a b : frun tr f → fl_srv f !! h = Some sv → length (openings r h tr) ≤ 1 →
  sv_objs sv !! i = Some a → sv_objs sv !! j = Some b → ro_round a = r → ro_round b = r → i = j.
Proof.
  intros Hr Hsv Hl. destruct (frun_host _ _ _ _ Hr Hsv) as (sv0 & Hrun & Hd). rewrite openings_hlabels in Hl.
  assert (sv_objs sv = sv_objs sv0) as -> by (by destruct Hd; subst). by eapply srun_unique.
Qed.
Lemma frun_panic tr f h sv id ob : frun tr f → fl_srv f !! h = Some sv → sv_objs sv !! id = Some ob → sv_panic sv = false →
  mm_panic (ro_state ob) = false.
Proof.
  intros Hr Hsv Ho Hp. destruct (frun_host _ _ _ _ Hr Hsv) as (sv0 & Hrun & [->| ->]); [|done].
  apply srun_SInv in Hrun. by eapply oo_panic; [eapply si_obj|].
Qed.
Lemma frun_tab tr f h sv r id : frun tr f → fl_srv f !! h = Some sv → sv_states sv !! r = Some id →
  ∃ ob, sv_objs sv !! id = Some ob ∧ ro_round ob = r.
Proof.
  intros Hr Hsv Ho. destruct (frun_host _ _ _ _ Hr Hsv) as (sv0 & Hrun & Hd).
  assert (sv_states sv0 !! r = Some id) as Ho' by (destruct Hd; by subst).
  apply srun_SInv in Hrun. destruct (si_tab _ _ _ _ _ _ _ Hrun _ _ Ho') as (ob & Hob & Hro & _). exists ob.
  split; [|done]. destruct Hd; by subst.
Qed.
(** Every object belongs to a round of 32 bits. *)
Lemma frun_32 tr f h sv id ob : frun tr f → fl_srv f !! h = Some sv → sv_objs sv !! id = Some ob → (ro_round ob < 2 ^ 32)%N.
Proof.
  intros Hr Hsv Ho. destruct (frun_objs _ _ _ _ _ _ Hr Hsv Ho) as (req & fuel & w & ms & Hin & _). clear Hsv Ho.
  revert Hin. generalize (ro_round ob). intros r. induction Hr as [|tr l f f' Hr IH Hst]; [by intros ?%elem_of_nil|].
  unfold openings. rewrite omap_app, elem_of_app. intros [Hin|Hin]; [by apply IH|].
  destruct Hst as [|? ? l ? ? _ Hl _| | | | | | | | |]; cbn in Hin; try (by apply elem_of_nil in Hin).
  destruct l as [r' ? [?|?|]|? [?|?|]|? ? [?|?|]|? ? [?|?|]|? ? ?|? ?|? ?]; cbn in Hin; try (by apply elem_of_nil in Hin).
  case_decide as Hd; [|by apply elem_of_nil in Hin]. destruct Hd as [-> ->]. done.
Qed.

(** An object stays, with the round it was made for. *)
Definition has_obj (f : fleet) (h : string) (id : nat) (r : N) : Prop :=
  ∃ sv ob, fl_srv f !! h = Some sv ∧ sv_objs sv !! id = Some ob ∧ ro_round ob = r.
Lemma sstep_pres h sv l sv' id ob : hsstep h sv l sv' → sv_objs sv !! id = Some ob →
  ∃ ob', sv_objs sv' !! id = Some ob' ∧ ro_round ob' = ro_round ob ∧ ro_init ob' = ro_init ob ∧ ro_cap ob' = ro_cap ob.
Proof.
  intros Hst Ho. destruct (sstep_kind _ _ _ _ _ _ _ _ _ Hst) as [(id' & lb & o & x & -> & Ho' & _ & ->)|[(r & req & ob' & -> & -> & Hro & _)|(H1 & H2 & ->)]].
  - destruct (decide (id' = id)) as [->|Hne].
    + simplify_eq. eexists. rewrite list_lookup_insert by (by eapply lookup_lt_Some). done.
    + exists ob. by rewrite list_lookup_insert_ne.
  - exists ob. split; [by apply lookup_app_l_Some|done].
  - by exists ob.
Qed.
Lemma fstep_pres f l f' h sv id ob : fstep f l f' → fl_srv f !! h = Some sv → sv_objs sv !! id = Some ob →
  ∃ sv' ob', fl_srv f' !! h = Some sv' ∧ sv_objs sv' !! id = Some ob' ∧ ro_round ob' = ro_round ob ∧ ro_init ob' = ro_init ob ∧ ro_cap ob' = ro_cap ob.
Proof.
  intros Hst Hsv Ho. destruct (fstep_srv _ _ _ Hst h) as [(_ & E)|(x & sv1 & sv' & _ & E & Hs & E')].
  - exists sv, ob. by rewrite E.
  - simplify_eq. destruct (sstep_pres _ _ _ _ _ _ Hs Ho) as (ob' & ? & ?). eexists _, ob'. split; [exact E'|]. by destruct (downable l).
Qed.
Lemma has_obj_step f l f' h id r : fstep f l f' → has_obj f h id r → has_obj f' h id r.
Proof.
  intros Hst (sv & ob & Hsv & Ho & Hro). destruct (fstep_pres _ _ _ _ _ _ _ Hst Hsv Ho) as (sv' & ob' & ? & ? & ? & _).
  exists sv', ob'. split_and!; try done. congruence.
Qed.

(** Calls of senders carry the round of their object; so do the objects handlers have found. *)
Definition all_calls (f : fleet) : list fcall :=
  fl_queue f ++ fl_net f ++ (fl_hand f).*1 ++ fl_back f ++ fl_wait f ++ fl_void f.
Definition calls_ok (f : fleet) : Prop :=
  (∀ c h id, c ∈ all_calls f → fc_from c = Some (h, id) → has_obj f h id (rq_round (fc_rq c))) ∧
  (∀ c id, (c, id) ∈ fl_hand f → has_obj f (fc_to c) id (rq_round (fc_rq c))).
Lemma sender_round round h out ls cs c : sender_iteration round t h out ls (Some cs) → c ∈ cs →
  rq_round c.2 = Z.to_N (round mod 2 ^ 32).
Proof.
  unfold sender_iteration. destruct (GroupOnionsByHostname out t) as [g|]; [|done].
  intros (order & rqs & _ & HF & Hcs) Hc. symmetry in Hcs. apply bind_Some in Hcs as (rs & Hrs & [= <-]).
  destruct c as [a rq]. apply elem_of_zip_r in Hc as Hrq. cbn. clear Hc.
  revert rs Hrs Hrq. induction HF as [|e r l rqs He HF IH]; intros rs Hrs Hrq.
  - injection Hrs as <-. by apply elem_of_nil in Hrq.
  - cbn in Hrs. destruct r as [r|]; [|done]. cbn in Hrs. destruct (mapM id rqs) as [rs'|] eqn:E; [|done]. injection Hrs as <-.
    apply elem_of_cons in Hrq as [->|Hrq]; [|by eapply IH]. unfold createRRPCRequest in He.
    destruct (GroupOnionsByMixName e.2 t); [|done]. destruct He as (? & _ & [= ->]). done.
Qed.
Lemma elem_reply c c' : c' ∈ reply c → c' = c.
Proof. unfold reply. destruct (fc_from c); [by intros ?%elem_of_list_singleton|by intros ?%elem_of_nil]. Qed.
Lemma all_calls_step f l f' c : fstep f l f' → c ∈ all_calls f' →
  c ∈ all_calls f ∨ (∃ h rq, l = FClient h rq ∧ c = mkFcall None h rq) ∨ (∃ h id o cs, l = FTake h id o cs ∧ c ∈ cs).
Proof.
  intros Hst. destruct Hst; unfold all_calls; cbn [fl_queue fl_net fl_hand fl_back fl_wait fl_void with_server]; try (by left).
  - rewrite !elem_of_app, elem_of_list_singleton. intros [?|[[?| ->]|?]]; eauto 10.
  - rewrite H. rewrite fmap_app, !elem_of_app, elem_of_cons. cbn [fmap list_fmap]. rewrite elem_of_list_singleton. cbn [fst]. tauto.
  - rewrite H. rewrite !elem_of_app, elem_of_cons. intros Hc. left.
    destruct Hc as [?|[?|[?|[[?|Hc%elem_reply]|?]]]]; tauto.
  - rewrite H. rewrite !elem_of_app, elem_of_cons. tauto.
  - rewrite H. rewrite !fmap_app, !elem_of_app. cbn [fmap list_fmap]. rewrite elem_of_cons. cbn [fst]. intros Hc. left.
    destruct Hc as [?|[?|[?|[[?|Hc%elem_reply]|?]]]]; tauto.
  - rewrite !elem_of_app. intros Hc. assert ((c ∈ fl_queue f ∨ c ∈ fl_net f ∨ c ∈ (fl_hand f).*1 ∨ c ∈ fl_back f ∨ c ∈ fl_wait f ∨ c ∈ fl_void f) ∨ c ∈ fcalls_of h id cs) as [?|?] by tauto; [by left|]. right; right. eauto 10.
  - rewrite H. rewrite !elem_of_app, !elem_of_cons, !elem_of_list_filter, elem_of_nil. tauto.
  - rewrite H, H0. rewrite !elem_of_app, !elem_of_cons. tauto.
  - rewrite H. rewrite !elem_of_app, !elem_of_cons. tauto.
Qed.
Lemma frun_calls tr f : frun tr f → calls_ok f.
Proof.
  intros Hr. induction Hr as [|tr l f f' Hr IH Hst]; [split; [intros c h id Hc|intros c id Hc]; by apply elem_of_nil in Hc|].
  destruct IH as [I1 I2].
  split.
  - intros c h id Hc Hf. destruct (all_calls_step _ _ _ _ Hst Hc) as [Hin|[(h' & rq & -> & ->)|(h' & id' & o & cs & -> & Hin)]].
    + eapply has_obj_step; [exact Hst|]. by apply I1.
    + done.
    + inversion Hst; subst. apply elem_of_list_fmap in Hin as (e & -> & He). cbn in Hf. injection Hf as <- <-.
      cbn [fc_rq]. match goal with H : fl_srv f !! h' = Some ?x, H0 : sv_objs ?x !! id' = Some ?y, Hi : sender_iteration _ _ _ _ _ _ |- _ => rename H into Hsv; rename H0 into Hob; rename Hi into Hit end.
      destruct (fstep_pres _ _ _ _ _ _ _ Hst Hsv Hob) as (sv2 & ob2 & E2 & E3 & E4 & _).
      exists sv2, ob2. split; [done|]. split; [done|]. rewrite E4. rewrite (sender_round _ _ _ _ _ _ Hit He).
      pose proof (frun_32 _ _ _ _ _ _ Hr Hsv Hob). rewrite Z.mod_small by lia. by rewrite N2Z.id.
  - intros c id Hc. assert ((c, id) ∈ fl_hand f ∨ l = FAccept c id) as [Hin| ->].
    { destruct Hst; cbn [fl_hand with_server] in Hc; try (by left).
      - apply elem_of_app in Hc as [?|Hc%elem_of_list_singleton]; [by left|]. simplify_eq. by right.
      - left. rewrite H. set_solver. }
    + eapply has_obj_step; [exact Hst|]. by apply I2.
    + inversion Hst; subst. unfold hsstep in *. match goal with H : sstep _ _ _ _ _ _ _ _ _ |- _ => inversion H; subst end.
      match goal with Ha : fl_srv f !! _ = Some ?x, Hb : sv_states ?x !! _ = Some _ |- _ => rename Ha into Hsv; rename Hb into Htab end.
      destruct (frun_tab _ _ _ _ _ _ Hr Hsv Htab) as (ob & Hob & Hro). eapply has_obj_step; [exact Hst|]. by eexists _, ob.
Qed.
End net.
