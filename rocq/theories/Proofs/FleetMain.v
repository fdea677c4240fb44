(** What one round of a network with many rounds inherits from the network with one round. *)
From stdpp Require Import gmap.
From Verif.Base Require Import Base.
From Verif.Model Require Import Topology Shuffle Onion Mixer Rounds System Fleet.
From Verif.Spec Require Import MixerSpec MessagesSpec RoundsSpec SystemSpec FleetSpec.
From Verif.Proofs Require Import TopologyProofs MixerInv MixerLive RoundsProofs SystemProofs FleetProofs FleetSim FleetLive.

Section main.
Context (t : topology) (peel : string → N → onion → option (option onion)) (workers taskCap : string → nat)
        (servers : list string).
Notation fstep := (fstep t peel workers taskCap).
Notation hsstep := (hsstep t peel workers taskCap).
Notation frunf := (frun t peel workers taskCap).
Notation frun := (frun t peel workers taskCap (fleet_start servers)).

Lemma sget_obj tr f h r name id : frun tr f → FServer h (SGet r name (Ok id)) ∈ tr → has_obj f h id r.
Proof.
  intros Hr Hin. induction Hr as [|tr l f f' Hr IH Hst]; [by apply elem_of_nil in Hin|].
  eapply has_obj_step; [exact Hst|]. apply elem_of_app in Hin as [Hin|Hin%elem_of_list_singleton]; [by apply IH|].
  subst l. inversion Hst as [|f1 h1 l1 sv sv' Hsv Hl Hs E1 E2 E3| | | | | | | | |]; subst. unfold hsstep in Hs. inversion Hs; subst.
  match goal with Hb : sv_states sv !! _ = Some _ |- _ => rename Hb into Htab end.
  destruct (frun_tab _ _ _ _ _ _ _ _ _ _ _ Hr Hsv Htab) as (ob & Hob & Hro). by exists sv, ob.
Qed.

(** Why a server has crashed. *)
Lemma sstep_panic h sv l sv' : hsstep h sv l sv' → sv_panic sv' = true →
  (∃ r req, l = SCrash r req) ∨ ∃ id lb ob, l = SObj id lb ∧ sv_objs sv' !! id = Some ob ∧ mm_panic (ro_state ob) = true.
Proof.
  unfold hsstep. destruct 1; intros Hp; try (cbn in Hp; congruence); try (left; by eauto);
    right; cbn [with_obj sv_panic sv_objs] in *; match goal with H : sv_panic _ = false, Hi : sv_objs _ !! ?i = Some _ |- _ => rewrite H in Hp; cbn [orb] in Hp;
    eexists i, _, _; rewrite list_lookup_insert by (by eapply lookup_lt_Some) end; by split_and!.
Qed.
Lemma panic_cause tr f h sv : frun tr f → fl_srv f !! h = Some sv → sv_panic sv = true →
  (∃ r req, FServer h (SCrash r req) ∈ tr) ∨ (∃ id o, FCrash h id o ∈ tr) ∨
  ∃ id ob, sv_objs sv !! id = Some ob ∧ mm_panic (ro_state ob) = true.
Proof.
  intros Hr. revert sv. induction Hr as [|tr l f f' Hr IH Hst]; intros sv Hsv Hp.
  { rewrite start_srv in Hsv. case_decide; [|done]. by injection Hsv as <-. }
  destruct (fstep_srv _ _ _ _ _ _ _ Hst h) as [(_ & E)|(x & sv1 & sv2 & Hx & E & Hs & E')].
  - rewrite E in Hsv. destruct (IH _ Hsv Hp) as [(r & req & Hin)|[(id & o & Hin)|?]].
    + left. exists r, req. apply elem_of_app. by left.
    + right; left. exists id, o. apply elem_of_app. by left.
    + right; by right.
  - rewrite E' in Hsv. injection Hsv as <-. destruct (downable l) eqn:Ed.
    + destruct l; try done. right; left. cbn in Hx. case_decide; [|done]. subst. eexists _, _. apply elem_of_app. right. by apply elem_of_list_singleton.
    + destruct (sstep_panic _ _ _ _ Hs Hp) as [(r & req & ->)|(id & lb & ob & _ & ? & ?)]; [|right; right; by exists id, ob].
      left. exists r, req. apply elem_of_app. right. apply elem_of_list_singleton.
      destruct l; cbn in Hx; try (case_decide; [|done]); try discriminate Hx; subst; injection Hx as ->; done.
Qed.
Lemma opening_label r h req tr : req ∈ openings r h tr → ∃ id, FServer h (SNew r req (Ok id)) ∈ tr.
Proof.
  intros (l & Hl & El)%elem_of_list_omap. destruct l as [|h' [? ? [id| |]| | | | | |]| | | | | | | | |]; try done.
  case_decide as Hd; [|done]. destruct Hd as [-> ->]. injection El as ->. by exists id.
Qed.
Lemma opened_everywhere r req tr f : frun tr f → (∀ h, h ∈ servers → openings r h tr = [req]) → opened_once r req tr.
Proof.
  intros Hr Hop h. destruct (decide (h ∈ servers)) as [Hh|Hh]; [right; by apply Hop|]. left.
  rewrite openings_hlabels. enough (hlabels h tr = []) as -> by done. clear Hop.
  induction Hr as [|tr l f f' Hr IH Hst]; [done|]. rewrite hlabels_snoc, IH. cbn.
  destruct (fstep_srv _ _ _ _ _ _ _ Hst h) as [(-> & _)|(x & sv1 & sv2 & Hx & E & _)]; [done|].
  exfalso. apply Hh. apply (frun_dom _ _ _ _ _ _ _ _ Hr). by eexists.
Qed.

Section cascade.
Context (L : nat) (w : gmap string Z) (fuel : nat) (req : gmap string N) (r : N).
Context (Ht : CreateCascadeTopology servers (Z.of_nat L) = Some t) (HL : 0 < L) (HL31 : (Z.of_nat L ≤ 2 ^ 31)%Z)
        (Hw : round_workload fuel t req = Some (Ok w)).
Notation rpeel := (λ h, peel h r).

Lemma hcap_pos h : h ∈ servers → 0 < hcap t h.
Proof.
  intros Hh. unfold hcap. enough (∃ m, m ∈ filter (λ m, mx_host m = h) (omap (λ e, deref t e.2) (map_to_list (tp_mixes t)))) as [m Hm].
  { destruct (filter _ _); [by apply elem_of_nil in Hm|cbn; lia]. }
  destruct (cascade_form servers L) as (mixes & E' & Hinv). rewrite Ht in E'. injection E' as Et.
  apply elem_of_list_lookup in Hh as [i Hi]. pose proof (lookup_lt_Some _ _ _ Hi) as Hlt.
  exists (final_mix servers L 0 i). apply elem_of_list_filter. split; [cbn [mx_host final_mix]|].
  - assert (pos servers 0 i = i) as ->. { unfold pos. rewrite Nat.add_0_r. by rewrite Nat.mod_small. } by apply list_lookup_total_correct.
  - apply elem_of_list_omap. exists (mix_name 0 (pos servers 0 i), (0, i)). split; [|rewrite Et; by apply cascade_deref].
    apply elem_of_map_to_list. rewrite Et. cbn [tp_mixes]. apply Hinv. split; [left; lia|done].
Qed.

Lemma sent_calls i tr tr' : client_calls tr' = client_calls tr → sent_into t i tr' = sent_into t i tr.
Proof. unfold sent_into. by intros ->. Qed.

Lemma exact tr f f' l i x id v :
  frun tr f → opened_once r req tr → honest_clients t rpeel (round_view r tr) → within_announced t w (round_view r tr) →
  deref t (l, i) = Some x → FServer (mx_host x) (SGet r (mx_name x) (Ok id)) ∈ tr →
  fstep f (FServer (mx_host x) (SGot id (mx_name x) v)) f' →
  ∃ outs, Forall2 (delivers t (opens rpeel) (take (S l) (chain_mixes t i))) (sent_into t i (round_view r tr)) outs ∧ v ≡ₚ Some <$> outs.
Proof.
  intros Hr Hop Hh Hwi Hd Hget Hst.
  destruct (sget_obj _ _ _ _ _ _ Hr Hget) as (sv & ob & Hsv & Ho & Hro).
  destruct (round_run t peel workers taskCap servers r L w fuel req Ht HL Hw tr f Hr Hop Hwi) as (m0 & tr' & s & Hopen & _ & Hrun & HR & Hc & _).
  inversion Hst as [|f1 h1 l1 sv1 sv' Hsv1 Hl Hs E1 E2 E3| | | | | | | | |]; subst f1 h1 l1. unfold hsstep in Hs. inversion Hs; subst.
  rewrite Hsv in Hsv1. injection Hsv1 as <-. match goal with Ha : sv_objs sv !! id = Some ?y, Hb : can_return (ro_state ?y) _ _ |- _ => rename Ha into Ho1; rename Hb into Hcan end.
  rewrite Ho in Ho1. injection Ho1 as <-.
  pose proof (rs_obj _ _ _ _ (rl_srv _ _ _ _ HR) _ _ _ _ Hsv Ho eq_refl) as Hm.
  destruct (delivered false t (Z.of_N (ro_round ob)) (λ h, peel h (ro_round ob)) workers taskCap (hcap t) servers L w fuel req Ht HL HL31 Hw _ Hopen _ _ l i x (ro_state ob) v Hrun
    (honest_calls t _ _ _ Hc Hh)) as (outs & Ho1 & Ho2).
  { by eapply within_calls. }
  { exact Hd. }
  { exact Hm. }
  { exact Hcan. }
  exists outs. by rewrite <-(sent_calls i _ _ Hc).
Qed.

(** No object of an honest round crashes, and neither does its sender. *)
Lemma round_safe tr f h sv id ob : frun tr f → opened_once r req tr → honest_clients t rpeel (round_view r tr) → within_announced t w (round_view r tr) →
  not_ended r tr → fl_srv f !! h = Some sv → sv_objs sv !! id = Some ob → ro_round ob = r →
  mm_panic (ro_state ob) = false ∧ ∀ o, FCrash h id o ∉ tr.
Proof.
  intros Hr Hop Hh Hwi Hend Hsv Ho Hro.
  destruct (round_run t peel workers taskCap servers r L w fuel req Ht HL Hw tr f Hr Hop Hwi) as (m0 & tr' & s & Hopen & _ & Hrun & HR & Hc & _ & Hcl & Hcr).
  destruct (no_crash false t (Z.of_N r) rpeel workers taskCap (hcap t) servers L w fuel req Ht HL HL31 Hw _ Hopen _ _ Hrun
    (honest_calls t _ _ _ Hc Hh)) as (_ & Hp & Hy & _).
  { by eapply within_calls. }
  { intros h' Hin. destruct (Hcl _ Hin) as (id' & Hin'). by eapply Hend. }
  split.
  - eapply Hp. exact (rs_obj _ _ _ _ (rl_srv _ _ _ _ HR) _ _ _ _ Hsv Ho Hro).
  - intros o Hin. eapply Hy. eapply Hcr; [exact Hin|]. by exists sv, ob.
Qed.

Lemma agrees_idle m0 h m : round_opened t servers w (mkSystem m0 [] [] ∅) → m0 !! h = Some m → h ∈ servers → idle m.
Proof.
  intros [Hop _] Hm Hh. destruct (Hop _ Hh) as (ms & m' & _ & Hn & Hm'). cbn in Hm'. rewrite Hm in Hm'. injection Hm' as <-. by eapply fresh_idle.
Qed.

(** ** A round in which nothing has gone wrong *)
Notation ok := (round_ok t peel servers r req w).
Lemma ok_once tr f : frun tr f → ok tr f → opened_once r req tr.
Proof. intros Hr Hk. eapply opened_everywhere; [exact Hr|apply Hk]. Qed.

Lemma open_table tr f h sv id ob : frun tr f → ok tr f → fl_srv f !! h = Some sv → sv_objs sv !! id = Some ob → ro_round ob = r →
  sv_states sv !! r = Some id.
Proof.
  intros Hr Hk Hsv Ho Hro. destruct (frun_host _ _ _ _ _ _ _ _ _ Hr Hsv) as (sv0 & Hrun & [<-| ->]).
  2:{ exfalso. destruct (ok_up _ _ _ _ _ _ _ _ Hk). by eexists _, _. }
  rewrite <-Hro. eapply srun_open; [exact Hrun|exact Ho| |].
  - rewrite Hro, <-openings_hlabels. eapply opened_le; [exact HL|by eapply ok_once].
  - rewrite Hro. intros id' Hin. unfold hlabels in Hin. apply elem_of_list_omap in Hin as (l & Hl & El).
    destruct l; cbn in El; try done; (case_decide; [|done]); injection El as El; try done. subst. by eapply (ok_not_ended _ _ _ _ _ _ _ _ Hk).
Qed.
Lemma opening_obj tr f h id q : frun tr f → FServer h (SNew q req (Ok id)) ∈ tr → has_obj f h id q.
Proof.
  intros Hr Hin. induction Hr as [|tr l f f' Hr IH Hst]; [by apply elem_of_nil in Hin|].
  apply elem_of_app in Hin as [Hin|Hin%elem_of_list_singleton]; [eapply has_obj_step; [exact Hst|]; by apply IH|].
  subst l. inversion Hst as [|f1 h1 l1 sv sv' Hsv Hl Hs E1 E2 E3| | | | | | | | |]; subst. unfold hsstep in Hs. inversion Hs; subst.
  eexists _, _. cbn [with_server fl_srv]. rewrite lookup_insert. split; [done|]. cbn [sv_objs]. rewrite lookup_app_r, Nat.sub_diag by done. done.
Qed.
Lemma ok_obj tr f h : frun tr f → ok tr f → h ∈ servers → ∃ sv id ob, fl_srv f !! h = Some sv ∧ sv_objs sv !! id = Some ob ∧ ro_round ob = r ∧ sv_states sv !! r = Some id.
Proof.
  intros Hr Hk Hh. destruct (opening_label r h req tr) as [id Hin]; [rewrite (ok_opened _ _ _ _ _ _ _ _ Hk _ Hh); by apply elem_of_list_singleton|].
  destruct (opening_obj _ _ _ _ _ Hr Hin) as (sv & ob & H1 & H2 & H3). exists sv, id, ob. split_and!; try done. by eapply open_table.
Qed.

Lemma own_openings q h tr l : fown l = true → openings q h (tr ++ [l]) = openings q h tr.
Proof.
  intros Hl. unfold openings. rewrite omap_app. destruct l as [|? [| | | | | |]| | | | | | | | |]; try done; cbn; by rewrite app_nil_r.
Qed.
Lemma own_view q tr l : fown l = true → round_view q (tr ++ [l]) = round_view q tr.
Proof. intros Hl. rewrite round_view_app. destruct l; try done; cbn; by rewrite app_nil_r. Qed.

Lemma ok_step tr f l f' : frun tr f → ok tr f → fstep f l f' → fown l = true → about_round f r l → ok (tr ++ [l]) f'.
Proof.
  intros Hr Hk Hst Hl Ha.
  assert (frun (tr ++ [l]) f') as Hr' by (by econstructor).
  assert (∀ h sv, fl_srv f !! h = Some sv → sv_panic sv = false) as Hup.
  { intros h sv Hsv. destruct (sv_panic sv) eqn:E; [|done]. destruct (ok_up _ _ _ _ _ _ _ _ Hk). by exists h, sv. }
  assert (∀ h, h ∈ servers → openings r h (tr ++ [l]) = [req]) as K1.
  { intros h Hh. rewrite own_openings by done. by apply Hk. }
  assert (honest_clients t rpeel (round_view r (tr ++ [l]))) as K2 by (rewrite own_view by done; apply Hk).
  assert (within_announced t w (round_view r (tr ++ [l]))) as K3 by (rewrite own_view by done; apply Hk).
  assert (not_ended r (tr ++ [l])) as K4.
  { intros h id [Hin|Hin%elem_of_list_singleton]%elem_of_app; [by eapply (ok_not_ended _ _ _ _ _ _ _ _ Hk)|]. by subst l. }
  split; try done.
  - intros c Hro. destruct (ok_lost _ _ _ _ _ _ _ _ Hk c Hro) as [N1 N2]. rewrite !elem_of_app, !elem_of_list_singleton. split; intros [?|Hin]; try done; subst l; [done|].
    inversion Hst as [| | |f1 n1 c1 n2 sv sv' e En Hsv Hs| | | | | | |]; subst f1 c1. 
    assert (fc_to c ∈ servers) as Hh by (apply (frun_dom _ _ _ _ _ _ _ _ Hr); by eexists).
    destruct (ok_obj _ _ _ Hr Hk Hh) as (sv1 & id & ob & O1 & O2 & O3 & O4). rewrite Hsv in O1. injection O1 as <-.
    unfold hsstep in Hs. rewrite <-Hro in O4. inversion Hs; congruence.
  - intros c Hc Hro. assert (c ∈ fl_void f → False) as Hold by (intros Hv; by eapply (ok_void _ _ _ _ _ _ _ _ Hk)).
    destruct Hst as [| | | | | | | |f q1 c0 q2 hh id sv0 Eq Hf Hsv0 Hp Hfree| |]; cbn [fl_void with_server] in Hc; try (by apply Hold).
    apply elem_of_app in Hc as [Hc|Hc]; [by apply Hold|]. apply elem_of_list_filter in Hc as [He Hc].
    destruct (frun_calls _ _ _ _ _ _ _ Hr) as [C1 _]. unfold about_round in Ha. unfold entry in He. rewrite Hf in He.
    destruct (fc_from c) as [[h' id']|] eqn:Ef; [|done]. cbn in He. injection He as -> _ _.
    destruct (C1 c hh id') as (sv1 & ob1 & A1 & A2 & A3); [unfold all_calls; rewrite !elem_of_app; tauto|done|].
    destruct (C1 c0 hh id) as (sv2 & ob2 & B1 & B2 & B3); [unfold all_calls; rewrite Eq, !elem_of_app, elem_of_cons; tauto|done|].
    rewrite A1 in B1. injection B1 as <-.
    assert (id' = id) as ->.
    { eapply frun_unique; [exact Hr|exact A1|eapply opened_le; [exact HL|by eapply ok_once]|exact A2|exact B2|congruence|congruence]. }
    apply (Hfree c); [rewrite !elem_of_app; tauto|done].
  - intros (h & sv' & Hsv' & Hp').
    destruct (fstep_srv _ _ _ _ _ _ _ Hst h) as [(_ & E)|(x & sv1 & sv2 & Hx & E & Hs & E')].
    { rewrite E in Hsv'. rewrite (Hup _ _ Hsv') in Hp'. done. }
    assert (∀ id ob, has_obj f h id r → sv_objs sv' !! id = Some ob → mm_panic (ro_state ob) = false ∧ ∀ o, FCrash h id o ∉ tr ++ [l]) as Hsafe.
    { intros id ob Hob Ho. destruct (has_obj_step _ _ _ _ _ _ _ _ _ _ Hst Hob) as (sv3 & ob3 & A1 & A2 & A3). rewrite Hsv' in A1. injection A1 as <-. rewrite Ho in A2. injection A2 as <-.
      eapply round_safe; [exact Hr'|by eapply opened_everywhere|done|done|done|exact Hsv'|exact Ho|exact A3]. }
    rewrite Hsv' in E'. injection E' as Esv. destruct (downable l) eqn:Ed.
    + destruct l as [| | | | | | | | | |h0 id o]; try done. cbn in Hx. case_decide as Hh0; [subst h0|done]. pose proof Ha as (svx & obx & X1 & X2 & X3).
      destruct (has_obj_step _ _ _ _ _ _ _ _ _ _ Hst Ha) as (sv3 & ob3 & A1 & A2 & A3). rewrite Hsv' in A1. injection A1 as <-.
      destruct (Hsafe _ _ Ha A2) as [_ Hno]. apply (Hno o). apply elem_of_app. right. by apply elem_of_list_singleton.
    + subst sv'. destruct (sstep_panic _ _ _ _ Hs Hp') as [(q & rq & ->)|(id & lb & ob & -> & Ho & Hpo)].
      { destruct l; cbn in Hx; try (case_decide; [|done]); try done. injection Hx as ->. done. }
      enough (has_obj f h id r) as Hob by (destruct (Hsafe _ _ Hob Ho); congruence).
      destruct l as [|h0 l0| | | |c id0|h0 id0 o cs| | | |]; cbn in Hx; try done; try (case_decide as Hh0; [subst h0 || rewrite <-Hh0|done]); try done.
      * injection Hx as ->. exact Ha.
      * injection Hx as -> _. destruct (frun_calls _ _ _ _ _ _ _ Hr) as [_ C2]. cbn in Ha. rewrite <-Ha. apply C2. inversion Hst; subst.
        match goal with Hx : fl_hand f = _ |- _ => rewrite Hx end. apply elem_of_app. right. left.
      * injection Hx as -> _. exact Ha.
Qed.

Lemma hlabel_own h l x : fown l = true → hlabel h l = Some x → ∀ q rq res, x ≠ SNew q rq res.
Proof. intros Hl Hx q rq res ->. destruct l; cbn in Hx; try (case_decide; [|done]); try done. injection Hx as ->. done. Qed.
Lemma agrees_fwd m0 f l f' : fstep f l f' → fown l = true → agrees r m0 f → agrees r m0 f'.
Proof.
  intros Hst Hl Hag h sv' id ob' Hsv' Ho' Hro'.
  destruct (fstep_srv _ _ _ _ _ _ _ Hst h) as [(_ & E)|(x & sv1 & sv2 & Hx & E & Hs & E')].
  { rewrite E in Hsv'. by eapply Hag. }
  rewrite Hsv' in E'. injection E' as ->.
  assert (sv_objs sv2 !! id = Some ob') as Ho by (destruct (downable l); done). clear Ho' Hsv'.
  destruct (sstep_kind _ _ _ _ _ _ _ _ _ Hs) as [(id' & lb & o & y & -> & Hob & _ & Eo)|[(q & rq & ob & -> & _)|(_ & _ & Eo)]].
  - rewrite Eo in Ho. destruct (decide (id' = id)) as [->|Hne].
    + rewrite list_lookup_insert in Ho by (by eapply lookup_lt_Some). injection Ho as <-. by eapply (Hag h sv1 id o).
    + rewrite list_lookup_insert_ne in Ho by done. by eapply Hag.
  - by destruct (hlabel_own _ _ _ Hl Hx q rq (Ok (length (sv_objs sv1)))).
  - rewrite Eo in Ho. by eapply Hag.
Qed.

Context (Hcap : ∀ h, h ∈ servers → 0 < workers h ∧ 0 < taskCap h).
Notation yrunf := (yrung false t (Z.of_N r) rpeel workers taskCap (hcap t)).

(** The state of the network with one round that belongs to a state. *)
Record twin (m0 : gmap string mixers) (tr : list flabel) (f : fleet) (tr' : list ylabel) (s : system) : Prop := {
  tw_open : round_opened t servers w (mkSystem m0 [] [] ∅);
  tw_agrees : agrees r m0 f;
  tw_run : yrunf (mkSystem m0 [] [] ∅) tr' s;
  tw_rel : Rel r m0 f s;
  tw_calls : client_calls tr' = client_calls (round_view r tr);
  tw_lose : ∀ c, YLose c ∉ tr';
  tw_close : ∀ h, YHost h LClose ∉ tr' }.
Lemma twin_ex tr f : frun tr f → ok tr f → ∃ m0 tr' s, twin m0 tr f tr' s.
Proof.
  intros Hr Hk. destruct (round_run t peel workers taskCap servers r L w fuel req Ht HL Hw tr f Hr (ok_once _ _ Hr Hk) (ok_within _ _ _ _ _ _ _ _ Hk))
    as (m0 & tr' & s & Hopen & Hag & Hrun & HR & Hc & Hlo & Hcl & Hcr).
  exists m0, tr', s. split; try done.
  - intros c Hin. destruct (Hlo _ Hin) as (c' & [H1|H1] & H2); by destruct (ok_lost _ _ _ _ _ _ _ _ Hk c' H2).
  - intros h Hin. destruct (Hcl _ Hin) as (id & H1). by destruct (ok_not_ended _ _ _ _ _ _ _ _ Hk h id).
Qed.
Lemma m0_idle m0 : round_opened t servers w (mkSystem m0 [] [] ∅) → ∀ h m, m0 !! h = Some m → idle m ∧ h ∈ servers.
Proof.
  intros Hop h m Hm. destruct (decide (h ∈ servers)) as [Hh|Hh].
  - split; [|done]. by eapply agrees_idle.
  - destruct Hop as (_ & Hno & _). specialize (Hno _ Hh). cbn in Hno. congruence.
Qed.
Lemma ok_nopanic tr f : ok tr f → ∀ h sv, fl_srv f !! h = Some sv → sv_panic sv = false.
Proof. intros Hk h sv Hsv. destruct (sv_panic sv) eqn:E; [|done]. destruct (ok_up _ _ _ _ _ _ _ _ Hk). by exists h, sv. Qed.
Lemma twin_honest m0 tr f tr' s : ok tr f → twin m0 tr f tr' s → honest_clients t rpeel tr' ∧ within_announced t w tr'.
Proof.
  intros Hk Htw. split; [eapply honest_calls; [by eapply tw_calls|apply Hk]|eapply within_calls; [by eapply tw_calls|apply Hk]].
Qed.
Lemma twin_to m0 tr f tr' s : ok tr f → twin m0 tr f tr' s → ∀ c h, c ∈ sy_queue s ++ sy_net s → cl_from c = Some h → cl_to c ∈ servers.
Proof.
  intros Hk Htw. destruct (twin_honest _ _ _ _ _ Hk Htw) as [Hh _].
  apply (calls_inv false t (Z.of_N r) rpeel workers taskCap (hcap t) servers L w fuel req Ht HL HL31 Hw _ (tw_open _ _ _ _ _ Htw) _ _ (tw_run _ _ _ _ _ Htw) Hh).
Qed.
Lemma lifted m0 tr f tr' s y s' : frun tr f → ok tr f → twin m0 tr f tr' s →
  ystepg false t (Z.of_N r) rpeel workers taskCap (hcap t) s y s' → own_step y = true → can t peel workers taskCap r f.
Proof.
  intros Hr Hk Htw Hy Ho. eapply (lift t peel workers taskCap servers r tr f m0 s Hr); try exact Hy; try done.
  - by eapply ok_nopanic.
  - intros h. eapply opened_le; [exact HL|by eapply ok_once].
  - intros c Hc. by apply (ok_lost _ _ _ _ _ _ _ _ Hk c Hc).
  - apply Hk.
  - apply Htw.
  - eapply m0_idle. apply Htw.
  - by eapply twin_to.
Qed.

Lemma complete_round tr f i l x : frun tr f → ok tr f → round_settled t peel workers taskCap r f →
  sent_into t i (round_view r tr) ≠ [] → Z.of_nat (length (sent_into t i (round_view r tr))) = announced t w i →
  deref t (l, i) = Some x →
  ∃ id v f1 f2, fstep f (FServer (mx_host x) (SGet r (mx_name x) (Ok id))) f1 ∧ fstep f1 (FServer (mx_host x) (SGot id (mx_name x) v)) f2.
Proof.
  intros Hr Hk Hset Hne Hlen Hd. destruct (twin_ex _ _ Hr Hk) as (m0 & tr' & s & Htw).
  destruct (twin_honest _ _ _ _ _ Hk Htw) as [Hh Hwi].
  destruct (completes false t (Z.of_N r) rpeel workers taskCap (hcap t) servers L w fuel req Ht HL HL31 Hw _ (tw_open _ _ _ _ _ Htw) tr' s
    (tw_run _ _ _ _ _ Htw) Hh Hwi (tw_close _ _ _ _ _ Htw) (tw_lose _ _ _ _ _ Htw)) with (i := i) (l := l) (x := x) as (m & v & Hm & Hcan).
  { intros h Hs. destruct (Hcap h Hs). split_and!; try done. by apply hcap_pos. }
  { intros y s' Hy. destruct (own_step y) eqn:Ho; [|done]. exfalso. destruct (lifted _ _ _ _ _ _ _ Hr Hk Htw Hy Ho) as (lb & f' & H1 & H2 & H3). by eapply Hset. }
  { by rewrite (sent_calls i _ _ (tw_calls _ _ _ _ _ Htw)). }
  { by rewrite (sent_calls i _ _ (tw_calls _ _ _ _ _ Htw)). }
  { done. }
  assert (mx_host x ∈ servers) as Hs.
  { by eapply deref_host. }
  destruct (ok_obj _ _ _ Hr Hk Hs) as (sv & id & ob & Hsv & Ho & Hro & Htab).
  pose proof (rs_obj _ _ _ _ (rl_srv _ _ _ _ (tw_rel _ _ _ _ _ Htw)) _ _ _ _ Hsv Ho Hro) as Hm'. rewrite Hm in Hm'. injection Hm' as ->.
  exists id, v. eexists _, _. split.
  - eapply f_server; [exact Hsv|done|]. eapply ss_get; [by eapply ok_nopanic|exact Htab|exact Ho|]. by destruct Hcan as (st & -> & _).
  - eapply f_server; [cbn [with_server fl_srv]; apply lookup_insert|done|]. eapply (ss_got _ _ _ _ _ _ _ (sv_reads sv) id (mx_name x) []); [done|done|exact Ho|exact Hcan].
Qed.

(** ** The round can always be finished by its own steps *)
Definition left_over (f : fleet) : nat :=
  length (filter (λ c, rq_round (fc_rq c) = r) (fl_net f)) + length (filter (λ c, rq_round (fc_rq c) = r) (fl_wait f)).
Lemma left_over_step f l f' : fstep f l f' → about_round f r l → (∃ c id, l = FAccept c id) ∨ (∃ c, l = FRefuse c ∨ l = FReturn c) → left_over f' < left_over f.
Proof.
  intros Hst Ha Hl. unfold left_over.
  destruct Hst as [f hh rq|f hh l sv0 sv' Hsv0 Hl0 Hs|f n1 c0 n2 sv0 sv' id En Hsv0 Hs|f n1 c0 n2 sv0 sv' e En Hsv0 Hs|f n1 c0 n2 En
    |f h1 c0 id h2 sv0 sv' Eh Hsv0 Hs|f hh id o sv0 ob sv' cs Hsv0 Ho Hfree Hs Hit|f hh id o sv0 ob sv' Hsv0 Ho Hfree Hs Hit
    |f q1 c0 q2 hh id sv0 Eq Hf Hsv0 Hp Hfree|f w1 c0 w2 b1 a b2 hh id sv0 Ew Eb Ee Hf Hsv0 Hp|f w1 c0 w2 Ew];
    try (exfalso; clear -Hl; by destruct Hl as [(? & ? & [=])|(? & [[=]|[=]])]); cbn [fl_net fl_wait] in *; cbn in Ha.
  - rewrite En, !filter_app, filter_cons, decide_True, !app_length by done. cbn [length]. lia.
  - rewrite En, !filter_app, filter_cons, decide_True, !app_length by done. cbn [length]. lia.
  - rewrite Ew, !filter_app, filter_cons, decide_True, !app_length by done. cbn [length]. lia.
Qed.
Lemma twin_step m0 tr f tr' s l f' : frun tr f → ok tr f → twin m0 tr f tr' s → fstep f l f' → fown l = true → about_round f r l →
  ∃ ls s', twin m0 (tr ++ [l]) f' (tr' ++ ls) s' ∧
    ((∃ y, ls = [y] ∧ own_step y = true ∧ ystepg false t (Z.of_N r) rpeel workers taskCap (hcap t) s y s') ∨ left_over f' < left_over f).
Proof.
  intros Hr Hk Htw Hst Hl Ha. pose proof (ok_step _ _ _ _ Hr Hk Hst Hl Ha) as Hk'. assert (frun (tr ++ [l]) f') as Hr' by (by econstructor).
  destruct Htw as [T1 T2 T3 T4 T5 T6 T7]. pose proof (agrees_fwd _ _ _ _ Hst Hl T2) as T2'.
  destruct (sim_step t peel workers taskCap servers r m0 tr f s l f' Hr) as (ls & s' & Him & HR' & [L1 L2 L3 L4 L5]); try done.
  { intros h. eapply opened_le; [exact HL|by eapply ok_once]. }
  exists ls, s'. split.
  - split; try done.
    + by eapply image_run.
    + by rewrite round_view_app, !client_calls_app, T5, L1.
    + intros c [Hin|Hin]%elem_of_app; [by eapply T6|]. destruct (L2 _ Hin) as (c' & [->| ->] & Hro); destruct (ok_lost _ _ _ _ _ _ _ _ Hk' c' Hro) as [N1 N2].
      * apply N1. apply elem_of_app. right. by apply elem_of_list_singleton.
      * apply N2. apply elem_of_app. right. by apply elem_of_list_singleton.
    + intros h [Hin|Hin]%elem_of_app; [by eapply T7|]. by destruct (L3 _ Hin) as (id & -> & _).
  - destruct (L5 Hl Ha) as [[HF Hne]|Hlab]; [left|right; by eapply left_over_step].
    destruct Him as [[-> ->]|(y & -> & Hy)]; [done|]. apply Forall_inv in HF. exists y. split; [done|split; [exact HF|exact Hy]].
Qed.
Lemma settled_or_can m0 tr f tr' s : frun tr f → ok tr f → twin m0 tr f tr' s → can t peel workers taskCap r f ∨ round_settled t peel workers taskCap r f.
Proof.
  intros Hr Hk Htw. destruct (twin_honest _ _ _ _ _ Hk Htw) as [Hh Hwi]. pose proof (ok_nopanic _ _ Hk) as Hup.
  destruct (list_search (λ c, ¬ (rq_round (fc_rq c) = r ∧ fc_to c ∈ servers)) (λ c, rq_round (fc_rq c) = r ∧ fc_to c ∈ servers) (fl_net f)) as [Hn|(c & Hc & Hro & Hto)].
  { intros x _. destruct (decide (rq_round (fc_rq x) = r ∧ fc_to x ∈ servers)); auto. }
  2:{ left. apply (frun_dom _ _ _ _ _ _ _ _ Hr) in Hto as [sv Hsv]. by eapply can_net. }
  destruct (list_search (λ c, rq_round (fc_rq c) ≠ r) (λ c, rq_round (fc_rq c) = r) (fl_wait f)) as [Hwt|(c & Hc & Hro)].
  { intros x _. destruct (decide (rq_round (fc_rq x) = r)); auto. }
  2:{ left. eapply (can_wait t peel workers taskCap servers r tr f m0 s Hr); try done.
      - intros h. eapply opened_le; [exact HL|by eapply ok_once].
      - intros c' Hc'. by apply (ok_lost _ _ _ _ _ _ _ _ Hk c' Hc').
      - apply Hk.
      - apply Htw.
      - eapply m0_idle. apply Htw.
      - by eapply twin_to. }
  destruct (sys_progress false t (Z.of_N r) rpeel workers taskCap (hcap t) servers L w fuel req Ht HL HL31 Hw _ (tw_open _ _ _ _ _ Htw) tr' s
    (tw_run _ _ _ _ _ Htw) Hh Hwi (tw_close _ _ _ _ _ Htw)) as [Hq|(y & s' & Ho & Hy)].
  { intros h Hs. destruct (Hcap h Hs). split_and!; try done. by apply hcap_pos. }
  2:{ left. by eapply lifted. }
  right. pose proof (quiet_settled false t (Z.of_N r) rpeel workers taskCap (hcap t) servers w _ (tw_open _ _ _ _ _ Htw) tr' s (tw_run _ _ _ _ _ Htw) Hq) as Hset.
  intros l f' Hst Hl Ha. destruct (twin_step _ _ _ _ _ _ _ Hr Hk Htw Hst Hl Ha) as (ls & s' & Htw' & _).
  destruct Htw as [T1 T2 T3 T4 T5 T6 T7]. pose proof (agrees_fwd _ _ _ _ Hst Hl T2) as T2'. pose proof (ok_step _ _ _ _ Hr Hk Hst Hl Ha) as Hk'. assert (frun (tr ++ [l]) f') as Hr' by (by econstructor).
  destruct (sim_step t peel workers taskCap servers r m0 tr f s l f' Hr) as (ls1 & s1 & Him & HR' & [L1 L2 L3 L4 L5]); try done.
  { intros h. eapply opened_le; [exact HL|by eapply ok_once]. }
  destruct (L5 Hl Ha) as [[HF Hne]|[(c & id & ->)|(c & [->| ->])]].
  - destruct Him as [[-> ->]|(y & -> & Hy)]; [done|]. apply Forall_inv in HF. rewrite (Hset _ _ Hy) in HF. done.
  - inversion Hst as [| |f1 n1 c1 n2 sv sv' id1 En Hsv Hs| | | | | | | |]; subst f1 c1 id1. apply (Hn c); [rewrite En; apply elem_of_app; right; left|].
    split; [exact Ha|]. apply (frun_dom _ _ _ _ _ _ _ _ Hr). by eexists.
  - inversion Hst as [| | |f1 n1 c1 n2 sv sv' e En Hsv Hs| | | | | | |]; subst f1 c1. apply (Hn c); [rewrite En; apply elem_of_app; right; left|].
    split; [exact Ha|]. apply (frun_dom _ _ _ _ _ _ _ _ Hr). by eexists.
  - inversion Hst as [| | | | | | | | |f1 w1 c1 w2 b1 a b2 hh id sv0 Ew Eb Ee Hf Hsv0 Hp|]; subst f1 c1. apply (Hwt c); [rewrite Ew; apply elem_of_app; right; left|exact Ha].
Qed.

Lemma finish tr f : frun tr f → ok tr f →
  ∃ tr2 f2, frun (tr ++ tr2) f2 ∧ ok (tr ++ tr2) f2 ∧ rtc (own_round_step t peel workers taskCap r) f f2 ∧
    round_view r (tr ++ tr2) = round_view r tr ∧ round_settled t peel workers taskCap r f2.
Proof.
  intros Hr Hk. destruct (twin_ex _ _ Hr Hk) as (m0 & tr' & s & Htw).
  destruct (bounded false t (Z.of_N r) rpeel workers taskCap (hcap t) servers L w fuel req Ht HL HL31 Hw _ (tw_open _ _ _ _ _ Htw) (client_calls (round_view r tr))) as [N HN].
  assert (∀ n k tr1 f1 tr1' s1, frun tr1 f1 → ok tr1 f1 → twin m0 tr1 f1 tr1' s1 → round_view r tr1 = round_view r tr →
    N - length (filter (λ l, own_step l = true) tr1') ≤ n → left_over f1 ≤ k →
    ∃ tr2 f2, frun (tr1 ++ tr2) f2 ∧ ok (tr1 ++ tr2) f2 ∧ rtc (own_round_step t peel workers taskCap r) f1 f2 ∧
    round_view r (tr1 ++ tr2) = round_view r tr ∧ round_settled t peel workers taskCap r f2) as Hgen.
  2:{ eapply (Hgen _ _ tr f tr' s Hr Hk Htw eq_refl (le_n _) (le_n _)). }
  induction n as [n IHn] using lt_wf_ind. induction k as [k IHk] using lt_wf_ind. intros tr1 f1 tr1' s1 Hr1 Hk1 Htw1 Hv Hn Hkk.
  destruct (settled_or_can _ _ _ _ _ Hr1 Hk1 Htw1) as [(l & f' & Hst & Hl & Ha)|Hset].
  2:{ exists [], f1. rewrite app_nil_r. split_and!; try done. }
  assert (frun (tr1 ++ [l]) f') as Hr' by (by econstructor). pose proof (ok_step _ _ _ _ Hr1 Hk1 Hst Hl Ha) as Hk'.
  assert (round_view r (tr1 ++ [l]) = round_view r tr) as Hv' by (by rewrite own_view).
  destruct (twin_step _ _ _ _ _ _ _ Hr1 Hk1 Htw1 Hst Hl Ha) as (ls & s' & Htw' & Hdec).
  assert (∃ n' k', N - length (filter (λ l, own_step l = true) (tr1' ++ ls)) ≤ n' ∧ left_over f' ≤ k' ∧ (n' < n ∨ n' = n ∧ k' < k)) as (n' & k' & D1 & D2 & D3).
  { destruct Hdec as [(y & -> & Hy & _)|Hd].
    - exists (N - length (filter (λ l, own_step l = true) (tr1' ++ [y]))), (left_over f'). split; [done|]. split; [done|]. left.
      destruct (twin_honest _ _ _ _ _ Hk' Htw') as [Hh' _].
      pose proof (HN _ _ (tw_run _ _ _ _ _ Htw') Hh') as Hb. rewrite (tw_calls _ _ _ _ _ Htw'), Hv' in Hb. specialize (Hb eq_refl).
      rewrite filter_app, app_length, filter_cons, decide_True in Hb |- * by done. cbn [length filter list_filter] in *. lia.
    - exists n, (left_over f'). split; [|split; [done|right; split; [done|lia]]]. rewrite filter_app, app_length. lia. }
  assert (∃ tr2 f2, frun ((tr1 ++ [l]) ++ tr2) f2 ∧ ok ((tr1 ++ [l]) ++ tr2) f2 ∧ rtc (own_round_step t peel workers taskCap r) f' f2 ∧
    round_view r ((tr1 ++ [l]) ++ tr2) = round_view r tr ∧ round_settled t peel workers taskCap r f2) as (tr2 & f2 & F1 & F2 & F3 & F4 & F5).
  { destruct D3 as [D3|[-> D3]]; [by eapply (IHn n' D3 k')|by eapply (IHk k' D3)]. }
  exists ([l] ++ tr2), f2. rewrite app_assoc. split_and!; try done. eapply rtc_l; [|exact F3]. exists l. by split_and!.
Qed.
End cascade.
End main.
