(** Every round of a network with many rounds is a run of the one-round network. *)
From stdpp Require Import gmap.
From Verif.Base Require Import Base.
From Verif.Model Require Import Topology Shuffle Onion Mixer Rounds System Fleet.
From Verif.Spec Require Import MixerSpec MessagesSpec RoundsSpec SystemSpec FleetSpec.
From Verif.Proofs Require Import TopologyProofs MixerInv MixerLive RoundsProofs SystemProofs FleetProofs.

Lemma omap_perm {A B} (f : A → option B) (l k : list A) : l ≡ₚ k → omap f l ≡ₚ omap f k.
Proof.
  induction 1 as [|x l k H IH|x y l|l k j H1 IH1 H2 IH2]; cbn; [done| | |by etrans].
  - destruct (f x); [by f_equiv|done].
  - destruct (f x), (f y); try done. apply Permutation_swap.
Qed.
Lemma perm_elem {A} (c : A) (l : list A) k1 k2 : l ≡ₚ k1 ++ c :: k2 → ∃ l1 l2, l = l1 ++ c :: l2 ∧ l1 ++ l2 ≡ₚ k1 ++ k2.
Proof.
  intros Hp. assert (c ∈ l) as Hc by (rewrite Hp; set_solver). apply elem_of_list_split in Hc as (l1 & l2 & ->).
  exists l1, l2. split; [done|]. apply (Permutation_cons_inv (a := c)). rewrite !Permutation_middle. done.
Qed.

Section sim.
Context (t : topology) (peel : string → N → onion → option (option onion)) (workers taskCap : string → nat)
        (servers : list string) (r : N).
Notation fstep := (fstep t peel workers taskCap).
Notation hsstep := (hsstep t peel workers taskCap).
Notation frun := (frun t peel workers taskCap (fleet_start servers)).
Notation rpeel := (λ h, peel h r).

(** Capacity of the output channel at h (mixer.go:96). *)
Definition hcap (h : string) : nat :=
  2 * length (filter (λ m, mx_host m = h) (omap (λ e, deref t e.2) (map_to_list (tp_mixes t)))).
Notation ystepf := (ystepg false t (Z.of_N r) rpeel workers taskCap hcap).
Notation yrunf := (yrung false t (Z.of_N r) rpeel workers taskCap hcap).

Definition proj (c : fcall) : option call :=
  if decide (rq_round (fc_rq c) = r) then Some (mkCall (fst <$> fc_from c) (fc_to c) (fc_rq c)) else None.
Lemma proj_r c : rq_round (fc_rq c) = r → proj c = Some (mkCall (fst <$> fc_from c) (fc_to c) (fc_rq c)).
Proof. intros H. unfold proj. by rewrite decide_True. Qed.
Lemma proj_other c : rq_round (fc_rq c) ≠ r → proj c = None.
Proof. intros H. unfold proj. by rewrite decide_False. Qed.
Lemma proj_calls h id round cs out ls : sender_iteration round t h out ls (Some cs) →
  omap proj (fcalls_of h id cs) = if decide (Z.to_N (round mod 2 ^ 32) = r) then calls_of h cs else [].
Proof.
  intros Hit. assert (∀ c, c ∈ cs → rq_round c.2 = Z.to_N (round mod 2 ^ 32)) as Hr.
  { intros c Hc. by eapply sender_round. }
  clear Hit. induction cs as [|c cs IH]; [by case_decide|]. cbn [fcalls_of fmap list_fmap omap list_omap].
  fold (fcalls_of h id cs). rewrite IH by (intros ??; apply Hr; by right). unfold proj. cbn [fc_rq fc_from fc_to fst fmap option_fmap option_map].
  rewrite (Hr c) by left. case_decide; done.
Qed.

Section m0.
Context (m0 : gmap string mixers).
(** The objects of the round started in the states of [m0]. *)
Definition agrees (f : fleet) : Prop :=
  ∀ h sv id ob, fl_srv f !! h = Some sv → sv_objs sv !! id = Some ob → ro_round ob = r → m0 !! h = Some (ro_init ob).

Definition unique (sv : server) : Prop :=
  ∀ i j a b, sv_objs sv !! i = Some a → sv_objs sv !! j = Some b → ro_round a = r → ro_round b = r → i = j.

Record RelS (srv : gmap string server) (ys : gmap string mixers) : Prop := {
  rs_obj : ∀ h sv id ob, srv !! h = Some sv → sv_objs sv !! id = Some ob → ro_round ob = r → ys !! h = Some (ro_state ob);
  rs_none : ∀ h, (∀ sv id ob, srv !! h = Some sv → sv_objs sv !! id = Some ob → ro_round ob ≠ r) → ys !! h = m0 !! h }.

Lemma relS_same srv ys h sv sv2 : RelS srv ys → srv !! h = Some sv → sv_objs sv2 = sv_objs sv → RelS (<[h := sv2]> srv) ys.
Proof.
  intros [R1 R2] Hsv E. split.
  - intros h' sv' id ob. destruct (decide (h = h')) as [<-|Hne]; [|rewrite lookup_insert_ne by done; by apply R1].
    rewrite lookup_insert. intros [= <-]. rewrite E. by apply R1.
  - intros h' Hno. apply R2. intros sv' id ob. destruct (decide (h = h')) as [<-|Hne].
    + rewrite Hsv. intros [= <-]. rewrite <-E. apply Hno. by rewrite lookup_insert.
    + intros H1 H2. eapply Hno; [|exact H2]. by rewrite lookup_insert_ne.
Qed.
Lemma relS_obj srv ys h sv sv2 id o lb x : RelS srv ys → srv !! h = Some sv → unique sv → sv_objs sv !! id = Some o → ro_round o = r →
  sv_objs sv2 = <[id := obj_step o lb x]> (sv_objs sv) → RelS (<[h := sv2]> srv) (<[h := x]> ys).
Proof.
  intros [R1 R2] Hsv Hu Ho Hro E. assert (id < length (sv_objs sv)) as Hlt by (by eapply lookup_lt_Some). split.
  - intros h' sv' id' ob. destruct (decide (h = h')) as [<-|Hne]; [|rewrite !lookup_insert_ne by done; by apply R1].
    rewrite !lookup_insert. intros [= <-]. rewrite E. destruct (decide (id' = id)) as [->|Hid].
    + rewrite list_lookup_insert by done. by intros [= <-].
    + rewrite list_lookup_insert_ne by done. intros H1 H2. destruct Hid. by eapply Hu.
  - intros h' Hno. destruct (decide (h = h')) as [<-|Hne].
    + destruct (Hno sv2 id (obj_step o lb x)); [by rewrite lookup_insert| |done]. rewrite E. by apply list_lookup_insert.
    + rewrite lookup_insert_ne by done. apply R2. intros sv' id' ob H1 H2. eapply Hno; [|exact H2]. by rewrite lookup_insert_ne.
Qed.
Lemma relS_other srv ys h sv sv2 id o lb x : RelS srv ys → srv !! h = Some sv → sv_objs sv !! id = Some o → ro_round o ≠ r →
  sv_objs sv2 = <[id := obj_step o lb x]> (sv_objs sv) → RelS (<[h := sv2]> srv) ys.
Proof.
  intros [R1 R2] Hsv Ho Hro E. assert (id < length (sv_objs sv)) as Hlt by (by eapply lookup_lt_Some). split.
  - intros h' sv' id' ob. destruct (decide (h = h')) as [<-|Hne]; [|rewrite !lookup_insert_ne by done; by apply R1].
    rewrite !lookup_insert. intros [= <-]. rewrite E. destruct (decide (id' = id)) as [->|Hid].
    + rewrite list_lookup_insert by done. intros [= <-]. done.
    + rewrite list_lookup_insert_ne by done. by apply R1.
  - intros h' Hno. apply R2. intros sv' id' ob. destruct (decide (h = h')) as [<-|Hne].
    + rewrite Hsv. intros [= <-] Hob. destruct (decide (id' = id)) as [->|Hid]; [by simplify_eq|].
      apply (Hno sv2 id'); [by rewrite lookup_insert|]. rewrite E. by rewrite list_lookup_insert_ne.
    + intros H1 H2. eapply Hno; [|exact H2]. by rewrite lookup_insert_ne.
Qed.
Lemma relS_new srv ys h sv sv2 ob : RelS srv ys → srv !! h = Some sv → sv_objs sv2 = sv_objs sv ++ [ob] → ro_state ob = ro_init ob →
  unique sv2 → (ro_round ob = r → m0 !! h = Some (ro_init ob)) → RelS (<[h := sv2]> srv) ys.
Proof.
  intros [R1 R2] Hsv E Hi Hu Hm. split.
  - intros h' sv' id' o. destruct (decide (h = h')) as [<-|Hne]; [|rewrite !lookup_insert_ne by done; by apply R1].
    rewrite !lookup_insert. intros [= <-]. rewrite E. intros [Ho|(Hlen & Ho)]%lookup_app_Some Hro; [by eapply R1|].
    apply list_lookup_singleton_Some in Ho as [Ho <-]. rewrite Hi, <-Hm by done. apply R2.
    intros svx id2 o2 Hsvx Ho2 Hro2. rewrite Hsv in Hsvx. injection Hsvx as <-. assert (id2 = id') as ->.
    { eapply Hu; [| |exact Hro2|exact Hro]; rewrite E; [by apply lookup_app_l_Some|]. rewrite lookup_app_r by done.
      by apply list_lookup_singleton_Some. }
    apply lookup_lt_Some in Ho2. lia.
  - intros h' Hno. apply R2. intros sv' id' o. destruct (decide (h = h')) as [<-|Hne].
    + rewrite Hsv. intros [= <-] Ho. apply (Hno sv2 id'); [by rewrite lookup_insert|]. rewrite E. by apply lookup_app_l_Some.
    + intros H1 H2. eapply Hno; [|exact H2]. by rewrite lookup_insert_ne.
Qed.

Record Rel (f : fleet) (s : system) : Prop := {
  rl_srv : RelS (fl_srv f) (sy_srv s);
  rl_up : ∀ h sv, fl_srv f !! h = Some sv → sv_panic sv = false → h ∉ sy_down s;
  rl_queue : sy_queue s ≡ₚ omap proj (fl_queue f);
  rl_net : sy_net s ≡ₚ omap proj (fl_net f ++ (fl_hand f).*1) }.

(** What the labels of a step and its image have to do with each other. *)
Record Lab (f : fleet) (l : flabel) (ls : list ylabel) : Prop := {
  lb_client : client_calls ls = client_calls (round_view r [l]);
  lb_lose : ∀ c, YLose c ∈ ls → ∃ c', (l = FLose c' ∨ l = FRefuse c') ∧ rq_round (fc_rq c') = r;
  lb_close : ∀ h, YHost h LClose ∈ ls → ∃ id, l = FServer h (SObj id LClose) ∧ has_obj f h id r;
  lb_crash : ∀ h id o, l = FCrash h id o → has_obj f h id r → YCrash h o ∈ ls;
  lb_own : fown l = true → about_round f r l → Forall (λ y, own_step y = true) ls ∧ ls ≠ [] ∨ (∃ c id, l = FAccept c id) ∨ (∃ c, l = FRefuse c ∨ l = FReturn c) }.

(** The capacity of an object. *)
Lemma cap_of tr f h sv id ob : frun tr f → fl_srv f !! h = Some sv → sv_objs sv !! id = Some ob → ro_cap ob = hcap h.
Proof.
  intros Hr Hsv Ho. destruct (frun_objs _ _ _ _ _ _ _ _ _ _ _ Hr Hsv Ho) as (req & fuel & w & ms & _ & _ & Hh & _ & ->).
  unfold hcap. by rewrite Hh.
Qed.

Lemma up_upd (srv : gmap string server) (D : gset string) h sv sv2 :
  (∀ h sv, srv !! h = Some sv → sv_panic sv = false → h ∉ D) → srv !! h = Some sv → sv_panic sv = false →
  ∀ h' sv', <[h := sv2]> srv !! h' = Some sv' → sv_panic sv' = false → h' ∉ D.
Proof.
  intros HD Hsv Hp h' sv'. destruct (decide (h = h')) as [<-|Hne]; [|rewrite lookup_insert_ne by done; apply HD].
  rewrite lookup_insert. intros [= <-] _. by eapply HD.
Qed.

Definition image (s : system) (ls : list ylabel) (s' : system) : Prop :=
  (ls = [] ∧ s' = s) ∨ ∃ y, ls = [y] ∧ ystepf s y s'.
Lemma image_run s0 tr s ls s' : yrunf s0 tr s → image s ls s' → yrunf s0 (tr ++ ls) s'.
Proof. intros Hr [[-> ->]|(y & -> & Hs)]; [by rewrite app_nil_r|by econstructor]. Qed.

Lemma agrees_back f l f' : fstep f l f' → agrees f' → agrees f.
Proof.
  intros Hst Ha h sv id ob Hsv Ho Hro. destruct (fstep_pres _ _ _ _ _ _ _ _ _ _ _ Hst Hsv Ho) as (sv' & ob' & H1 & H2 & H3 & <- & _).
  eapply Ha; [done|done|congruence].
Qed.
Lemma unique_of tr f h sv : frun tr f → length (openings r h tr) ≤ 1 → fl_srv f !! h = Some sv → unique sv.
Proof. intros Hr Hl Hsv i j a b. by eapply frun_unique. Qed.
Lemma openings_mono tr l h : length (openings r h tr) ≤ length (openings r h (tr ++ [l])).
Proof. unfold openings. rewrite omap_app, app_length. lia. Qed.

(** A step of object id at h in the round. *)
Lemma obj_hstep tr f h sv id o lb x : frun tr f → fl_srv f !! h = Some sv → sv_objs sv !! id = Some o → ro_round o = r →
  ostep (peel h) (workers h) (taskCap h) o (ro_state o) lb x → hstep rpeel workers taskCap hcap h (ro_state o) lb x.
Proof.
  intros Hr Hsv Ho Hro Hs. unfold hstep. unfold ostep in Hs. rewrite Hro in Hs. by rewrite (cap_of _ _ _ _ _ _ Hr Hsv Ho) in Hs.
Qed.
Lemma obj_up tr f s h sv id o : frun tr f → Rel f s → fl_srv f !! h = Some sv → sv_panic sv = false → sv_objs sv !! id = Some o → ro_round o = r →
  up s h (ro_state o).
Proof.
  intros Hr HR Hsv Hp Ho Hro. split; [by eapply rs_obj; [apply HR|..]|]. split; [by eapply rl_up|]. by eapply frun_panic.
Qed.

Ltac labt := first [done | by intros ? ?%elem_of_nil | by intros ? ?%elem_of_list_singleton | by intros ? ? ? [=]
  | let Hl := fresh in intros ? Hl%elem_of_list_singleton; by inversion Hl].
Lemma sim_step tr f s l f' : frun tr f → (∀ h, length (openings r h (tr ++ [l])) ≤ 1) → agrees f' → Rel f s → fstep f l f' →
  ∃ ls s', image s ls s' ∧ Rel f' s' ∧ Lab f l ls.
Proof.
  intros Hr Hop Hag HR Hst.
  assert (frun (tr ++ [l]) f') as Hr' by (by econstructor).
  assert (∀ h sv, fl_srv f !! h = Some sv → unique sv) as Hun.
  { intros h sv. eapply unique_of; [exact Hr|]. etrans; [apply (openings_mono tr l h)|apply Hop]. }
  assert (∀ h sv, fl_srv f' !! h = Some sv → unique sv) as Hun'.
  { intros h sv. by eapply unique_of. }
  pose proof (frun_calls _ _ _ _ _ _ _ Hr) as [Hc1 Hc2].
  pose proof HR as [RS RU RQ RN].
  destruct Hst as [f h rq|f h l sv sv' Hsv Hl Hs|f n1 c n2 sv sv' id En Hsv Hs|f n1 c n2 sv sv' e En Hsv Hs|f n1 c n2 En
    |f h1 c id h2 sv sv' Eh Hsv Hs|f h id o sv ob sv' cs Hsv Ho Hfree Hs Hit|f h id o sv ob sv' Hsv Ho Hfree Hs Hit
    |f q1 c q2 h id sv Eq Hf Hsv Hp Hfree|f w1 c w2 b1 a b2 h id sv Ew Eb Ee Hf Hsv Hp|f w1 c w2 Ew].
  - (* client *)
    destruct (decide (rq_round rq = r)) as [Hrr|Hrr].
    + eexists [YClient h rq], _. split; [right; eexists; split; [done|apply y_client]|]. split.
      * split; cbn [fl_srv fl_queue fl_net fl_hand sy_srv sy_queue sy_net sy_down]; try done.
        rewrite RN. rewrite !omap_app. cbn [omap list_omap]. rewrite proj_r by done. cbn [fc_from fc_to fc_rq fmap option_fmap option_map].
        rewrite <-!app_assoc. f_equiv. apply Permutation_app_comm.
      * split; try labt. unfold round_view. cbn. by rewrite decide_True.
    + exists [], s. split; [by left|]. split.
      * split; cbn [fl_srv fl_queue fl_net fl_hand]; try done. rewrite RN. rewrite !omap_app. cbn [omap list_omap]. rewrite proj_other by done. by rewrite app_nil_r.
      * split; try labt. unfold round_view. cbn. by rewrite decide_False.
  - (* server *)
    pose proof (sstep_up _ _ _ _ _ _ _ _ _ Hs) as Hp.
    assert (∀ ls, client_calls ls = [] → (∀ c, YLose c ∉ ls) → (∀ h0, YHost h0 LClose ∈ ls → ∃ id, FServer h l = FServer h0 (SObj id LClose) ∧ has_obj f h0 id r) →
      (fown (FServer h l) = true → about_round f r (FServer h l) → Forall (λ y, own_step y = true) ls ∧ ls ≠ []) → Lab f (FServer h l) ls) as HLab.
    { intros ls E1 E2 E3 E4. split; try done; [intros c Hc; by destruct (E2 c)|]. intros H1 H2. left. by apply E4. }
    destruct (sstep_kind _ _ _ _ _ _ _ _ _ Hs) as [(id & lb & o & x & -> & Ho & Hos & Eo)|[(r' & req & ob & -> & Eo & Hro & Hinit)|(H1 & H2 & Eo)]].
    + cbn in Hl. destruct (decide (ro_round o = r)) as [Hro|Hro].
      * eexists [YHost h lb], (with_srv s h x). split; [right; eexists; split; [done|eapply y_host; [|exact Hl|]]|split].
        -- eapply obj_up; [exact Hr|exact HR|exact Hsv|exact Hp|exact Ho|exact Hro].
        -- eapply obj_hstep; [exact Hr|exact Hsv|exact Ho|done|done].
        -- split; cbn [with_server with_srv fl_srv fl_queue fl_net fl_hand sy_srv sy_queue sy_net sy_down]; try done.
           ++ by eapply relS_obj; [|done|by eapply Hun|..].
           ++ eapply up_upd; done.
        -- apply HLab; try labt.
           ++ intros h0 Hin%elem_of_list_singleton. injection Hin as -> <-. exists id. split; [done|]. by exists sv, o.
           ++ intros Hf _. split; [|done]. constructor; [exact Hf|constructor].
      * exists [], s. split; [by left|]. split.
        -- split; cbn [with_server fl_srv fl_queue fl_net fl_hand]; try done; [eapply relS_other; [done|done|exact Ho|done|done]|by eapply up_upd].
        -- apply HLab; try labt. intros _ (sv1 & ob1 & E1 & E2 & E3). simplify_eq.
    + exists [], s. split; [by left|]. split.
      * split; cbn [with_server fl_srv fl_queue fl_net fl_hand]; try done; [|by eapply up_upd]. eapply relS_new; try done.
        -- apply (Hun' h). cbn [with_server fl_srv]. by rewrite lookup_insert.
        -- intros Hrr. eapply (Hag h sv' (length (sv_objs sv))); [cbn [with_server fl_srv]; by rewrite lookup_insert| |done].
           rewrite Eo, lookup_app_r by done. by rewrite Nat.sub_diag.
      * apply HLab; labt.
    + exists [], s. split; [by left|]. split.
      * split; cbn [with_server fl_srv fl_queue fl_net fl_hand]; try done; [by eapply relS_same|by eapply up_upd].
      * apply HLab; try labt. intros _ Hab. destruct l; try done. by destruct (H1 id l).
  - (* accept *)
    pose proof (sstep_up _ _ _ _ _ _ _ _ _ Hs) as Hp. exists [], s. split; [by left|]. split.
    + assert (sv_objs sv' = sv_objs sv) as Eo.
      { destruct (sstep_kind _ _ _ _ _ _ _ _ _ Hs) as [(?&?&?&?&?&_)|[(?&?&?&?&_)|(_&_&?)]]; done. }
      split; cbn [fl_srv fl_queue fl_net fl_hand]; try done; [by eapply relS_same|by eapply up_upd|].
      rewrite RN. apply omap_perm. rewrite En, fmap_app. cbn [fmap list_fmap fst]. rewrite <-!app_assoc. cbn. f_equiv.
      rewrite Permutation_middle. f_equiv. apply Permutation_cons_append.
    + split; try labt. right; left. eauto.
  - (* refuse *)
    pose proof (sstep_up _ _ _ _ _ _ _ _ _ Hs) as Hp.
    assert (sv_objs sv' = sv_objs sv) as Eo.
    { destruct (sstep_kind _ _ _ _ _ _ _ _ _ Hs) as [(?&?&?&?&?&_)|[(?&?&?&?&_)|(_&_&?)]]; done. }
    destruct (decide (rq_round (fc_rq c) = r)) as [Hrr|Hrr].
    + rewrite En in RN. rewrite <-app_assoc, omap_app in RN. cbn [omap list_omap app] in RN. rewrite proj_r in RN by done.
      destruct (perm_elem _ _ _ _ RN) as (l1 & l2 & En' & Hpm).
      eexists [YLose _], _. split; [right; eexists; split; [done|eapply y_lose; exact En']|]. split.
      * split; cbn [fl_srv fl_queue fl_net fl_hand sy_srv sy_queue sy_net sy_down]; try done; [by eapply relS_same|by eapply up_upd|].
        rewrite Hpm. by rewrite <-?app_assoc, !omap_app.
      * split; try labt; eauto 10.
    + exists [], s. split; [by left|]. split.
      * split; cbn [fl_srv fl_queue fl_net fl_hand]; try done; [by eapply relS_same|by eapply up_upd|].
        rewrite RN, En. rewrite <-!app_assoc, !omap_app. cbn [omap list_omap app]. by rewrite proj_other.
      * split; try labt; eauto 10.
  - (* lose *)
    destruct (decide (rq_round (fc_rq c) = r)) as [Hrr|Hrr].
    + rewrite En in RN. rewrite <-app_assoc, omap_app in RN. cbn [omap list_omap app] in RN. rewrite proj_r in RN by done.
      destruct (perm_elem _ _ _ _ RN) as (l1 & l2 & En' & Hpm).
      eexists [YLose _], _. split; [right; eexists; split; [done|eapply y_lose; exact En']|]. split.
      * split; cbn [fl_srv fl_queue fl_net fl_hand sy_srv sy_queue sy_net sy_down]; try done.
        rewrite Hpm. by rewrite <-?app_assoc, !omap_app.
      * split; try labt; eauto 10.
    + exists [], s. split; [by left|]. split.
      * split; cbn [fl_srv fl_queue fl_net fl_hand]; try done.
        rewrite RN, En. rewrite <-!app_assoc, !omap_app. cbn [omap list_omap app]. by rewrite proj_other.
      * split; try labt.
  - (* enter *)
    pose proof (sstep_up _ _ _ _ _ _ _ _ _ Hs) as Hp.
    destruct (sstep_kind _ _ _ _ _ _ _ _ _ Hs) as [(id' & lb & o & x & El & Ho & Hos & Eo)|[(?&?&?&?&_)|(Hno&_)]]; [|done|by destruct (Hno id (LAdd (rq_msgs (fc_rq c))))].
    injection El as <- <-.
    assert (ro_round o = rq_round (fc_rq c)) as Hro.
    { destruct (Hc2 c id) as (sv1 & o1 & E1 & E2 & E3); [rewrite Eh; set_solver|]. by simplify_eq. }
    destruct (decide (rq_round (fc_rq c) = r)) as [Hrr|Hrr].
    + rewrite Eh in RN. rewrite fmap_app, app_assoc, omap_app in RN. cbn [fmap list_fmap omap list_omap fst] in RN. rewrite proj_r in RN by done.
      destruct (perm_elem _ _ _ _ RN) as (l1 & l2 & En' & Hpm).
      eexists [YDeliver _], _. split; [right; eexists; split; [done|eapply y_deliver; [exact En'|cbn [cl_to]..]]|split].
      * eapply obj_up; [exact Hr|exact HR|exact Hsv|exact Hp|exact Ho|congruence].
      * cbn [cl_rq]. eapply obj_hstep; [exact Hr|exact Hsv|exact Ho|congruence|done].
      * cbn [cl_to cl_rq]. split; cbn [fl_srv fl_queue fl_net fl_hand sy_srv sy_queue sy_net sy_down]; try done.
        -- eapply relS_obj; [done|done|by eapply Hun|done|congruence|done].
        -- eapply up_upd; done.
        -- rewrite Hpm. by rewrite !fmap_app, !omap_app, <-?app_assoc.
      * split; try labt; intros; left; (split; [repeat constructor|done]).
    + exists [], s. split; [by left|]. split.
      * split; cbn [fl_srv fl_queue fl_net fl_hand]; try done; [eapply relS_other; [done|done|exact Ho|congruence|done]|by eapply up_upd|].
        rewrite RN, Eh. rewrite !fmap_app, !app_assoc, !omap_app. cbn [fmap list_fmap omap list_omap fst]. by rewrite proj_other.
      * split; labt.
  - (* take *)
    pose proof (sstep_up _ _ _ _ _ _ _ _ _ Hs) as Hp.
    destruct (sstep_kind _ _ _ _ _ _ _ _ _ Hs) as [(id' & lb & o' & x & El & Ho' & Hos & Eo)|[(?&?&?&?&_)|(Hno&_)]]; [|done|by destruct (Hno id (LRecv o))].
    injection El as <- <-. rewrite Ho in Ho'. injection Ho' as <-.
    pose proof (frun_32 _ _ _ _ _ _ _ _ _ _ _ Hr Hsv Ho) as H32. pose proof (proj_calls h id _ _ _ _ Hit) as Hpc.
    rewrite Z.mod_small, N2Z.id in Hpc by lia.
    destruct (decide (ro_round ob = r)) as [Hro|Hro].
    + rewrite Hro in Hit.
      eexists [YTake _ _ _], _. split; [right; eexists; split; [done|eapply y_take; [eapply obj_up; [exact Hr|exact HR|exact Hsv|exact Hp|exact Ho|exact Hro]|done|eapply obj_hstep; [exact Hr|exact Hsv|exact Ho|exact Hro|exact Hos]|exact Hit]]|]. split.
      * split; cbn [fl_srv fl_queue fl_net fl_hand sy_srv sy_queue sy_net sy_down]; try done.
        -- eapply relS_obj; [done|done|by eapply Hun|done..].
        -- eapply up_upd; done.
        -- rewrite omap_app, Hpc. by rewrite RQ.
      * split; try labt; intros; left; (split; [repeat constructor|done]).
    + exists [], s. split; [by left|]. split.
      * split; cbn [fl_srv fl_queue fl_net fl_hand]; try done; [eapply relS_other; [done|done|exact Ho|done|done]|by eapply up_upd|].
        by rewrite omap_app, Hpc, app_nil_r.
      * split; try labt. intros _ (sv1 & ob1 & E1 & E2 & E3). simplify_eq.
  - (* crash *)
    pose proof (sstep_up _ _ _ _ _ _ _ _ _ Hs) as Hp.
    destruct (sstep_kind _ _ _ _ _ _ _ _ _ Hs) as [(id' & lb & o' & x & El & Ho' & Hos & Eo)|[(?&?&?&?&_)|(Hno&_)]]; [|done|by destruct (Hno id (LRecv o))].
    injection El as <- <-. rewrite Ho in Ho'. injection Ho' as <-.
    destruct (decide (ro_round ob = r)) as [Hro|Hro].
    + rewrite Hro in Hit.
      eexists [YCrash h o], _. split; [right; eexists; split; [done|eapply y_crash; [eapply obj_up; [exact Hr|exact HR|exact Hsv|exact Hp|exact Ho|exact Hro]|done|eapply obj_hstep; [exact Hr|exact Hsv|exact Ho|exact Hro|exact Hos]|exact Hit]]|]. split.
      * split; cbn [with_server fl_srv fl_queue fl_net fl_hand sy_srv sy_queue sy_net sy_down]; try done.
        -- eapply relS_obj; [done|done|by eapply Hun|done..].
        -- intros h' sv2. destruct (decide (h = h')) as [<-|Hne]; [rewrite lookup_insert; by intros [= <-]|].
           rewrite lookup_insert_ne by done. intros E1 E2. apply not_elem_of_union. split; [set_solver|by eapply RU].
      * split; try labt; [intros ? ? ? [= <- <- <-] _; left|intros; left; (split; [repeat constructor|done])].
    + exists [], s. split; [by left|]. split.
      * split; cbn [with_server fl_srv fl_queue fl_net fl_hand]; try done; [eapply relS_other; [done|done|exact Ho|done|done]|by eapply up_upd].
      * split; try labt.
        -- intros ? ? ? [= <- <- <-] (sv1 & ob1 & E1 & E2 & E3). simplify_eq.
        -- intros _ (sv1 & ob1 & E1 & E2 & E3). simplify_eq.
  - (* send *)
    destruct (decide (rq_round (fc_rq c) = r)) as [Hrr|Hrr].
    + rewrite Eq in RQ. rewrite omap_app in RQ. cbn [omap list_omap] in RQ. rewrite proj_r in RQ by done.
      destruct (perm_elem _ _ _ _ RQ) as (l1 & l2 & Eq' & Hpm).
      destruct (Hc1 c h id) as (sv1 & ob & E1 & E2 & E3); [unfold all_calls; rewrite Eq; set_solver|done|]. simplify_eq.
      eexists [YSend _], _. split; [right; eexists; split; [done|eapply y_send; [exact Eq'|cbn [cl_from]; by rewrite Hf|eapply obj_up; [exact Hr|exact HR|exact Hsv|exact Hp|exact E2|congruence]|done]]|]. split.
      * split; cbn [fl_srv fl_queue fl_net fl_hand sy_srv sy_queue sy_net sy_down]; try done.
        -- rewrite Hpm. by rewrite !omap_app.
        -- rewrite RN. rewrite !omap_app. cbn [omap list_omap]. rewrite proj_r by done.
           rewrite <-!app_assoc. f_equiv. apply Permutation_app_comm.
      * split; try labt; intros; left; (split; [repeat constructor|done]).
    + exists [], s. split; [by left|]. split.
      * split; cbn [fl_srv fl_queue fl_net fl_hand]; try done.
        -- rewrite RQ, Eq. rewrite !omap_app. cbn [omap list_omap]. by rewrite proj_other.
        -- rewrite RN. rewrite !omap_app. cbn [omap list_omap]. rewrite proj_other by done. by rewrite app_nil_r.
      * split; labt.
  - exists [], s. split; [by left|]. split; [by split|]. split; try labt; eauto 10.
  - exists [], s. split; [by left|]. split; [by split|]. split; labt.
Qed.

Lemma round_view_app tr tr' : round_view r (tr ++ tr') = round_view r tr ++ round_view r tr'.
Proof. unfold round_view. by rewrite omap_app. Qed.

(** The objects' task channels are closed only for EndRound. *)
Lemma close_ended tr f h id sv' sv ob : frun tr f → fl_srv f !! h = Some sv → sv_objs sv !! id = Some ob → ro_round ob = r →
  hsstep h sv (SObj id LClose) sv' → FServer h (SEnd r (Ok id)) ∈ tr.
Proof.
  intros Hr Hsv Ho Hro Hs. pose proof (sstep_up _ _ _ _ _ _ _ _ _ Hs) as Hp.
  assert (id ∈ sv_closing sv) as Hin.
  { unfold hsstep in Hs. inversion Hs; subst; try done. match goal with H : sv_closing _ = _ |- _ => rewrite H end. set_solver. }
  destruct (frun_host _ _ _ _ _ _ _ _ _ Hr Hsv) as (sv0 & Hrun & [<-| ->]); [|done].
  destruct (srun_closing _ _ _ _ _ _ _ _ _ Hrun Hin) as (ob' & Ho' & He). simplify_eq.
  unfold hlabels in He. apply elem_of_list_omap in He as (l & Hl & El). 
  destruct l; cbn in El; try done; try (case_decide; [|done]); simplify_eq. done.
Qed.

(** The object whose output crashed a sender. *)
Lemma crash_obj tr f h id o : frun tr f → FCrash h id o ∈ tr → (∀ r', has_obj f h id r' → r' = r) → has_obj f h id r.
Proof.
  intros Hr Hin Hu. enough (∃ r', has_obj f h id r') as [r' Hr'] by (by rewrite <-(Hu _ Hr')).
  clear Hu. induction Hr as [|tr l f f' Hr IH Hst]; [by apply elem_of_nil in Hin|].
  apply elem_of_app in Hin as [Hin|Hin%elem_of_list_singleton].
  - destruct (IH Hin) as [r' Hr']. exists r'. by eapply has_obj_step.
  - subst l. inversion Hst; subst. exists (ro_round ob). eapply has_obj_step; [exact Hst|]. by eexists _, _.
Qed.

Lemma sim_run tr f : frun tr f → (∀ h, length (openings r h tr) ≤ 1) → agrees f →
  ∃ tr' s, yrunf (mkSystem m0 [] [] ∅) tr' s ∧ Rel f s ∧ client_calls tr' = client_calls (round_view r tr) ∧
    (∀ c, YLose c ∈ tr' → ∃ c', (FLose c' ∈ tr ∨ FRefuse c' ∈ tr) ∧ rq_round (fc_rq c') = r) ∧
    (∀ h, YHost h LClose ∈ tr' → ∃ id, FServer h (SEnd r (Ok id)) ∈ tr) ∧
    (∀ h id o, FCrash h id o ∈ tr → has_obj f h id r → YCrash h o ∈ tr').
Proof.
  intros Hr. induction Hr as [|tr l f f' Hr IH Hst]; intros Hop Hag.
  - exists [], (mkSystem m0 [] [] ∅). split; [constructor|]. split; [|split_and!; [done|by intros ? ?%elem_of_nil..|by intros ? ? ? ?%elem_of_nil]].
    split; cbn [sy_srv sy_queue sy_net sy_down fl_queue fl_net fl_hand fleet_start]; try done.
    split; cbn [sy_srv]; [|done]. intros h sv id ob Hsv. rewrite start_srv in Hsv. case_decide; [|done]. by injection Hsv as <-.
  - destruct IH as (tr' & s & Hrun & HR & Hc & Hlo & Hcl & Hcr).
    { intros h. etrans; [apply (openings_mono tr l)|apply Hop]. }
    { by eapply agrees_back. }
    destruct (sim_step _ _ _ _ _ Hr Hop Hag HR Hst) as (ls & s' & Him & HR' & [L1 L2 L3 L4 L5]).
    exists (tr' ++ ls), s'. split; [by eapply image_run|]. split; [done|]. split; [|split; [|split]].
    + by rewrite round_view_app, !client_calls_app, Hc, L1.
    + intros c [Hin|Hin]%elem_of_app.
      * destruct (Hlo _ Hin) as (c' & H1 & H2). exists c'. split; [|done]. rewrite !elem_of_app. tauto.
      * destruct (L2 _ Hin) as (c' & H1 & H2). exists c'. split; [|done]. rewrite !elem_of_app, !elem_of_list_singleton. destruct H1; subst; tauto.
    + intros h [Hin|Hin]%elem_of_app.
      * destruct (Hcl _ Hin) as (id & H1). exists id. rewrite elem_of_app. tauto.
      * destruct (L3 _ Hin) as (id & -> & sv & ob & H1 & H2 & H3). exists id. apply elem_of_app. left.
        inversion Hst; subst. simplify_eq. by eapply close_ended.
    + intros h id o [Hin|Hin%elem_of_list_singleton]%elem_of_app Hob; apply elem_of_app.
      * left. eapply Hcr; [done|].
        (* the object was there when the sender crashed *)
        eapply crash_obj; [exact Hr|exact Hin|]. destruct Hob as (sv & ob & H1 & H2 & H3).
        intros r' (sv1 & ob1 & E1 & E2 & E3). destruct (fstep_pres _ _ _ _ _ _ _ _ _ _ _ Hst E1 E2) as (sv2 & ob2 & F1 & F2 & F3 & _). congruence.
      * right. subst l. apply (L4 _ _ _ eq_refl). inversion Hst; subst. destruct Hob as (sv2 & ob2 & F1 & F2 & F3).
        eexists _, _. split; [done|]. split; [done|].
        destruct (fstep_pres _ _ _ _ _ _ _ _ _ _ _ Hst H2 H3) as (sv3 & ob3 & G1 & G2 & G3 & _). congruence.
Qed.
End m0.

Lemma choose_map (P : string → mixers → Prop) (l : list string) : (∀ h, h ∈ l → ∃ m, P h m) →
  ∃ M : gmap string mixers, (∀ h, h ∈ l → ∃ m, M !! h = Some m ∧ P h m) ∧ ∀ h, h ∉ l → M !! h = None.
Proof.
  induction l as [|a l IH]; intros HP; [exists ∅; split; [by intros h ?%elem_of_nil|done]|].
  destruct IH as (M & H1 & H2); [intros h Hh; apply HP; by right|]. destruct (HP a) as [m Hm]; [by left|].
  exists (<[a := m]> M). split.
  - intros h Hh. destruct (decide (a = h)) as [<-|Hne]; [rewrite lookup_insert; by exists m|]. rewrite lookup_insert_ne by done.
    apply H1. by apply elem_of_cons in Hh as [?|?].
  - intros h Hh. apply not_elem_of_cons in Hh as [? ?]. rewrite lookup_insert_ne by done. by apply H2.
Qed.

Section cascade.
Context (L : nat) (w : gmap string Z) (fuel : nat) (req : gmap string N).
Context (Ht : CreateCascadeTopology servers (Z.of_nat L) = Some t) (HL : 0 < L)
        (Hw : round_workload fuel t req = Some (Ok w)).

Lemma new_mixers h : (∀ i m, deref t (0, i) = Some m → (0 ≤ announced t w i)%Z) → ∃ ms m, hosted t h ms ∧ NewMixers t ms w = Some m.
Proof.
  intros Hpos. eexists. 
  assert (∀ l i m, deref t (l, i) = Some m → newMixState t w m ≠ None) as Hnew.
  { intros l i m Hd Hnone. destruct (deref_bound t servers L Ht _ _ _ Hd) as [Hl Hi].
    destruct (deref_ex t servers L Ht 0 i HL Hi) as [x0 Hd0]. specialize (Hpos _ _ Hd0).
    rewrite <-(deref_workload t servers L w fuel req Ht HL Hw _ _ _ Hd) in Hpos.
    pose proof Ht as E. destruct (cascade_form servers L) as (mixes & E' & Hinv). rewrite E in E'. injection E' as Et.
    rewrite Et in Hd, Hnone. apply cascade_deref_Some in Hd as (_ & _ & ->).
    apply (newMixState_cascade servers L mixes Hinv) in Hnone; [|lia|lia|solve [intros; eauto; lia]]. cbn [mx_name final_mix] in Hpos. lia. }
  set (ms := filter (λ m, mx_host m = h) (omap (λ e, deref t e.2) (map_to_list (tp_mixes t)))).
  assert (∀ m, m ∈ ms → newMixState t w m ≠ None) as Hall.
  { intros m Hm. apply elem_of_list_filter in Hm as [_ Hm]. apply elem_of_list_omap in Hm as ([n [l i]] & _ & Hd). by eapply Hnew. }
  assert (∃ sts, newStates t w ms ∅ = Some sts) as [sts Hsts].
  { generalize (∅ : gmap string mixState). revert Hall. generalize ms. clear. intros l.
    induction l as [|m l IH]; intros Hall acc; [by eexists|]. cbn [newStates].
    destruct (newMixState t w m) eqn:E; [|exfalso; eapply Hall; [left|done]]. cbn. apply IH. intros m' Hm'. apply Hall. by right. }
  eexists. split; [unfold hosted; reflexivity|]. unfold NewMixers. fold ms. by rewrite Hsts.
Qed.

Lemma opened_le tr h : opened_once r req tr → length (openings r h tr) ≤ 1.
Proof. intros Ho. destruct (Ho h) as [-> | ->]; simpl; lia. Qed.

Lemma round_run tr f : frun tr f → opened_once r req tr → within_announced t w (round_view r tr) →
  ∃ m0 tr' s, round_opened t servers w (mkSystem m0 [] [] ∅) ∧ agrees m0 f ∧ yrunf (mkSystem m0 [] [] ∅) tr' s ∧ Rel m0 f s ∧
    client_calls tr' = client_calls (round_view r tr) ∧
    (∀ c, YLose c ∈ tr' → ∃ c', (FLose c' ∈ tr ∨ FRefuse c' ∈ tr) ∧ rq_round (fc_rq c') = r) ∧
    (∀ h, YHost h LClose ∈ tr' → ∃ id, FServer h (SEnd r (Ok id)) ∈ tr) ∧
    (∀ h id o, FCrash h id o ∈ tr → has_obj f h id r → YCrash h o ∈ tr').
Proof.
  intros Hr Hop Hwi.
  assert (∀ i m, deref t (0, i) = Some m → (0 ≤ announced t w i)%Z) as Hpos.
  { intros i m Hd. specialize (Hwi _ _ Hd). lia. }
  destruct (choose_map (λ h m, (∃ ms, hosted t h ms ∧ NewMixers t ms w = Some m) ∧
    ∀ sv id ob, fl_srv f !! h = Some sv → sv_objs sv !! id = Some ob → ro_round ob = r → m = ro_init ob) servers) as (m0 & HM1 & HM2).
  { intros h Hh. apply (frun_dom _ _ _ _ _ _ _ h Hr) in Hh as [sv Hsv].
    destruct (list_search (λ ob, ro_round ob ≠ r) (λ ob, ro_round ob = r) (sv_objs sv)) as [Hno|(ob & Hob & Hro)].
    { intros x _. destruct (decide (ro_round x = r)); auto. }
    - destruct (new_mixers h Hpos) as (ms & m & H1 & H2). exists m. split; [by exists ms|].
      intros sv' id ob Hsv' Ho. simplify_eq. intros Hro. destruct (Hno ob); [|done]. by eapply elem_of_list_lookup_2.
    - apply elem_of_list_lookup in Hob as [id Hob]. exists (ro_init ob). split.
      + destruct (frun_objs _ _ _ _ _ _ _ _ _ _ _ Hr Hsv Hob) as (req' & fuel' & w' & ms & H1 & H2 & H3 & H4 & _).
        exists ms. split; [done|]. rewrite Hro in H1. destruct (Hop h) as [E|E]; rewrite E in H1; [by apply elem_of_nil in H1|].
        apply elem_of_list_singleton in H1 as ->. pose proof (round_workload_det _ _ _ _ _ _ Hw H2) as Ew. injection Ew as <-. done.
      + intros sv' id' ob' Hsv' Ho' Hro'. rewrite Hsv in Hsv'. injection Hsv' as <-.
        pose proof (frun_unique _ _ _ _ _ _ _ _ _ _ _ _ _ _ Hr Hsv (opened_le _ h Hop) Hob Ho' Hro Hro') as <-. congruence. }
  assert (agrees m0 f) as Hag.
  { intros h sv id ob Hsv Ho Hro. assert (h ∈ servers) as Hh by (apply (frun_dom _ _ _ _ _ _ _ h Hr); by eexists).
    destruct (HM1 h Hh) as (m & Hm & _ & Hob). by rewrite Hm, (Hob _ _ _ Hsv Ho Hro). }
  destruct (sim_run m0 _ _ Hr (λ h, opened_le _ h Hop) Hag) as (tr' & s & H1 & H2 & H3 & H4 & H5 & H6').
  exists m0, tr', s. split; [|by split_and!]. split; [|done]. cbn [sy_srv]. intros h Hh. destruct (HM1 h Hh) as (m & Hm & (ms & H6 & H7) & _). by exists ms, m.
Qed.
End cascade.
End sim.
