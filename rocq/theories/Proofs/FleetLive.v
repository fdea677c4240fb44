(** Progress of one round of a network with many rounds. *)
From stdpp Require Import gmap.
From Verif.Base Require Import Base.
From Verif.Model Require Import Topology Shuffle Onion Mixer Rounds System Fleet.
From Verif.Spec Require Import MixerSpec MessagesSpec RoundsSpec SystemSpec FleetSpec.
From Verif.Proofs Require Import TopologyProofs MixerInv MixerLive RoundsProofs SystemProofs FleetProofs FleetSim.

Lemma fresh_idle t ms w m : NewMixers t ms w = Some m → idle m.
Proof.
  unfold NewMixers. destruct (newStates t w ms ∅) as [sts|]; [|done]. intros [= <-]. unfold idle. cbn.
  split_and!; try done. by intros n p ?%elem_of_nil.
Qed.
Lemma first_split {A} (P : A → Prop) `{!∀ x, Decision (P x)} (l : list A) : (∃ x, x ∈ l ∧ P x) →
  ∃ l1 x l2, l = l1 ++ x :: l2 ∧ P x ∧ ∀ y, y ∈ l1 → ¬ P y.
Proof.
  induction l as [|a l IH]; intros (x & Hx & HP); [by apply elem_of_nil in Hx|].
  destruct (decide (P a)) as [Ha|Ha]; [exists [], a, l; split_and!; [done|done|by intros y ?%elem_of_nil]|].
  apply elem_of_cons in Hx as [->|Hx]; [done|]. destruct IH as (l1 & y & l2 & -> & HPy & Hl1); [by exists x|].
  exists (a :: l1), y, l2. split; [done|]. split; [done|]. intros z [->|Hz]%elem_of_cons; [done|by apply Hl1].
Qed.

Section live.
Context (t : topology) (peel : string → N → onion → option (option onion)) (workers taskCap : string → nat)
        (servers : list string).
Notation fstep := (fstep t peel workers taskCap).
Notation hsstep := (hsstep t peel workers taskCap).
Notation frun := (frun t peel workers taskCap (fleet_start servers)).

(** ** Handlers that have found their object *)
Definition hand_calls (h : string) (f : fleet) : list (nat * list Messages) :=
  (λ e, (e.2, rq_msgs (fc_rq e.1))) <$> filter (λ e, fc_to e.1 = h) (fl_hand f).
Lemma sstep_calls h sv l sv' : hsstep h sv l sv' →
  (∃ r msgs id, l = SAdd r msgs (Ok id) ∧ sv_calls sv' = sv_calls sv ++ [(id, msgs)]) ∨
  (∃ id msgs c1 c2, l = SObj id (LAdd msgs) ∧ sv_calls sv = c1 ++ (id, msgs) :: c2 ∧ sv_calls sv' = c1 ++ c2) ∨
  ((∀ r msgs id, l ≠ SAdd r msgs (Ok id)) ∧ (∀ id msgs, l ≠ SObj id (LAdd msgs)) ∧ sv_calls sv' = sv_calls sv).
Proof.
  unfold hsstep. destruct 1; try (right; right; split_and!; done).
  - right; right. split_and!; try done. intros id' msgs [= _ ->]. naive_solver.
  - left. eauto 10.
  - right; left. eauto 10.
  - right; right. split_and!; try done. intros id' msgs [= _ ->]. naive_solver.
Qed.
Lemma frun_hand tr f h sv : frun tr f → fl_srv f !! h = Some sv → sv_calls sv ≡ₚ hand_calls h f.
Proof.
  intros Hr. revert sv. induction Hr as [|tr l f f' Hr IH Hst]; intros sv Hsv.
  { rewrite start_srv in Hsv. case_decide; [|done]. by injection Hsv as <-. }
  destruct Hst as [f hh rq|f hh l sv0 sv' Hsv0 Hl Hs|f n1 c n2 sv0 sv' id En Hsv0 Hs|f n1 c n2 sv0 sv' e En Hsv0 Hs|f n1 c n2 En
    |f h1 c id h2 sv0 sv' Eh Hsv0 Hs|f hh id o sv0 ob sv' cs Hsv0 Ho Hfree Hs Hit|f hh id o sv0 ob sv' Hsv0 Ho Hfree Hs Hit
    |f q1 c q2 hh id sv0 Eq Hf Hsv0 Hp Hfree|f w1 c w2 b1 a b2 hh id sv0 Ew Eb Ee Hf Hsv0 Hp|f w1 c w2 Ew];
    unfold hand_calls; cbn [fl_srv fl_hand with_server] in *; try (by apply IH).
  - destruct (decide (hh = h)) as [->|Hne]; [|rewrite lookup_insert_ne in Hsv by done; by apply IH].
    rewrite lookup_insert in Hsv. injection Hsv as <-. rewrite <-(IH _ Hsv0).
    destruct (sstep_calls _ _ _ _ Hs) as [(r & msgs & id & -> & _)|[(id & msgs & c1 & c2 & -> & _)|(_ & _ & ->)]]; done.
  - destruct (decide (fc_to c = h)) as [<-|Hne].
    + rewrite lookup_insert in Hsv. injection Hsv as <-. rewrite filter_app, fmap_app, filter_cons, decide_True by done. cbn [fmap list_fmap fst snd filter list_filter].
      destruct (sstep_calls _ _ _ _ Hs) as [(r & msgs & id' & [= <- <- <-] & ->)|[(id' & msgs & c1 & c2 & ? & _)|(Hno & _ & _)]]; [|done|by edestruct Hno].
      f_equiv. by apply IH.
    + rewrite lookup_insert_ne in Hsv by done. rewrite filter_app, fmap_app, filter_cons, decide_False by done. cbn. rewrite app_nil_r. by apply IH.
  - destruct (decide (fc_to c = h)) as [<-|Hne]; [|rewrite lookup_insert_ne in Hsv by done; by apply IH].
    rewrite lookup_insert in Hsv. injection Hsv as <-. rewrite <-(IH _ Hsv0).
    destruct (sstep_calls _ _ _ _ Hs) as [(r & msgs & id & ? & _)|[(id & msgs & c1 & c2 & ? & _)|(_ & _ & ->)]]; done.
  - destruct (decide (fc_to c = h)) as [<-|Hne].
    + rewrite lookup_insert in Hsv. injection Hsv as <-. specialize (IH _ Hsv0). unfold hand_calls in IH.
      rewrite Eh, filter_app, fmap_app, filter_cons, decide_True in IH by done. cbn [fmap list_fmap fst snd] in IH.
      destruct (sstep_calls _ _ _ _ Hs) as [(r & msgs & id' & ? & _)|[(id' & msgs & c1 & c2 & [= <- <-] & E1 & ->)|(_ & Hno & _)]]; [done| |by edestruct Hno].
      rewrite E1 in IH. apply Permutation_app_inv in IH. by rewrite filter_app, fmap_app.
    + rewrite lookup_insert_ne in Hsv by done. rewrite (IH _ Hsv). unfold hand_calls. rewrite Eh, !filter_app, filter_cons, decide_False by done. done.
  - destruct (decide (hh = h)) as [->|Hne]; [|rewrite lookup_insert_ne in Hsv by done; by apply IH].
    rewrite lookup_insert in Hsv. injection Hsv as <-. rewrite <-(IH _ Hsv0).
    destruct (sstep_calls _ _ _ _ Hs) as [(r & msgs & id' & ? & _)|[(id' & msgs & c1 & c2 & ? & _)|(_ & _ & ->)]]; done.
  - destruct (decide (hh = h)) as [->|Hne]; [|rewrite lookup_insert_ne in Hsv by done; by apply IH].
    rewrite lookup_insert in Hsv. injection Hsv as <-. rewrite <-(IH _ Hsv0). cbn [downed sv_calls].
    destruct (sstep_calls _ _ _ _ Hs) as [(r & msgs & id' & ? & _)|[(id' & msgs & c1 & c2 & ? & _)|(_ & _ & ->)]]; done.
Qed.

(** ** DirectCalls that have not returned *)
Definition sender_calls_ok (f : fleet) : Prop := ∀ c, c ∈ unfinished f → fc_from c ≠ None.
Lemma frun_senders tr f : frun tr f → sender_calls_ok f.
Proof.
  intros Hr. induction Hr as [|tr l f f' Hr IH Hst]; [by intros c ?%elem_of_nil|].
  intros c Hc. assert (c ∈ unfinished f ∨ fc_from c ≠ None) as [?|?]; [|by apply IH|done].
  destruct Hst; unfold unfinished in *; cbn [fl_queue fl_wait fl_void with_server] in *; try (by left).
  - rewrite !elem_of_app in Hc. rewrite !elem_of_app. destruct Hc as [[?|Hc]|?]; [tauto| |tauto].
    right. apply elem_of_list_fmap in Hc as (e & -> & _). done.
  - rewrite H. rewrite !elem_of_app, !elem_of_list_filter, elem_of_list_singleton in Hc. rewrite !elem_of_app, elem_of_cons. tauto.
  - rewrite H. rewrite !elem_of_app in Hc. rewrite !elem_of_app, elem_of_cons. tauto.
  - rewrite H. rewrite !elem_of_app in Hc. rewrite !elem_of_app, elem_of_cons. tauto.
Qed.
Lemma NoDup_fmap_filter {A B} (g : A → B) (P : A → Prop) `{!∀ x, Decision (P x)} (l : list A) : NoDup (g <$> l) → NoDup (g <$> filter P l).
Proof.
  induction l as [|a l IH]; [done|]. cbn [fmap list_fmap]. rewrite NoDup_cons. intros [H1 H2]. rewrite filter_cons. case_decide; [|by apply IH].
  cbn [fmap list_fmap]. apply NoDup_cons. split; [|by apply IH]. intros (x & Hx & Hin)%elem_of_list_fmap. apply H1. apply elem_of_list_fmap.
  exists x. split; [done|]. by apply elem_of_list_filter in Hin as [_ ?].
Qed.
Lemma frun_wait tr f : frun tr f → NoDup (entry <$> fl_wait f).
Proof.
  intros Hr. induction Hr as [|tr l f f' Hr IH Hst]; [constructor|].
  destruct Hst; cbn [fl_wait with_server] in *; try done.
  - rewrite fmap_app. cbn [fmap list_fmap]. apply NoDup_app. split; [by apply NoDup_fmap_filter|]. split; [|apply NoDup_singleton].
    intros e He1 He2. apply elem_of_list_singleton in He2 as ->. apply elem_of_list_fmap in He1 as (x & Hx & Hin).
    apply elem_of_list_filter in Hin as [Hne _]. congruence.
  - rewrite H, fmap_app in IH. cbn [fmap list_fmap] in IH. rewrite fmap_app. rewrite <-Permutation_middle in IH. by apply NoDup_cons in IH as [_ IH].
  - rewrite H, fmap_app in IH. cbn [fmap list_fmap] in IH. rewrite fmap_app. rewrite <-Permutation_middle in IH. by apply NoDup_cons in IH as [_ IH].
Qed.
(** If no call of the round is lost, every DirectCall of the round that waits can still be answered. *)
Lemma frun_answers r tr f : frun tr f → (∀ c, rq_round (fc_rq c) = r → FLose c ∉ tr) →
  ∀ c, c ∈ fl_wait f → rq_round (fc_rq c) = r → c ∈ fl_net f ∨ c ∈ (fl_hand f).*1 ∨ ∃ a, a ∈ fl_back f ∧ entry a = entry c.
Proof.
  intros Hr. induction Hr as [|tr l f f' Hr IH Hst]; intros Hlo c Hc Hro; [by apply elem_of_nil in Hc|].
  pose proof (frun_senders _ _ Hr) as Hse. pose proof (frun_wait _ _ Hr) as Hnd.
  assert (∀ c, c ∈ fl_wait f → rq_round (fc_rq c) = r → c ∈ fl_net f ∨ c ∈ (fl_hand f).*1 ∨ ∃ a, a ∈ fl_back f ∧ entry a = entry c) as IH'.
  { apply IH. intros c' Hc' Hin. apply (Hlo c' Hc'). set_solver. }
  clear IH.
  assert (c ∈ fl_wait f → reply c = [c]) as Hrep.
  { intros Hw. unfold reply. specialize (Hse c). destruct (fc_from c); [done|]. destruct Hse; [|done]. unfold unfinished. set_solver. }
  destruct Hst as [f hh rq|f hh l sv0 sv' Hsv0 Hl Hs|f n1 c0 n2 sv0 sv' id En Hsv0 Hs|f n1 c0 n2 sv0 sv' e En Hsv0 Hs|f n1 c0 n2 En
    |f h1 c0 id h2 sv0 sv' Eh Hsv0 Hs|f hh id o sv0 ob sv' cs Hsv0 Ho Hfree Hs Hit|f hh id o sv0 ob sv' Hsv0 Ho Hfree Hs Hit
    |f q1 c0 q2 hh id sv0 Eq Hf Hsv0 Hp Hfree|f w1 c0 w2 b1 a b2 hh id sv0 Ew Eb Ee Hf Hsv0 Hp|f w1 c0 w2 Ew];
    cbn [fl_net fl_hand fl_back fl_wait with_server] in *; try (by apply IH').
  - destruct (IH' _ Hc Hro) as [?|?]; [left; set_solver|by right].
  - destruct (IH' _ Hc Hro) as [Hn|[Hn|Hn]]; [|right; left; rewrite fmap_app; set_solver|right; by right].
    rewrite En in Hn. apply elem_of_app in Hn as [?|[->|?]%elem_of_cons]; [left; set_solver| |left; set_solver].
    right; left. rewrite fmap_app. apply elem_of_app. right. left.
  - destruct (IH' _ Hc Hro) as [Hn|[Hn|(a & Ha & Ee)]]; [|right; by left|right; right; exists a; split; [|done]; set_solver].
    rewrite En in Hn. apply elem_of_app in Hn as [?|[->|?]%elem_of_cons]; [left; set_solver| |left; set_solver].
    right; right. exists c0. split; [|done]. rewrite Hrep by done. set_solver.
  - destruct (IH' _ Hc Hro) as [Hn|?]; [|by right]. rewrite En in Hn. apply elem_of_app in Hn as [?|[->|?]%elem_of_cons]; [left; set_solver| |left; set_solver].
    destruct (Hlo c0 Hro). set_solver.
  - destruct (IH' _ Hc Hro) as [Hn|[Hn|(a & Ha & Ee)]]; [by left| |right; right; exists a; split; [|done]; set_solver].
    rewrite Eh, fmap_app in Hn. cbn [fmap list_fmap fst] in Hn. rewrite fmap_app.
    apply elem_of_app in Hn as [?|[->|?]%elem_of_cons]; [right; left; set_solver| |right; left; set_solver].
    right; right. exists c0. split; [|done]. rewrite Hrep by done. set_solver.
  - apply elem_of_app in Hc as [Hc|Hc%elem_of_list_singleton].
    + apply elem_of_list_filter in Hc as [_ Hc]. destruct (IH' _ Hc Hro) as [?|?]; [left; set_solver|by right].
    + subst c0. left. set_solver.
  - assert (c ∈ fl_wait f) as Hcw by (rewrite Ew; set_solver).
    destruct (IH' _ Hcw Hro) as [Hn|[Hn|(a' & Ha & Ee')]]; [by left|right; by left|]. right; right.
    exists a'. split; [|done]. rewrite Eb in Ha. apply elem_of_app in Ha as [?|[->|?]%elem_of_cons]; [set_solver| |set_solver].
    exfalso. rewrite Ew, fmap_app in Hnd. cbn [fmap list_fmap] in Hnd. rewrite <-Permutation_middle in Hnd.
    apply NoDup_cons in Hnd as [Hnd _]. apply Hnd. rewrite <-fmap_app. apply elem_of_list_fmap. exists c. split; [congruence|done].
  - apply IH'; [|done]. rewrite Ew. set_solver.
Qed.

(** ** Steps of a round that are possible *)
Section round.
Context (r : N) (tr : list flabel) (f : fleet) (m0 : gmap string mixers) (s : system).
Context (Hr : frun tr f) (Hup : ∀ h sv, fl_srv f !! h = Some sv → sv_panic sv = false)
        (Hop : ∀ h, length (openings r h tr) ≤ 1)
        (Hlo : ∀ c, rq_round (fc_rq c) = r → FLose c ∉ tr) (Hvoid : none_void r f)
        (Hcap : ∀ h, h ∈ servers → 0 < workers h ∧ 0 < taskCap h)
        (HR : Rel r m0 f s)
        (Hm0 : ∀ h m, m0 !! h = Some m → idle m ∧ h ∈ servers)
        (Hto : ∀ c h, c ∈ sy_queue s ++ sy_net s → cl_from c = Some h → cl_to c ∈ servers).

Definition can : Prop := ∃ l f', fstep f l f' ∧ fown l = true ∧ about_round f r l.

Lemma obj_run h sv id ob : fl_srv f !! h = Some sv → sv_objs sv !! id = Some ob →
  init_ok (ro_init ob) ∧ run (peel h (ro_round ob)) (workers h) (taskCap h) (ro_cap ob) (ro_init ob) (ro_trace ob) (ro_state ob).
Proof.
  intros Hsv Ho. destruct (frun_host _ _ _ _ _ _ _ _ _ Hr Hsv) as (sv0 & Hrun & Hd).
  assert (sv_objs sv0 !! id = Some ob) as Ho' by (destruct Hd; by subst).
  pose proof (si_obj _ _ _ _ _ _ _ (srun_SInv _ _ _ _ _ _ _ _ Hrun) _ _ Ho') as Hok.
  split; [|apply Hok]. destruct (oo_made _ _ _ _ _ _ _ _ _ Hok) as (fuel & req & w & ms & _ & _ & Hn & _). by eapply NewMixers_init_ok.
Qed.

Lemma can_obj h sv id ob l m : fl_srv f !! h = Some sv → sv_objs sv !! id = Some ob → ro_round ob = r →
  own_label l → internal l = true → ostep (peel h) (workers h) (taskCap h) ob (ro_state ob) l m → can.
Proof.
  intros Hsv Ho Hro Hl Hi Hs. exists (FServer h (SObj id l)). eexists. split; [|split; [exact Hi|by exists sv, ob]].
  eapply f_server; [exact Hsv|exact Hl|]. eapply ss_obj; [by eapply Hup|exact Ho|by destruct l|by destruct l|by destruct l|exact Hs].
Qed.
Lemma can_net c sv : c ∈ fl_net f → rq_round (fc_rq c) = r → fl_srv f !! fc_to c = Some sv → can.
Proof.
  intros Hc Hro Hsv. apply elem_of_list_split in Hc as (n1 & n2 & En).
  destruct (sv_states sv !! rq_round (fc_rq c)) as [id|] eqn:E.
  - exists (FAccept c id). eexists. split; [|by split]. eapply f_accept; [exact En|exact Hsv|]. eapply ss_add; [by eapply Hup|exact E].
  - exists (FRefuse c). eexists. split; [|by split]. eapply f_refuse; [exact En|exact Hsv|]. eapply ss_add_nf; [by eapply Hup|exact E].
Qed.
Lemma can_hand c id : (c, id) ∈ fl_hand f → rq_round (fc_rq c) = r → can.
Proof.
  intros Hc Hro. destruct (frun_calls _ _ _ _ _ _ _ Hr) as [_ H2]. destruct (H2 _ _ Hc) as (sv & ob & Hsv & Ho & Hrob).
  rewrite Hro in Hrob. destruct (obj_run _ _ _ _ Hsv Ho) as [Hin Hrun].
  assert (fc_to c ∈ servers) as Hs by (apply (frun_dom _ _ _ _ _ _ _ _ Hr); by eexists).
  pose proof (frun_panic _ _ _ _ _ _ _ _ _ _ _ Hr Hsv Ho (Hup _ _ Hsv)) as Hp. destruct (Hcap _ Hs) as [C1 C2].
  destruct (decide (mm_holder (ro_state ob) = None)) as [Hh|Hh].
  - apply elem_of_list_split in Hc as (h1 & h2 & Eh).
    pose proof (frun_hand _ _ _ _ Hr Hsv) as Hhand.
    unfold hand_calls in Hhand. rewrite Eh, filter_app, fmap_app, filter_cons, decide_True in Hhand by done. cbn [fmap list_fmap fst snd] in Hhand.
    destruct (perm_elem _ _ _ _ Hhand) as (c1 & c2 & Ec & _).
    exists (FEnter c id). eexists. split; [|by split]. eapply f_enter; [exact Eh|exact Hsv|].
    eapply ss_enter; [by eapply Hup|exact Ec|exact Ho|]. by apply step_add.
  - destruct (holder_progress (peel (fc_to c) (ro_round ob)) (workers (fc_to c)) (taskCap (fc_to c)) (ro_cap ob) _ _ _ C1 C2 (run_inv _ _ _ _ _ _ _ Hin Hrun) Hp Hh) as (l & m & Hl & Hi & Hs').
    by eapply can_obj.
Qed.
Lemma in_hand c : c ∈ (fl_hand f).*1 → ∃ id, (c, id) ∈ fl_hand f.
Proof. intros ((c' & id) & -> & Hin)%elem_of_list_fmap. by exists id. Qed.
Lemma srv_in h : h ∈ servers → ∃ sv, fl_srv f !! h = Some sv.
Proof. intros Hh. apply (frun_dom _ _ _ _ _ _ _ _ Hr) in Hh as [sv Hsv]. by exists sv. Qed.
Lemma can_wait c : c ∈ fl_wait f → rq_round (fc_rq c) = r → can.
Proof.
  intros Hc Hro. destruct (fc_from c) as [[h id]|] eqn:Ef.
  2:{ exfalso. apply (frun_senders _ _ Hr c); [|done]. unfold unfinished. set_solver. }
  destruct (frun_answers r _ _ Hr Hlo c Hc Hro) as [Hn|[Hn|(a & Ha & Ee)]].
  - assert (fc_to c ∈ servers) as Hs.
    { apply (Hto (mkCall (Some h) (fc_to c) (fc_rq c)) h); [|done]. apply elem_of_app. right. rewrite (rl_net _ _ _ _ HR).
      apply elem_of_list_omap. exists c. split; [set_solver|]. rewrite proj_r by done. by rewrite Ef. }
    destruct (srv_in _ Hs) as [sv Hsv]. by eapply can_net.
  - destruct (in_hand _ Hn) as [id' Hid]. by eapply can_hand.
  - destruct (frun_calls _ _ _ _ _ _ _ Hr) as [H1 _]. destruct (H1 c h id) as (sv & ob & Hsv & _); [unfold all_calls; set_solver|done|].
    apply elem_of_list_split in Hc as (w1 & w2 & Ew). apply elem_of_list_split in Ha as (b1 & b2 & Eb).
    exists (FReturn c). eexists. split; [|by split]. eapply f_return; [exact Ew|exact Eb|done|exact Ef|exact Hsv|by eapply Hup].
Qed.
(** A sender of the round makes progress, or is free. *)
Lemma sender_round_of c h id sv ob : c ∈ all_calls f → fc_from c = Some (h, id) → fl_srv f !! h = Some sv → sv_objs sv !! id = Some ob →
  rq_round (fc_rq c) = ro_round ob.
Proof.
  intros Hc Hf Hsv Ho. destruct (frun_calls _ _ _ _ _ _ _ Hr) as [H1 _]. destruct (H1 _ _ _ Hc Hf) as (sv' & ob' & E1 & E2 & E3).
  rewrite Hsv in E1. injection E1 as <-. rewrite Ho in E2. by injection E2 as <-.
Qed.
Lemma can_send c : c ∈ fl_queue f → rq_round (fc_rq c) = r → can.
Proof.
  intros Hc Hro. destruct (first_split (λ c, rq_round (fc_rq c) = r) (fl_queue f)) as (q1 & c0 & q2 & Eq & Hc0 & Hq1); [by exists c|].
  destruct (fc_from c0) as [[h id]|] eqn:Ef.
  2:{ exfalso. apply (frun_senders _ _ Hr c0); [|done]. unfold unfinished. rewrite Eq. set_solver. }
  destruct (frun_calls _ _ _ _ _ _ _ Hr) as [H1 _]. destruct (H1 c0 h id) as (sv & ob & Hsv & Ho & Hrob); [unfold all_calls; rewrite Eq; set_solver|done|].
  rewrite Hc0 in Hrob.
  destruct (list_search (λ c, rq_round (fc_rq c) ≠ r) (λ c, rq_round (fc_rq c) = r) (fl_wait f)) as [Hw|(c1 & Hc1 & Hr1)].
  { intros x _. destruct (decide (rq_round (fc_rq x) = r)); auto. }
  2:{ by eapply can_wait. }
  exists (FSend c0). eexists. split; [|by split]. eapply f_send; [exact Eq|exact Ef|exact Hsv|by eapply Hup|].
  intros c' Hc' Hf'. assert (rq_round (fc_rq c') = r) as Hr'.
  { rewrite <-Hrob. eapply sender_round_of; [|exact Hf'|exact Hsv|exact Ho]. unfold all_calls. rewrite Eq. set_solver. }
  rewrite !elem_of_app in Hc'. destruct Hc' as [Hc'|[Hc'|Hc']]; [by eapply Hq1|by eapply Hw|by eapply Hvoid].
Qed.
Lemma can_take h sv id ob o m : fl_srv f !! h = Some sv → sv_objs sv !! id = Some ob → ro_round ob = r →
  ostep (peel h) (workers h) (taskCap h) ob (ro_state ob) (LRecv o) m → can.
Proof.
  intros Hsv Ho Hro Hs.
  destruct (list_search (λ c, rq_round (fc_rq c) ≠ r) (λ c, rq_round (fc_rq c) = r) (fl_wait f)) as [Hw|(c1 & Hc1 & Hr1)];
    [intros x _; destruct (decide (rq_round (fc_rq x) = r)); auto| |by eapply can_wait].
  destruct (list_search (λ c, rq_round (fc_rq c) ≠ r) (λ c, rq_round (fc_rq c) = r) (fl_queue f)) as [Hq|(c1 & Hc1 & Hr1)];
    [intros x _; destruct (decide (rq_round (fc_rq x) = r)); auto| |by eapply can_send].
  assert (free (unfinished f) h id) as Hfree.
  { intros c' Hc' Hf'. assert (rq_round (fc_rq c') = r) as Hr'.
    { rewrite <-Hro. eapply sender_round_of; [|exact Hf'|exact Hsv|exact Ho]. unfold all_calls. unfold unfinished in Hc'. set_solver. }
    unfold unfinished in Hc'. rewrite !elem_of_app in Hc'. destruct Hc' as [Hc'|[Hc'|Hc']]; [by eapply Hq|by eapply Hw|by eapply Hvoid]. }
  assert (∃ sv', hsstep h sv (SObj id (LRecv o)) sv') as [sv' Hs'].
  { eexists. eapply ss_obj; [by eapply Hup|exact Ho|done|done|done|exact Hs]. }
  destruct (sender_iteration_total t (Z.of_N (ro_round ob)) h (sender_input o) (mo_sender o)) as [[cs|] Hit].
  - exists (FTake h id o (fcalls_of h id cs)). eexists. split; [|split; [done|by exists sv, ob]]. by eapply f_take.
  - exists (FCrash h id o). eexists. split; [|split; [done|by exists sv, ob]]. by eapply f_crash.
Qed.

(** The state of an up server in the round: that of its object, or a fresh one. *)
Lemma up_obj h m : up s h m → (∃ sv id ob, fl_srv f !! h = Some sv ∧ sv_objs sv !! id = Some ob ∧ ro_round ob = r ∧ m = ro_state ob) ∨ idle m.
Proof.
  intros (Hm & _ & _).
  destruct (fl_srv f !! h) as [sv|] eqn:Hsv.
  - destruct (list_search (λ ob, ro_round ob ≠ r) (λ ob, ro_round ob = r) (sv_objs sv)) as [Hno|(ob & Hob & Hro)].
    { intros x _. destruct (decide (ro_round x = r)); auto. }
    + right. rewrite (rs_none _ _ _ _ (rl_srv _ _ _ _ HR) h) in Hm; [by apply (Hm0 h)|].
      intros sv' id ob Hsv' Ho. rewrite Hsv in Hsv'. injection Hsv' as <-. apply Hno. by eapply elem_of_list_lookup_2.
    + left. apply elem_of_list_lookup in Hob as [id Hob]. exists sv, id, ob. split_and!; try done.
      rewrite (rs_obj _ _ _ _ (rl_srv _ _ _ _ HR) _ _ _ _ Hsv Hob Hro) in Hm. by injection Hm.
  - right. rewrite (rs_none _ _ _ _ (rl_srv _ _ _ _ HR) h) in Hm; [by apply (Hm0 h)|]. intros sv' id ob Hsv'. by rewrite Hsv in Hsv'.
Qed.
Lemma up_server h m : up s h m → h ∈ servers.
Proof.
  intros (Hm & _ & _). destruct (fl_srv f !! h) as [sv|] eqn:Hsv; [apply (frun_dom _ _ _ _ _ _ _ _ Hr); by eexists|].
  rewrite (rs_none _ _ _ _ (rl_srv _ _ _ _ HR) h) in Hm; [by apply (Hm0 h m)|]. intros sv' id ob Hsv'. by rewrite Hsv in Hsv'.
Qed.
Lemma hstep_obj h sv id ob l m : fl_srv f !! h = Some sv → sv_objs sv !! id = Some ob → ro_round ob = r →
  hstep (λ h, peel h r) workers taskCap (hcap t) h (ro_state ob) l m → ostep (peel h) (workers h) (taskCap h) ob (ro_state ob) l m.
Proof.
  intros Hsv Ho Hro Hs. unfold ostep. rewrite Hro, (cap_of t peel workers taskCap servers _ _ _ _ _ _ Hr Hsv Ho). exact Hs.
Qed.

Lemma lift y s' : ystepg false t (Z.of_N r) (λ h, peel h r) workers taskCap (hcap t) s y s' → own_step y = true → can.
Proof.
  intros Hy Ho. remember s as s1 eqn:Es in Hy. destruct Hy as [s1 h rq|s1 n1 c n2 m m' En Hu Hs|s1 n1 c n2 En|s1 h l m m' Hu Hl Hs|s1 h o m m' cs Hu _ Hs Hit|s1 h o m m' Hu _ Hs Hit
    |s1 q1 c q2 h m Eq Hf Hu _]; try done; rewrite Es in *; clear Es s1.
  - assert (c ∈ sy_net s) as Hc by (rewrite En; set_solver). pose proof (up_server _ _ Hu) as Hsrv. rewrite (rl_net _ _ _ _ HR) in Hc.
    apply elem_of_list_omap in Hc as (c' & Hc' & Hp). unfold proj in Hp. case_decide as Hro; [|done]. injection Hp as <-. cbn [cl_to] in Hsrv.
    apply elem_of_app in Hc' as [Hc'|Hc'].
    + destruct (srv_in _ Hsrv) as [sv Hsv]. by eapply can_net.
    + destruct (in_hand _ Hc') as [id Hid]. by eapply can_hand.
  - destruct (up_obj _ _ Hu) as [(sv & id & ob & Hsv & Hob & Hro & ->)|Hid].
    + eapply can_obj; try done. by eapply hstep_obj.
    + cbn in Ho. pose proof (idle_quiescent _ _ _ _ _ Hid _ _ Hs). congruence.
  - destruct (up_obj _ _ Hu) as [(sv & id & ob & Hsv & Hob & Hro & ->)|Hid].
    + eapply can_take; try done. by eapply hstep_obj.
    + by pose proof (idle_quiescent _ _ _ _ _ Hid _ _ Hs).
  - destruct (up_obj _ _ Hu) as [(sv & id & ob & Hsv & Hob & Hro & ->)|Hid].
    + eapply can_take; try done. by eapply hstep_obj.
    + by pose proof (idle_quiescent _ _ _ _ _ Hid _ _ Hs).
  - assert (c ∈ sy_queue s) as Hc by (rewrite Eq; set_solver). rewrite (rl_queue _ _ _ _ HR) in Hc.
    apply elem_of_list_omap in Hc as (c' & Hc' & Hp). unfold proj in Hp. case_decide as Hro; [|done]. by eapply can_send.
Qed.
End round.
End live.
