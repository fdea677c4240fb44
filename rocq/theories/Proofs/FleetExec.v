(** Executing a network with several rounds, for examples. *)
From stdpp Require Import gmap.
From Verif.Base Require Import Base.
From Verif.Model Require Import Topology Shuffle Onion Mixer Rounds System Fleet.
From Verif.Spec Require Import MixerSpec MessagesSpec RoundsSpec SystemSpec FleetSpec.
From Verif.Proofs Require Import MixerExec FleetProofs.

Global Instance messages_eq_dec : EqDecision Messages.
Proof. solve_decision. Defined.

(** A sender's calls, with map iteration in the order of [map_to_list]. *)
Definition fsender_request (round : Z) (t : topology) (h ls : string) (e : string * list onion) : option AddRequest :=
  mp ← GroupOnionsByMixName e.2 t;
  Some (mkAddRequest (Z.to_N (round mod 2 ^ 32)) ((λ e, mkMessages e.2 h ls e.1) <$> map_to_list mp) (request_uuid h e.1 ls)).
Definition fsender_calls (round : Z) (t : topology) (h : string) (out : list onion) (ls : string)
    : option (list (string * AddRequest)) :=
  g ← GroupOnionsByHostname out t;
  rs ← mapM id (fsender_request round t h ls <$> map_to_list g);
  Some (zip (map_to_list g).*1 rs).
Lemma fsender_calls_sound round t h out ls cs :
  fsender_calls round t h out ls = Some cs → sender_iteration round t h out ls (Some cs).
Proof.
  unfold fsender_calls, sender_iteration. destruct (GroupOnionsByHostname out t) as [g|]; [|done]. simpl. intros H.
  exists (map_to_list g), (fsender_request round t h ls <$> map_to_list g). split; [done|]. split; [|by rewrite <-H].
  clear H. induction (map_to_list g) as [|e l IH]; constructor; [|done]. unfold createRRPCRequest, fsender_request.
  destruct (GroupOnionsByMixName e.2 t) as [mp|]; [|done]. simpl. by exists (map_to_list mp).
Qed.

Inductive xchoice :=
| XClient (h : string) (rq : AddRequest)
| XNew (h : string) (r : N) (req : gmap string N)
| XObj (h : string) (id : nat) (c : choice)
| XAccept (k : nat)
| XEnter (k j : nat)
| XTake (h : string) (id : nat)
| XSend (k : nat)
| XReturn (k j : nat).

Definition addressed (l : label) : bool := match l with LAdd _ | LRecv _ | LClose | LCloseTwice => true | _ => false end.
Definition occupied (h : string) (id : nat) (cs : list fcall) : bool :=
  existsb (λ c, bool_decide (fc_from c = Some (h, id))) cs.
Lemma occupied_false h id cs : occupied h id cs = false → free cs h id.
Proof.
  intros Hb c Hc Hf. apply not_true_iff_false in Hb. apply Hb. apply existsb_exists. exists c.
  split; [by apply elem_of_list_In|]. by apply bool_decide_true.
Qed.
Definition cut {A} (k : nat) (l : list A) : list A := take k l ++ drop (S k) l.

Section exec.
Context (fuel : nat) (t : topology) (peel : string → N → onion → option (option onion)) (workers taskCap : string → nat).
Notation fstep := (fstep t peel workers taskCap).
Notation frun := (frun t peel workers taskCap).

Definition hosted_list (h : string) : list LogicalMix :=
  filter (λ m, mx_host m = h) (omap (λ e, deref t e.2) (map_to_list (tp_mixes t))).

Definition fexec_step (c : xchoice) (f : fleet) : option (flabel * fleet) :=
  match c with
  | XClient h rq => Some (FClient h rq, mkFleet (fl_srv f) (fl_queue f) (fl_net f ++ [mkFcall None h rq]) (fl_hand f) (fl_back f) (fl_wait f) (fl_void f))
  | XNew h r req =>
      sv ← fl_srv f !! h;
      if sv_panic sv then None else if bool_decide (r < 2 ^ 32)%N then
      match round_workload fuel t req with
      | Some (Ok w) =>
          m ← NewMixers t (hosted_list h) w;
          Some (FServer h (SNew r req (Ok (length (sv_objs sv)))),
            with_server f h (mkServer (<[r := length (sv_objs sv)]> (sv_states sv))
              (sv_objs sv ++ [mkRobject r m (2 * length (hosted_list h)) [] m]) (sv_calls sv) (sv_closing sv) (sv_reads sv) false))
      | _ => None
      end else None
  | XObj h id c =>
      sv ← fl_srv f !! h; o ← sv_objs sv !! id;
      if sv_panic sv then None else
      '(l, m') ← exec_step (peel h (ro_round o)) (workers h) (taskCap h) (ro_cap o) c (ro_state o);
      if addressed l then None else Some (FServer h (SObj id l), with_server f h (with_obj sv id (obj_step o l m')))
  | XAccept k =>
      c ← fl_net f !! k; sv ← fl_srv f !! fc_to c; id ← sv_states sv !! rq_round (fc_rq c);
      if sv_panic sv then None else
      Some (FAccept c id, mkFleet (<[fc_to c := mkServer (sv_states sv) (sv_objs sv) (sv_calls sv ++ [(id, rq_msgs (fc_rq c))]) (sv_closing sv) (sv_reads sv) false]> (fl_srv f))
        (fl_queue f) (cut k (fl_net f)) (fl_hand f ++ [(c, id)]) (fl_back f) (fl_wait f) (fl_void f))
  | XEnter k j =>
      ci ← fl_hand f !! k; sv ← fl_srv f !! fc_to (fst ci); o ← sv_objs sv !! snd ci; e ← sv_calls sv !! j;
      if sv_panic sv then None else
      if bool_decide (e = (snd ci, rq_msgs (fc_rq (fst ci)))) then
      if mm_panic (ro_state o) then None else
      match mm_holder (ro_state o) with
      | None => Some (FEnter (fst ci) (snd ci), mkFleet (<[fc_to (fst ci) := with_obj (mkServer (sv_states sv) (sv_objs sv) (cut j (sv_calls sv)) (sv_closing sv) (sv_reads sv) (sv_panic sv))
            (snd ci) (obj_step o (LAdd (rq_msgs (fc_rq (fst ci)))) (with_holder (ro_state o) (Some (HMsgs (rq_msgs (fc_rq (fst ci)))))))]> (fl_srv f))
          (fl_queue f) (fl_net f) (cut k (fl_hand f)) (fl_back f ++ reply (fst ci)) (fl_wait f) (fl_void f))
      | Some _ => None
      end else None
  | XTake h id =>
      sv ← fl_srv f !! h; ob ← sv_objs sv !! id;
      if sv_panic sv then None else if occupied h id (unfinished f) then None else
      '(l, m') ← exec_step (peel h (ro_round ob)) (workers h) (taskCap h) (ro_cap ob) CRecv (ro_state ob);
      match l with
      | LRecv o =>
          cs ← fsender_calls (Z.of_N (ro_round ob)) t h (sender_input o) (mo_sender o);
          Some (FTake h id o (fcalls_of h id cs), mkFleet (<[h := with_obj sv id (obj_step ob (LRecv o) m')]> (fl_srv f)) (fl_queue f ++ fcalls_of h id cs) (fl_net f)
            (fl_hand f) (fl_back f) (fl_wait f) (fl_void f))
      | _ => None
      end
  | XSend k =>
      c ← fl_queue f !! k;
      match fc_from c with
      | Some (h, id) =>
          sv ← fl_srv f !! h;
          if sv_panic sv then None else if occupied h id (take k (fl_queue f) ++ fl_wait f ++ fl_void f) then None else
          Some (FSend c, mkFleet (fl_srv f) (cut k (fl_queue f)) (fl_net f ++ [c]) (fl_hand f) (fl_back f)
            (filter (λ c', entry c' ≠ entry c) (fl_wait f) ++ [c]) (fl_void f ++ filter (λ c', entry c' = entry c) (fl_wait f)))
      | None => None
      end
  | XReturn k j =>
      c ← fl_wait f !! k; a ← fl_back f !! j;
      if bool_decide (entry a = entry c) then
      match fc_from c with
      | Some (h, id) => sv ← fl_srv f !! h; if sv_panic sv then None else
          Some (FReturn c, mkFleet (fl_srv f) (fl_queue f) (fl_net f) (fl_hand f) (cut j (fl_back f)) (cut k (fl_wait f)) (fl_void f))
      | None => None
      end else None
  end.

Lemma cut_split {A} (l : list A) k x : l !! k = Some x → l = take k l ++ x :: drop (S k) l.
Proof. intros H. symmetry. by apply take_drop_middle. Qed.

Lemma fexec_step_sound c f l f' : fexec_step c f = Some (l, f') → fstep f l f'.
Proof.
  destruct c as [h rq|h r req|h id c|k|k j|h id|k|k j]; cbn [fexec_step]; intros H.
  - injection H as <- <-. apply f_client.
  - destruct (fl_srv f !! h) as [sv|] eqn:Hsv; [|done]. cbn [mbind option_bind] in H. destruct (sv_panic sv) eqn:Hp; [done|].
    case_bool_decide as Hr; [|done]. destruct (round_workload fuel t req) as [[w| |]|] eqn:Hw; try done.
    destruct (NewMixers t (hosted_list h) w) as [m|] eqn:Hm; [|done]. cbn [mbind option_bind] in H. injection H as <- <-.
    eapply f_server; [exact Hsv|exact Hr|]. eapply ss_new; try done. by unfold hosted, hosted_list.
  - destruct (fl_srv f !! h) as [sv|] eqn:Hsv; [|done]. cbn [mbind option_bind] in H. destruct (sv_objs sv !! id) as [o|] eqn:Ho; [|done]. cbn [mbind option_bind] in H.
    destruct (sv_panic sv) eqn:Hp; [done|]. destruct (exec_step _ _ _ _ c (ro_state o)) as [[l0 m']|] eqn:Ex; [|done]. cbn [mbind option_bind] in H.
    destruct (addressed l0) eqn:Ea; [done|]. injection H as <- <-. apply exec_step_sound in Ex.
    eapply f_server; [exact Hsv|by destruct l0|]. eapply ss_obj; try done; try (by intros ->); intros; by intros ->.
  - destruct (fl_net f !! k) as [c|] eqn:Ec; [|done]. cbn [mbind option_bind] in H. destruct (fl_srv f !! fc_to c) as [sv|] eqn:Hsv; [|done]. cbn [mbind option_bind] in H.
    destruct (sv_states sv !! rq_round (fc_rq c)) as [id|] eqn:Hid; [|done]. cbn [mbind option_bind] in H. destruct (sv_panic sv) eqn:Hp; [done|]. injection H as <- <-.
    eapply f_accept; [by apply cut_split|exact Hsv|]. by apply ss_add.
  - destruct (fl_hand f !! k) as [[c id]|] eqn:Ec; [|done]. cbn [mbind option_bind fst snd] in H. destruct (fl_srv f !! fc_to c) as [sv|] eqn:Hsv; [|done]. cbn [mbind option_bind] in H.
    destruct (sv_objs sv !! id) as [o|] eqn:Ho; [|done]. cbn [mbind option_bind] in H. destruct (sv_calls sv !! j) as [e|] eqn:Ej; [|done]. cbn [mbind option_bind] in H.
    destruct (sv_panic sv) eqn:Hp; [done|]. case_bool_decide as He; [|done]. destruct (mm_panic (ro_state o)) eqn:Hpo; [done|].
    destruct (mm_holder (ro_state o)) eqn:Hh; [done|]. injection H as <- <-. rewrite He in Ej.
    eapply f_enter; [by apply cut_split|exact Hsv|]. rewrite <-Hp. eapply ss_enter; [exact Hp|by apply cut_split|exact Ho|]. by apply step_add.
  - destruct (fl_srv f !! h) as [sv|] eqn:Hsv; [|done]. cbn [mbind option_bind] in H. destruct (sv_objs sv !! id) as [ob|] eqn:Ho; [|done]. cbn [mbind option_bind] in H.
    destruct (sv_panic sv) eqn:Hp; [done|]. destruct (occupied h id (unfinished f)) eqn:Eb; [done|].
    destruct (exec_step _ _ _ _ CRecv (ro_state ob)) as [[l0 m']|] eqn:Ex; [|done]. cbn [mbind option_bind] in H. destruct l0 as [| | | | | | | | | | |o| | |]; try done.
    destruct (fsender_calls _ _ _ _ _) as [cs|] eqn:Es; [|done]. cbn [mbind option_bind] in H. injection H as <- <-. apply exec_step_sound in Ex.
    eapply f_take; [exact Hsv|exact Ho|by apply occupied_false| |by apply fsender_calls_sound]. eapply ss_obj; try done.
  - destruct (fl_queue f !! k) as [c|] eqn:Ec; [|done]. cbn [mbind option_bind] in H. destruct (fc_from c) as [[h id]|] eqn:Ef; [|done].
    destruct (fl_srv f !! h) as [sv|] eqn:Hsv; [|done]. cbn [mbind option_bind] in H. destruct (sv_panic sv) eqn:Hp; [done|].
    destruct (occupied h id _) eqn:Eb; [done|]. injection H as <- <-.
    eapply f_send; [by apply cut_split|exact Ef|exact Hsv|exact Hp|by apply occupied_false].
  - destruct (fl_wait f !! k) as [c|] eqn:Ec; [|done]. cbn [mbind option_bind] in H. destruct (fl_back f !! j) as [a|] eqn:Ea; [|done]. cbn [mbind option_bind] in H.
    case_bool_decide as He; [|done]. destruct (fc_from c) as [[h id]|] eqn:Ef; [|done]. destruct (fl_srv f !! h) as [sv|] eqn:Hsv; [|done]. cbn [mbind option_bind] in H.
    destruct (sv_panic sv) eqn:Hp; [done|]. injection H as <- <-.
    eapply f_return; [by apply cut_split|by apply cut_split|exact He|exact Ef|exact Hsv|exact Hp].
Qed.

(** Take the first choice that is possible, as long as there is one; then go on with the next list. *)
Fixpoint fpick (cs : list xchoice) (f : fleet) : option (flabel * fleet) :=
  match cs with [] => None | c :: cs => match fexec_step c f with Some x => Some x | None => fpick cs f end end.
Lemma fpick_sound cs f l f' : fpick cs f = Some (l, f') → fstep f l f'.
Proof.
  induction cs as [|c cs IH]; cbn; [done|]. destruct (fexec_step c f) as [[? ?]|] eqn:E; [|done].
  intros [= <- <-]. by eapply fexec_step_sound.
Qed.
Fixpoint fauto (n : nat) (cs : list xchoice) (f : fleet) : list flabel * fleet :=
  match n with
  | 0 => ([], f)
  | S n => match fpick cs f with None => ([], f) | Some (l, f') => let x := fauto n cs f' in (l :: x.1, x.2) end
  end.
Lemma frun_cons f0 l f1 tr f : fstep f0 l f1 → frun f1 tr f → frun f0 (l :: tr) f.
Proof.
  intros Hs Hr. induction Hr as [|tr l' f2 f3 Hr IH Hs'].
  - eapply (frun_snoc _ _ _ _ _ []); [constructor|done].
  - rewrite app_comm_cons. by eapply frun_snoc.
Qed.
Lemma fauto_sound n cs f : frun f (fauto n cs f).1 (fauto n cs f).2.
Proof.
  revert f. induction n as [|n IH]; intros f; cbn; [constructor|].
  destruct (fpick cs f) as [[l f']|] eqn:E; [|constructor]. cbn. eapply frun_cons; [by eapply fpick_sound|apply IH].
Qed.
Fixpoint fphases (ps : list (nat * list xchoice)) (f : fleet) : list flabel * fleet :=
  match ps with [] => ([], f) | p :: ps => let x := fauto p.1 p.2 f in let y := fphases ps x.2 in (x.1 ++ y.1, y.2) end.
Lemma fphases_sound ps f : frun f (fphases ps f).1 (fphases ps f).2.
Proof.
  revert f. induction ps as [|p ps IH]; intros f; cbn [fphases]; [constructor|]. cbn [fst snd].
  eapply frun_app; [apply fauto_sound|apply IH].
Qed.

Lemma recv_out h sv id o sv' ob : hsstep t peel workers taskCap h sv (SObj id (LRecv o)) sv' → sv_objs sv !! id = Some ob → ∃ os, mm_out (ro_state ob) = o :: os.
Proof.
  intros Hs Hob. unfold hsstep in Hs. inversion Hs as [| | | | | | |? c1 id1 c2 o1 l1 s1 Hp E1 E2 E3 E4| | | |? id1 o1 l1 s1 Hp E2 N1 N2 N3 E4| | | |]; subst.
  - destruct E3; done.
  - rewrite Hob in E2. injection E2 as <-. unfold ostep in E4. inversion E4; subst. by eexists.
Qed.
(** States in which the servers have nothing left to do for round r. *)
Lemma quiet_round r f :
  (∀ c, c ∈ fl_net f ++ (fl_hand f).*1 ++ fl_queue f ++ fl_wait f → rq_round (fc_rq c) ≠ r) →
  (∀ h sv id ob, fl_srv f !! h = Some sv → sv_objs sv !! id = Some ob → ro_round ob = r →
    mm_holder (ro_state ob) = None ∧ mm_tasks (ro_state ob) = [] ∧ mm_inflight (ro_state ob) = [] ∧ mm_pend (ro_state ob) = [] ∧
    (mm_out (ro_state ob) = [] ∨ ∃ c, c ∈ fl_void f ∧ fc_from c = Some (h, id))) →
  round_settled t peel workers taskCap r f.
Proof.
  intros Hc Ho l f' Hst Hl Ha.
  destruct Hst as [f hh rq|f hh l sv0 sv' Hsv0 Hl0 Hs|f n1 c0 n2 sv0 sv' id En Hsv0 Hs|f n1 c0 n2 sv0 sv' e En Hsv0 Hs|f n1 c0 n2 En
    |f h1 c0 id h2 sv0 sv' Eh Hsv0 Hs|f hh id o sv0 ob sv' cs Hsv0 Hob Hfree Hs Hit|f hh id o sv0 ob sv' Hsv0 Hob Hfree Hs Hit
    |f q1 c0 q2 hh id sv0 Eq Hf Hsv0 Hp Hfree|f w1 c0 w2 b1 a b2 hh id sv0 Ew Eb Ee Hf Hsv0 Hp|f w1 c0 w2 Ew]; try done; cbn in Ha.
  - destruct l as [| | | | |id lb|]; try done. destruct Ha as (sv & ob & E1 & E2 & E3). rewrite Hsv0 in E1. injection E1 as <-.
    destruct (Ho _ _ _ _ Hsv0 E2 E3) as (O1 & O2 & O3 & O4 & _).
    assert (∃ m', ostep (peel hh) (workers hh) (taskCap hh) ob (ro_state ob) lb m') as [m' Hm'].
    { unfold hsstep in Hs. inversion Hs; subst; rewrite E2 in *; simplify_eq; eauto. }
    unfold ostep in Hm'. cbn in Hl, Hl0. revert Hl0 Hl O1 O2 O3 O4. clear -Hm'. intros Hl0 Hl O1 O2 O3 O4.
    inversion Hm'; subst; try done; try congruence;
      try (match goal with E : mm_inflight _ = ?a ++ _ :: _ |- _ => rewrite E in O3; by destruct a end);
      match goal with E : mm_pend _ = ?a ++ _ :: _ |- _ => rewrite E in O4; by destruct a end.
  - eapply Hc; [|exact Ha]. rewrite En, !elem_of_app, elem_of_cons. tauto.
  - eapply Hc; [|exact Ha]. rewrite En, !elem_of_app, elem_of_cons. tauto.
  - eapply Hc; [|exact Ha]. rewrite Eh, fmap_app, !elem_of_app. cbn [fmap list_fmap fst]. rewrite elem_of_cons. tauto.
  - destruct Ha as (sv & ob1 & E1 & E2 & E3). rewrite Hsv0 in E1. injection E1 as <-. rewrite Hob in E2. injection E2 as <-.
    destruct (Ho _ _ _ _ Hsv0 Hob E3) as (_ & _ & _ & _ & [O5|(c & Hv & Hf)]).
    + destruct (recv_out _ _ _ _ _ _ Hs Hob) as [os Eo]. congruence.
    + apply (Hfree c); [|exact Hf]. unfold unfinished. rewrite !elem_of_app. tauto.
  - destruct Ha as (sv & ob1 & E1 & E2 & E3). rewrite Hsv0 in E1. injection E1 as <-. rewrite Hob in E2. injection E2 as <-.
    destruct (Ho _ _ _ _ Hsv0 Hob E3) as (_ & _ & _ & _ & [O5|(c & Hv & Hf)]).
    + destruct (recv_out _ _ _ _ _ _ Hs Hob) as [os Eo]. congruence.
    + apply (Hfree c); [|exact Hf]. unfold unfinished. rewrite !elem_of_app. tauto.
  - eapply Hc; [|exact Ha]. rewrite Eq, !elem_of_app, elem_of_cons. tauto.
  - eapply Hc; [|exact Ha]. rewrite Ew, !elem_of_app, elem_of_cons. tauto.
Qed.

(** A sender whose call was replaced does nothing any more. *)
Lemma void_stays f l f' c : fstep f l f' → c ∈ fl_void f → c ∈ fl_void f'.
Proof. intros Hst Hc. destruct Hst; cbn [fl_void with_server]; try done. apply elem_of_app. by left. Qed.
Lemma void_stuck f tr f' c h id : frun f tr f' → c ∈ fl_void f → fc_from c = Some (h, id) →
  c ∈ fl_void f' ∧ (∀ o cs, FTake h id o cs ∉ tr) ∧ (∀ o, FCrash h id o ∉ tr) ∧ (∀ c', fc_from c' = Some (h, id) → FSend c' ∉ tr).
Proof.
  intros Hr Hc Hf. induction Hr as [|tr l f1 f2 Hr IH Hst]; [split; [done|]; split_and!; intros; by intros ?%elem_of_nil|].
  destruct IH as (I0 & I1 & I2 & I3). split; [by eapply void_stays|].
  assert (∀ cs, (∀ c, c ∈ fl_void f1 → c ∈ cs) → ¬ free cs h id) as Hno by (intros cs Hin Hfr; by apply (Hfr c); [apply Hin|]).
  split_and!.
  - intros o cs [Hin|Hin%elem_of_list_singleton]%elem_of_app; [by eapply I1|]. subst l. inversion Hst; subst.
    match goal with Hfr : free _ _ _ |- _ => eapply Hno; [|exact Hfr] end. intros c' Hc'. unfold unfinished. rewrite !elem_of_app. tauto.
  - intros o [Hin|Hin%elem_of_list_singleton]%elem_of_app; [by eapply I2|]. subst l. inversion Hst; subst.
    match goal with Hfr : free _ _ _ |- _ => eapply Hno; [|exact Hfr] end. intros c' Hc'. unfold unfinished. rewrite !elem_of_app. tauto.
  - intros c' Hf' [Hin|Hin%elem_of_list_singleton]%elem_of_app; [by eapply I3|]. subst l. inversion Hst; subst.
    match goal with E1 : fc_from c' = Some (?a, ?b), Hfr : free _ ?a ?b |- _ => rewrite Hf' in E1; injection E1 as <- <-; eapply Hno; [|exact Hfr] end.
    intros c0 Hc0. rewrite !elem_of_app. tauto.
Qed.

(** ** Rounds that never move again *)
Definition rests (f : fleet) (h : string) (id : nat) (m : mixers) : Prop :=
  mm_holder m = None ∧ mm_tasks m = [] ∧ mm_inflight m = [] ∧ mm_pend m = [] ∧
  (mm_out m = [] ∨ ∃ c, c ∈ fl_void f ∧ fc_from c = Some (h, id)).
Record resting (P : string → nat → gmap string mixState → Prop) (r : N) (f : fleet) : Prop := {
  re_calls : ∀ c, c ∈ fl_net f ++ (fl_hand f).*1 ++ fl_queue f ++ fl_wait f → rq_round (fc_rq c) ≠ r;
  re_objs : ∀ h sv id ob, fl_srv f !! h = Some sv → sv_objs sv !! id = Some ob → ro_round ob = r →
    rests f h id (ro_state ob) ∧ P h id (mm_states (ro_state ob)) }.
Lemma resting_settled P r f : resting P r f → round_settled t peel workers taskCap r f.
Proof. intros [H1 H2]. apply quiet_round; [exact H1|]. intros h sv id ob Hsv Ho Hro. by destruct (H2 _ _ _ _ Hsv Ho Hro). Qed.
Lemma rests_obj f h id ob lb m' : rests f h id (ro_state ob) → ostep (peel h) (workers h) (taskCap h) ob (ro_state ob) lb m' →
  (∀ msgs, lb ≠ LAdd msgs) → (∃ o, lb = LRecv o) ∨ rests f h id m' ∧ mm_states m' = mm_states (ro_state ob).
Proof.
  intros (O1 & O2 & O3 & O4 & O5) Hm' Hadd. unfold ostep in Hm'. unfold rests.
  inversion Hm'; subst; try (by left; eauto); try (by edestruct Hadd); try congruence;
      try (match goal with E : mm_inflight _ = ?a ++ _ :: _ |- _ => rewrite E in O3; by destruct a end);
      try (match goal with E : mm_pend _ = ?a ++ _ :: _ |- _ => rewrite E in O4; by destruct a end); right; done.
Qed.
Lemma rests_void f f' h id m : rests f h id m → (∀ c, c ∈ fl_void f → c ∈ fl_void f') → rests f' h id m.
Proof. intros (O1 & O2 & O3 & O4 & O5) Hv. unfold rests. split_and!; try done. destruct O5 as [?|(c & ? & ?)]; [by left|right; eauto]. Qed.

Lemma resting_step P r servers tr f l f' : frun (fleet_start servers) tr f → resting P r f → fstep f l f' →
  (∀ h rq, l = FClient h rq → rq_round rq ≠ r) → (∀ h req res, l ≠ FServer h (SNew r req res)) → resting P r f'.
Proof.
  intros Hr HQ Hst Hcl Hnew. pose proof HQ as [Q1 Q2]. pose proof (frun_calls _ _ _ _ _ _ _ Hr) as [C1 C2].
  assert (frun (fleet_start servers) (tr ++ [l]) f') as Hr' by (by econstructor). pose proof (frun_calls _ _ _ _ _ _ _ Hr') as [C1' _].
  pose proof (resting_settled _ _ _ HQ) as Hset.
  split.
  - intros c Hc. assert (c ∈ fl_net f ++ (fl_hand f).*1 ++ fl_queue f ++ fl_wait f ∨ (∃ h rq, l = FClient h rq ∧ c = mkFcall None h rq) ∨ (∃ h id o cs, l = FTake h id o cs ∧ c ∈ cs)) as Hor.
    { clear -Hst Hc. destruct Hst; cbn [fl_queue fl_net fl_hand fl_wait with_server] in Hc; try (by left).
      - rewrite !elem_of_app, elem_of_list_singleton in Hc. rewrite !elem_of_app. destruct Hc as [[?| ->]|?]; eauto 10; tauto.
      - left. rewrite H. rewrite fmap_app, !elem_of_app in Hc. cbn [fmap list_fmap fst] in Hc. rewrite elem_of_list_singleton in Hc. rewrite !elem_of_app, elem_of_cons. tauto.
      - left. rewrite H. rewrite !elem_of_app in Hc. rewrite !elem_of_app, elem_of_cons. tauto.
      - left. rewrite H. rewrite !elem_of_app in Hc. rewrite !elem_of_app, elem_of_cons. tauto.
      - left. rewrite H. rewrite !fmap_app, !elem_of_app in Hc. rewrite !fmap_app, !elem_of_app. cbn [fmap list_fmap fst]. rewrite elem_of_cons. tauto.
      - rewrite !elem_of_app in Hc. rewrite !elem_of_app. destruct Hc as [?|[?|[[?|Hc]|?]]]; try (left; tauto). right; right. eauto 10.
      - left. rewrite H. rewrite !elem_of_app, elem_of_list_filter, !elem_of_list_singleton in Hc. rewrite !elem_of_app, !elem_of_cons. tauto.
      - left. rewrite H. rewrite !elem_of_app in Hc. rewrite !elem_of_app, elem_of_cons. tauto.
      - left. rewrite H. rewrite !elem_of_app in Hc. rewrite !elem_of_app, elem_of_cons. tauto. }
    destruct Hor as [Hin|[(h & rq & -> & ->)|(h & id & o & cs & -> & Hin)]].
    + by apply Q1.
    + by eapply Hcl.
    + intros Hro. apply (Hset _ _ Hst eq_refl). inversion Hst as [| | | | | |f1 hh id1 o1 sv0 ob sv' cs1 Hsv0 Hob Hfree Hs Hit| | | |]; subst.
      apply elem_of_list_fmap in Hin as (e & -> & He). cbn [fc_rq] in *. exists sv0, ob. split; [done|]. split; [done|].
      rewrite (sender_round _ _ _ _ _ _ _ Hit He). pose proof (frun_32 _ _ _ _ _ _ _ _ _ _ _ Hr Hsv0 Hob). rewrite Z.mod_small by lia. by rewrite N2Z.id.
  - intros h sv' id ob' Hsv' Ho' Hro'.
    assert (∀ c, c ∈ fl_void f → c ∈ fl_void f') as Hv by (intros c; by eapply void_stays).
    enough (rests f h id (ro_state ob') ∧ P h id (mm_states (ro_state ob'))) as [H1 H2] by (split; [by eapply rests_void|done]).
    destruct (fstep_srv _ _ _ _ _ _ _ Hst h) as [(_ & E)|(x & sv1 & sv2 & Hx & E & Hs & E')].
    { rewrite E in Hsv'. by eapply Q2. }
    rewrite Hsv' in E'. injection E' as Esv.
    assert (sv_objs sv2 !! id = Some ob') as Ho by (subst sv'; destruct (downable l); done). clear Ho' Hsv' Esv sv'.
    destruct (sstep_kind _ _ _ _ _ _ _ _ _ Hs) as [(id' & lb & o & y & -> & Hob & Hos & Eo)|[(q & rq & ob & -> & Eo & Hq & _)|(_ & _ & Eo)]].
    + rewrite Eo in Ho. destruct (decide (id' = id)) as [->|Hne].
      2:{ rewrite list_lookup_insert_ne in Ho by done. by eapply Q2. }
      rewrite list_lookup_insert in Ho by (by eapply lookup_lt_Some). injection Ho as <-. cbn [obj_step ro_round ro_state] in *.
      destruct (Q2 _ _ _ _ E Hob Hro') as [R1 R2].
      assert (about_round f r (FServer h (SObj id lb))) as Hab by (by exists sv1, o).
      assert ((∃ msgs, lb = LAdd msgs) ∨ ∀ msgs, lb ≠ LAdd msgs) as [[msgs ->]|Hadd] by (destruct lb; first [by left; eauto | right; by intros ? [=]]).
      * (* entered by a handler *)
        exfalso. destruct l as [|h0 l0| | | |c id0|h0 id0 o0 cs| | | |]; cbn in Hx; try done; try (case_decide as Hh0; [|done]); try done.
        -- injection Hx as ->. inversion Hst; subst. done.
        -- injection Hx as -> _. apply (Hset _ _ Hst eq_refl). cbn. inversion Hst as [| | | | |f1 h1 c1 id1 h2 sv3 sv4 Eh Hsv3 Hs3| | | | |]; subst f1 c1 id1.
           destruct (C2 c id) as (sv5 & ob5 & F1 & F2 & F3); [rewrite Eh; apply elem_of_app; right; left|].
           rewrite Hh0 in F1. rewrite E in F1. injection F1 as <-. rewrite Hob in F2. injection F2 as <-. congruence.
      * destruct (rests_obj _ _ _ _ _ _ R1 Hos Hadd) as [[o0 ->]|[R3 R4]]; [|split; [done|by rewrite R4]].
        exfalso. destruct l as [|h0 l0| | | |c id0|h0 id0 o1 cs| | | |h0 id0 o1]; cbn in Hx; try done; try (case_decide as Hh0; [|done]); try done.
        -- injection Hx as ->. inversion Hst; subst. done.
        -- injection Hx as -> _. apply (Hset _ _ Hst eq_refl). subst h0. exact Hab.
        -- injection Hx as -> _. apply (Hset _ _ Hst eq_refl). subst h0. exact Hab.
    + rewrite Eo in Ho. apply lookup_app_Some in Ho as [Ho|[_ Ho]]; [by eapply Q2|].
      exfalso. apply list_lookup_singleton_Some in Ho as [_ ->]. rewrite Hq in Hro'. subst q.
      destruct l; cbn in Hx; try (case_decide; [|done]); try done. injection Hx as ->. by eapply Hnew.
    + rewrite Eo in Ho. by eapply Q2.
Qed.
Lemma resting_run P r servers tr f tr' f' : frun (fleet_start servers) tr f → resting P r f → frun f tr' f' →
  (∀ h rq, FClient h rq ∈ tr' → rq_round rq ≠ r) → (∀ h req res, FServer h (SNew r req res) ∉ tr') → resting P r f'.
Proof.
  intros Hr HQ Hr'. induction Hr' as [|tr' l f1 f2 Hr' IH Hst]; intros Hcl Hnew; [done|].
  eapply (resting_step P r servers (tr ++ tr') f1 l f2); [by eapply frun_app|apply IH|exact Hst| |].
  - intros h rq Hin. eapply Hcl. apply elem_of_app. left. exact Hin.
  - intros h rq res Hin. eapply Hnew. apply elem_of_app. left. exact Hin.
  - intros h rq ->. eapply Hcl. apply elem_of_app. right. by apply elem_of_list_singleton.
  - intros h rq res ->. eapply Hnew. apply elem_of_app. right. by apply elem_of_list_singleton.
Qed.
End exec.

(** Deciding whether a round rests. *)
Definition rests_b (f : fleet) (h : string) (id : nat) (m : mixers) : bool :=
  match mm_holder m, mm_tasks m, mm_inflight m, mm_pend m with
  | None, [], [], [] => match mm_out m with [] => true | _ => existsb (λ c, bool_decide (fc_from c = Some (h, id))) (fl_void f) end
  | _, _, _, _ => false
  end.
Definition resting_b (P : string → nat → gmap string mixState → bool) (r : N) (f : fleet) : bool :=
  forallb (λ c, negb (N.eqb (rq_round (fc_rq c)) r)) (fl_net f ++ (fl_hand f).*1 ++ fl_queue f ++ fl_wait f) &&
  forallb (λ e, forallb (λ p, negb (N.eqb (ro_round p.2) r) || (rests_b f e.1 p.1 (ro_state p.2) && P e.1 p.1 (mm_states (ro_state p.2))))
    (imap pair (sv_objs e.2))) (map_to_list (fl_srv f)).
Lemma resting_b_ok P r f : resting_b P r f = true → resting (λ h id sts, P h id sts = true) r f.
Proof.
  unfold resting_b. intros [H1 H2]%andb_true_iff. rewrite forallb_forall in H1, H2. split.
  - intros c Hc Hro. specialize (H1 c). rewrite <-elem_of_list_In in H1. specialize (H1 Hc). rewrite Hro, N.eqb_refl in H1. done.
  - intros h sv id ob Hsv Ho Hro. specialize (H2 (h, sv)). rewrite <-elem_of_list_In, elem_of_map_to_list in H2. specialize (H2 Hsv).
    rewrite forallb_forall in H2. specialize (H2 (id, ob)). rewrite <-elem_of_list_In in H2.
    assert ((id, ob) ∈ imap pair (sv_objs sv)) as Hin by (apply elem_of_lookup_imap; by exists id, ob). specialize (H2 Hin). cbn [fst snd] in H2.
    rewrite Hro, N.eqb_refl in H2. cbn [negb orb] in H2. apply andb_true_iff in H2 as [H2 H3]. split; [|exact H3].
    unfold rests_b in H2. unfold rests. destruct (mm_holder (ro_state ob)), (mm_tasks (ro_state ob)), (mm_inflight (ro_state ob)), (mm_pend (ro_state ob)); try done.
    split_and!; try done. destruct (mm_out (ro_state ob)); [by left|]. right. apply existsb_exists in H2 as (c & Hc & Hf).
    exists c. split; [by apply elem_of_list_In|by apply bool_decide_eq_true in Hf].
Qed.
Definition up_b (f : fleet) : bool := forallb (λ e, negb (sv_panic e.2)) (map_to_list (fl_srv f)).
Lemma up_b_ok f : up_b f = true → ¬ some_crash f.
Proof.
  unfold up_b. rewrite forallb_forall. intros H (h & sv & Hsv & Hp). specialize (H (h, sv)). rewrite <-elem_of_list_In, elem_of_map_to_list in H.
  specialize (H Hsv). cbn in H. by rewrite Hp in H.
Qed.
