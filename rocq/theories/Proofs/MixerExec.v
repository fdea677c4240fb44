(** An executable scheduler for the mixer transition system, used to exhibit concrete runs. *)
From stdpp Require Import gmap.
From Verif.Base Require Import Base.
From Verif.Model Require Import Topology Shuffle Onion Mixer.
From Verif.Spec Require Import MixerSpec.
From Verif.Proofs Require Import ShuffleProofs MixerInv MixerProps MixerLive.

Inductive choice :=
| CAdd (msgs : list Messages) | CHold | CTake | CDecrypt (i : nat) | CPend (i : nat) | CRecv | CClose.

Definition zero_reader : reader unit := Reader (λ _, ([], ())).
Definition zero_shuffle {A} (l : list A) : list A :=
  match ShuffleOnions zero_reader (NewShuffler ()) l with Some (l', _) => l' | None => l end.
Lemma zero_shuffle_ok {A} (l : list A) : shuffles l (zero_shuffle l).
Proof.
  unfold zero_shuffle.
  destruct (ShuffleOnions_ok zero_reader (NewShuffler ()) l) as (l' & sh' & p & H & _); [done|].
  rewrite H. by eexists _, _, _, _.
Qed.

Section exec.
Context (peel : onion → option (option onion)) (workers taskCap outCap : nat).
Notation step := (step peel workers taskCap outCap).
Notation run := (run peel workers taskCap outCap).

Definition exec_step (c : choice) (s : mixers) : option (label * mixers) :=
  if mm_panic s then None else
  match c with
  | CAdd msgs => match mm_holder s with
                 | None => Some (LAdd msgs, with_holder s (Some (HMsgs msgs)))
                 | _ => None end
  | CHold =>
      match mm_holder s with
      | None => None
      | Some (HMsgs []) => Some (LReturn, with_holder s None)
      | Some (HMsgs (msg :: msgs)) =>
          match mm_states s !! msg_recv msg with
          | None => Some (LPanic, panicked s)
          | Some st => Some (LBatch msg,
               with_holder (upd s (msg_recv msg) (HandleNewInputs st msg).1)
                   (Some (HPush (msg_recv msg) (HandleNewInputs st msg).2 msgs)))
          end
      | Some (HPush mix (t :: ts) msgs) =>
          if mm_closed s then Some (LPanic, panicked s)
          else if decide (length (mm_tasks s) < taskCap) then
            Some (LPush, with_tasks (with_holder s (Some (HPush mix ts msgs)))
                             (mm_tasks s ++ [t]) (mm_inflight s))
          else None
      | Some (HPush mix [] msgs) => Some (LPush, with_holder s (Some (HCheck mix msgs)))
      | Some (HCheck mix msgs) =>
          st ← mm_states s !! mix;
          Some (LCheck mix (isDone st),
            with_pend (with_holder s (Some (HMsgs msgs)))
                 (if isDone st then mm_pend s ++ [(mix, PWait)] else mm_pend s))
      end
  | CTake => match mm_tasks s with
             | [] => None
             | t :: ts => if decide (length (mm_inflight s) < workers) then
                            Some (LTake, with_tasks s ts (mm_inflight s ++ [t])) else None
             end
  | CDecrypt i =>
      t ← mm_inflight s !! i;
      match peel (tk_in t) with
      | None => Some (LPanic, panicked s)
      | Some r =>
          st ← mm_states s !! tk_mix t;
          if decide (0 ≤ tk_idx t ∧ tk_idx t < Z.of_nat (length (st_outs st)))%Z then
            Some (LDecrypt (tk_mix t),
              with_tasks (upd s (tk_mix t) (set_out st (Z.to_nat (tk_idx t)) r)) (mm_tasks s)
                (take i (mm_inflight s) ++ drop (S i) (mm_inflight s)))
          else Some (LPanic, panicked s)
      end
  | CPend i =>
      '(mix, p) ← mm_pend s !! i;
      st ← mm_states s !! mix;
      let p1 := take i (mm_pend s) in let p2 := drop (S i) (mm_pend s) in
      match p with
      | PWait => if decide (st_wg st = 0%Z) then
                   Some (LWaited mix, with_pend s (p1 ++ (mix, POnce) :: p2)) else None
      | POnce => if st_shuffled st then
                   Some (LOnceAgain mix, with_pend s (if st_last st then p1 ++ p2 else p1 ++ (mix, PSend) :: p2))
                 else Some (LShuffle mix,
                   with_pend (upd s mix (set_shuffled st (zero_shuffle (st_outs st))))
                     (if st_last st then p1 ++ p2 else p1 ++ (mix, PSend) :: p2))
      | PSend => if decide (st_wg st = 0%Z) then if st_shuffled st then
                   if decide (length (mm_out s) < outCap) then
                     Some (LEmit (mkMixoutput (st_outs st) (st_name st)),
                       with_out (with_pend s (p1 ++ p2)) (mm_out s ++ [mkMixoutput (st_outs st) (st_name st)]))
                   else None else None else None
      end
  | CRecv => match mm_out s with [] => None | o :: os => Some (LRecv o, with_out s os) end
  | CClose => if mm_closed s then Some (LCloseTwice, panicked s) else Some (LClose, close_tasks s)
  end.

Lemma exec_step_sound c s l s' : exec_step c s = Some (l, s') → step s l s'.
Proof.
  unfold exec_step. destruct (mm_panic s) eqn:Hp; [done|]. destruct c; intros H.
  - destruct (mm_holder s) eqn:E; [done|]. simplify_eq. by constructor.
  - destruct (mm_holder s) as [[[|m ms]|mix [|t ts] ms|mix ms]|] eqn:E; simplify_eq.
    + by constructor.
    + destruct (mm_states s !! msg_recv m) eqn:Es; simplify_eq; by econstructor.
    + by econstructor.
    + destruct (mm_closed s) eqn:Ec; simplify_eq; [by econstructor|].
      case_decide; simplify_eq. by econstructor.
    + destruct (mm_states s !! mix) eqn:Es; simpl in H; simplify_eq. by econstructor.
  - destruct (mm_tasks s) eqn:E; [done|]. case_decide; simplify_eq. by econstructor.
  - destruct (mm_inflight s !! i) as [t|] eqn:E; simpl in H; [|done].
    pose proof (take_drop_middle _ _ _ E) as Hm. symmetry in Hm.
    destruct (peel (tk_in t)) as [r|] eqn:Epl; [|simplify_eq; by eapply step_decrypt_bad].
    destruct (mm_states s !! tk_mix t) as [st|] eqn:Es; simpl in H; [|done].
    case_decide as Hd; simplify_eq; [eapply step_decrypt; naive_solver|].
    eapply step_decrypt_idx; try done. lia.
  - destruct (mm_pend s !! i) as [[mix p]|] eqn:E; simpl in H; [|done].
    pose proof (take_drop_middle _ _ _ E) as Hm. symmetry in Hm.
    destruct (mm_states s !! mix) as [st|] eqn:Es; simpl in H; [|done].
    destruct p.
    + case_decide; simplify_eq. by econstructor.
    + destruct (st_shuffled st) eqn:Esh; simplify_eq; [by econstructor|].
      econstructor; try done. apply zero_shuffle_ok.
    + case_decide; [|done]. destruct (st_shuffled st) eqn:Esh; [|done]. case_decide; simplify_eq.
      by econstructor.
  - destruct (mm_out s) eqn:E; simplify_eq. by constructor.
  - destruct (mm_closed s) eqn:E; simplify_eq; by constructor.
Qed.

Fixpoint exec (cs : list choice) (s : mixers) : option (list label * mixers) :=
  match cs with
  | [] => Some ([], s)
  | c :: cs => '(l, s1) ← exec_step c s; '(tr, s2) ← exec cs s1; Some (l :: tr, s2)
  end.
Lemma exec_sound cs s tr s' : exec cs s = Some (tr, s') → run s tr s'.
Proof.
  revert s tr. induction cs as [|c cs IH]; intros s tr H; simpl in H.
  - simplify_eq. constructor.
  - destruct (exec_step c s) as [[l s1]|] eqn:E; simpl in H; [|done].
    destruct (exec cs s1) as [[tr' s2]|] eqn:E2; simpl in H; [|done]. simplify_eq.
    eapply run_cons; [by eapply exec_step_sound|by apply IH].
Qed.
End exec.

(** ** The initial state, in terms of the configuration *)
Lemma newStates_lookup t w ms acc sts n st :
  newStates t w ms acc = Some sts → sts !! n = Some st →
  acc !! n = Some st ∨ ∃ m, m ∈ ms ∧ mx_name m = n ∧ newMixState t w m = Some st.
Proof.
  revert acc. induction ms as [|m ms IH]; intros acc H Hn; simpl in H.
  - simplify_eq. by left.
  - destruct (newMixState t w m) as [st0|] eqn:E; simpl in H; [|done].
    destruct (IH _ H Hn) as [Ha|(m' & Hm & ?)].
    + apply lookup_insert_Some in Ha as [[<- <-]|[_ Ha]]; [right|by left].
      exists m. split; [left|done].
    + right. exists m'. split; [by right|done].
Qed.
Lemma newStates_dom t w ms acc sts n :
  newStates t w ms acc = Some sts →
  is_Some (sts !! n) ↔ is_Some (acc !! n) ∨ n ∈ mx_name <$> ms.
Proof.
  revert acc. induction ms as [|m ms IH]; intros acc H; simpl in H.
  - simplify_eq. simpl. split; [by left|]. intros [?|H]; [done|by apply elem_of_nil in H].
  - destruct (newMixState t w m) as [st0|] eqn:E; simpl in H; [|done].
    rewrite (IH _ H), lookup_insert_is_Some'. simpl. rewrite elem_of_cons. naive_solver.
Qed.

Lemma NewMixers_lookup t w ms s0 n st :
  NewMixers t ms w = Some s0 → mm_states s0 !! n = Some st →
  ∃ m, m ∈ ms ∧ mx_name m = n ∧ newMixState t w m = Some st.
Proof.
  unfold NewMixers. destruct (newStates t w ms ∅) as [sts|] eqn:E; simpl; [|done].
  intros [= <-] H. simpl in H. destruct (newStates_lookup _ _ _ _ _ _ _ E H) as [Ha|?]; [|done].
  by rewrite lookup_empty in Ha.
Qed.
Lemma NewMixers_dom t w ms s0 n :
  NewMixers t ms w = Some s0 → is_Some (mm_states s0 !! n) ↔ n ∈ mx_name <$> ms.
Proof.
  unfold NewMixers. destruct (newStates t w ms ∅) as [sts|] eqn:E; simpl; [|done].
  intros [= <-]. simpl. rewrite (newStates_dom _ _ _ _ _ _ E), lookup_empty.
  split; [intros [[? ?]|?]; done|by right].
Qed.
Lemma NewMixers_left t w ms s0 n st :
  NewMixers t ms w = Some s0 → mm_states s0 !! n = Some st →
  st_left st = workload_of w n ∧ (0 ≤ workload_of w n)%Z.
Proof.
  intros H E. destruct (NewMixers_lookup _ _ _ _ _ _ H E) as (m & _ & <- & Hm).
  apply newMixState_fresh in Hm as ((Hnn & _) & _ & Hl). unfold workload_of. split; [done|]. congruence.
Qed.
Lemma NewMixers_one t w ms s0 m :
  NewMixers t ms w = Some s0 → NoDup (mx_name <$> ms) → m ∈ ms →
  ∃ st, mm_states s0 !! mx_name m = Some st ∧ newMixState t w m = Some st.
Proof.
  intros H Hnd Hin.
  assert (is_Some (mm_states s0 !! mx_name m)) as [st E].
  { apply (NewMixers_dom t w ms); [done|]. by apply elem_of_list_fmap_1. }
  exists st. split; [done|]. destruct (NewMixers_lookup _ _ _ _ _ _ H E) as (m' & Hm' & Hn & Hs).
  assert (m' = m) as ->; [|done].
  apply elem_of_list_lookup in Hm' as [i Hi]. apply elem_of_list_lookup in Hin as [j Hj].
  assert (i = j) as ->; [|congruence].
  eapply NoDup_lookup; [exact Hnd|by rewrite list_lookup_fmap, Hi|].
  rewrite list_lookup_fmap, Hj. simpl. by rewrite Hn.
Qed.

(** Expected counts: the map built by SetPredecessors says exactly [all_delivered]. *)
Lemma pred_map_spec t w own ps acc mp :
  pred_map t w own ps acc = Some mp →
  (∀ p, p ∈ ps → is_Some (pred_entry t w own p)) ∧
  ∀ k v, mp !! k = Some v ↔
    (∃ p, p ∈ ps ∧ pred_entry t w own p = Some (k, v)) ∨
    ((∀ p v', p ∈ ps → pred_entry t w own p ≠ Some (k, v')) ∧ acc !! k = Some v).
Proof.
  revert acc. induction ps as [|p ps IH]; intros acc H; simpl in H.
  - simplify_eq. split; [intros p Hp; by apply elem_of_nil in Hp|]. intros k v. split.
    + intros Hk. right. split; [|done]. intros p v' Hp. by apply elem_of_nil in Hp.
    + intros [(p & Hp & _)|[_ ?]]; [by apply elem_of_nil in Hp|done].
  - destruct (pred_entry t w own p) as [[k0 v0]|] eqn:E; simpl in H; [|done].
    destruct (IH _ H) as [IH1 IH2]. split.
    + intros p' [->|Hp]%elem_of_cons; [by eexists|by apply IH1].
    + intros k v. rewrite IH2. clear IH IH2. split.
      * intros [(p' & Hp' & He)|[Hno Hl]].
        -- left. exists p'. split; [by right|done].
        -- apply lookup_insert_Some in Hl as [[<- <-]|[Hne Hl]].
           ++ left. exists p. split; [left|done].
           ++ right. split; [|done]. intros p' v' [->|Hp']%elem_of_cons; [congruence|by apply Hno].
      * intros [(p' & [->|Hp']%elem_of_cons & He)|[Hno Hl]].
        -- rewrite E in He. injection He as -> ->.
           destruct (decide (p ∈ ps)) as [Hin|Hni]; [left; by exists p|].
           right. split; [|by rewrite lookup_insert]. intros p' v' Hp' He'.
           assert (p' = p) as ->; [|done].
           clear -E He'. unfold pred_entry in *.
           destruct (decide (p = GenesisName)), (decide (p' = GenesisName)).
           { congruence. }
           { destruct (GetMix t p'); simpl in *; [|done]. congruence. }
           { destruct (GetMix t p); simpl in *; [|done]. congruence. }
           destruct (GetMix t p), (GetMix t p'); simpl in *; try done. congruence.
        -- left. by exists p'.
        -- right. split; [intros p' v' Hp'; apply Hno; by right|].
           rewrite lookup_insert_ne; [done|]. intros ->. eapply Hno; [left|done].
Qed.

Lemma pred_entry_spec t w m p e :
  pred_entry t w (workload_of w (mx_name m)) p = Some e →
  e = (sender_of t p, quota w m p).
Proof.
  unfold pred_entry, sender_of, quota. case_decide as Hp.
  - subst p. by intros [= <-].
  - destruct (GetMix t p); simpl; [|done]. by intros [= <-].
Qed.

Lemma counts_met_delivered t w m st bs :
  newMixState t w m = Some st → counts_met (st_preds st) bs ↔ all_delivered t w m bs.
Proof.
  unfold newMixState. case_decide; [done|].
  destruct (pred_map _ _ _ _ _) as [mp|] eqn:E; simpl; [|done]. intros [= <-]. simpl.
  destruct (pred_map_spec _ _ _ _ _ _ E) as [H1 H2]. unfold counts_met, all_delivered.
  rewrite Forall_forall. split.
  - intros Hc p Hp. destruct (H1 p Hp) as [e He].
    pose proof (pred_entry_spec t w m p e He) as ->.
    symmetry. apply (Hc (sender_of t p)). apply H2. left. by exists p.
  - intros Hd k v Hk. apply H2 in Hk as [(p & Hp & He)|[_ Hk]]; [|by rewrite lookup_empty in Hk].
    pose proof (pred_entry_spec t w m p _ He) as Heq. injection Heq as -> ->. symmetry. by apply Hd.
Qed.

Lemma completions_completing t w m st bs :
  newMixState t w m = Some st → completions (st_preds st) bs = completing t w m bs.
Proof.
  intros H. unfold completions, completing. f_equal. apply filter_ext_in.
  intros k _. by apply counts_met_delivered.
Qed.

Lemma completing_snoc t w m bs b :
  completing t w m (bs ++ [b]) = completing t w m bs + (if decide (all_delivered t w m (bs ++ [b])) then 1 else 0).
Proof.
  unfold completing. rewrite app_length. cbn [length].
  rewrite seq_app, filter_app, app_length. f_equal.
  - apply f_equal. apply filter_ext_in. intros k Hk. apply elem_of_seq in Hk.
    rewrite take_app_le by lia. done.
  - cbn [seq]. rewrite filter_cons, filter_nil.
    rewrite take_ge by (rewrite app_length; simpl; lia). by destruct (decide _).
Qed.

Lemma completing_zero t w m bs :
  (∀ k, 1 ≤ k ≤ length bs → ¬ all_delivered t w m (take k bs)) → completing t w m bs = 0.
Proof.
  intros H. unfold completing. destruct (filter _ _) as [|k ks] eqn:E; [done|]. exfalso.
  assert (k ∈ filter (λ k, all_delivered t w m (take k bs)) (seq 1 (length bs))) as Hk by (rewrite E; left).
  apply elem_of_list_filter in Hk as [H1 H2]. apply elem_of_seq in H2. apply (H k); [lia|done].
Qed.

Lemma sum_from_app k bs bs' : sum_from k (bs ++ bs') = (sum_from k bs + sum_from k bs')%Z.
Proof. unfold sum_from. by rewrite fmap_app, foldr_add_app. Qed.
Lemma sum_from_empty k bs : Forall (λ b, msg_onions b = []) bs → sum_from k bs = 0%Z.
Proof.
  induction 1 as [|b bs Hb _ IH]; [done|].
  change (b :: bs) with ([b] ++ bs). rewrite sum_from_app, IH. unfold sum_from. simpl. rewrite Hb.
  by destruct (decide _).
Qed.

Lemma completing_empties t w m bs es :
  all_delivered t w m bs → Forall (λ b, msg_onions b = []) es →
  completing t w m (bs ++ es) = completing t w m bs + length es.
Proof.
  intros Hd. induction es as [|e es IH] using rev_ind; intros He.
  - rewrite app_nil_r. simpl. lia.
  - apply Forall_app in He as [He1 He2]. rewrite app_assoc, completing_snoc, IH by done.
    rewrite decide_True; [rewrite app_length; simpl; lia|].
    unfold all_delivered in *. eapply Forall_impl; [exact Hd|]. intros p Hp. simpl.
    rewrite !sum_from_app, (sum_from_empty _ es), (sum_from_empty _ [e]) by done. rewrite Hp. lia.
Qed.
