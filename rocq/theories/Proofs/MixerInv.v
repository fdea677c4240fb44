(** Invariants of the mixer transition system, for all executions and hostile inputs. *)
From stdpp Require Import gmap.
From Verif.Base Require Import Base.
From Verif.Model Require Import Topology Shuffle Onion Mixer.
From Verif.Spec Require Import MixerSpec.
From Verif.Proofs Require Import ShuffleProofs.

Local Open Scope Z_scope.

(** ** Trace functions (specification vocabulary) *)

Lemma batches_app n tr tr' : batches n (tr ++ tr') = batches n tr ++ batches n tr'.
Proof. apply omap_app. Qed.
Lemma handed_app n tr tr' : handed n (tr ++ tr') = handed n tr ++ handed n tr'.
Proof. unfold handed. by rewrite batches_app, fmap_app, concat_app. Qed.
Lemma foldr_add_app (l l' : list Z) : foldr Z.add 0 (l ++ l') = foldr Z.add 0 l + foldr Z.add 0 l'.
Proof. induction l as [|x l IH]; simpl; lia. Qed.
Lemma received_from_app n k tr tr' :
  received_from n k (tr ++ tr') = received_from n k tr + received_from n k tr'.
Proof. unfold received_from. by rewrite batches_app, fmap_app, foldr_add_app. Qed.

Definition is_batch (l : label) : bool := match l with LBatch _ => true | _ => false end.
Lemma batches_nonbatch n l : is_batch l = false → batches n [l] = [].
Proof. by destruct l. Qed.
Lemma handed_nonbatch n tr l : is_batch l = false → handed n (tr ++ [l]) = handed n tr.
Proof. intros H. rewrite handed_app. unfold handed at 2. rewrite batches_nonbatch by done. simpl. by rewrite app_nil_r. Qed.
Lemma received_nonbatch n k tr l : is_batch l = false → received_from n k (tr ++ [l]) = received_from n k tr.
Proof. intros H. rewrite received_from_app. unfold received_from at 2. rewrite batches_nonbatch by done. simpl. lia. Qed.
Lemma handed_batch n tr m :
  handed n (tr ++ [LBatch m]) = handed n tr ++ (if decide (msg_recv m = n) then msg_onions m else []).
Proof.
  rewrite handed_app. f_equal. unfold handed, batches. simpl.
  destruct (decide (msg_recv m = n)); simpl; [|done]. by rewrite app_nil_r.
Qed.
Lemma received_batch n k tr m :
  received_from n k (tr ++ [LBatch m]) = received_from n k tr +
   (if decide (msg_recv m = n) then
      if decide ((msg_phys m, msg_lsender m) = k) then Z.of_nat (length (msg_onions m)) else 0 else 0).
Proof.
  rewrite received_from_app. f_equal. unfold received_from, batches. simpl.
  destruct (decide (msg_recv m = n)); simpl; [|done]. lia.
Qed.

(** ** Initial states *)
Definition fresh (st : mixState) : Prop :=
  0 ≤ st_left st ∧ st_wg st = st_left st ∧ st_outs st = replicate (Z.to_nat (st_left st)) None ∧
  st_shuffled st = false ∧ (∀ k, default 0 (st_recv st !! k) = 0).

Definition init_ok (s : mixers) : Prop :=
  mm_tasks s = [] ∧ mm_closed s = false ∧ mm_inflight s = [] ∧ mm_holder s = None ∧
  mm_pend s = [] ∧ mm_out s = [] ∧ mm_panic s = false ∧
  (∀ n st, mm_states s !! n = Some st → fresh st ∧ st_name st = n).

Lemma newMixState_fresh t w m st :
  newMixState t w m = Some st → fresh st ∧ st_name st = mx_name m ∧
  st_left st = default 0 (w !! mx_name m).
Proof.
  unfold newMixState. case_decide as Hw; [done|].
  destruct (pred_map _ _ _ _ _) as [preds|]; simpl; [|done]. intros [= <-].
  split; [|done]. unfold fresh. simpl. split; [lia|]. split; [done|]. split; [done|]. split; [done|].
  intros k. rewrite lookup_fmap. by destruct (preds !! k).
Qed.

Lemma newStates_fresh t w ms acc sts :
  (∀ n st, acc !! n = Some st → fresh st ∧ st_name st = n) →
  newStates t w ms acc = Some sts →
  ∀ n st, sts !! n = Some st → fresh st ∧ st_name st = n.
Proof.
  revert acc. induction ms as [|m ms IH]; intros acc Hacc H; simpl in H.
  - by injection H as <-.
  - destruct (newMixState t w m) as [st0|] eqn:E; simpl in H; [|done].
    eapply IH; [|exact H]. intros n st [[<- <-]|[_ Hl]]%lookup_insert_Some.
    + apply newMixState_fresh in E as (? & ? & _). done.
    + by apply Hacc.
Qed.

Lemma NewMixers_init_ok t ms w s : NewMixers t ms w = Some s → init_ok s.
Proof.
  unfold NewMixers. destruct (newStates t w ms ∅) as [sts|] eqn:E; simpl; [|done].
  intros [= <-]. unfold init_ok. simpl. do 7 (split; [done|]).
  eapply newStates_fresh; [|exact E]. intros n' st'. by rewrite lookup_empty.
Qed.

(** ** Core invariant *)
Definition holder_tasks (h : option holder) : list task :=
  match h with Some (HPush _ ts _) => ts | _ => [] end.
Definition alltasks (s : mixers) : list task :=
  holder_tasks (mm_holder s) ++ mm_tasks s ++ mm_inflight s.

Definition tkey (t : task) : string * Z := (tk_mix t, tk_idx t).

Definition live (n : string) (ts : list task) : list task :=
  filter (λ t, tk_mix t = n ∧ 0 ≤ tk_idx t) ts.

Section inv.
Context (peel : onion → option (option onion)).

Definition peels (xs : list onion) (rs : list (option onion)) : Prop :=
  Forall2 (λ x r, peel x = Some r) xs rs.

Record mix_inv (n : string) (st0 st : mixState) (ts : list task) (h : list onion) : Prop := {
  mi_name : st_name st = st_name st0;
  mi_preds : st_preds st = st_preds st0;
  mi_last : st_last st = st_last st0;
  mi_left : st_left st = st_left st0 - Z.of_nat (length h);
  mi_len : Z.of_nat (length (st_outs st)) = st_left st0;
  mi_wg : st_wg st = Z.of_nat (length (live n ts)) + Z.max 0 (st_left st0 - Z.of_nat (length h));
  mi_open : st_shuffled st = false →
    ∀ k x, h !! k = Some x → Z.of_nat k < st_left st0 →
      (n, st_left st0 - 1 - Z.of_nat k) ∉ (tkey <$> ts) →
      ∃ r, peel x = Some r ∧ st_outs st !! Z.to_nat (st_left st0 - 1 - Z.of_nat k) = Some r;
  mi_shuf : st_shuffled st = true →
    st_wg st = 0 ∧ ∃ rs, peels (take (Z.to_nat (st_left st0)) h) rs ∧ st_outs st ≡ₚ rs
}.

Record core (sts0 sts : gmap string mixState) (ts : list task) (h : string → list onion) : Prop := {
  co_dom : ∀ n, sts !! n = None ↔ sts0 !! n = None;
  co_mix : ∀ n st0 st, sts0 !! n = Some st0 → sts !! n = Some st → mix_inv n st0 st ts (h n);
  co_tasks : ∀ t, t ∈ ts → ∃ st0 k, sts0 !! tk_mix t = Some st0 ∧
     h (tk_mix t) !! k = Some (tk_in t) ∧ tk_idx t = st_left st0 - 1 - Z.of_nat k;
  co_nodup : NoDup (tkey <$> ts)
}.

Lemma mix_inv_perm n st0 st ts ts' h :
  ts ≡ₚ ts' → mix_inv n st0 st ts h → mix_inv n st0 st ts' h.
Proof.
  intros Hp [H1 H2 H3 H4 H5 H6 H7 H8]. split; try done.
  - unfold live in *. by rewrite <-Hp.
  - intros Hs k x Hk Hlt Hni. apply (H7 Hs k x Hk Hlt). by rewrite Hp.
Qed.

Lemma core_perm sts0 sts ts ts' h : ts ≡ₚ ts' → core sts0 sts ts h → core sts0 sts ts' h.
Proof.
  intros Hp [H1 H2 H3 H4]. split; try done.
  - intros n st0 st E0 E. eapply mix_inv_perm; [done|]. by eapply H2.
  - intros t Ht. apply H3. by rewrite Hp.
  - by rewrite <-Hp.
Qed.

Lemma core_ext sts0 sts ts h h' : (∀ n, h n = h' n) → core sts0 sts ts h → core sts0 sts ts h'.
Proof.
  intros He [H1 H2 H3 H4]. split; try done.
  - intros n st0 st E0 E. rewrite <-He. by eapply H2.
  - intros t Ht. rewrite <-He. by apply H3.
Qed.

(** mkTasks *)
Lemma mkTasks_lookup mix left os k :
  mkTasks mix left os !! k = (λ o, mkTask mix (left - 1 - Z.of_nat k) o) <$> os !! k.
Proof.
  revert left k; induction os as [|o os IH]; intros left k; [done|].
  destruct k as [|k]; simpl; [do 2 f_equal; lia|]. rewrite IH.
  destruct (os !! k); simpl; [|done]. do 2 f_equal. lia.
Qed.
Lemma mkTasks_elem mix left os t :
  t ∈ mkTasks mix left os → ∃ k, os !! k = Some (tk_in t) ∧ tk_mix t = mix ∧
     tk_idx t = left - 1 - Z.of_nat k.
Proof.
  intros [k Hk]%elem_of_list_lookup. rewrite mkTasks_lookup in Hk.
  destruct (os !! k) as [o|] eqn:E; simpl in Hk; [|done]. injection Hk as <-. by exists k.
Qed.
Lemma mkTasks_nodup mix left os : NoDup (tkey <$> mkTasks mix left os).
Proof.
  apply NoDup_alt. intros i j x Hi Hj. rewrite list_lookup_fmap, mkTasks_lookup in Hi, Hj.
  destruct (os !! i); simpl in Hi; [|done]. destruct (os !! j); simpl in Hj; [|done].
  injection Hi as <-. injection Hj as Hj. lia.
Qed.
Lemma mkTasks_live_other mix left os n : mix ≠ n → live n (mkTasks mix left os) = [].
Proof.
  intros Hne. unfold live. revert left; induction os as [|o os IH]; intros left; simpl; [done|].
  rewrite filter_cons_False by (simpl; naive_solver). apply IH.
Qed.
Lemma mkTasks_live mix left os :
  Z.of_nat (length (live mix (mkTasks mix left os))) =
  Z.max 0 (Z.min left (Z.of_nat (length os))).
Proof.
  unfold live. revert left; induction os as [|o os IH]; intros left; [simpl; lia|].
  cbn [mkTasks]. destruct (decide (0 ≤ left - 1)).
  - rewrite filter_cons_True by (simpl; done). cbn [length]. rewrite Nat2Z.inj_succ, IH. lia.
  - rewrite filter_cons_False by (simpl; intros [_ ?]; lia). rewrite IH. simpl length. lia.
Qed.

Lemma live_app n ts ts' : live n (ts ++ ts') = live n ts ++ live n ts'.
Proof. apply filter_app. Qed.

Lemma core_batch sts0 sts ts h msg st :
  core sts0 sts ts h → sts !! msg_recv msg = Some st →
  core sts0 (<[msg_recv msg := (HandleNewInputs st msg).1]> sts)
       ((HandleNewInputs st msg).2 ++ ts)
       (λ n, h n ++ if decide (msg_recv msg = n) then msg_onions msg else []).
Proof.
  intros [C1 C2 C3 C4] Hst.
  destruct (sts0 !! msg_recv msg) as [st0|] eqn:E0.
  2:{ exfalso. apply C1 in E0. congruence. }
  pose proof (C2 _ _ _ E0 Hst) as Hm.
  assert (Hnew : ∀ t, t ∈ (HandleNewInputs st msg).2 →
     ∃ k, (h (msg_recv msg) ++ msg_onions msg) !! k = Some (tk_in t) ∧
       tk_mix t = msg_recv msg ∧ tk_idx t = st_left st0 - 1 - Z.of_nat k ∧
       (length (h (msg_recv msg)) ≤ k)%nat).
  { intros t Ht. simpl in Ht. apply mkTasks_elem in Ht as (k & Hk & Hmix & Hidx).
    exists (length (h (msg_recv msg)) + k)%nat. split; [|split; [done|split; [|lia]]].
    - rewrite lookup_app_r by lia. by replace (_ + k - _)%nat with k by lia.
    - rewrite Hidx, (mi_left _ _ _ _ _ Hm). lia. }
  split.
  - intros n. rewrite lookup_insert_None. rewrite C1. split; [by intros [? _]|].
    intros Hn. split; [done|]. intros <-. congruence.
  - intros n s0 s E0' E. destruct (decide (msg_recv msg = n)) as [<-|Hne].
    + rewrite E0 in E0'. injection E0' as <-. rewrite lookup_insert in E. injection E as <-.
      destruct Hm as [M1 M2 M3 M4 M5 M6 M7 M8]. split; simpl; try done.
      * rewrite app_length. lia.
      * rewrite live_app, !app_length. rewrite M6.
        rewrite Nat2Z.inj_add, mkTasks_live. rewrite M4. lia.
      * intros Hs k x Hk Hlt Hni.
        rewrite fmap_app in Hni. apply not_elem_of_app in Hni as [Hni1 Hni2].
        destruct (decide (k < length (h (msg_recv msg)))%nat) as [Hk'|Hk'].
        -- rewrite lookup_app_l in Hk by done. by apply (M7 Hs k x).
        -- exfalso. apply Hni1. rewrite lookup_app_r in Hk by lia.
           apply elem_of_list_fmap.
           exists (mkTask (msg_recv msg) (st_left st0 - 1 - Z.of_nat k) x). split; [done|].
           apply elem_of_list_lookup. exists (k - length (h (msg_recv msg)))%nat.
           rewrite mkTasks_lookup, Hk. simpl. do 2 f_equal. lia.
      * intros Hs. destruct (M8 Hs) as (Hwg & rs & Hp & Ho). split; [done|].
        exists rs. split; [|done]. rewrite take_app_le; [done|].
        rewrite Hwg in M6. lia.
    + rewrite lookup_insert_ne in E by done. rewrite app_nil_r.
      destruct (C2 _ _ _ E0' E) as [M1 M2 M3 M4 M5 M6 M7 M8]. split; try done.
      * rewrite live_app. simpl. rewrite mkTasks_live_other by done. done.
      * intros Hs k x Hk Hlt Hni. apply (M7 Hs k x Hk Hlt).
        rewrite fmap_app in Hni. by apply not_elem_of_app in Hni as [_ ?].
  - intros t Ht. apply elem_of_app in Ht as [Ht|Ht].
    + destruct (Hnew t Ht) as (k & Hk & -> & Hidx & _). exists st0, k.
      rewrite decide_True by done. done.
    + destruct (C3 t Ht) as (s0 & k & E & Hk & Hidx). exists s0, k. split; [done|].
      split; [|done]. by apply lookup_app_l_Some.
  - rewrite fmap_app. apply NoDup_app. split; [apply mkTasks_nodup|]. split; [|done].
    intros x Hx Hx'. apply elem_of_list_fmap in Hx as (t & -> & Ht).
    apply elem_of_list_fmap in Hx' as (t' & Hkey & Ht').
    destruct (Hnew t Ht) as (k & _ & Hmix & Hidx & Hk).
    destruct (C3 t' Ht') as (s0 & k' & E & Hk' & Hidx').
    unfold tkey in Hkey. injection Hkey as Hm1 Hi1. rewrite <-Hm1, Hmix in E, Hk'.
    rewrite E0 in E. injection E as <-. apply lookup_lt_Some in Hk'. lia.
Qed.

Lemma live_cons n t ts :
  live n (t :: ts) = if decide (tk_mix t = n ∧ 0 ≤ tk_idx t) then t :: live n ts else live n ts.
Proof. unfold live. by rewrite filter_cons. Qed.

Lemma core_decrypt sts0 sts t ts h r st :
  core sts0 sts (t :: ts) h →
  sts !! tk_mix t = Some st → peel (tk_in t) = Some r →
  0 ≤ tk_idx t → tk_idx t < Z.of_nat (length (st_outs st)) →
  core sts0 (<[tk_mix t := set_out st (Z.to_nat (tk_idx t)) r]> sts) ts h.
Proof.
  intros [C1 C2 C3 C4] Hst Hr Hi1 Hi2.
  destruct (C3 t ltac:(left)) as (st0 & k0 & E0 & Hk0 & Hidx).
  rewrite fmap_cons in C4. apply NoDup_cons in C4 as [Hni C4].
  split.
  - intros n. rewrite lookup_insert_None, C1. split; [by intros [? _]|].
    intros Hn. split; [done|]. intros <-. congruence.
  - intros n s0 s E0' E. destruct (decide (tk_mix t = n)) as [<-|Hne].
    + rewrite E0 in E0'. injection E0' as <-. rewrite lookup_insert in E. injection E as <-.
      destruct (C2 _ _ _ E0 Hst) as [M1 M2 M3 M4 M5 M6 M7 M8].
      rewrite live_cons, decide_True in M6 by done. simpl in M6.
      split; simpl; try done.
      * by rewrite insert_length.
      * rewrite M6. lia.
      * intros Hs k x Hk Hlt Hnin.
        destruct (decide (k = k0)) as [->|Hne].
        -- rewrite Hk0 in Hk. injection Hk as <-. exists r. split; [done|].
           rewrite <-Hidx. apply list_lookup_insert. lia.
        -- destruct (M7 Hs k x Hk Hlt) as (r' & Hr' & Ho).
           { rewrite fmap_cons. apply not_elem_of_cons. split; [|done].
             unfold tkey. rewrite Hidx. intros [=]. lia. }
           exists r'. split; [done|]. rewrite list_lookup_insert_ne; [done|]. lia.
      * intros Hs. exfalso. destruct (M8 Hs) as (Hwg & _). lia.
    + rewrite lookup_insert_ne in E by done.
      destruct (C2 _ _ _ E0' E) as [M1 M2 M3 M4 M5 M6 M7 M8]. split; try done.
      * rewrite live_cons, decide_False in M6 by (intros [? _]; done). done.
      * intros Hs k x Hk Hlt Hnin. apply (M7 Hs k x Hk Hlt).
        rewrite fmap_cons. apply not_elem_of_cons. split; [|done].
        unfold tkey. intros [= ? _]. done.
  - intros t' Ht'. apply C3. by right.
  - done.
Qed.

(** When the counter is zero everything handed so far within the workload has been decrypted. *)
Lemma wg_zero_outputs n st0 st ts h :
  mix_inv n st0 st ts h → 0 ≤ st_left st0 → st_shuffled st = false → st_wg st = 0 →
  st_left st0 ≤ Z.of_nat (length h) ∧
  peels (reverse (take (Z.to_nat (st_left st0)) h)) (st_outs st).
Proof.
  intros [M1 M2 M3 M4 M5 M6 M7 M8] HW Hs Hwg.
  rewrite Hwg in M6.
  assert (Hlen : st_left st0 ≤ Z.of_nat (length h)) by lia. split; [done|].
  assert (Hl : live n ts = []) by (destruct (live n ts); [done|simpl in M6; lia]).
  apply Forall2_same_length_lookup. split.
  { rewrite reverse_length, take_length. lia. }
  intros i x r Hx Hr.
  assert (Hi : (i < Z.to_nat (st_left st0))%nat).
  { apply lookup_lt_Some in Hx. rewrite reverse_length, take_length in Hx. lia. }
  rewrite reverse_lookup in Hx by (rewrite take_length; lia).
  rewrite take_length in Hx.
  replace (Z.to_nat (st_left st0) `min` length h - S i)%nat
    with (Z.to_nat (st_left st0) - S i)%nat in Hx by lia.
  set (k := (Z.to_nat (st_left st0) - S i)%nat) in *.
  rewrite lookup_take in Hx by lia.
  destruct (M7 Hs k x Hx ltac:(lia)) as (r' & Hr' & Ho).
  - intros Hin. apply elem_of_list_fmap in Hin as (t & Ht & Hin). injection Ht as Hm Hidx.
    assert (t ∈ live n ts) as Hlv.
    { apply elem_of_list_filter. split; [|done]. split; [done|]. lia. }
    rewrite Hl in Hlv. by apply elem_of_nil in Hlv.
  - replace (Z.to_nat (st_left st0 - 1 - Z.of_nat k)) with i in Ho by lia. congruence.
Qed.

Lemma shuffles_perm {A} (l l' : list A) : shuffles l l' → l' ≡ₚ l.
Proof.
  intros (S & r & s & sh' & H).
  destruct (ShuffleOnions_ok r (NewShuffler s) l I) as (out & sh & p & E & Hp & _).
  rewrite H in E. by injection E as -> ->.
Qed.

Lemma core_shuffle sts0 sts ts h n st0 st outs :
  core sts0 sts ts h → sts0 !! n = Some st0 → 0 ≤ st_left st0 →
  sts !! n = Some st → st_shuffled st = false → st_wg st = 0 →
  shuffles (st_outs st) outs →
  core sts0 (<[n := set_shuffled st outs]> sts) ts h.
Proof.
  intros [C1 C2 C3 C4] E0 HW Hst Hns Hwg Hsh.
  pose proof (C2 _ _ _ E0 Hst) as Hm.
  destruct (wg_zero_outputs _ _ _ _ _ Hm HW Hns Hwg) as [Hlen Hpl].
  apply shuffles_perm in Hsh.
  split; [|intros n' s0 s E0' E|done|done].
  - intros n'. rewrite lookup_insert_None, C1. split; [by intros [? _]|].
    intros Hn. split; [done|]. intros <-. congruence.
  - destruct (decide (n = n')) as [<-|Hne].
    + rewrite E0 in E0'. injection E0' as <-. rewrite lookup_insert in E. injection E as <-.
      destruct Hm as [M1 M2 M3 M4 M5 M6 M7 M8]. split; simpl; try done.
      * by rewrite Hsh.
      * intros _. split; [done|]. exists (reverse (st_outs st)). split.
        -- unfold peels in *. apply Forall2_reverse in Hpl.
           rewrite reverse_involutive in Hpl. done.
        -- rewrite Hsh. symmetry. apply reverse_Permutation.
    + rewrite lookup_insert_ne in E by done. by eapply C2.
Qed.

(** ** The full invariant *)
Record Inv (s0 : mixers) (tr : list label) (s : mixers) : Prop := {
  in_core : core (mm_states s0) (mm_states s) (alltasks s) (λ n, handed n tr);
  in_recv : ∀ n st, mm_states s !! n = Some st →
     ∀ k, default 0 (st_recv st !! k) = received_from n k tr;
  in_pend : ∀ n p, (n, p) ∈ mm_pend s → ∃ st, mm_states s !! n = Some st ∧
     (p = POnce ∨ p = PSend → st_wg st = 0) ∧ (p = PSend → st_shuffled st = true ∧ st_last st = false);
  in_holder : match mm_holder s with
     | Some (HPush n _ _) | Some (HCheck n _) => is_Some (mm_states s !! n)
     | _ => True
     end;
  in_out : ∀ o, o ∈ mm_out s → ∃ st, mm_states s !! mo_sender o = Some st ∧
     st_shuffled st = true ∧ st_last st = false ∧ mo_onions o = st_outs st
}.

Context (workers taskCap outCap : nat).
Notation step := (step peel workers taskCap outCap).
Notation run := (run peel workers taskCap outCap).

Lemma init_inv s0 : init_ok s0 → Inv s0 [] s0.
Proof.
  intros (H1 & H2 & H3 & H4 & H5 & H6 & H7 & H8).
  split.
  - unfold alltasks. rewrite H1, H3, H4. simpl. split.
    + done.
    + intros n st0 st E0 E. rewrite E0 in E. injection E as <-.
      destruct (H8 _ _ E0) as [(F1 & F2 & F3 & F4 & F5) F6].
      split; try done.
      * unfold handed. simpl. lia.
      * rewrite F3, replicate_length. lia.
      * simpl. rewrite F2. unfold handed. simpl. lia.
      * rewrite F4. done.
    + intros t Ht. by apply elem_of_nil in Ht.
    + constructor.
  - intros n st E k. destruct (H8 _ _ E) as [(F1 & F2 & F3 & F4 & F5) F6]. by rewrite F5.
  - rewrite H5. intros n p Hp. by apply elem_of_nil in Hp.
  - by rewrite H4.
  - rewrite H6. intros o Ho. by apply elem_of_nil in Ho.
Qed.

(** Counters only ever go down to zero and stay there. *)
Lemma step_inv s0 tr s l s' :
  init_ok s0 → Inv s0 tr s → step s l s' → Inv s0 (tr ++ [l]) s'.
Proof.
  intros Hinit [I1 I2 I3 I4 I5] Hstep.
  assert (HW : ∀ n st0, mm_states s0 !! n = Some st0 → 0 ≤ st_left st0).
  { intros n st0 E. destruct Hinit as (_&_&_&_&_&_&_&H8). by destruct (H8 _ _ E) as [(?&_) _]. }
  assert (Hcore : ∀ l', is_batch l' = false →
     core (mm_states s0) (mm_states s) (alltasks s) (λ n, handed n (tr ++ [l']))).
  { intros l' Hl'. eapply core_ext; [|exact I1]. intros n. simpl. symmetry. by apply handed_nonbatch. }
  assert (Hrecv : ∀ l', is_batch l' = false → ∀ n st, mm_states s !! n = Some st →
     ∀ k, default 0 (st_recv st !! k) = received_from n k (tr ++ [l'])).
  { intros l' Hl' n st E k. rewrite received_nonbatch by done. by apply I2. }
  inversion Hstep; subst; clear Hstep.
  - (* add *)
    split; simpl; try done; try by apply Hrecv.
    eapply core_perm; [|by apply Hcore]. unfold alltasks. simpl.
    match goal with H : mm_holder s = None |- _ => by rewrite H end.
  - (* nil *) split; simpl; try done; try by apply Hrecv. by apply Hcore.
  - (* batch *)
    match goal with H : mm_holder s = Some _ |- _ => rename H into Hh end.
    match goal with H : mm_states s !! msg_recv msg = Some st |- _ => rename H into Hst end.
    split.
    + eapply core_ext; [|eapply core_perm; [|by apply (core_batch _ _ _ _ msg _ I1 Hst)]].
      * intros n. simpl. by rewrite handed_batch.
      * unfold alltasks. simpl. by rewrite Hh.
    + intros n st' E k. simpl in E.
      rewrite received_batch.
      apply lookup_insert_Some in E as [[<- <-]|[Hne E]].
      * rewrite decide_True by done. simpl.
        destruct (decide ((msg_phys msg, msg_lsender msg) = k)) as [<-|Hk].
        -- rewrite lookup_insert. simpl. rewrite (I2 _ _ Hst). lia.
        -- rewrite lookup_insert_ne by done. rewrite (I2 _ _ Hst). lia.
      * rewrite decide_False by done. rewrite (I2 _ _ E). lia.
    + intros n p Hp. simpl in *. destruct (I3 n p Hp) as (st' & E & Hw).
      destruct (decide (msg_recv msg = n)) as [<-|Hne].
      * rewrite lookup_insert. eexists. split; [done|]. rewrite E in Hst. injection Hst as ->. done.
      * rewrite lookup_insert_ne by done. eauto.
    + simpl. rewrite lookup_insert. eauto.
    + simpl. intros o Ho. destruct (I5 o Ho) as (st' & E & Hs & Hl & He).
      destruct (decide (msg_recv msg = mo_sender o)) as [Heq|Hne].
      * rewrite Heq in *. rewrite lookup_insert. eexists. split; [done|]. rewrite E in Hst.
        injection Hst as ->. done.
      * rewrite lookup_insert_ne by done. eauto.
  - (* push *)
    match goal with H : mm_holder s = Some _ |- _ => rename H into Hh end.
    rewrite Hh in I4.
    split; simpl; try done; try by apply Hrecv.
    eapply core_perm; [|by apply Hcore]. unfold alltasks. simpl. rewrite Hh. simpl.
    rewrite <-(app_assoc (mm_tasks s) [t]). simpl.
    rewrite (app_assoc ts (mm_tasks s) (t :: _)), <-Permutation_middle, <-app_assoc. done.
  - (* push closed *) split; simpl; try done; try by apply Hrecv. by apply Hcore.
  - (* pushed *)
    match goal with H : mm_holder s = Some _ |- _ => rename H into Hh end.
    rewrite Hh in I4. split; simpl; try done; try by apply Hrecv.
    eapply core_perm; [|by apply Hcore]. unfold alltasks. simpl. by rewrite Hh.
  - (* check *)
    match goal with H : mm_holder s = Some _ |- _ => rename H into Hh end.
    split; simpl; try done; try by apply Hrecv.
    + eapply core_perm; [|by apply Hcore]. unfold alltasks. simpl. by rewrite Hh.
    + intros n p Hp. destruct (isDone st); [|by apply I3].
      apply elem_of_app in Hp as [Hp|Hp]; [by apply I3|].
      apply elem_of_list_singleton in Hp. injection Hp as -> ->.
      eexists. split; [done|]. split; [|done]. by intros [?|?].
  - (* return *)
    match goal with H : mm_holder s = Some _ |- _ => rename H into Hh end.
    split; simpl; try done; try by apply Hrecv.
    eapply core_perm; [|by apply Hcore]. unfold alltasks. simpl. by rewrite Hh.
  - (* take *)
    match goal with H : mm_tasks s = _ |- _ => rename H into Ht end.
    split; simpl; try done; try by apply Hrecv.
    eapply core_perm; [|by apply Hcore]. unfold alltasks. simpl. rewrite Ht.
    f_equiv. simpl. rewrite app_assoc. by rewrite <-Permutation_cons_append.
  - (* decrypt *)
    match goal with H : mm_inflight s = _ |- _ => rename H into Hf end.
    match goal with H : mm_states s !! _ = Some st |- _ => rename H into Hst end.
    split.
    + simpl. eapply core_decrypt; try done.
      eapply core_perm; [|by apply Hcore]. unfold alltasks. simpl. rewrite Hf.
      by rewrite !app_assoc, <-Permutation_middle.
    + simpl. intros n st' E k. rewrite received_nonbatch by done.
      apply lookup_insert_Some in E as [[<- <-]|[Hne E]]; [simpl|]; by apply I2.
    + simpl. intros n p Hp. destruct (I3 n p Hp) as (st' & E & Hw & Hsd).
      destruct (decide (tk_mix t = n)) as [<-|Hne].
      * rewrite lookup_insert. eexists. split; [done|]. rewrite E in Hst. injection Hst as ->.
        simpl. split; [|done].
        intros Hpp. specialize (Hw Hpp). exfalso.
        (* the counter is positive while this task is live *)
        destruct (mm_states s0 !! tk_mix t) as [st0|] eqn:E0.
        2:{ apply (co_dom _ _ _ _ I1) in E0. congruence. }
        pose proof (mi_wg _ _ _ _ _ (co_mix _ _ _ _ I1 _ _ _ E0 E)) as Hwg.
        assert (t ∈ live (tk_mix t) (alltasks s)) as Hlv.
        { apply elem_of_list_filter. split; [done|]. unfold alltasks. rewrite Hf. set_solver. }
        destruct (live (tk_mix t) (alltasks s)); [by apply elem_of_nil in Hlv|].
        simpl in Hwg. lia.
      * rewrite lookup_insert_ne by done. eauto.
    + simpl. destruct (mm_holder s) as [[| |]|]; try done; by apply lookup_insert_is_Some'; right.
    + simpl. intros o Ho. destruct (I5 o Ho) as (st' & E & Hs & Hl & He).
      destruct (decide (tk_mix t = mo_sender o)) as [Heq|Hne].
      * exfalso. rewrite <-Heq in E. rewrite E in Hst. injection Hst as ->.
        destruct (mm_states s0 !! tk_mix t) as [st0|] eqn:E0.
        2:{ apply (co_dom _ _ _ _ I1) in E0. congruence. }
        pose proof (co_mix _ _ _ _ I1 _ _ _ E0 E) as Hm.
        pose proof (mi_wg _ _ _ _ _ Hm) as Hwg.
        destruct (mi_shuf _ _ _ _ _ Hm Hs) as [Hz _].
        assert (t ∈ live (tk_mix t) (alltasks s)) as Hlv.
        { apply elem_of_list_filter. split; [done|]. unfold alltasks. rewrite Hf. set_solver. }
        destruct (live (tk_mix t) (alltasks s)); [by apply elem_of_nil in Hlv|].
        simpl in Hwg. lia.
      * rewrite lookup_insert_ne by done. eauto.
  - (* bad onion *) split; simpl; try done; try by apply Hrecv. by apply Hcore.
  - (* bad idx *) split; simpl; try done; try by apply Hrecv. by apply Hcore.
  - (* waited *)
    match goal with H : mm_pend s = _ |- _ => rename H into Hp end.
    split; simpl; try done; try (by apply Hrecv); try (by apply Hcore).
    intros n p Hin. apply elem_of_app in Hin as [Hin|Hin].
    { apply I3. rewrite Hp. set_solver. }
    apply elem_of_cons in Hin as [Heq|Hin].
    { injection Heq as -> ->. eexists. split; [done|]. split; [done|]. done. }
    apply I3. rewrite Hp. set_solver.
  - (* shuffle *)
    match goal with H : mm_pend s = _ |- _ => rename H into Hp end.
    match goal with H : mm_states s !! _ = Some st |- _ => rename H into Hst end.
    assert (Hwg : st_wg st = 0).
    { destruct (I3 mix POnce) as (st' & E & Hw & _); [rewrite Hp; set_solver|].
      rewrite E in Hst. injection Hst as ->. apply Hw. by left. }
    destruct (mm_states s0 !! mix) as [st0|] eqn:E0.
    2:{ apply (co_dom _ _ _ _ I1) in E0. congruence. }
    split.
    + simpl. eapply core_shuffle; try done; [by apply Hcore|by eapply HW].
    + simpl. intros n st' E k. rewrite received_nonbatch by done.
      apply lookup_insert_Some in E as [[<- <-]|[Hne E]]; [simpl|]; by apply I2.
    + simpl. intros n p Hin.
      assert ((n, p) ∈ mm_pend s ∨ (n = mix ∧ p = PSend ∧ st_last st = false)) as [Hin'|(-> & -> & Hl)].
      { rewrite Hp. destruct (st_last st); set_solver. }
      * destruct (I3 n p Hin') as (st' & E & Hw & Hsd).
        destruct (decide (mix = n)) as [<-|Hne].
        -- rewrite lookup_insert. eexists. split; [done|]. simpl. split; [done|].
           intros ->. rewrite E in Hst. injection Hst as ->. by destruct (Hsd eq_refl).
        -- rewrite lookup_insert_ne by done. eauto.
      * rewrite lookup_insert. eexists. split; [done|]. simpl. done.
    + simpl. destruct (mm_holder s) as [[| |]|]; try done; by apply lookup_insert_is_Some'; right.
    + simpl. intros o Ho. destruct (I5 o Ho) as (st' & E & Hs & Hl & He).
      destruct (decide (mix = mo_sender o)) as [Heq|Hne].
      * exfalso. rewrite <-Heq in E. rewrite E in Hst. injection Hst as ->. congruence.
      * rewrite lookup_insert_ne by done. eauto.
  - (* once again *)
    match goal with H : mm_pend s = _ |- _ => rename H into Hp end.
    match goal with H : mm_states s !! _ = Some st |- _ => rename H into Hst end.
    split; simpl; try done; try (by apply Hrecv); try (by apply Hcore).
    intros n p Hin.
    assert ((n, p) ∈ mm_pend s ∨ (n = mix ∧ p = PSend ∧ st_last st = false)) as [Hin'|(-> & -> & Hl)].
    { rewrite Hp. destruct (st_last st); set_solver. }
    + by apply I3.
    + destruct (I3 mix POnce) as (st' & E & Hw & _); [rewrite Hp; set_solver|].
      rewrite E in Hst. injection Hst as ->. exists st. split; [done|]. split; [|done].
      intros _. apply Hw. by left.
  - (* emit *)
    match goal with H : mm_pend s = _ |- _ => rename H into Hp end.
    match goal with H : mm_states s !! _ = Some st |- _ => rename H into Hst end.
    split; simpl; try done; try (by apply Hrecv); try (by apply Hcore).
    + intros n p Hin. apply I3. rewrite Hp. set_solver.
    + intros o Ho. apply elem_of_app in Ho as [Ho|Ho]; [by apply I5|].
      apply elem_of_list_singleton in Ho as ->. simpl.
      assert (st_name st = mix) as Hnm.
      { destruct (mm_states s0 !! mix) as [st0|] eqn:E0.
        2:{ apply (co_dom _ _ _ _ I1) in E0. congruence. }
        rewrite (mi_name _ _ _ _ _ (co_mix _ _ _ _ I1 _ _ _ E0 Hst)).
        destruct Hinit as (_&_&_&_&_&_&_&H8). by destruct (H8 _ _ E0). }
      exists st. rewrite Hnm. split; [done|]. split; [done|]. split; [|done].
      destruct (I3 mix PSend) as (st' & E & _ & Hw); [rewrite Hp; set_solver|].
      rewrite E in Hst. injection Hst as ->. by destruct (Hw eq_refl).
  - (* recv *)
    match goal with H : mm_out s = _ |- _ => rename H into Ho end.
    split; simpl; try done; try (by apply Hrecv); try (by apply Hcore).
    intros o' Ho'. apply I5. rewrite Ho. by right.
  - (* close *) split; simpl; try done; try by apply Hrecv. by apply Hcore.
  - (* close again *) split; simpl; try done; try by apply Hrecv. by apply Hcore.
Qed.

Lemma run_inv s0 tr s : init_ok s0 → run s0 tr s → Inv s0 tr s.
Proof.
  intros H0 Hr. induction Hr as [|tr l s s' Hr IH Hs]; [by apply init_inv|].
  by eapply step_inv.
Qed.

End inv.
