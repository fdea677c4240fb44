(** C100: several streams in the name of one relay: responses are split, a broken one poisons the relay. *)
From stdpp Require Import gmap.
From Verif.Base Require Import Base.
From Verif.Model Require Import RelayStreams.

(** * Specification: histories *)
Section spec.
Context {R : Type}.
(** Responses put in relay [i]'s channel. *)
Definition pushed (i : nat) (ls : list (label R)) : list R :=
  omap (λ l, match l with LPush j r => if decide (j = i) then Some r else None | _ => None end) ls.
(** Responses received from relay [i]'s channel, with the stream whose writer received them; all those
    received by one stream's writer. *)
Definition taken (i : nat) (ls : list (label R)) : list (nat * R) :=
  omap (λ l, match l with LTake σ j r => if decide (j = i) then Some (σ, r) else None | _ => None end) ls.
Definition took (σ : nat) (ls : list (label R)) : list R :=
  omap (λ l, match l with LTake τ _ r => if decide (τ = σ) then Some r else None | _ => None end) ls.
(** Responses written to stream [σ], and with which its writer failed. *)
Definition written (σ : nat) (ls : list (label R)) : list R :=
  omap (λ l, match l with LSent τ r => if decide (τ = σ) then Some r else None | _ => None end) ls.
Definition lost (σ : nat) (ls : list (label R)) : list R :=
  omap (λ l, match l with LSendFail τ r => if decide (τ = σ) then Some r else None | _ => None end) ls.
End spec.

Section props.
Context {R : Type} `{EqDecision R} (names : list string).
Notation step := (step (R:=R) names).
Notation run := (run (R:=R) names).
Notation state := (state R).
Notation label := (label R).

Lemma run_app ls1 ls2 s : run (ls1 ++ ls2) s = match run ls1 s with Some s' => run ls2 s' | None => None end.
Proof using. revert s; induction ls1 as [|l ls1 IH]; intros s; [done|]. cbn [RelayStreams.run app]. destruct (step l s); [apply IH|done]. Qed.
Lemma run_cons l ls s s' : run (l :: ls) s = Some s' → ∃ s1, step l s = Some s1 ∧ run ls s1 = Some s'.
Proof using. cbn [RelayStreams.run]. destruct (step l s) as [s1|]; [eauto|done]. Qed.
Lemma cons_run l ls s s1 : step l s = Some s1 → run (l :: ls) s = run ls s1.
Proof using. cbn [RelayStreams.run]. by intros ->. Qed.
Lemma run_snoc ls l s s' : run (ls ++ [l]) s = Some s' → ∃ s1, run ls s = Some s1 ∧ step l s1 = Some s'.
Proof using.
  rewrite run_app. destruct (run ls s) as [s1|]; [|done]. intros (s2 & H & [= <-])%run_cons. eauto.
Qed.


Record inv (ls : list label) (s : state) : Prop := mkInv {
  v_flow : ∀ i, pushed i ls = (snd <$> taken i ls) ++ buf s i;
  v_taken : ∀ i σ r, (σ, r) ∈ taken i ls → ∃ x, streams s !! σ = Some x ∧ st_relay x = i;
  v_stream : ∀ σ x, streams s !! σ = Some x →
    took σ ls = written σ ls ++ lost σ ls ++ option_list (st_hand x) ∧
    (lost σ ls = [] ∨ (st_run x = false ∧ st_relay x ∈ closed s)) ∧ (st_hand x ≠ None → st_run x = true) ∧
    (st_alive x = false ↔ LDie σ ∈ ls) ∧ length (lost σ ls) ≤ 1 ∧
    (∃ who a, LOpen σ who a ∈ ls ∧ relay_index names a = Some (st_relay x));
  v_new : ∀ σ, streams s !! σ = None → took σ ls = [] ∧ written σ ls = [] ∧ lost σ ls = [] ∧ LDie σ ∉ ls;
  v_closed : ∀ i, i ∈ closed s → ∃ σ r x, LSendFail σ r ∈ ls ∧ streams s !! σ = Some x ∧ st_relay x = i ∧ st_alive x = false;
  v_crash : crashed s = true → closed s ≠ ∅;
  v_cap : ∀ i, length (buf s i) ≤ 100 }.

Lemma pushed_snoc i (ls : list label) (l : label) : pushed i (ls ++ [l]) = pushed i ls ++ (match l with LPush j r => if decide (j = i) then [r] else [] | _ => [] end).
Proof using. unfold pushed. rewrite omap_app. f_equal. destruct l; try reflexivity. cbn [omap list_omap]. by destruct (decide (i0 = i)). Qed.
Lemma taken_snoc i (ls : list label) (l : label) : taken i (ls ++ [l]) = taken i ls ++ (match l with LTake σ j r => if decide (j = i) then [(σ, r)] else [] | _ => [] end).
Proof using. unfold taken. rewrite omap_app. f_equal. destruct l; try reflexivity. cbn [omap list_omap]. by destruct (decide (i0 = i)). Qed.
Lemma took_snoc i (ls : list label) (l : label) : took i (ls ++ [l]) = took i ls ++ (match l with LTake σ j r => if decide (σ = i) then [r] else [] | _ => [] end).
Proof using. unfold took. rewrite omap_app. f_equal. destruct l; try reflexivity. cbn [omap list_omap]. by destruct (decide (σ = i)). Qed.
Lemma written_snoc i (ls : list label) (l : label) : written i (ls ++ [l]) = written i ls ++ (match l with LSent σ r => if decide (σ = i) then [r] else [] | _ => [] end).
Proof using. unfold written. rewrite omap_app. f_equal. destruct l; try reflexivity. cbn [omap list_omap]. by destruct (decide (σ = i)). Qed.
Lemma lost_snoc i (ls : list label) (l : label) : lost i (ls ++ [l]) = lost i ls ++ (match l with LSendFail σ r => if decide (σ = i) then [r] else [] | _ => [] end).
Proof using. unfold lost. rewrite omap_app. f_equal. destruct l; try reflexivity. cbn [omap list_omap]. by destruct (decide (σ = i)). Qed.
Lemma elem_snoc {A} (x y : A) l : x ∈ l ++ [y] ↔ x ∈ l ∨ x = y.
Proof using. rewrite elem_of_app, elem_of_list_singleton. done. Qed.

Lemma buf_insert (s : state) i b cl st c j : buf (mkState (<[i := b]> (bufs s)) cl st c) j = if decide (i = j) then b else buf s j.
Proof using.
  unfold buf; simpl. destruct (decide (i = j)) as [->|ne]; [by rewrite lookup_insert|by rewrite lookup_insert_ne].
Qed.

Lemma step_inv ls l s s' : inv ls s → step l s = Some s' → inv (ls ++ [l]) s'.
Proof using.
  intros I Hst. unfold RelayStreams.step in Hst. destruct (crashed s) eqn:Hcr; [done|].
  destruct l as [i r|i r|σ who a|σ|σ i r|σ r|σ r|σ].
  - (* push *) case_bool_decide as Hd; [|done]. injection Hst as <-. destruct Hd as (_ & nc & len). split.
    + intros j. rewrite pushed_snoc, taken_snoc, buf_insert, app_nil_r, (v_flow _ _ I j).
      destruct (decide (i = j)) as [->|ne]; [by rewrite <- app_assoc|by rewrite app_nil_r].
    + intros j σ x. rewrite taken_snoc, app_nil_r. apply I.
    + intros σ x Hx. rewrite took_snoc, written_snoc, lost_snoc, !app_nil_r.
      destruct (v_stream _ _ I σ x Hx) as (A & B & C & D & E & w & a & F & G). split_and!; try done.
      * rewrite elem_snoc. rewrite D. split; [auto|]. by intros [?|[=]].
      * exists w, a. by rewrite elem_snoc; auto.
    + intros σ Hx. destruct (v_new _ _ I σ Hx) as (A & B & C & D).
      rewrite took_snoc, written_snoc, lost_snoc, !app_nil_r, elem_snoc. split_and!; try done. by intros [?|[=]].
    + intros j Hj. destruct (v_closed _ _ I j Hj) as (σ & r0 & x & A & B). exists σ, r0, x. rewrite elem_snoc; auto.
    + done.
    + intros j. rewrite buf_insert. destruct (decide (i = j)); [rewrite app_length; simpl; lia|apply I].
  - (* push panic *) case_bool_decide as Hd; [|done]. injection Hst as <-. destruct Hd as (_ & nc). split.
    + intros j. rewrite pushed_snoc, taken_snoc, !app_nil_r. apply (v_flow _ _ I j).
    + intros j σ x. rewrite taken_snoc, app_nil_r. apply I.
    + intros σ x Hx. rewrite took_snoc, written_snoc, lost_snoc, !app_nil_r.
      destruct (v_stream _ _ I σ x Hx) as (A & B & C & D & E & w & a & F & G). split_and!; try done.
      * rewrite elem_snoc. rewrite D. split; [auto|]. by intros [?|[=]].
      * exists w, a. by rewrite elem_snoc; auto.
    + intros σ Hx. destruct (v_new _ _ I σ Hx) as (A & B & C & D).
      rewrite took_snoc, written_snoc, lost_snoc, !app_nil_r, elem_snoc. split_and!; try done. by intros [?|[=]].
    + intros j Hj. destruct (v_closed _ _ I j Hj) as (σ & r0 & x & A & B). exists σ, r0, x. rewrite elem_snoc; auto.
    + intros _ E. simpl in E. by rewrite E, elem_of_empty in nc.
    + apply I.
  - (* open *) destruct (streams s !! σ) as [?|] eqn:Hσ; [done|].
    destruct (relay_index names a) as [i|] eqn:Hi; [|done]. injection Hst as <-. split.
    + intros j. rewrite pushed_snoc, taken_snoc, !app_nil_r. apply (v_flow _ _ I j).
    + intros j τ x. rewrite taken_snoc, app_nil_r. intros H. destruct (v_taken _ _ I j τ x H) as (y & Hy & E).
      exists y. simpl. rewrite lookup_insert_ne by congruence. done.
    + intros τ x. simpl. rewrite took_snoc, written_snoc, lost_snoc, !app_nil_r.
      intros [[<- <-]|[ne Hx]]%lookup_insert_Some.
      * destruct (v_new _ _ I σ Hσ) as (A & B & C & D). rewrite A, B, C. simpl. split_and!; try done.
        -- by left.
        -- rewrite elem_snoc. split; [done|]. by intros [?|[=]].
        -- lia.
        -- exists who, a. rewrite elem_snoc. auto.
      * destruct (v_stream _ _ I τ x Hx) as (A & B & C & D & E & w & b & F & G). split_and!; try done.
        -- rewrite elem_snoc. rewrite D. split; [auto|]. by intros [?|[=]].
        -- exists w, b. by rewrite elem_snoc; auto.
    + intros τ Hx. simpl in Hx. apply lookup_insert_None in Hx as [Hx ne]. destruct (v_new _ _ I τ Hx) as (A & B & C & D).
      rewrite took_snoc, written_snoc, lost_snoc, !app_nil_r, elem_snoc. split_and!; try done. by intros [?|[=]].
    + intros j Hj. destruct (v_closed _ _ I j Hj) as (τ & r0 & x & A & B & C). exists τ, r0, x. rewrite elem_snoc.
      simpl. rewrite lookup_insert_ne by congruence. auto.
    + simpl. by rewrite Hcr.
    + apply I.
  - (* die *) destruct (streams s !! σ) as [x0|] eqn:Hσ; simpl in Hst; [|done]. injection Hst as <-. split.
    + intros j. rewrite pushed_snoc, taken_snoc, !app_nil_r. apply (v_flow _ _ I j).
    + intros j τ x. rewrite taken_snoc, app_nil_r. intros H. destruct (v_taken _ _ I j τ x H) as (y & Hy & E).
      simpl. destruct (decide (σ = τ)) as [<-|ne]; [rewrite lookup_insert|rewrite lookup_insert_ne by done]; eauto.
      eexists; split; [done|]. simpl. congruence.
    + intros τ x. simpl. rewrite took_snoc, written_snoc, lost_snoc, !app_nil_r.
      intros [[<- <-]|[ne Hx]]%lookup_insert_Some; simpl.
      * destruct (v_stream _ _ I σ x0 Hσ) as (A & B & C & D & E & w & b & F & G). split_and!; try done.
        -- rewrite elem_snoc. split; auto.
        -- exists w, b. by rewrite elem_snoc; auto.
      * destruct (v_stream _ _ I τ x Hx) as (A & B & C & D & E & w & b & F & G). split_and!; try done.
        -- rewrite elem_snoc. rewrite D. split; [auto|]. intros [?|[= ?]]; [done|congruence].
        -- exists w, b. by rewrite elem_snoc; auto.
    + intros τ Hx. simpl in Hx. apply lookup_insert_None in Hx as [Hx ne]. destruct (v_new _ _ I τ Hx) as (A & B & C & D).
      rewrite took_snoc, written_snoc, lost_snoc, !app_nil_r, elem_snoc. split_and!; try done. intros [?|[= ?]]; [done|congruence].
    + intros j Hj. destruct (v_closed _ _ I j Hj) as (τ & r0 & x & A & B & C & D). simpl.
      destruct (decide (σ = τ)) as [<-|ne].
      * eexists σ, r0, _. rewrite elem_snoc, lookup_insert. split_and!; [auto|done|simpl; congruence|done].
      * exists τ, r0, x. rewrite elem_snoc, lookup_insert_ne by done. auto.
    + simpl. by rewrite Hcr.
    + apply I.
  - (* take *) destruct (streams s !! σ) as [x0|] eqn:Hσ; simpl in Hst; [|done].
    case_bool_decide as Hd; [|done]. injection Hst as <-. destruct Hd as (<- & Hrun & Hh & Hhd).
    destruct (buf s (st_relay x0)) as [|r0 b] eqn:Hb; [done|]. injection Hhd as ->. simpl. split.
    + intros j. rewrite pushed_snoc, taken_snoc, app_nil_r, buf_insert, (v_flow _ _ I j).
      destruct (decide (st_relay x0 = j)) as [<-|ne]; [|by rewrite app_nil_r].
      rewrite fmap_app, Hb, <- app_assoc. done.
    + intros j τ x. rewrite taken_snoc, elem_of_app. intros H. simpl.
      assert ((τ, x) ∈ taken j ls ∨ (τ = σ ∧ j = st_relay x0)) as [H'|[-> ->]].
      { destruct H as [?|H]; [auto|]. destruct (decide (st_relay x0 = j)); [|by apply elem_of_nil in H].
        apply elem_of_list_singleton in H as [= -> ->]. auto. }
      * destruct (v_taken _ _ I j τ x H') as (y & Hy & E).
        destruct (decide (σ = τ)) as [<-|ne]; [rewrite lookup_insert|rewrite lookup_insert_ne by done]; eauto.
        eexists; split; [done|]. simpl. congruence.
      * rewrite lookup_insert. eauto.
    + intros τ x. simpl. rewrite took_snoc, written_snoc, lost_snoc, !app_nil_r.
      intros [[<- <-]|[ne Hx]]%lookup_insert_Some; simpl.
      * destruct (v_stream _ _ I σ x0 Hσ) as (A & B & C & D & E & w & b0 & F & G).
        rewrite decide_True, A, Hh by done. simpl. rewrite app_nil_r, <- app_assoc.
        split_and!; try done.
        -- left. destruct B as [B|[B _]]; [done|congruence].
        -- rewrite elem_snoc. rewrite D. split; [auto|]. by intros [?|[=]].
        -- exists w, b0. by rewrite elem_snoc; auto.
      * rewrite decide_False by done. rewrite app_nil_r.
        destruct (v_stream _ _ I τ x Hx) as (A & B & C & D & E & w & b0 & F & G). split_and!; try done.
        -- rewrite elem_snoc. rewrite D. split; [auto|]. by intros [?|[= ?]].
        -- exists w, b0. by rewrite elem_snoc; auto.
    + intros τ Hx. simpl in Hx. apply lookup_insert_None in Hx as [Hx ne]. destruct (v_new _ _ I τ Hx) as (A & B & C & D).
      rewrite took_snoc, written_snoc, lost_snoc, !app_nil_r, elem_snoc, decide_False by done. rewrite app_nil_r.
      split_and!; try done. by intros [?|[= ?]].
    + intros j Hj. destruct (v_closed _ _ I j Hj) as (τ & r1 & x & A & B & C & D). simpl.
      destruct (decide (σ = τ)) as [<-|ne].
      * eexists σ, r1, _. rewrite elem_snoc, lookup_insert. split_and!; [auto|done|simpl; congruence|simpl; congruence].
      * exists τ, r1, x. rewrite elem_snoc, lookup_insert_ne by done. auto.
    + done.
    + intros j. rewrite buf_insert. destruct (decide (st_relay x0 = j)) as [<-|]; [|apply I].
      pose proof (v_cap _ _ I (st_relay x0)) as L. rewrite Hb in L. simpl in L. lia.
  - (* sent *) destruct (streams s !! σ) as [x0|] eqn:Hσ; simpl in Hst; [|done].
    case_bool_decide as Hd; [|done]. injection Hst as <-. destruct Hd as (Hal & Hh). split.
    + intros j. rewrite pushed_snoc, taken_snoc, !app_nil_r. apply (v_flow _ _ I j).
    + intros j τ x. rewrite taken_snoc, app_nil_r. intros H. destruct (v_taken _ _ I j τ x H) as (y & Hy & E).
      simpl. destruct (decide (σ = τ)) as [<-|ne]; [rewrite lookup_insert|rewrite lookup_insert_ne by done]; eauto.
      eexists; split; [done|]. simpl. congruence.
    + intros τ x. simpl. rewrite took_snoc, written_snoc, lost_snoc, !app_nil_r.
      intros [[<- <-]|[ne Hx]]%lookup_insert_Some; simpl.
      * destruct (v_stream _ _ I σ x0 Hσ) as (A & B & C & D & E & w & b & F & G). rewrite decide_True by done.
        assert (lost σ ls = []) as El.
        { destruct B as [?|[B _]]; [done|]. rewrite C in B; [done|]. by rewrite Hh. }
        rewrite A, El, Hh. simpl. rewrite app_nil_r. split_and!; try done.
        -- by left.
        -- rewrite elem_snoc. rewrite <- Hal, D. split; [auto|]. by intros [?|[=]].
        -- lia.
        -- exists w, b. by rewrite elem_snoc; auto.
      * rewrite decide_False by done. rewrite app_nil_r.
        destruct (v_stream _ _ I τ x Hx) as (A & B & C & D & E & w & b & F & G). split_and!; try done.
        -- rewrite elem_snoc. rewrite D. split; [auto|]. by intros [?|[= ?]].
        -- exists w, b. by rewrite elem_snoc; auto.
    + intros τ Hx. simpl in Hx. apply lookup_insert_None in Hx as [Hx ne]. destruct (v_new _ _ I τ Hx) as (A & B & C & D).
      rewrite took_snoc, written_snoc, lost_snoc, !app_nil_r, elem_snoc, decide_False by done. rewrite app_nil_r.
      split_and!; try done. by intros [?|[= ?]].
    + intros j Hj. destruct (v_closed _ _ I j Hj) as (τ & r1 & x & A & B & C & D). simpl.
      destruct (decide (σ = τ)) as [<-|ne]; [congruence|].
      exists τ, r1, x. rewrite elem_snoc, lookup_insert_ne by done. auto.
    + simpl. by rewrite Hcr.
    + apply I.
  - (* fail *) destruct (streams s !! σ) as [x0|] eqn:Hσ; simpl in Hst; [|done].
    case_bool_decide as Hd; [|done]. injection Hst as <-. destruct Hd as (Hal & Hh). split; simpl.
    + intros j. rewrite pushed_snoc, taken_snoc, !app_nil_r. apply (v_flow _ _ I j).
    + intros j τ x. rewrite taken_snoc, app_nil_r. intros H. destruct (v_taken _ _ I j τ x H) as (y & Hy & E).
      destruct (decide (σ = τ)) as [<-|ne]; [rewrite lookup_insert|rewrite lookup_insert_ne by done]; eauto.
      eexists; split; [done|]. simpl. congruence.
    + intros τ x. rewrite took_snoc, written_snoc, lost_snoc, !app_nil_r.
      intros [[<- <-]|[ne Hx]]%lookup_insert_Some; simpl.
      * destruct (v_stream _ _ I σ x0 Hσ) as (A & B & C & D & E & w & b & F & G). rewrite decide_True by done.
        assert (lost σ ls = []) as El.
        { destruct B as [?|[B _]]; [done|]. rewrite C in B; [done|]. by rewrite Hh. }
        rewrite A, El, Hh. simpl. split_and!; try done.
        -- right. split; [done|]. apply elem_of_union_l, elem_of_singleton. done.
        -- rewrite elem_snoc. rewrite <- D. split; auto.
        -- exists w, b. by rewrite elem_snoc; auto.
      * rewrite decide_False by done. rewrite app_nil_r.
        destruct (v_stream _ _ I τ x Hx) as (A & B & C & D & E & w & b & F & G). split_and!; try done.
        -- destruct B as [?|[? ?]]; [by left|right]. split; [done|]. by apply elem_of_union_r.
        -- rewrite elem_snoc. rewrite D. split; [auto|]. by intros [?|[= ?]].
        -- exists w, b. by rewrite elem_snoc; auto.
    + intros τ Hx. simpl in Hx. apply lookup_insert_None in Hx as [Hx ne]. destruct (v_new _ _ I τ Hx) as (A & B & C & D).
      rewrite took_snoc, written_snoc, lost_snoc, !app_nil_r, elem_snoc, decide_False by done. rewrite app_nil_r.
      split_and!; try done. by intros [?|[= ?]].
    + intros j [->%elem_of_singleton|Hj]%elem_of_union.
      * eexists σ, r, _. rewrite elem_snoc, lookup_insert. split_and!; [auto|done|done|done].
      * destruct (v_closed _ _ I j Hj) as (τ & r1 & x & A & B & C & D).
        destruct (decide (σ = τ)) as [<-|ne].
        -- eexists σ, r1, _. rewrite elem_snoc, lookup_insert. split_and!; [auto|done|simpl; congruence|done].
        -- exists τ, r1, x. rewrite elem_snoc, lookup_insert_ne by done. auto.
    + intros _ E. assert (st_relay x0 ∈ ({[st_relay x0]} ∪ closed s : gset nat)) as H by (by apply elem_of_union_l, elem_of_singleton).
      by rewrite E, elem_of_empty in H.
    + apply I.
  - (* exit *) destruct (streams s !! σ) as [x0|] eqn:Hσ; simpl in Hst; [|done].
    case_bool_decide as Hd; [|done]. injection Hst as <-. destruct Hd as (Hrun & Hh & Hb & Hc). split.
    + intros j. rewrite pushed_snoc, taken_snoc, !app_nil_r. apply (v_flow _ _ I j).
    + intros j τ x. rewrite taken_snoc, app_nil_r. intros H. destruct (v_taken _ _ I j τ x H) as (y & Hy & E).
      simpl. destruct (decide (σ = τ)) as [<-|ne]; [rewrite lookup_insert|rewrite lookup_insert_ne by done]; eauto.
      eexists; split; [done|]. simpl. congruence.
    + intros τ x. simpl. rewrite took_snoc, written_snoc, lost_snoc, !app_nil_r.
      intros [[<- <-]|[ne Hx]]%lookup_insert_Some; simpl.
      * destruct (v_stream _ _ I σ x0 Hσ) as (A & B & C & D & E & w & b & F & G). rewrite Hh in A. split_and!; try done.
        -- right. done.
        -- rewrite elem_snoc. rewrite D. split; [auto|]. by intros [?|[=]].
        -- exists w, b. by rewrite elem_snoc; auto.
      * destruct (v_stream _ _ I τ x Hx) as (A & B & C & D & E & w & b & F & G). split_and!; try done.
        -- rewrite elem_snoc. rewrite D. split; [auto|]. by intros [?|[=]].
        -- exists w, b. by rewrite elem_snoc; auto.
    + intros τ Hx. simpl in Hx. apply lookup_insert_None in Hx as [Hx ne]. destruct (v_new _ _ I τ Hx) as (A & B & C & D).
      rewrite took_snoc, written_snoc, lost_snoc, !app_nil_r, elem_snoc. split_and!; try done. by intros [?|[=]].
    + intros j Hj. destruct (v_closed _ _ I j Hj) as (τ & r0 & x & A & B & C & D). simpl.
      destruct (decide (σ = τ)) as [<-|ne].
      * eexists σ, r0, _. rewrite elem_snoc, lookup_insert. split_and!; [auto|done|simpl; congruence|simpl; congruence].
      * exists τ, r0, x. rewrite elem_snoc, lookup_insert_ne by done. auto.
    + simpl. by rewrite Hcr.
    + apply I.
Qed.
Lemma run_inv ls s : run ls init = Some s → inv ls s.
Proof using.
  revert s; induction ls as [|l ls IH] using rev_ind; intros s H.
  - injection H as <-. split; try done.
    + intros i σ r H. by apply elem_of_nil in H.
    + intros σ _. split_and!; try done. by intros ?%elem_of_nil.
    + intros i. unfold buf, init. cbn [bufs]. rewrite lookup_empty. simpl. lia.
  - apply run_snoc in H as (s1 & H1 & H2). eapply step_inv; [by apply IH|exact H2].
Qed.

(** * C100 *)
(** The responses for a relay are split among the streams opened under its address: each is received by
    exactly one of them, in order, the rest is waiting (at most 100). *)
Theorem C100_split ls s i : run ls init = Some s →
  pushed i ls = (snd <$> taken i ls) ++ buf s i ∧ length (buf s i) ≤ 100 ∧
  ∀ σ r, (σ, r) ∈ taken i ls → ∃ who a, LOpen σ who a ∈ ls ∧ relay_index names a = Some i.
Proof using.
  intros R1. pose proof (run_inv _ _ R1) as I. split_and!; [apply I|apply I|]. intros σ r H.
  destruct (v_taken _ _ I i σ r H) as (x & Hx & <-). apply (v_stream _ _ I σ x Hx).
Qed.
(** What a stream's writer received it has written to the stream, in order, except for the one it holds and
    the one with which it failed; it fails at most once and only if the stream broke. *)
Theorem C100_written ls s σ x : run ls init = Some s → streams s !! σ = Some x →
  took σ ls = written σ ls ++ lost σ ls ++ option_list (st_hand x) ∧ length (lost σ ls) ≤ 1 ∧
  (lost σ ls ≠ [] → LDie σ ∈ ls).
Proof using.
  intros R1 Hx. pose proof (run_inv _ _ R1) as I.
  destruct (v_stream _ _ I σ x Hx) as (A & B & C & D & E & F). split_and!; [done|done|]. intros H.
  assert (∃ r, r ∈ lost σ ls) as [r Hr].
  { destruct (lost σ ls) as [|r l]; [done|]. exists r. by left. }
  apply elem_of_list_omap in Hr as (l & Hl & El). destruct l; try done. destruct (decide (σ0 = σ)) as [->|]; [|done].
  apply elem_of_list_split in Hl as (l1 & l2 & ->). rewrite run_app in R1.
  destruct (run l1 init) as [s1|] eqn:R2; [|done]. apply run_cons in R1 as (s2 & Hst & _).
  unfold RelayStreams.step in Hst. destruct (crashed s1); [done|]. destruct (streams s1 !! σ) as [y|] eqn:Hy; simpl in Hst; [|done].
  case_bool_decide as Hd; [|done]. destruct Hd as [Hd _].
  apply elem_of_app. left. apply (v_stream _ _ (run_inv _ _ R2) σ y Hy). done.
Qed.

(** The server crashes only if some stream broke; a channel is closed only by a broken stream of that relay. *)
Theorem C100_only_broken ls s : run ls init = Some s → crashed s = true ∨ closed s ≠ ∅ →
  ∃ σ r, LDie σ ∈ ls ∧ LSendFail σ r ∈ ls.
Proof using.
  intros R1 H. pose proof (run_inv _ _ R1) as I.
  assert (closed s ≠ ∅) as Hne by (destruct H; [by apply I|done]).
  apply set_choose_L in Hne as [i Hi]. destruct (v_closed _ _ I i Hi) as (σ & r & x & A & B & C & D).
  exists σ, r. split; [|done]. by apply (v_stream _ _ I σ x B).
Qed.

(** A broken stream keeps its writer: it goes on waiting for responses of the relay, also after the relay
    has opened another stream; it never ends by itself while the channel is open. *)
Theorem C100_stays l s s' σ x : streams s !! σ = Some x → st_run x = true → st_alive x = false →
  st_relay x ∉ closed s → step l s = Some s' → (∀ r, l ≠ LSendFail σ r) →
  ∃ x', streams s' !! σ = Some x' ∧ st_run x' = true ∧ st_alive x' = false ∧ st_relay x' = st_relay x.
Proof using.
  intros Hx Hr Ha Hc Hst Hl. unfold RelayStreams.step in Hst. destruct (crashed s); [done|].
  destruct l as [i r|i r|τ who a|τ|τ i r|τ r|τ r|τ].
  - case_bool_decide; [|done]. injection Hst as <-. eauto.
  - case_bool_decide; [|done]. injection Hst as <-. eauto.
  - destruct (streams s !! τ) eqn:Hτ; [done|]. destruct (relay_index names a); [|done]. injection Hst as <-.
    simpl. rewrite lookup_insert_ne by congruence. eauto.
  - destruct (streams s !! τ) as [y|] eqn:Hτ; simpl in Hst; [|done]. injection Hst as <-. simpl.
    destruct (decide (τ = σ)) as [->|]; [rewrite lookup_insert|rewrite lookup_insert_ne by done; eauto].
    eexists; split; [done|]. simpl. assert (y = x) as -> by congruence. done.
  - destruct (streams s !! τ) as [y|] eqn:Hτ; simpl in Hst; [|done]. case_bool_decide as Hd; [|done]. injection Hst as <-. simpl.
    destruct (decide (τ = σ)) as [->|]; [rewrite lookup_insert|rewrite lookup_insert_ne by done; eauto].
    eexists; split; [done|]. simpl. assert (y = x) as -> by congruence. destruct Hd as [<- _]. done.
  - destruct (streams s !! τ) as [y|] eqn:Hτ; simpl in Hst; [|done]. case_bool_decide as Hd; [|done]. injection Hst as <-. simpl.
    destruct (decide (τ = σ)) as [->|]; [|rewrite lookup_insert_ne by done; eauto].
    assert (y = x) as -> by congruence. destruct Hd; congruence.
  - destruct (streams s !! τ) as [y|] eqn:Hτ; simpl in Hst; [|done]. case_bool_decide as Hd; [|done]. injection Hst as <-. simpl.
    destruct (decide (τ = σ)) as [->|]; [by destruct (Hl r)|rewrite lookup_insert_ne by done; eauto].
  - destruct (streams s !! τ) as [y|] eqn:Hτ; simpl in Hst; [|done]. case_bool_decide as Hd; [|done]. injection Hst as <-. simpl.
    destruct (decide (τ = σ)) as [->|]; [|rewrite lookup_insert_ne by done; eauto].
    assert (y = x) as -> by congruence. by destruct Hd as (_ & _ & _ & ?).
Qed.

(** Closed for good, and the next response for that relay crashes the server. *)
Lemma closed_stays l s s' i : step l s = Some s' → i ∈ closed s → i ∈ closed s' ∧ ∀ r, l ≠ LPush i r.
Proof using.
  intros Hst Hi. unfold RelayStreams.step in Hst. destruct (crashed s); [done|].
  destruct l as [j r|j r|τ who a|τ|τ j r|τ r|τ r|τ].
  - case_bool_decide as Hd; [|done]. injection Hst as <-. split; [done|]. intros r' [= -> ->]. by destruct Hd as (_ & ? & _).
  - case_bool_decide; [|done]. injection Hst as <-. split; [done|]. by intros.
  - destruct (streams s !! τ); [done|]. destruct (relay_index names a); [|done]. injection Hst as <-. split; [done|]. by intros.
  - destruct (streams s !! τ); simpl in Hst; [|done]. injection Hst as <-. split; [done|]. by intros.
  - destruct (streams s !! τ); simpl in Hst; [|done]. case_bool_decide; [|done]. injection Hst as <-. split; [done|]. by intros.
  - destruct (streams s !! τ); simpl in Hst; [|done]. case_bool_decide; [|done]. injection Hst as <-. split; [done|]. by intros.
  - destruct (streams s !! τ); simpl in Hst; [|done]. case_bool_decide; [|done]. injection Hst as <-. split; [|by intros].
    simpl. by apply elem_of_union_r.
  - destruct (streams s !! τ); simpl in Hst; [|done]. case_bool_decide; [|done]. injection Hst as <-. split; [done|]. by intros.
Qed.
Theorem C100_closed ls s s' i : run ls s = Some s' → i ∈ closed s →
  pushed i ls = [] ∧ i ∈ closed s' ∧
  (crashed s' = false → i < length names → ∀ r, ∃ s2, step (LPushPanic i r) s' = Some s2 ∧ crashed s2 = true).
Proof using.
  revert s; induction ls as [|l ls IH]; intros s R1 Hi.
  - injection R1 as <-. split_and!; [done|done|]. intros Hc Hn r. unfold RelayStreams.step. rewrite Hc.
    rewrite bool_decide_true by done. eauto.
  - apply run_cons in R1 as (s1 & Hst & R1). destruct (closed_stays _ _ _ _ Hst Hi) as [Hi1 Hl].
    destruct (IH s1 R1 Hi1) as (E & H). split; [|done].
    change (l :: ls) with ([l] ++ ls). unfold pushed. rewrite omap_app. fold (pushed i ls). rewrite E, app_nil_r.
    destruct l as [j r|? ?|? ? ?|?|? ? ?|? ?|? ?|?]; try reflexivity. cbn [omap list_omap].
    destruct (decide (j = i)) as [->|]; [by destruct (Hl r)|done].
Qed.

(** So a relay that comes back is at the mercy of the writers its broken streams left: whenever a response
    for it is waiting, such a writer may take it, lose it and close the relay's channel. *)
Theorem C100_poison s σ x r b : crashed s = false → streams s !! σ = Some x → st_run x = true → st_alive x = false →
  st_hand x = None → buf s (st_relay x) = r :: b →
  ∃ s', run [LTake σ (st_relay x) r; LSendFail σ r] s = Some s' ∧ st_relay x ∈ closed s'.
Proof using.
  intros Hc Hx Hr Ha Hh Hb.
  erewrite cons_run; cycle 1.
  { unfold RelayStreams.step. rewrite Hc, Hx. simpl. rewrite Hb, bool_decide_true by done. done. }
  erewrite cons_run; cycle 1.
  { unfold RelayStreams.step. cbn [crashed streams]. rewrite lookup_insert. simpl. rewrite bool_decide_true by done. done. }
  eexists. split; [done|]. simpl. apply elem_of_union_l, elem_of_singleton. done.
Qed.

(** And whoever names the relay's address gets its responses, all of them if it is quicker: for every list
    of responses there is a run in which the relay is connected and gets none. *)
Theorem C100_impostor a i rs relay other : names !! i = Some a → relay_index names a = Some i → relay ≠ other →
  ∃ ls s, run (LOpen 0 relay a :: LOpen 1 other a :: ls) init = Some s ∧ crashed s = false ∧ buf s i = [] ∧
    pushed i ls = rs ∧ written 1 ls = rs ∧ written 0 ls = [] ∧ (∀ σ, LDie σ ∉ ls).
Proof using.
  intros Ha Hi _.
  assert (∃ ls s, run (LOpen 0 relay a :: LOpen 1 other a :: ls) init = Some s ∧ crashed s = false ∧ buf s i = [] ∧
    pushed i ls = rs ∧ written 1 ls = rs ∧ written 0 ls = [] ∧ (∀ σ, LDie σ ∉ ls) ∧
    streams s !! 1 = Some (mkStream i true true None) ∧ closed s = ∅) as (ls & s & H); [|exists ls, s; naive_solver].
  induction rs as [|r rs IH] using rev_ind.
  - exists []. eexists. split.
    { erewrite cons_run; cycle 1.
      { unfold RelayStreams.step, init. cbn [crashed streams]. rewrite lookup_empty, Hi. done. }
      erewrite cons_run; cycle 1.
      { unfold RelayStreams.step, set_stream. cbn [crashed streams]. rewrite lookup_insert_ne, lookup_empty, Hi by done. done. }
      done. }
    split_and!; try done. by intros σ ?%elem_of_nil.
  - destruct IH as (ls & s & R1 & Hc & Hb & Hp & H1 & H0 & Hd & Hs & Hcl).
    exists (ls ++ [LPush i r; LTake 1 i r; LSent 1 r]). eexists. split.
    { rewrite !app_comm_cons, run_app, R1.
      erewrite cons_run; cycle 1.
      { unfold RelayStreams.step. rewrite Hc, Hb, Hcl. rewrite bool_decide_true; [done|].
        split_and!; [by eapply lookup_lt_Some|by intros ?%elem_of_empty|simpl; lia]. }
      erewrite cons_run; cycle 1.
      { unfold RelayStreams.step. cbn [crashed streams]. rewrite Hs. simpl. rewrite buf_insert, decide_True by done. simpl.
        rewrite bool_decide_true by done. done. }
      erewrite cons_run; cycle 1.
      { unfold RelayStreams.step. cbn [crashed streams]. rewrite lookup_insert. simpl.
        rewrite bool_decide_true by done. done. }
      done. }
    change [LPush i r; LTake 1 i r; LSent 1 r] with ([LPush i r] ++ [LTake 1 i r] ++ [LSent 1 r] : list label).
    rewrite !app_assoc, !pushed_snoc, !written_snoc, Hp, H1, H0, !app_nil_r.
    split_and!; try done.
    + unfold set_stream, buf. cbn [bufs]. by rewrite !lookup_insert.
    + by rewrite decide_True.
    + intros σ. rewrite !elem_snoc. intros [[[?|[=]]|[=]]|[=]]. by apply (Hd σ).
    + simpl. by rewrite lookup_insert.
Qed.
End props.

(** * A concrete run: a relay that restarts *)
Section ex.
Definition ex_names : list string := ["a"%string; "b"%string].
Definition ex_run : list (label nat) :=
  [LOpen 0 "b" "b"; LPush 1 10; LTake 0 1 10; LSent 0 10; LDie 0; LOpen 1 "b" "b";
   LPush 1 11; LTake 1 1 11; LSent 1 11; LPush 1 12; LTake 0 1 12; LSendFail 0 12].
(** The relay works, breaks and comes back; it gets one more response; its old stream takes the next one; the
    response after that crashes the server. *)
Theorem C100_restart : ∃ s s', run ex_names ex_run init = Some s ∧ crashed s = false ∧
  written 1 ex_run = [11] ∧ lost 0 ex_run = [12] ∧
  step ex_names (LPushPanic 1 13) s = Some s' ∧ crashed s' = true.
Proof.
  assert (match run ex_names ex_run init with Some s => negb (crashed s) && bool_decide (1 ∈ closed s) | None => false end = true)
    as H by (vm_compute; reflexivity).
  destruct (run ex_names ex_run init) as [s|] eqn:E; [|done]. apply andb_true_iff in H as [H1 H2].
  apply negb_true_iff in H1. apply bool_decide_eq_true in H2.
  destruct (C100_closed ex_names [] s s 1 eq_refl H2) as (_ & _ & H3). destruct (H3 H1 ltac:(simpl; lia) 13) as (s' & H4 & H5).
  exists s, s'. split_and!; try done.
Qed.
Example C100_names : relay_index ex_names "b" = Some 1 ∧ ex_names !! 1 = Some "b"%string.
Proof. done. Qed.
End ex.
