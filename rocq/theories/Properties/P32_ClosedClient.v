(** C87: direct calls on a closed or broken connection. *)
From stdpp Require Import gmap.
From Verif.Base Require Import Base.
From Verif.Model Require Import DirectClient ClosedClient.
From Verif.Properties Require Import P20_DirectClient.

Section closed.
Context {B : Type} (ttl : Z).
Implicit Types x : xstate B.
Notation xst := (xstep ttl).
Notation xsts := (xsteps ttl).

Local Ltac look := repeat match goal with
  | H : <[?i := _]> _ !! ?j = Some _ |- _ => apply lookup_insert_Some in H as [[? ?]|[? ?]]; simplify_eq/=
  end.
Local Ltac xnorm := cbn [base cancelled broken send_gone recv_gone clean_gone now calls waiting queue sender receiver cln got crashed set_caller closed_done
  k_uuid k_start k_seq k_closed k_caller app length xinit cinit].
(** The states of a client that started with no call and an open stream. *)
Definition xreachable x : Prop := ∃ ls, xsts ls xinit x.
(** Nobody serves the client any more. *)
Definition all_gone x : Prop := send_gone x = true ∧ recv_gone x = true ∧ clean_gone x = true.
(** The steps of a run that the base model has. *)
Definition base_labels (ls : list xlabel) : list label := omap (λ l, match l with XBase b => Some b | _ => None end) ls.

Lemma xsteps_app ls ls' x1 x2 x3 : xsts ls x1 x2 → xsts ls' x2 x3 → xsts (ls ++ ls') x1 x3.
Proof using Type. induction 1; [done|]. intros. econstructor; eauto. Qed.
Lemma xsteps_inv (P : xstate B → Prop) : (∀ l x x', P x → xst l x x' → P x') →
  ∀ ls x x', P x → xsts ls x x' → P x'.
Proof using Type. intros Hp ls x x' Hx Hs. induction Hs; eauto. Qed.

(** A run is a run of the model of an open client: so the guarantees of C56 stay. *)
Theorem C87_still_own ls x x' : xsts ls x x' → csteps ttl (base_labels ls) (base x) (base x').
Proof using Type.
  induction 1 as [|l ls x1 x2 x3 Hst _ IH]; [constructor|].
  destruct Hst; cbn [base_labels omap list_omap base] in *; try exact IH. econstructor; [eassumption|exact IH].
Qed.
Lemma xreachable_base x : xreachable x → reachable ttl (base x).
Proof using Type. intros [ls Hs%C87_still_own]. by eexists. Qed.

(** A goroutine that has returned is at no channel operation. *)
Definition gone_idle x : Prop :=
  (send_gone x = true → sender (base x) = None) ∧ (recv_gone x = true → receiver (base x) = None) ∧
  (clean_gone x = true → cln (base x) = CIdle).
Lemma gone_idle_step l x x' : gone_idle x → xst l x x' → gone_idle x'.
Proof using Type.
  intros (I1 & I2 & I3) Hst. destruct Hst as [x l s' Ha Hc|x|x|x|x|x]; try by split_and!.
  unfold gone_idle. cbn [base send_gone recv_gone clean_gone].
  destruct Hc; cbn [alive] in Ha; cbn [sender receiver cln]; split_and!; intros Hg; try done; try congruence; auto;
    first [by specialize (I1 Hg); congruence|by specialize (I2 Hg); congruence|by specialize (I3 Hg); congruence].
Qed.
Lemma xreachable_idle x : xreachable x → gone_idle x.
Proof using Type. intros [ls Hs]. eapply (xsteps_inv gone_idle); [apply gone_idle_step| |exact Hs]. by split_and!. Qed.
(** They do not come back, and neither does the stream. *)
Lemma gone_mono l x x' : xst l x x' → (send_gone x = true → send_gone x' = true) ∧ (recv_gone x = true → recv_gone x' = true) ∧
  (clean_gone x = true → clean_gone x' = true) ∧ (cancelled x = true → cancelled x' = true) ∧ (broken x = true → broken x' = true).
Proof using Type. by destruct 1. Qed.

(** What a client with no goroutine left can do. *)
Lemma stranded_step l x x' : gone_idle x → all_gone x → xst l x x' →
  (∀ k r, returned (base x') k r → returned (base x) k r) ∧ got (base x') = got (base x) ∧
  (∃ q, queue (base x') = queue (base x) ++ q ∧ (length (queue (base x)) ≤ 10 → length (queue (base x')) ≤ 10)).
Proof using Type.
  intros (I1 & I2 & I3) (G1 & G2 & G3) Hst. specialize (I1 G1). specialize (I2 G2). specialize (I3 G3).
  destruct Hst as [x l s' Ha Hc|x|x|x|x|x]; cbn [base];
    try (split; [done|]; split; [done|]; exists []; by rewrite app_nil_r).
  destruct Hc; cbn [alive] in Ha; try congruence; cbn [got queue]; unfold returned; cbn [calls].
  - split; [|split; [done|exists []; by rewrite app_nil_r]]. intros k0 r (c0 & Hc0 & Hd). look; try done. by exists c0.
  - split; [|split; [done|]].
    + intros k0 r (c0 & Hc0 & Hd). look; try done. by exists c0.
    + exists [k]. split; [done|]. rewrite app_length. simpl. lia.
  - split; [done|]. split; [done|]. exists []. by rewrite app_nil_r.
  - split; [done|]. split; [done|]. exists []. by rewrite app_nil_r.
Qed.

(** Once the three goroutines have returned, no direct call returns any more, whatever was registered
    and whatever happens: not with a response, not with an error, not with a timeout. *)
Theorem C87_stranded ls x x' : xreachable x → all_gone x → xsts ls x x' →
  (∀ k r, returned (base x') k r → returned (base x) k r) ∧ got (base x') = got (base x).
Proof using Type.
  intros Hr Hg Hs. apply xreachable_idle in Hr. induction Hs as [|l ls x1 x2 x3 Hst _ IH]; [done|].
  destruct (stranded_step _ _ _ Hr Hg Hst) as (H1 & H2 & _).
  assert (all_gone x2) as Hg2. { destruct Hg as (?&?&?). destruct (gone_mono _ _ _ Hst) as (?&?&?&_). split_and!; auto. }
  destruct (IH (gone_idle_step _ _ _ Hr Hst) Hg2) as [IH1 IH2]. split; [auto|congruence].
Qed.

(** Reachable queues respect the capacity of the channel. *)
Lemma queue_cap_step l (s s' : cstate B) : length (queue s) ≤ 10 → cstep ttl l s s' → length (queue s') ≤ 10.
Proof using Type.
  intros Hl Hst. destruct Hst; cbn [queue]; try done; try (rewrite ?app_length; simpl; lia).
  all: match goal with Hq : queue _ = _ |- _ => rewrite Hq in Hl; simpl in Hl; lia end.
Qed.
Lemma reachable_cap (s : cstate B) : reachable ttl s → length (queue s) ≤ 10.
Proof using Type. intros [ls Hs]. refine (steps_inv ttl (λ s, length (queue s) ≤ 10) queue_cap_step _ _ _ _ Hs). simpl. lia. Qed.
(** Pushes in a run. *)
Definition pushes (ls : list xlabel) : nat := length (List.filter (λ l, match l with XBase LPush => true | _ => false end) ls).
(** And AsyncDirectCall, which returns when it has put its request in the channel, returns at most as
    often as the channel has room: after at most ten calls every new one blocks in it for ever. *)
Theorem C87_async_blocks ls x x' : xreachable x → all_gone x → xsts ls x x' →
  length (queue (base x)) + pushes ls ≤ 10.
Proof using Type.
  intros Hr Hg Hs. assert (length (queue (base x)) ≤ 10) as Hcap by (by apply reachable_cap, xreachable_base).
  apply xreachable_idle in Hr. unfold pushes. induction Hs as [|l ls x1 x2 x3 Hst _ IH]; [simpl; lia|].
  destruct (stranded_step _ _ _ Hr Hg Hst) as (_ & _ & (q & Hq & Hcap2)).
  assert (all_gone x2) as Hg2. { destruct Hg as (?&?&?). destruct (gone_mono _ _ _ Hst) as (?&?&?&_). split_and!; auto. }
  specialize (IH (gone_idle_step _ _ _ Hr Hst) Hg2 (Hcap2 Hcap)).
  assert (length (queue (base x1)) ≤ length (queue (base x2))) as Hmon by (rewrite Hq, app_length; lia).
  destruct l as [[]| | | | |]; cbn [List.filter length]; try lia. inversion Hst as [? ? s' ? Hc| | | | |]; subst. inversion Hc; subst.
  cbn [base queue] in IH. rewrite app_length in IH. simpl in *. lia.
Qed.

(** When the client is closed and its goroutines are at their loops' heads, they can all return at once,
    with no call completed: whatever was registered is then stranded. *)
Theorem C87_close x : crashed (base x) = false → sender (base x) = None → receiver (base x) = None → cln (base x) = CIdle →
  ∃ ls x', xsts ls x x' ∧ all_gone x' ∧ base x' = base x ∧ ∀ l, l ∈ ls → l ∈ [XClose; XSendExit; XRecvExit; XCleanExit].
Proof using Type.
  destruct x as [s ca br sg rg cg]. cbn [base]. intros Hc Hs Hr Hl.
  set (x0 := mkX s true br sg rg cg).
  assert (∃ ls x', xsts ls x0 x' ∧ send_gone x' = true ∧ recv_gone x' = rg ∧ clean_gone x' = cg ∧ cancelled x' = true ∧ base x' = s ∧ broken x' = br ∧ ∀ l, l ∈ ls → l = XSendExit)
    as (l1 & x1 & R1 & A1 & A2 & A3 & A4 & A5 & A6 & A7).
  { destruct sg; [exists [], x0; split_and!; try done; [constructor|by intros ? ?%elem_of_nil]|].
    exists [XSendExit]. eexists. split; [econstructor; [by apply xs_send_exit|constructor]|]. split_and!; try done.
    by intros l ->%elem_of_list_singleton. }
  assert (∃ ls x', xsts ls x1 x' ∧ send_gone x' = true ∧ recv_gone x' = true ∧ clean_gone x' = cg ∧ cancelled x' = true ∧ base x' = s ∧ ∀ l, l ∈ ls → l = XRecvExit)
    as (l2 & x2 & R2 & B1 & B2 & B3 & B4 & B5 & B7).
  { destruct rg; [exists [], x1; split_and!; try done; [constructor|by intros ? ?%elem_of_nil]|].
    exists [XRecvExit]. eexists. split; [econstructor; [apply xs_recv_exit; [by rewrite A5|done|by rewrite A5|by left]|constructor]|]. split_and!; try done.
    by intros l ->%elem_of_list_singleton. }
  assert (∃ ls x', xsts ls x2 x' ∧ all_gone x' ∧ base x' = s ∧ ∀ l, l ∈ ls → l = XCleanExit)
    as (l3 & x3 & R3 & D1 & D5 & D7).
  { destruct cg; [exists [], x2; split_and!; try done; [constructor|by intros ? ?%elem_of_nil]|].
    exists [XCleanExit]. eexists. split; [econstructor; [apply xs_clean_exit; [by rewrite B5|done|by rewrite B5|done]|constructor]|]. split_and!; try done.
    by intros l ->%elem_of_list_singleton. }
  exists (XClose :: l1 ++ l2 ++ l3), x3. split; [econstructor; [by apply xs_close|eapply xsteps_app; [exact R1|eapply xsteps_app; [exact R2|exact R3]]]|].
  split; [done|]. split; [done|]. intros l. rewrite elem_of_cons, !elem_of_app. intros [->|[H|[H|H]]].
  - set_solver.
  - apply A7 in H as ->. set_solver.
  - apply B7 in H as ->. set_solver.
  - apply D7 in H as ->. set_solver.
Qed.

(** The goroutine that receives returns when the stream ends and nobody opens another: from then on no
    message is received and no call returns with a response. *)
Theorem C87_never_recovers ls x x' : xreachable x → recv_gone x = true → xsts ls x x' →
  got (base x') = got (base x) ∧ ∀ k n m, returned (base x') k (RResp n m) → returned (base x) k (RResp n m).
Proof using Type.
  intros Hr Hg Hs. apply xreachable_idle in Hr. induction Hs as [|l ls x1 x2 x3 Hst _ IH]; [done|].
  assert (got (base x2) = got (base x1) ∧ ∀ k n m, returned (base x2) k (RResp n m) → returned (base x1) k (RResp n m)) as [H1 H2].
  { destruct Hr as (_ & I2 & _). specialize (I2 Hg). destruct Hst as [x l s' Ha Hc|x|x|x|x|x]; cbn [base]; try done.
    destruct Hc; cbn [alive] in Ha; try congruence; cbn [got]; unfold returned; cbn [calls]; try done.
    all: split; [done|]; intros k0 n0 m0 (c0 & Hc0 & Hd); look; try done; by exists c0. }
  destruct (IH (gone_idle_step _ _ _ Hr Hst)) as [IH1 IH2]. { by apply (gone_mono _ _ _ Hst). }
  split; [congruence|]. intros k n m Hx. by apply H2, IH2.
Qed.
(** The stream ends (a bad request, a restart of the server): the goroutine may return. *)
Theorem C87_break x : crashed (base x) = false → receiver (base x) = None → recv_gone x = false →
  ∃ x', xsts [XBreak; XRecvExit] x x' ∧ recv_gone x' = true ∧ base x' = base x.
Proof using Type.
  destruct x as [s ca br sg rg cg]. cbn [base recv_gone]. intros Hc Hr ->. eexists.
  split; [econstructor; [by apply xs_break|econstructor; [apply xs_recv_exit; try done; by right|constructor]]|]. done.
Qed.

(** A call under way when the client is closed: it never returns, for all later runs; nor does a call
    made later.  And when only the stream ended, a call returns with a timeout. *)
Theorem C87_example u : (0 ≤ ttl)%Z →
  (∃ x c, xsts [XBase LCall; XBase LPush; XBase LSendOk; XClose; XSendExit; XRecvExit; XCleanExit] xinit x ∧ all_gone x ∧
    calls (base x) !! 0 = Some c ∧ k_uuid c = u ∧ k_caller c = KWait ∧ crashed (base x) = false ∧
    ∀ ls x' r, xsts ls x x' → ¬ returned (base x') 0 r ∧ ∀ k, calls (base x) !! k = None → ¬ returned (base x') k r) ∧
  (∃ x, xsts [XBase LCall; XBase LPush; XBase LSendOk; XBreak; XRecvExit; XBase LTick; XBase LExpire; XBase LTimeout] xinit x ∧
    returned (base x) 0 RTimeout).
Proof using Type.
  intros Ht. split.
  - assert (∃ x0 c0, xsts [XBase LCall; XBase LPush; XBase LSendOk; XClose; XSendExit; XRecvExit; XCleanExit] xinit x0 ∧ all_gone x0 ∧
      calls (base x0) !! 0 = Some c0 ∧ k_uuid c0 = u ∧ k_caller c0 = KWait ∧ crashed (base x0) = false ∧
      ∀ k c, calls (base x0) !! k = Some c → k = 0) as (x0 & c0 & R & G & C & U & K & CR & O).
    { eexists _, _. split.
      { xnorm. eapply xss_cons; [apply xs_base; [done|]; by apply (st_call _ _ u 0)|xnorm].
        eapply xss_cons; [apply xs_base; [done|]; cbn [base]; eapply (st_push _ _ 0); [done|by simpl; rewrite lookup_insert|done|simpl; lia]|xnorm].
        eapply xss_cons; [apply xs_base; [done|]; cbn [base]; by eapply (st_send_ok _ _ 0)|xnorm].
        eapply xss_cons; [by apply xs_close|xnorm]. eapply xss_cons; [by apply xs_send_exit|xnorm].
        eapply xss_cons; [apply xs_recv_exit; [reflexivity|reflexivity|reflexivity|by left]|xnorm]. eapply xss_cons; [by apply xs_clean_exit|xnorm]. apply xss_nil. }
      cbn [base calls crashed]. split; [done|]. split; [by rewrite lookup_insert|]. split_and!; try done.
      intros k c Hc. look; done. }
    assert (xreachable x0) as Hre by by eexists.
    exists x0, c0. split_and!; try done.
    intros ls x' r Hs. destruct (C87_stranded _ _ _ Hre G Hs) as [Hst _]. split.
    + intros (c & Hc & Hd)%Hst. simplify_eq. congruence.
    + intros k Hk (c & Hc & _)%Hst. congruence.
  - eexists. split.
    { eapply xss_cons; [apply xs_base; [done|]; by apply (st_call _ _ u 0)|xnorm].
      eapply xss_cons; [apply xs_base; [done|]; cbn [base]; eapply (st_push _ _ 0); [done|by simpl; rewrite lookup_insert|done|simpl; lia]|xnorm].
      eapply xss_cons; [apply xs_base; [done|]; cbn [base]; by eapply (st_send_ok _ _ 0)|xnorm].
      eapply xss_cons; [by apply xs_break|xnorm]. eapply xss_cons; [apply xs_recv_exit; [reflexivity|reflexivity|reflexivity|by right]|xnorm].
      eapply xss_cons; [apply xs_base; [done|]; cbn [base]; eapply (st_tick _ _ ttl); [done|simpl; lia]|xnorm].
      eapply xss_cons; [apply xs_base; [done|]; cbn [base]; eapply (st_expire _ _ u 0); [done|done|by simpl; rewrite lookup_insert|by simpl; rewrite lookup_insert|simpl; lia]|xnorm].
      eapply xss_cons; [apply xs_base; [done|]; cbn [base]; eapply (st_timeout _ _ u 0); [done|done|by simpl; rewrite lookup_insert|done|done]|xnorm].
      apply xss_nil. }
    eexists. simpl. rewrite lookup_insert. done.
Qed.
End closed.

Print Assumptions C87_still_own.
Print Assumptions C87_stranded.
Print Assumptions C87_async_blocks.
Print Assumptions C87_close.
Print Assumptions C87_never_recovers.
Print Assumptions C87_break.
Print Assumptions C87_example.
