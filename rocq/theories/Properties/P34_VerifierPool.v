(** C89: the verifier with its bounded task channel, its workers and Stop. *)
From stdpp Require Import gmap sorting vector.
From Verif.Base Require Import Base.
From Verif.Model Require Import Merkle Verifier VerifierPool.
From Verif.Spec Require Import VerifierSpec VerifierPoolSpec.
From Verif.Proofs Require Import MerkleProofs VerifierProofs VerifierExec VerifierLive VerifierPoolProofs.
From Verif.Properties Require Import P06_Merkle P07_Verifier.

Section pool.
Context (H : bytes → digest) {PK B : Type} (enc : B → option rcert → bytes)
        (sigok : PK → digest → bytes → bool).
Context (objs0 : gmap nat (vobj B)).
Notation pool_execution := (pool_execution H enc sigok).

(** ** Answers *)

(** Every execution of the pool is, for the calls, an execution of the verifier of C41-C44, C62, C63. *)
Theorem C89_same_answers (G : vstate PK B → PK → nat → Prop) n p :
  pool_execution G n (NewVerifier n objs0) p → execution H enc sigok G (v_init objs0) (p_v p).
Proof.
  intros Hr. apply (rtc_ind_r (λ p, execution H enc sigok G (v_init objs0) (p_v p)) (NewVerifier n objs0)) with (z := p) in Hr; [done|apply rtc_refl|].
  intros p1 p2 _ Hst IH. destruct (pstep_v _ _ _ _ _ _ _ Hst) as [->|Hv]; [done|]. by eapply rtc_r.
Qed.
(** In particular what it accepts was signed. *)
Theorem C89_accepted n p i pk o v :
  pool_execution exclusive n (NewVerifier n objs0) p → objs0 !! o = Some v → returned (p_v p) i pk o RNil →
  ∃ c, ob_cert v = Some c ∧ path_valid H enc (ob_body v) c ∧
    ∃ pk' c', asked objs0 (p_v p) pk' c' ∧ root_of c' = root_of c ∧ signed_by sigok pk' c'.
Proof. intros Hr%C89_same_answers. by apply C41_accepted. Qed.

(** ** With at least one worker, and until Stop, every call returns *)

(** However many calls compete for the 8 places per worker and for the workers, the calls made so far take
    a bounded number of steps, and while one of them has not returned some step is possible. *)
Theorem C89_bounded (G : vstate PK B → PK → nat → Prop) n p :
  pool_execution G n (NewVerifier n objs0) p → ∃ m, ∀ k p', pool_run H enc sigok n k p p' → k ≤ m.
Proof. intros Hr%pinv_reach. exists (pM p). intros k p' Hk. by eapply run_bounded. Qed.
Theorem C89_no_deadlock (G : vstate PK B → PK → nat → Prop) n p i x :
  pool_execution G n (NewVerifier n objs0) p → 0 < n → p_stopped p = false →
  v_thr (p_v p) !! i = Some x → active x → ∃ p', pool_work H enc sigok n p p'.
Proof. intros Hr%pinv_reach. intros. by eapply pool_progress. Qed.

(** At most 8 tasks per worker wait, and until then no call waits to hand in its task. *)
Theorem C89_capacity (G : vstate PK B → PK → nat → Prop) n p : pool_execution G n (NewVerifier n objs0) p →
  length (p_chan p) ≤ 8 * n ∧
  ∀ i x c, v_thr (p_v p) !! i = Some x → th_pc x = PAuth c → i ∉ p_sent p →
    (∃ p', pstep H enc sigok G n p p' ∧ i ∈ p_sent p') ↔ length (p_chan p) < 8 * n.
Proof.
  intros Hr. split.
  - apply (rtc_ind_r (λ p, length (p_chan p) ≤ 8 * n) (NewVerifier n objs0)) with (z := p) in Hr; [done|cbn; lia|].
    intros p1 p2 _ Hst IH. destruct Hst as [| ? ? ? ? ? ? Hl|? ? ? ? ? ? ? ? Hl|it rest E _| | | |]; cbn [p_chan]; unfold chan_cap in *; rewrite ?app_length; cbn; try lia.
    rewrite E in IH. cbn in IH. lia.
  - intros i x c Hx Hp Hi. split.
    + intros (p' & Hst & Hin). destruct Hst as [|i0 ? ? ? ? ? Hl|? ? ? ? ? ? ? ? Hl| | | | |]; cbn [p_sent] in Hin; unfold chan_cap in *; try done; try lia.
      apply elem_of_difference in Hin as [? _]. done.
    + intros Hl. eexists. split; [eapply P_send_auth; [exact Hx|exact Hp|done|unfold chan_cap; lia]|]. cbn [p_sent]. apply elem_of_union. left. by apply elem_of_singleton.
Qed.

(** ** After Stop *)

(** Stop is final and all workers can return, whatever is left on the channel. *)
Theorem C89_stop_drains (G : vstate PK B → PK → nat → Prop) n p :
  pool_execution G n (NewVerifier n objs0) p → p_stopped p = true →
  ∃ p', pool_execution G n p p' ∧ p_alive p' = 0 ∧ ∀ i, i ∉ p_sent p → v_thr (p_v p') !! i = v_thr (p_v p) !! i.
Proof. intros Hr%pinv_reach Hs. by eapply stop_drains. Qed.

(** Once they have returned (or there never was one: NewVerifier(0)), a Verify call made later returns
    only if it finds no certificate at its object; otherwise it blocks for ever. *)
Theorem C89_later_calls (G : vstate PK B → PK → nat → Prop) n p p' i pk o r :
  pool_execution G n (NewVerifier n objs0) p → p_alive p = 0 → v_thr (p_v p) !! i = None →
  pool_execution G n p p' → returned (p_v p') i pk o r → r = REmpty.
Proof.
  intros Hr%pinv_reach Ha Hi Hr' (x & Hx & _ & _ & Hp).
  assert (stranded x) as Hs by (eapply (dead_run H enc sigok G n p p' i Hr Ha Hr'); [by rewrite Hi|done]).
  unfold stranded in Hs. rewrite Hp in Hs. by destruct r.
Qed.
(** Nor does a call return that was under way and had not had its certificate path or its signature
    checked by then. *)
Theorem C89_strands (G : vstate PK B → PK → nat → Prop) n p p' i x :
  pool_execution G n (NewVerifier n objs0) p → p_alive p = 0 → v_thr (p_v p) !! i = Some x →
  (∃ c, th_pc x = PAuth c) ∨ (∃ c t k, (th_pc x = PSend c t ∨ ∃ b, th_pc x = PWait c t b) ∧ v_tasks (p_v p) !! t = Some k ∧ ∀ ok, vt_st k ≠ TReady ok) →
  pool_execution G n p p' → ∃ x', v_thr (p_v p') !! i = Some x' ∧ active x'.
Proof.
  intros Hr%pinv_reach Ha Hx [[c Hp]|(c & t & k & Hp & Hk & Hnr)] Hr'.
  - exists x. split; [by eapply dead_auth|]. unfold active. by rewrite Hp.
  - destruct (dead_wait H enc sigok G n p p' i x t Hr Ha Hr' Hx) as (x' & Hx' & Hw).
    + unfold waiting_on. destruct Hp as [->|[b ->]]; done.
    + by exists k.
    + exists x'. split; [done|]. unfold active. unfold waiting_on in Hw. by destruct (th_pc x').
Qed.
End pool.
Print Assumptions C89_same_answers.
Print Assumptions C89_accepted.
Print Assumptions C89_bounded.
Print Assumptions C89_no_deadlock.
Print Assumptions C89_capacity.
Print Assumptions C89_stop_drains.
Print Assumptions C89_later_calls.
Print Assumptions C89_strands.

(** ** Examples (toy hash and signature of P06, P07) *)

(** Any call under way whose certificate nobody has looked at yet can be lost by a Stop: with 4 workers and
    a valid certificate, Verify never returns. *)
Example C89_example : ∃ p1 p2,
  pool_execution toyH ex_enc ex_sigok exclusive 4 (NewVerifier 4 ex_objs) p1 ∧
  (∃ x c, v_thr (p_v p1) !! 0 = Some x ∧ th_pc x = PAuth c ∧ p_stopped p1 = true ∧ path_valid toyH ex_enc [Byte.x62; Byte.x63] c ∧
     signed_by ex_sigok (th_pk x) c) ∧
  pool_execution toyH ex_enc ex_sigok exclusive 4 p1 p2 ∧ p_alive p2 = 0 ∧
  ∀ p3, pool_execution toyH ex_enc ex_sigok exclusive 4 p2 p3 → ∃ x, v_thr (p_v p3) !! 0 = Some x ∧ active x.
Proof.
  set (s0 := v_init ex_objs : vstate byte bytes).
  set (s1 := with_thr s0 0 (mkVThr Byte.x05 11 [] PPop)).
  assert (v_objs s1 !! 11 = Some (mkVObj [Byte.x62; Byte.x63] (Some ex_c2))) as Ho1 by (vm_compute; reflexivity).
  assert (v_thr s1 !! 0 = Some (mkVThr Byte.x05 11 [] PPop)) as Ht1 by reflexivity.
  set (s2 := with_thr (with_obj s1 11 (set_cert (mkVObj [Byte.x62; Byte.x63] (Some ex_c2)) None)) 0 (mkVThr Byte.x05 11 [Some ex_c2] (PAuth ex_c2))).
  assert (vstep toyH ex_enc ex_sigok exclusive s0 s1) as H1.
  { apply V_start; [reflexivity|eexists; exact Ho1|]. intros (i & x & Hx & _). unfold s0, v_init in Hx. cbn in Hx. by rewrite lookup_empty in Hx. }
  assert (vstep toyH ex_enc ex_sigok exclusive s1 s2) as H2 by exact (V_pop toyH ex_enc ex_sigok exclusive s1 0 _ _ Ht1 eq_refl Ho1).
  set (p0 := NewVerifier 4 ex_objs : pool byte bytes).
  set (p1 := mkPool s2 [] ∅ [] 4 true : pool byte bytes).
  assert (pool_execution toyH ex_enc ex_sigok exclusive 4 p0 p1) as Hr1.
  { eapply (rtc_l _ _ (mkPool s1 [] ∅ [] 4 false)).
    { apply (P_other toyH ex_enc ex_sigok exclusive 4 p0 s1 H1). split.
      - intros i x Hx. cbn in Hx. by rewrite lookup_empty in Hx.
      - intros t k Hk. cbn in Hk. by rewrite lookup_empty in Hk. }
    eapply (rtc_l _ _ (mkPool s2 [] ∅ [] 4 false)).
    { apply (P_other toyH ex_enc ex_sigok exclusive 4 (mkPool s1 [] ∅ [] 4 false) s2 H2). split.
      - intros i x Hx Hp. cbn [p_v] in Hx. unfold s1, s0, v_init, with_thr in Hx. cbn [v_thr] in Hx.
        apply lookup_insert_Some in Hx as [[<- <-]|[_ Hx]]; [done|by rewrite lookup_empty in Hx].
      - intros t k Hk. cbn in Hk. by rewrite lookup_empty in Hk. }
    apply rtc_once. apply (P_stop toyH ex_enc ex_sigok exclusive 4 (mkPool s2 [] ∅ [] 4 false)). reflexivity. }
  assert (v_thr s2 !! 0 = Some (mkVThr Byte.x05 11 [Some ex_c2] (PAuth ex_c2))) as Ht2 by reflexivity.
  destruct (C89_stop_drains toyH ex_enc ex_sigok ex_objs exclusive 4 p1 Hr1 eq_refl) as (p2 & Hr2 & Ha & Hthr).
  exists p1, p2. split; [exact Hr1|]. split.
  { eexists _, ex_c2. split; [exact Ht2|]. split; [reflexivity|]. split; [reflexivity|].
    destruct ex_verifier as (_ & Hv & _ & Hs & _). split; [exact Hv|exact Hs]. }
  split; [exact Hr2|]. split; [exact Ha|]. intros p3 Hr3.
  eapply (C89_strands toyH ex_enc ex_sigok ex_objs exclusive 4 p2 p3 0); [by eapply rtc_transitive|exact Ha| |left; exists ex_c2|exact Hr3].
  - rewrite Hthr; [exact Ht2|]. cbn. apply not_elem_of_empty.
  - reflexivity.
Qed.
Print Assumptions C89_example.
(** NewVerifier(0): no call on an object with a certificate ever returns. *)
Example C89_no_workers p i pk o r :
  pool_execution toyH ex_enc ex_sigok exclusive 0 (NewVerifier 0 ex_objs) p → returned (p_v p) i pk o r → r = REmpty.
Proof. intros Hr. eapply (C89_later_calls toyH ex_enc ex_sigok ex_objs exclusive 0 (NewVerifier 0 ex_objs)); [apply rtc_refl|reflexivity|apply lookup_empty|exact Hr]. Qed.
