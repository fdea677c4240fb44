(** C41-C44, C62: the concurrent Merkle-certificate verifier.  All theorems are for every hash function,
    encoding and signature check, every population of objects and every interleaving of calls, workers
    and cache cleaner. *)
From stdpp Require Import gmap sorting vector.
From Verif.Base Require Import Base.
From Verif.Model Require Import Merkle Verifier.
From Verif.Spec Require Import VerifierSpec.
From Verif.Proofs Require Import MerkleProofs VerifierProofs VerifierExec VerifierLive.
From Verif.Properties Require Import P06_Merkle.

Section verifier.
Context (H : bytes → digest) {PK B : Type} (enc : B → option rcert → bytes)
        (sigok : PK → digest → bytes → bool).
Context (objs0 : gmap nat (vobj B)).
Notation path_valid := (path_valid H enc).
Notation signed_by := (signed_by sigok).
Notation asked := (asked objs0).
Notation execution := (execution H enc sigok).

(** ** C41: soundness, and restoration of the certificate. *)
Theorem C41_accepted (s : vstate PK B) i pk o v :
  execution exclusive (v_init objs0) s → objs0 !! o = Some v → returned s i pk o RNil →
  ∃ c, ob_cert v = Some c ∧ path_valid (ob_body v) c ∧
    ∃ pk' c', asked s pk' c' ∧ root_of c' = root_of c ∧ signed_by pk' c'.
Proof.
  intros Hr Hv (x & Hx & <- & <- & Hp). apply inv_reachable in Hr.
  destruct (i_thr _ _ _ _ _ Hr _ _ Hx) as (v0 & w & Hv0 & _ & _ & _ & Hd). rewrite Hp in Hd.
  rewrite Hv in Hv0. injection Hv0 as <-. exact Hd.
Qed.
Theorem C41_certificate_restored (s : vstate PK B) o :
  execution exclusive (v_init objs0) s → ¬ in_use s o → v_objs s !! o = objs0 !! o.
Proof.
  intros Hr%inv_reachable Hnu. destruct (objs0 !! o) as [v0|] eqn:E0.
  - destruct (proj1 (i_dom _ _ _ _ _ Hr o) ltac:(eauto)) as [v Hv]. rewrite Hv. f_equal.
    pose proof (i_body _ _ _ _ _ Hr _ _ _ Hv E0). pose proof (i_idle _ _ _ _ _ Hr _ _ _ Hv E0 Hnu).
    destruct v, v0; simpl in *; congruence.
  - destruct (v_objs s !! o) eqn:E; [|done].
    destruct (proj2 (i_dom _ _ _ _ _ Hr o) ltac:(eauto)) as [? ?]. congruence.
Qed.

(** The other verdicts. *)
Theorem C41_refusals (s : vstate PK B) i pk o v r :
  execution exclusive (v_init objs0) s → objs0 !! o = Some v → returned s i pk o r →
  match r with
  | RNil => True
  | REmpty => ob_cert v = None
  | RPath => ∃ c, ob_cert v = Some c ∧ ¬ path_valid (ob_body v) c
  | RSig => ∃ c, ob_cert v = Some c ∧ path_valid (ob_body v) c ∧
      ∃ pk' c', asked s pk' c' ∧ root_of c' = root_of c ∧ ¬ signed_by pk' c'
  end.
Proof.
  intros Hr Hv (x & Hx & <- & <- & Hp). apply inv_reachable in Hr.
  destruct (i_thr _ _ _ _ _ Hr _ _ Hx) as (v0 & w & Hv0 & _ & _ & _ & Hd). rewrite Hp in Hd.
  rewrite Hv in Hv0. injection Hv0 as <-. by destruct r.
Qed.

(** ** C42: with one key and signature per root the verifier is exact. *)
Theorem C42_exact (s : vstate PK B) i pk o b c r :
  execution exclusive (v_init objs0) s → objs0 !! o = Some (mkVObj b (Some c)) →
  (∀ pk1 c1 pk2 c2, asked s pk1 c1 → asked s pk2 c2 → root_of c1 = root_of c2 →
     pk1 = pk2 ∧ rc_sig c1 = rc_sig c2) →
  returned s i pk o r →
  (r = RNil ↔ path_valid b c ∧ signed_by pk c) ∧
  (r = RPath ↔ ¬ path_valid b c) ∧ (r = RSig ↔ path_valid b c ∧ ¬ signed_by pk c) ∧ r ≠ REmpty.
Proof.
  intros Hr Hv Hag Hret.
  assert (Hask : asked s pk c).
  { destruct Hret as (x & Hx & <- & <- & Hp). exists i, x. eexists. split_and!; done. }
  assert (Hsame : ∀ pk' c', asked s pk' c' → root_of c' = root_of c → (signed_by pk' c' ↔ signed_by pk c)).
  { intros pk' c' Ha Hroot. destruct (Hag _ _ _ _ Ha Hask Hroot) as [-> E]. unfold VerifierSpec.signed_by. by rewrite Hroot, E. }
  destruct r.
  - destruct (C41_accepted _ _ _ _ _ Hr Hv Hret) as (c0 & [= <-] & Hpv & pk' & c' & Ha & Hroot & Hsg).
    simpl in Hpv. apply Hsame in Hsg; [|done|done]. naive_solver.
  - pose proof (C41_refusals _ _ _ _ _ _ Hr Hv Hret) as E. simpl in E. done.
  - destruct (C41_refusals _ _ _ _ _ _ Hr Hv Hret) as (c0 & [= <-] & Hnp). simpl in Hnp. naive_solver.
  - destruct (C41_refusals _ _ _ _ _ _ Hr Hv Hret) as (c0 & [= <-] & Hpv & pk' & c' & Ha & Hroot & Hsg).
    simpl in Hpv. rewrite Hsame in Hsg by done. naive_solver.
Qed.

(** One successful call meets the hypotheses. *)
Lemma C42_met o b c (pk : PK) :
  objs0 !! o = Some (mkVObj b (Some c)) → path_valid b c → signed_by pk c →
  ∃ s, execution exclusive (v_init objs0) s ∧ returned s 1 pk o RNil ∧
  (∀ pk1 c1 pk2 c2, asked s pk1 c1 → asked s pk2 c2 → root_of c1 = root_of c2 → pk1 = pk2 ∧ rc_sig c1 = rc_sig c2).
Proof.
  intros Ho Hp Hs. unfold v_init. eexists. split.
  { eapply (solo_miss H enc sigok exclusive objs0 ∅ ∅ ∅ 1 pk o b c 0); try done.
    intros (i & x & Hx & _). cbn in Hx. by rewrite lookup_empty in Hx. }
  split; [eexists; cbn; by rewrite lookup_insert|].
  intros pk1 c1 pk2 c2 (i & x & v & Hx & <- & Hv & Hc) (i' & x' & v' & Hx' & <- & Hv' & Hc') _.
  cbn in Hx, Hx'. apply lookup_insert_Some in Hx as [[<- <-]|[_ Hx]]; [|by rewrite lookup_empty in Hx].
  apply lookup_insert_Some in Hx' as [[<- <-]|[_ Hx']]; [|by rewrite lookup_empty in Hx'].
  cbn [th_obj th_pk] in *. split; [done|]. congruence.
Qed.

(** ** C43 (finding): the cache ignores key and signature.  After call 1 returned nil, a call with any
    key pk2 whatsoever on any object with a valid path to the same root, whatever its signature, can be
    accepted without its signature ever being looked at. *)
Theorem C43_key_ignored_refuted o1 o2 b1 b2 c1 c2 (pk1 pk2 : PK) :
  objs0 !! o1 = Some (mkVObj b1 (Some c1)) → objs0 !! o2 = Some (mkVObj b2 (Some c2)) →
  path_valid b1 c1 → path_valid b2 c2 → root_of c2 = root_of c1 → signed_by pk1 c1 →
  ∃ s1 s2, execution exclusive (v_init objs0) s1 ∧ returned s1 1 pk1 o1 RNil ∧ v_thr s1 !! 2 = None ∧
    execution exclusive s1 s2 ∧ returned s2 2 pk2 o2 RNil.
Proof.
  intros Ho1 Ho2 Hp1 Hp2 Hr Hs. unfold v_init.
  eexists _, _. split.
  { eapply (solo_miss H enc sigok exclusive objs0 ∅ ∅ ∅ 1 pk1 o1 b1 c1 0); try done.
    intros (i & x & Hx & _). cbn in Hx. by rewrite lookup_empty in Hx. }
  split; [|split; [|split]].
  - eexists. cbn. by rewrite lookup_insert.
  - done.
  - eapply (solo_hit H enc sigok exclusive _ _ _ _ 2 pk2 o2 b2 c2 0 (mkVTask pk1 c1 (TReady true))); try done.
    + rewrite Hr. by rewrite lookup_insert.
    + intros (i & x & Hx & _ & Ha). cbn in Hx. destruct (decide (i = 1)) as [->|].
      * rewrite lookup_insert in Hx. by injection Hx as <-.
      * by rewrite lookup_insert_ne, lookup_empty in Hx.
  - eexists. cbn. by rewrite lookup_insert.
Qed.
(** And it must be accepted: once its path is accepted while a good entry for its root is cached, its
    next step leads only to executions in which it returns nil (even if the cache is cleaned meanwhile). *)
Theorem C43_every_run (G : vstate PK B → PK → nat → Prop) s i x c t k s1 s2 r :
  execution G (v_init objs0) s →
  v_thr s !! i = Some x → th_pc x = PStore c →
  v_map s !! root_of c = Some t → v_tasks s !! t = Some k → vt_st k = TReady true →
  vstep H enc sigok G s s1 → v_thr s1 !! i ≠ Some x →
  execution G s1 s2 → returned s2 i (th_pk x) (th_obj x) r → r = RNil.
Proof.
  intros Hr Hx Hpc Hm Ht Hk Hst Hmv Hr2 Hret.
  assert (Hsend : senders s1) by (eapply senders_reach; eapply rtc_r; [exact Hr|exact Hst]).
  assert (Hsure : sure s1 i (th_pk x) (th_obj x)).
  { inversion Hst as [j pk' o' Hi Ho' Hg|j y v Hi Hp Hv|j y v c' Hi Hp Hv|j y c' t' Hi Hp Hm'|j y c' t' Hi Hp Hm' Hk'
    |j y c' t' k' Hi Hp Hk' Hst'|j y c' t' k' Hi Hp Hk' Hst'|j y c' t' k' Hi Hp Hk'|t' k' Hk' Hst'|j y c' t' b k' ok Hi Hp Hk' Hst'
    |j y c' t' b k' Hi Hp Hk'|j y c' v Hi Hp Hv|j y r' c' cs v Hi Hp Hd Hv|j y r' Hi Hp Hd|d]; subst s1;
    try (destruct (decide (j = i)) as [->|Hji];
      [try congruence; rewrite Hx in Hi; injection Hi as <-; rewrite Hpc in Hp; try done; injection Hp as ->
      |destruct Hmv; cbn; by rewrite lookup_insert_ne]).
    - assert (t' = t) as -> by (unfold root_of in Hm; congruence).
      eexists. cbn. rewrite lookup_insert. split_and!; try done. cbn. eauto.
    - unfold root_of in Hm. congruence.
    - by destruct Hmv.
    - by destruct Hmv. }
  pose proof (sure_steps H enc sigok G s1 s2 _ _ _ Hsend Hr2 Hsure) as Hsure2. clear Hsure. rename Hsure2 into Hsure.
  destruct Hsure as (y & Hy & _ & _ & Hpc'). destruct Hret as (z & Hz & _ & _ & Hd).
  rewrite Hy in Hz. injection Hz as <-. by rewrite Hd in Hpc'.
Qed.

(** ** C44 (finding): a valid certificate rejected because of a concurrent bad one for the same root. *)
Theorem C44_valid_rejected_refuted o1 o2 b1 b2 c1 c2 (pk1 pk2 : PK) :
  o1 ≠ o2 → objs0 !! o1 = Some (mkVObj b1 (Some c1)) → objs0 !! o2 = Some (mkVObj b2 (Some c2)) →
  path_valid b1 c1 → path_valid b2 c2 → root_of c1 = root_of c2 →
  ¬ signed_by pk1 c1 → signed_by pk2 c2 → rc_sig c1 ≠ rc_sig c2 →
  ∃ s, execution exclusive (v_init objs0) s ∧ returned s 2 pk2 o2 RSig.
Proof.
  intros Hne Ho1 Ho2 Hp1 Hp2 Hr Hn1 Hs2 Hd.
  destruct (poisoned H enc sigok exclusive objs0 o1 o2 b1 b2 c1 c2 pk1 pk2) as (s & Hs & E1 & E2); try done.
  - intros (i & x & Hx & _). cbn in Hx. by rewrite lookup_empty in Hx.
  - intros (i & x & Hx & Hox & _). cbn in Hx. apply lookup_singleton_Some in Hx as [<- <-]. by cbn in Hox.
  - exists s. split; [done|]. eexists. by rewrite E2.
Qed.
(** That is the only way: *)
Theorem C44_only_then (s : vstate PK B) i pk o b c r :
  execution exclusive (v_init objs0) s → objs0 !! o = Some (mkVObj b (Some c)) →
  path_valid b c → returned s i pk o r → r ≠ RNil →
  ∃ pk' c', asked s pk' c' ∧ root_of c' = root_of c ∧ ¬ signed_by pk' c'.
Proof.
  intros Hr Hv Hpv Hret Hne. pose proof (C41_refusals _ _ _ _ _ _ Hr Hv Hret) as Hc.
  destruct r; try done.
  - destruct Hc as (c0 & [= <-] & Hn). by simpl in Hn.
  - destruct Hc as (c0 & [= <-] & _ & He). exact He.
Qed.

(** ** C62 (finding): two overlapping calls on one object: one of them answers "empty certificate" for a
    perfectly good object, and the object ends up with no certificate although both have returned. *)
Theorem C62_shared_object_refuted o b c (pk1 pk2 : PK) :
  objs0 !! o = Some (mkVObj b (Some c)) → path_valid b c → signed_by pk1 c →
  ∃ s, execution anytime (v_init objs0) s ∧ returned s 1 pk1 o RNil ∧ returned s 2 pk2 o REmpty ∧
    ¬ in_use s o ∧ v_objs s !! o = Some (mkVObj b None).
Proof.
  intros Ho Hp Hs. destruct (lost_cert H enc sigok anytime objs0 o b c pk1 pk2) as (s & Hr & E1 & E2 & E3 & E4); try done.
  exists s. split_and!; [done|by eexists|by eexists| |done].
  intros (i & x & Hx & _ & Ha). destruct (E4 _ _ Hx) as [-> | ->].
  - rewrite E1 in Hx. by injection Hx as <-.
  - rewrite E2 in Hx. by injection Hx as <-.
Qed.

(** ** C63: every Verify call returns, the retry recursion included, with any number of calls, keys, bad
    signatures and shared objects: from any reachable state the calls already made take a bounded number
    of steps, and as long as one of them has not returned some step is possible. *)
Theorem C63_bounded (G : vstate PK B → PK → nat → Prop) s :
  execution G (v_init objs0) s → ∃ n, ∀ m s', work_run H enc sigok m s s' → m ≤ n.
Proof.
  intros Hr. assert (Hl : linv s) by (by eapply linv_reach). assert (Hs : senders s) by (by eapply senders_reach).
  clear Hr. exists (measure s). intros m s' Hrun. revert Hl Hs.
  induction Hrun as [s|n s s' d Hrun IH|n s s1 s' [Hst Hnc] Hrun IH]; intros Hl Hs.
  - lia.
  - etrans; [apply IH|apply measure_clean].
    + eapply linv_step; [exact Hl|]. apply (V_clean H enc sigok (λ _ _ _, False)).
    + eapply senders_step; [|exact Hs]. apply (V_clean H enc sigok (λ _ _ _, False)).
  - pose proof (measure_step H enc sigok s s1 Hl Hs Hst Hnc).
    assert (n ≤ measure s1); [|lia]. apply IH; [by eapply linv_step|by eapply senders_step].
Qed.
Theorem C63_no_deadlock (G : vstate PK B → PK → nat → Prop) s i x :
  execution G (v_init objs0) s → v_thr s !! i = Some x → active x → ∃ s', work_step H enc sigok s s'.
Proof. intros Hr Hx Ha. eapply progress; [by eapply linv_reach|done|done]. Qed.
End verifier.

(** ** The hypotheses are met: two objects signed together, one of the certificates then given a bad
    signature.  (Toy hash and signature of P06; keys are bytes.) *)
Definition ex_sigok (pk : byte) (d : digest) (s : bytes) : bool := bool_decide (s = [pk]).
Definition ex_enc (b : bytes) (c : option rcert) : bytes := match c with None => b | Some c => b ++ rc_sig c ++ [Byte.x01] end.
Definition ex_root : digest := Root (Build toyH [[Byte.x61]; [Byte.x62; Byte.x63]]).
Definition ex_c1 : rcert := mkRCert (vec_to_list ex_root) [vec_to_list (toyH [Byte.x62; Byte.x63])] 0 [Byte.x09].
Definition ex_c2 : rcert := mkRCert (vec_to_list ex_root) [vec_to_list (toyH [Byte.x61])] 1 [Byte.x05].
Definition ex_objs : gmap nat (vobj bytes) :=
  {[10 := mkVObj [Byte.x61] (Some ex_c1); 11 := mkVObj [Byte.x62; Byte.x63] (Some ex_c2)]}.
Example ex_verifier :
  path_valid toyH ex_enc [Byte.x61] ex_c1 ∧ path_valid toyH ex_enc [Byte.x62; Byte.x63] ex_c2 ∧
  root_of ex_c1 = root_of ex_c2 ∧ signed_by ex_sigok Byte.x05 ex_c2 ∧ ¬ signed_by ex_sigok Byte.x05 ex_c1 ∧
  ¬ path_valid toyH ex_enc [Byte.x62] ex_c2.
Proof. unfold path_valid, signed_by. split_and!; vm_compute; done. Qed.
(** C43 and C44 on these objects: object 10's certificate has no valid signature under key 5, yet is
    accepted after object 11's; object 11's valid one is rejected when the two overlap unluckily. *)
Example C43_ex : ∃ s1 s2, execution toyH ex_enc ex_sigok exclusive (v_init ex_objs) s1 ∧ returned s1 1 Byte.x05 11 RNil ∧
  execution toyH ex_enc ex_sigok exclusive s1 s2 ∧ returned s2 2 Byte.x05 10 RNil.
Proof.
  destruct ex_verifier as (E1 & E2 & E3 & E4 & E5 & _).
  destruct (C43_key_ignored_refuted toyH ex_enc ex_sigok ex_objs 11 10 _ _ ex_c2 ex_c1 Byte.x05 Byte.x05
    ltac:(reflexivity) ltac:(reflexivity) E2 E1 E3 E4) as (s1 & s2 & ? & ? & _ & ? & ?).
  eauto 10.
Qed.
Example C44_ex : ∃ s, execution toyH ex_enc ex_sigok exclusive (v_init ex_objs) s ∧ returned s 2 Byte.x05 11 RSig.
Proof.
  destruct ex_verifier as (E1 & E2 & E3 & E4 & E5 & _).
  apply (C44_valid_rejected_refuted toyH ex_enc ex_sigok ex_objs 10 11 _ _ ex_c1 ex_c2 Byte.x05 Byte.x05
    ltac:(done) ltac:(reflexivity) ltac:(reflexivity) E1 E2 E3 E5 E4). done.
Qed.
(** C42 with a single call meets its hypotheses (agreement is then trivial). *)
Example C42_ex : ∃ s, execution toyH ex_enc ex_sigok exclusive (v_init ex_objs) s ∧ returned s 1 Byte.x05 11 RNil ∧
  (∀ pk1 c1 pk2 c2, asked ex_objs s pk1 c1 → asked ex_objs s pk2 c2 → root_of c1 = root_of c2 → pk1 = pk2 ∧ rc_sig c1 = rc_sig c2).
Proof.
  destruct ex_verifier as (E1 & E2 & E3 & E4 & E5 & _).
  exact (C42_met toyH ex_enc ex_sigok ex_objs 11 _ ex_c2 Byte.x05 ltac:(reflexivity) E2 E4).
Qed.
