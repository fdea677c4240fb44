(** C124: a direct call with a method name or id that is not UTF-8. *)
From stdpp Require Import gmap.
From Verif.Base Require Import Base.
From Verif.Model Require Import Wire DirectClient DirectNet DirectUp.
From Verif.Properties Require Import P20_DirectClient P42_DirectNet.

Section proofs.
Context (ttl : Z) (wire : nat) (methods : nat → string).
Notation run := (direct_up ttl wire methods).
Notation steps := (dsteps ttl wire).
Implicit Types s : dnet.

Lemma run_steps tr0 tr s s' : run tr0 tr s s' → steps tr s s'.
Proof using Type. induction 1; econstructor; done. Qed.
Lemma run_app tr1 tr2 s1 s2 s3 : run [] tr1 s1 s2 → run tr1 tr2 s2 s3 → run [] (tr1 ++ tr2) s1 s3.
Proof using Type.
  intros H1 H2. induction H2 as [|tr l a b c H2 IH Hl Hc]; [by rewrite app_nil_r|]. rewrite (assoc_L (++)). econstructor; [by apply IH|done|done].
Qed.
Lemma grow tr s s' k c : steps tr s s' → calls (d_cl s) !! k = Some c → ∃ c', calls (d_cl s') !! k = Some c' ∧ k_uuid c' = k_uuid c.
Proof using Type.
  intros Hs Hc. induction Hs as [|tr l s1 s2 s3 Hs IH Hl]; [by exists c|]. destruct (IH Hc) as (c1 & H1 & <-). by eapply step_calls.
Qed.
Lemma head_call tr s k : steps tr dinit s → head (queue (d_cl s)) = Some k → ∃ c, calls (d_cl s) !! k = Some c.
Proof using Type.
  intros Hs Hh. destruct (steps_dinv _ _ _ _ Hs) as [_ _ _ I4 _ _ _]. destruct (I4 k) as (c & ? & _); [|by exists c].
  unfold out. rewrite elem_of_app. right. destruct (queue (d_cl s)) as [|k' q]; [done|]. injection Hh as ->. by left.
Qed.
Lemma encodable_texts tr s k c : steps tr dinit s → calls (d_cl s) !! k = Some c →
  direct_encodable methods (d_cl s) k = utf8 (methods k) && utf8 (k_uuid c).
Proof using Type. intros Hs Hc. unfold direct_encodable. by rewrite Hc. Qed.

(** With method names and ids that are UTF-8 no send fails (so that C97 applies). *)
Theorem C124_utf8_is_safe tr s : run [] tr dinit s → (∀ k c, calls (d_cl s) !! k = Some c → utf8 (methods k) = true ∧ utf8 (k_uuid c) = true) →
  DClient LSendErr ∉ tr.
Proof using Type.
  intros Hs. remember dinit as s0 eqn:E0. induction Hs as [|tr l a b c Hs IH Hl Hup]; subst; intros Hok; [apply not_elem_of_nil|].
  assert (∀ k x, calls (d_cl b) !! k = Some x → utf8 (methods k) = true ∧ utf8 (k_uuid x) = true) as Hok'.
  { intros k x Hx. destruct (step_calls _ _ _ _ _ _ _ Hl Hx) as (x' & Hx' & <-). by apply Hok. }
  specialize (IH eq_refl Hok'). rewrite elem_of_app, elem_of_list_singleton. intros [?|<-]; [done|]. cbn in Hup.
  destruct Hup as [?|(k & Hk & Hbad)]; [done|]. pose proof (run_steps _ _ _ _ Hs) as Hst.
  destruct (head_call _ _ _ Hst Hk) as [x Hx]. rewrite (encodable_texts _ _ _ _ Hst Hx) in Hbad.
  destruct (Hok' _ _ Hx) as [G1 G2]. by rewrite G1, G2 in Hbad.
Qed.

Lemma sent_step l s s' : dstep ttl wire l s s' → d_sent s' = d_sent s ∨
  ∃ k q, l = DClient LSendOk ∧ queue (d_cl s) = k :: q ∧ d_sent s' = d_sent s ++ [k].
Proof using Type. destruct 1; cbn [d_sent]; eauto. right. by eexists _, _. Qed.

(** A call whose method name or id is not UTF-8: its request is not sent and its handler never runs. *)
Theorem C124_not_run tr s k c : run [] tr dinit s → calls (d_cl s) !! k = Some c → utf8 (methods k) && utf8 (k_uuid c) = false →
  k ∉ d_sent s ∧ k ∉ runs tr.
Proof using Type.
  intros Hs Hc Hbad. assert (k ∉ d_sent s) as Hns.
  { revert c Hc Hbad. remember dinit as s0 eqn:E0. induction Hs as [|tr l a b d Hs IH Hl Hup]; subst; intros c Hc Hbad; [apply not_elem_of_nil|].
    specialize (IH eq_refl). pose proof (run_steps _ _ _ _ Hs) as Hst.
    assert (∀ x, calls (d_cl b) !! k = Some x → k_uuid x = k_uuid c) as Hsame.
    { intros x Hx. destruct (step_calls _ _ _ _ _ _ _ Hl Hx) as (x' & Hx' & <-). congruence. }
    assert (k ∉ d_sent b) as Hb.
    { intros Hin. destruct (steps_dinv _ _ _ _ Hst) as [_ _ _ I4 _ _ _].
      destruct (I4 k) as (x & Hx & _); [unfold out; rewrite elem_of_app; by left|].
      eapply IH; [exact Hx| |done]. by rewrite (Hsame x Hx). }
    destruct (sent_step _ _ _ Hl) as [->|(k' & q & -> & Hq & ->)]; [done|].
    rewrite not_elem_of_app, elem_of_list_singleton. split; [done|]. intros <-. destruct Hup as [_ Hgood].
    assert (head (queue (d_cl b)) = Some k) as Hh by by rewrite Hq. specialize (Hgood k Hh).
    destruct (head_call _ _ _ Hst Hh) as [x Hx]. rewrite (encodable_texts _ _ _ _ Hst Hx), (Hsame x Hx) in Hgood. congruence. }
  split; [done|]. intros Hr. apply Hns. destruct (C97_once _ _ _ _ (run_steps _ _ _ _ Hs)) as (_ & _ & [rest ->] & _).
  rewrite elem_of_app. by left.
Qed.

(** When the send of such a call has failed: no later call to the server is sent, no handler runs but for
    requests that were sent before, and a later call with a fresh id returns nothing but an error. *)
Theorem C124_afterwards tr s tr' s' : run [] tr dinit s → DClient LSendErr ∈ tr → run tr tr' s s' →
  d_sent s' = d_sent s ∧
  (∀ k, k ∈ runs tr' → k ∈ d_sent s) ∧
  (∀ k c r, calls (d_cl s) !! k = None → calls (d_cl s') !! k = Some c → (∀ k' c', calls (d_cl s) !! k' = Some c' → k_uuid c' ≠ k_uuid c) →
     k ∉ runs (tr ++ tr') ∧ (returned (d_cl s') k r → r = RSendErr ∨ r = RTimeout)).
Proof using Type.
  intros Hs Herr Hs'. pose proof (run_app _ _ _ _ _ Hs Hs') as Hall. pose proof (run_steps _ _ _ _ Hs) as Hst.
  pose proof (run_steps _ _ _ _ Hs') as Hst'. pose proof (run_steps _ _ _ _ Hall) as Hsta.
  assert (d_sent s' = d_sent s) as Hsent.
  { clear -Hs' Herr. induction Hs' as [|tr' l a b c Hs' IH Hl Hup]; [done|].
    destruct (sent_step _ _ _ Hl) as [->|(k & q & -> & _ & _)]; [done|]. destruct Hup as [Hn _]. exfalso. apply Hn.
    rewrite elem_of_app. by left. }
  assert (∀ k, k ∈ runs (tr ++ tr') → k ∈ d_sent s) as Hruns.
  { intros k Hk. rewrite <- Hsent. destruct (C97_once _ _ _ _ Hsta) as (_ & _ & [rest ->] & _). rewrite elem_of_app. by left. }
  assert (∀ k, k ∈ d_sent s → ∃ c, calls (d_cl s) !! k = Some c) as Hmade.
  { intros k Hk. destruct (steps_dinv _ _ _ _ Hst) as [_ _ _ I4 _ _ _]. destruct (I4 k) as (x & ? & _); [|by exists x].
    unfold out. rewrite elem_of_app. by left. }
  split; [done|]. split.
  - intros k Hk. apply Hruns. unfold runs in *. rewrite omap_app, elem_of_app. by right.
  - intros k c r Hnone Hc Hfresh. split.
    { intros Hk%Hruns%Hmade. destruct Hk as [? ?]. congruence. }
    intros (c1 & Hc1 & Hd). rewrite Hc in Hc1. injection Hc1 as <-. destruct r as [m n| |]; [|by left|by right].
    exfalso. destruct (C97_own _ _ _ _ k c m n Hsta Hc Hd) as (_ & Hb & (c0 & Hc0 & Hu0) & _ & _).
    apply Hruns, Hmade in Hb as [x Hx]. destruct (grow _ _ _ _ _ Hst' Hx) as (x' & Hx' & Hux). apply (Hfresh _ _ Hx). congruence.
Qed.
(** And it can return with one: the call at the head of the queue, whose caller waits, gets the error. *)
Theorem C124_returns_error tr s k q c : run [] tr dinit s → DClient LSendErr ∈ tr → crashed (d_cl s) = false →
  queue (d_cl s) = k :: q → sender (d_cl s) = None → calls (d_cl s) !! k = Some c → k_caller c = KWait →
  ∃ s', run tr [DClient LSendErr; DClient LSendDeliver] s s' ∧ returned (d_cl s') k RSendErr.
Proof using Type.
  intros Hs Herr Hcr Hq Hse Hc Hw. pose proof (run_steps _ _ _ _ Hs) as Hst.
  assert (k_closed c = false) as Hcl.
  { destruct (k_closed c) eqn:E; [|done]. destruct (closed_resp ttl _ (steps_reachable _ _ _ _ Hst) k c Hc E) as (? & ? & ?). congruence. }
  eexists. split.
  - eapply (du_snoc _ _ _ _ [DClient LSendErr]); [eapply (du_snoc _ _ _ _ []); [constructor| |]| |done].
    + apply D_client; [done|done|]. by eapply st_send_err.
    + cbn. left. by rewrite app_nil_r.
    + apply D_client; [done|done|]. cn. dn. eapply st_send_deliver; cn; try done.
  - unfold returned. dn. cn. rewrite lookup_insert. by eexists.
Qed.
End proofs.

(** ** A run, by computation: call 0 is answered; call 1 has the byte 255 as method name and gets the error of
    the send; so does call 2, which is fine. *)
Inductive ucmd := UCmd (x : dcmd) | UErr | UErrDeliver.
Definition failed_in (tr : list dlabel) : bool := existsb (λ l, match l with DClient LSendErr => true | _ => false end) tr.
Lemma failed_in_true tr : failed_in tr = true ↔ DClient LSendErr ∈ tr.
Proof.
  unfold failed_in. rewrite existsb_exists. split.
  - intros (l & Hl & E). destruct l as [[]| |]; try done. by apply elem_of_list_In.
  - intros Hl. exists (DClient LSendErr). split; [by apply elem_of_list_In|done].
Qed.
Section exec.
Context (ttl : Z) (wire : nat) (methods : nat → string).
Definition uexec (x : ucmd) (s : dnet) : option (dlabel * dnet) :=
  let c := d_cl s in
  match x with
  | UCmd x => dexec ttl wire x s
  | UErr => match crashed c, queue c, sender c with
      | false, k :: q, None => Some (DClient LSendErr, mkD (mkCS (now c) (calls c) (waiting c) q (Some k) (receiver c) (cln c) (got c) false)
                                 (d_up s) (d_srv s) (d_down s) (d_sent s) (d_ran s))
      | _, _, _ => None end
  | UErrDeliver => match crashed c, sender c with
      | false, Some k => match calls c !! k with
          | Some y => match k_caller y, k_closed y with
              | KWait, false => Some (DClient LSendDeliver, mkD (mkCS (now c) (<[k := set_caller y (KDone RSendErr)]> (calls c)) (waiting c) (queue c)
                                   None (receiver c) (cln c) (got c) false) (d_up s) (d_srv s) (d_down s) (d_sent s) (d_ran s))
              | _, _ => None end
          | None => None end
      | _, _ => None end
  end.
Lemma uexec_sound x s l s' : uexec x s = Some (l, s') → dstep ttl wire l s s'.
Proof using Type.
  destruct x as [x| |]; cbn [uexec].
  - apply dexec_sound.
  - destruct (crashed (d_cl s)) eqn:E1; [done|]. destruct (queue (d_cl s)) as [|k q] eqn:E2; [done|]. destruct (sender (d_cl s)) eqn:E3; [done|].
    intros [= <- <-]. apply D_client; [done|done|]. by eapply st_send_err.
  - destruct (crashed (d_cl s)) eqn:E1; [done|]. destruct (sender (d_cl s)) as [k|] eqn:E2; [|done]. destruct (calls (d_cl s) !! k) as [y|] eqn:E3; [|done].
    destruct (k_caller y) eqn:E4; try done. destruct (k_closed y) eqn:E5; [done|]. intros [= <- <-]. apply D_client; [done|done|]. by eapply st_send_deliver.
Qed.
Definition ucheck (tr : list dlabel) (s : dnet) (l : dlabel) : bool :=
  let ok := match head (queue (d_cl s)) with Some k => direct_encodable methods (d_cl s) k | None => true end in
  match l with
  | DClient LSendOk => negb (failed_in tr) && ok
  | DClient LSendErr => failed_in tr || negb ok
  | _ => true
  end.
Lemma ucheck_sound tr s l : ucheck tr s l = true → direct_conn_up methods tr s l.
Proof using Type.
  destruct l as [[]| |]; try done; cbn [ucheck direct_conn_up].
  - intros [H1%negb_true_iff H2]%andb_true_iff. split; [|intros k Hk; by rewrite Hk in H2].
    intros Hin%failed_in_true. congruence.
  - intros [H1|H2]%orb_true_iff; [left; by apply failed_in_true|right]. destruct (head (queue (d_cl s))) as [k|]; [|done].
    exists k. split; [done|]. by apply negb_true_iff.
Qed.
Fixpoint uexecs (tr0 : list dlabel) (xs : list ucmd) (tr : list dlabel) (s : dnet) : option (list dlabel * dnet) :=
  match xs with
  | [] => Some (tr, s)
  | x :: xs => match uexec x s with
      | Some (l, s') => if ucheck (tr0 ++ tr) s l then uexecs tr0 xs (tr ++ [l]) s' else None
      | None => None end
  end.
Lemma uexecs_sound tr0 xs s0 tr s tr' s' : direct_up ttl wire methods tr0 tr s0 s → uexecs tr0 xs tr s = Some (tr', s') →
  direct_up ttl wire methods tr0 tr' s0 s'.
Proof using Type.
  revert tr s. induction xs as [|x xs IH]; intros tr s Hs; cbn [uexecs]; [by intros [= <- <-]|].
  destruct (uexec x s) as [[l s1]|] eqn:E; [|done]. destruct (ucheck (tr0 ++ tr) s l) eqn:E1; [|done].
  apply IH. econstructor; [done|by eapply uexec_sound|by apply ucheck_sound].
Qed.
Lemma uwitness xs xs' (P : list dlabel → dnet → list dlabel → dnet → bool) :
  match uexecs [] xs [] dinit with
  | Some (tr, s) => match uexecs tr xs' [] s with Some (tr', s') => P tr s tr' s' | None => false end
  | None => false end = true →
  ∃ tr s tr' s', direct_up ttl wire methods [] tr dinit s ∧ direct_up ttl wire methods tr tr' s s' ∧ P tr s tr' s' = true.
Proof using Type.
  destruct (uexecs [] xs [] dinit) as [[tr s]|] eqn:E; [|done]. destruct (uexecs tr xs' [] s) as [[tr' s']|] eqn:E'; [|done].
  intros HP. exists tr, s, tr', s'. split_and!; [|..|done].
  - eapply uexecs_sound; [constructor|exact E].
  - eapply uexecs_sound; [constructor|exact E'].
Qed.
End exec.
Definition send_failed (s : dnet) (k : nat) : bool := match caller_at s k with Some (KDone RSendErr) => true | _ => false end.
Lemma send_failed_spec s k : send_failed s k = true → returned (d_cl s) k RSendErr.
Proof.
  unfold send_failed, caller_at. destruct (calls (d_cl s) !! k) as [c|] eqn:Ec; [|done]. cbn [fmap option_fmap option_map].
  destruct (k_caller c) as [| |[n m| |]] eqn:E; try done. by exists c.
Qed.
Definition bad_methods (k : nat) : string := if k =? 1 then String (Ascii.ascii_of_nat 255) "" else "/S/Do".
Example C124_example : ∃ tr s tr' s', direct_up 10 1 bad_methods [] tr dinit s ∧ DClient LSendErr ∈ tr ∧
  direct_up 10 1 bad_methods tr tr' s s' ∧ calls (d_cl s) !! 2 = None ∧
  (∃ n m, returned (d_cl s) 0 (RResp n m) ∧ m_body m = 0) ∧ returned (d_cl s) 1 RSendErr ∧ returned (d_cl s') 2 RSendErr.
Proof.
  destruct (uwitness 10 1 bad_methods
    ((UCmd <$> [XCall "a" 0; XPush 0; XSend; XRun; XReply; XRecv; XDeliver; XCall "b" 1; XPush 1]) ++ [UErr; UErrDeliver])
    ((UCmd <$> [XCall "c" 2; XPush 2]) ++ [UErr; UErrDeliver])
    (λ tr s tr' s', failed_in tr && is_none (calls (d_cl s) !! 2) && bool_decide (result_of s 0 = Some 0) && send_failed s 1 && send_failed s' 2))
    as (tr & s & tr' & s' & Hs & Hs' & HP); [by vm_compute|].
  apply andb_true_iff in HP as [HP H5]. apply andb_true_iff in HP as [HP H4]. apply andb_true_iff in HP as [HP H3].
  apply andb_true_iff in HP as [H1 H2]. exists tr, s, tr', s'. split; [exact Hs|]. split; [by apply failed_in_true|]. split; [exact Hs'|].
  split; [by destruct (calls (d_cl s) !! 2)|]. apply bool_decide_eq_true in H3. split; [by apply result_of_spec|].
  split; by apply send_failed_spec.
Qed.

Print Assumptions C124_utf8_is_safe.
Print Assumptions C124_not_run.
Print Assumptions C124_afterwards.
Print Assumptions C124_returns_error.
