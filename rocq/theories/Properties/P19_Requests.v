(** C55: Request objects.  C58: expiry. *)
From stdpp Require Import gmap.
From Verif.Base Require Import Base.
From Verif.Model Require Import Request Gc Network.
From Verif.Properties Require Import P16_Network.

Section C55.
Context {A R : Type} (marshal : A → option bytes) (unmarshal : bytes → R → option R).
Notation call := (call marshal unmarshal).
Notation calls := (calls marshal unmarshal).

(** The first call sends the encoding of Args and fills Reply from the answer. *)
Theorem C55_first a r b reply r' tr :
  marshal a = Some b → tr b = inr reply → unmarshal reply r = Some r' →
  ∃ q, call false false tr (new_request a r) = (None, Some b, q) ∧ rq_reply q = r'.
Proof. intros Hm Ht Hu. unfold Request.call, pack. simpl. rewrite Hm. simpl. rewrite Ht. unfold unpack. simpl. rewrite Hu. eauto. Qed.
(** A call cancelled before it starts sends nothing and leaves the request as it was. *)
Theorem C55_cancelled a r tr c2 : call true c2 tr (new_request a r) = (Some ECancelled, None, new_request a r).
Proof. done. Qed.
(** Once a call with an object has succeeded, every later call with it, whatever Args and Reply are set to,
    sends the bytes of the first call, leaves Reply alone, reports success whenever the transport succeeds,
    and ignores its context. *)
Theorem C55_stale a r c1 c2 tr b q l :
  call c1 c2 tr (new_request a r) = (None, b, q) →
  calls l q = (λ x : A * R * (bool * bool * (bytes → code + bytes)),
      let '(_, r', (_, _, tr')) := x in
      (match b with
       | Some b => match tr' b with inl e => Some (ETransport e) | inr _ => None end
       | None => None
       end, b, r')) <$> l ∧
  b = marshal a ∧ b ≠ None.
Proof.
  intros Hc. unfold Request.call, pack in Hc. simpl in Hc.
  destruct c1; [done|]. destruct (marshal a) as [m|] eqn:Em; [|done]. simpl in Hc.
  destruct (tr m) as [e|reply]; [done|]. unfold unpack in Hc. simpl in Hc. destruct c2; [done|].
  destruct (unmarshal reply r) as [r'|]; [|done]. injection Hc as <- <-. split; [|done].
  assert (∀ a' r'' mr, calls l (mkReq a' r'' (Some m) mr true) =
    (λ x : A * R * (bool * bool * (bytes → code + bytes)),
      let '(_, r', (_, _, tr')) := x in
      (match tr' m with inl e => Some (ETransport e) | inr _ => None end, Some m, r')) <$> l) as Hgen; [|apply Hgen].
  induction l as [|[[a1 r1] [[d1 d2] tr']] l IH]; intros a' r'' mr; [done|].
  simpl. unfold Request.call, pack, edit. simpl. destruct (tr' m) as [e|reply']; simpl.
  - f_equal. apply IH.
  - unfold unpack. simpl. f_equal. apply IH.
Qed.
End C55.
(** Second call: new Args 7, new Reply: sends 3 again and returns success with Reply 0. *)
Example C55_example :
  let marshal (n : nat) := Some [N2b (N.of_nat n)] in
  let unmarshal (b : bytes) (_ : N) := match b with x :: _ => Some (b2N x) | [] => None end in
  let double (b : bytes) : code + bytes := inr ((λ x, N2b (2 * b2N x)) <$> b) in
  Request.calls marshal unmarshal [(3, 0%N, (false, false, double)); (7, 0%N, (true, true, double))] (new_request 1 0%N) =
  [(None, Some [Byte.x03], 6%N); (None, Some [Byte.x03], 0%N)].
Proof. by vm_compute. Qed.

(** ** C58 *)
Section C58.
Context {K : Type} `{Countable K} {T : Type} (gcable : T → option Z).
Implicit Types mp : gmap K T.

(** Values that expose their start time: a pass removes exactly those whose age has reached the ttl, and
    notifies exactly these (for ages that a Duration can hold). *)
Theorem C58_by_age mp ttl now k v : mp !! k = Some v →
  ∀ t, gcable v = Some t → (minDuration ≤ now - t ≤ maxDuration)%Z →
  ((cleanmap gcable ttl now mp).1 !! k = Some v ↔ (now - t < ttl)%Z) ∧
  ((cleanmap gcable ttl now mp).1 !! k = None ↔ (ttl ≤ now - t)%Z) ∧
  ((cleanmap gcable ttl now mp).2 !! k = Some v ↔ (ttl ≤ now - t)%Z).
Proof.
  intros Hk t Ht Hr. unfold cleanmap. cbn [fst snd].
  assert (Since now t = now - t)%Z as Hs by (unfold Since; lia).
  rewrite !map_filter_lookup_Some, map_filter_lookup_None. unfold keeps, notifies. simpl.
  setoid_rewrite Hk. rewrite Ht, Hs. split_and!.
  - naive_solver.
  - split.
    + intros [?|Hn]; [done|]. specialize (Hn v eq_refl). rewrite Ht, Hs in Hn. lia.
    + intros ?. right. intros v' [= <-]. rewrite Ht, Hs. lia.
  - split; [intros [_ ?]; lia|intros ?; split; [done|lia]].
Qed.
(** Nothing else appears. *)
Theorem C58_no_others mp ttl now k v :
  ((cleanmap gcable ttl now mp).1 !! k = Some v → mp !! k = Some v) ∧
  ((cleanmap gcable ttl now mp).2 !! k = Some v → mp !! k = Some v).
Proof. unfold cleanmap. simpl. rewrite !map_filter_lookup_Some. naive_solver. Qed.
(** Values that do not: removed by every pass, without notification. *)
Theorem C58_not_exposed mp ttl now k v : mp !! k = Some v → gcable v = None →
  (cleanmap gcable ttl now mp).1 !! k = None ∧ (cleanmap gcable ttl now mp).2 !! k = None.
Proof.
  intros Hk Hg. unfold cleanmap. cbn [fst snd]. rewrite !map_filter_lookup_None. unfold keeps, notifies. split; right; intros v' Hv'; simplify_eq; simpl; rewrite Hg; intros [].
Qed.
End C58.
(** Relay tasks: the first pass forgets every pending request, however young, and the client is not told. *)
Theorem C58_relay_tasks (mp : gmap string relaytask) ttl now :
  cleanmap relaytask_gcable ttl now mp = (∅, ∅).
Proof.
  unfold cleanmap. f_equal; apply map_filter_empty_iff; intros k v _; intros [].
Qed.
(** Robust requests: the first pass, at any time since 1970 and for any ttl, cancels every pending one. *)
Theorem C58_robust_requests (mp : gmap string relayConnRequest) ttl now :
  (∀ k q, mp !! k = Some q → ∃ call, q = sendRequest_value k call) →
  (0 ≤ now)%Z → (ttl ≤ maxDuration)%Z →
  cleanmap connreq_gcable ttl now mp = (∅, mp).
Proof.
  intros Hq Hnow Httl.
  assert (∀ k q, mp !! k = Some q → notifies connreq_gcable ttl now q ∧ ¬ keeps connreq_gcable ttl now q) as Hn.
  { intros k q Hk. destruct (Hq k q Hk) as [call ->]. unfold notifies, keeps. simpl.
    assert (Since now zeroTime = maxDuration) as ->; [|lia].
    unfold Since, maxDuration, minDuration, zeroTime in *. lia. }
  unfold cleanmap. f_equal.
  - apply map_filter_empty_iff. intros k q Hk. by destruct (Hn k q Hk).
  - apply map_filter_id. intros k q Hk. by destruct (Hn k q Hk).
Qed.
(** So a pass on the connections of tau relays while a robust call is pending (before it could return)
    makes the call fail with Canceled. *)
Theorem C58_pending_call_fails {R} nt n tau (answered : list R) (cancels : list R) rest :
  quorum_net nt n tau → length answered < n - (tau - 1) → length cancels = tau →
  robust_call nt (((λ r, (r, None)) <$> answered) ++ ((λ r, (r, Some Canceled)) <$> cancels) ++ rest) = RErr Canceled.
Proof.
  intros Hq Ha Hc. assert (1 ≤ tau ≤ n) as Ht by apply Hq. apply (C47_fails nt n tau); [done|].
  destruct cancels as [|r cs _] using rev_ind; [simpl in Hc; lia|].
  exists (((λ r, (r, None)) <$> answered) ++ ((λ r, (r, Some Canceled)) <$> cs)), r, rest.
  rewrite app_length in Hc. simpl in Hc. split; [|split].
  - rewrite fmap_app, <-!app_assoc. done.
  - rewrite oks_app, app_length.
    assert (∀ l : list R, length (oks ((λ r, (r, Some Canceled)) <$> l)) = 0) as ->.
    { induction l; [done|]. cbn [fmap list_fmap]. by rewrite oks_err. }
    assert (∀ l : list R, length (oks ((λ r, (r, @None code)) <$> l)) = length l) as ->; [|lia].
    induction l; [done|]. cbn [fmap list_fmap]. rewrite oks_ok. simpl. by f_equal.
  - rewrite errs_app, app_length.
    assert (∀ l : list R, length (errs ((λ r, (r, @None code)) <$> l)) = 0) as ->.
    { induction l; [done|]. cbn [fmap list_fmap]. by rewrite errs_ok. }
    assert (∀ l : list R, length (errs ((λ r, (r, Some Canceled)) <$> l)) = length l) as ->; [|lia].
    induction l; [done|]. cbn [fmap list_fmap]. rewrite errs_err. simpl. by f_equal.
Qed.
(** Direct calls expire by age. *)
Theorem C58_direct_calls (mp : gmap string rqstWithErr) ttl now k q : mp !! k = Some q →
  (minDuration ≤ now - re_start q ≤ maxDuration)%Z →
  ((cleanmap rqst_gcable ttl now mp).1 !! k = Some q ↔ (now - re_start q < ttl)%Z) ∧
  ((cleanmap rqst_gcable ttl now mp).2 !! k = Some q ↔ (ttl ≤ now - re_start q)%Z).
Proof. intros Hk Hr. destruct (C58_by_age rqst_gcable mp ttl now k q Hk (re_start q)) as (? & _ & ?); done. Qed.
Example C58_example :
  let mp : gmap string rqstWithErr := <["a" := mkRqst "a" 100]> (<["b" := mkRqst "b" 900]> ∅) in
  (cleanmap rqst_gcable 500 1000 mp).1 = {["b" := mkRqst "b" 900]} ∧
  (cleanmap rqst_gcable 500 1000 mp).2 = {["a" := mkRqst "a" 100]}.
Proof. split; by vm_compute. Qed.
