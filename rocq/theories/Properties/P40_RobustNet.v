(** C95: robust calls in the whole network, under every schedule. *)
From stdpp Require Import gmap vector.
From Verif.Base Require Import Base.
From Verif.Model Require Import Merkle Ecc Network Robust RobustNet.
From Verif.Spec Require Import RobustSpec.
From Verif.Properties Require Import P14_Ecc P16_Network P17_Collector P18_Robust.
From Verif.Proofs Require Import RobustNetProofs.

Section thms.
(** n relays; a call needs q answers; streams hold [wire] messages; m calls; call u is made by client cl u to server sv u. *)
Context (n q wire m : nat) (cl sv : nat → nat).
Notation runs := (nsteps n q wire m cl sv).
Notation settled := (settled n q wire m cl sv).

(** The network makes a bounded number of steps, whatever the schedule. *)
Theorem C95_bounded ps s : 1 ≤ q → n < 2 * q → runs ps net_init s → length ps ≤ m * (36 * n + 3).
Proof. apply run_bound. Qed.

(** Let the processes that are not in [live] stop for ever at any time, and the others run until they have nothing to do.
    A call has returned if its client and its server are live and so are q relays that did not lose its response, as long as
    there are at most 100 calls, or everything is live. *)
Theorem C95_returns (live : proc → Prop) ps s u (good : list nat) : 1 ≤ q → n < 2 * q → 1 ≤ wire →
  m ≤ 100 ∨ (∀ p, live p) → runs ps net_init s → settled live s →
  u < m → live (AClient (cl u)) → live (AServer (sv u)) →
  NoDup good → (∀ i, i ∈ good → i < n ∧ live (ARelay i) ∧ rl s u i ≠ PEarly) → q ≤ length good →
  x_call s u = KDone.
Proof.
  intros Hq H2 Hw Hcap Hs Hset Hu Lc Lv Hnd Hg Hl. pose proof (reach_inv _ _ _ _ _ _ ps s Hq H2 Hs) as I.
  eapply (returns_settled n q wire m cl sv live s I); try done. intros u' i'. by eapply nl_range.
Qed.
(** A call that returned has read the responses of q different relays. *)
Theorem C95_reads ps s u : 1 ≤ q → n < 2 * q → runs ps net_init s → x_call s u = KDone →
  NoDup (x_reads s u) ∧ length (x_reads s u) = q ∧ ∀ i, i ∈ x_reads s u → i < n ∧ rl s u i = PRead.
Proof.
  intros Hq H2 Hs Hk. pose proof (reach_inv _ _ _ _ _ _ ps s Hq H2 Hs) as I. split; [apply I|]. split; [by eapply i_done|].
  intros i Hi. assert (rl s u i = PRead) as E by by eapply (i_reads _ _ _ _ s I). split; [|done].
  assert (rl s u i ≠ PNot) as Hn by by rewrite E. eapply (i_resp _ _ _ _ s I) in Hn as (k & Hj & ?).
  pose proof (i_jobs _ _ _ _ s I u k Hj). lia.
Qed.
(** If more than n-q relays lost the response of a call, it never returns. *)
Theorem C95_lost ps s u (bad : list nat) : 1 ≤ q → n < 2 * q → runs ps net_init s →
  NoDup bad → (∀ i, i ∈ bad → rl s u i = PEarly) → n < q + length bad → x_call s u ≠ KDone.
Proof.
  intros Hq H2 Hs Hnd Hb Hl Hk. destruct (C95_reads ps s u Hq H2 Hs Hk) as (Hnr & Hlr & Hr).
  pose proof (reach_inv _ _ _ _ _ _ ps s Hq H2 Hs) as I.
  assert (length (x_reads s u ++ bad) ≤ length (seq 0 n)) as Hle; [|rewrite app_length, seq_length in Hle; lia].
  apply submseteq_length, NoDup_submseteq.
  - apply NoDup_app. split; [done|]. split; [|done]. intros i Hi Hi'. destruct (Hr i Hi). specialize (Hb i Hi'). congruence.
  - intros i [Hi|Hi]%elem_of_app; apply elem_of_seq; [destruct (Hr i Hi); lia|].
    assert (rl s u i ≠ PNot) as Hn by by rewrite (Hb i Hi). eapply (i_resp _ _ _ _ s I) in Hn as (k & Hj & ?).
    pose proof (i_jobs _ _ _ _ s I u k Hj). lia.
Qed.
(** A relay loses the response when it gets it before it noted the request. *)
Theorem C95_loses s p s' u i : nstep n q wire m cl sv s p s' → rl s' u i = PEarly → rl s u i ≠ PEarly →
  p = ARelay i ∧ rl s u i = PInc ∧ nl s u i ≠ TIn.
Proof.
  intros Hs E Hne.
  assert (∀ s' a b l, rl (set_pl s' a b l) u i = PEarly → rl s' u i = PEarly) as Np by (intros; by rewrite rl_set_pl in *).
  assert (∀ s' a b l, rl (set_nl s' a b l) u i = PEarly → rl s' u i = PEarly) as Nn by (intros; by rewrite rl_set_nl in *).
  assert (∀ s' a b l, l ≠ PEarly → rl (set_rl s' a b l) u i = PEarly → rl s' u i = PEarly) as Nr.
  { intros s0 a b l Hl Hr. destruct (rl_set_rl s0 a b l u i) as [(_ & _ & E')|[_ E']]; congruence. }
  destruct Hs as [a b|a b|a b|a b|a b|a b|a b|a b|a b|a b|a b|a b|a|a b|a b|a b|a b|a b|a b|a b Ha Hb Hi Hh Hn|a b|a b|a b|a b|a b|a b|a b].
  20: { destruct (rl_set_rl s a b PEarly u i) as [(-> & -> & _)|[_ E']]; [done|congruence]. }
  all: exfalso; apply Hne; first [exact (Np _ _ _ _ E) | exact (Nn _ _ _ _ E) | exact (Np _ _ _ _ (Nn _ _ _ _ E))
    | (refine (Nr _ _ _ _ _ E); done) | (refine (Nr _ _ _ _ _ (Nn _ _ _ _ E)); done) | exact E].
Qed.
(** So, if everything is live: exactly the calls whose response at most n-q relays lost return. *)
Theorem C95_iff ps s u : 1 ≤ q ≤ n → n < 2 * q → 1 ≤ wire → runs ps net_init s → settled (λ _, True) s → u < m →
  (x_call s u = KDone ↔ length (filter (λ i, rl s u i = PEarly) (seq 0 n)) + q ≤ n).
Proof.
  intros [Hq Hqn] H2 Hw Hs Hset Hu. set (bad := filter (λ i, rl s u i = PEarly) (seq 0 n)).
  assert (NoDup bad) as Hnd by apply NoDup_filter, NoDup_seq. split.
  - intros Hk. destruct (decide (length bad + q ≤ n)) as [|Hlt]; [done|]. exfalso.
    apply (C95_lost ps s u bad); try done; [|lia]. intros i [Hi _]%elem_of_list_filter. done.
  - intros Hle. set (good := filter (λ i, rl s u i ≠ PEarly) (seq 0 n)).
    assert (length good + length bad = length (seq 0 n)) as Hgb; [|rewrite seq_length in Hgb].
    { clear. unfold good, bad. induction (seq 0 n) as [|i l IH]; [done|]. rewrite !filter_cons.
      cbv zeta in IH. repeat case_decide; try done; cbn [length]; lia. }
    apply (C95_returns (λ _, True) ps s u good); try done.
    + by right.
    + apply NoDup_filter, NoDup_seq.
    + intros i [Hi Hi']%elem_of_list_filter. apply elem_of_seq in Hi'. split; [lia|done].
    + lia.
Qed.
(** The bound of 100 calls is about right: while one relay does not run, at most 101 + wire robust calls of a client
    return, to whatever server. *)
Theorem C95_stalled ps s i c (l : list nat) : 1 ≤ q → n < 2 * q → i < n → runs ps net_init s → ARelay i ∉ ps →
  NoDup l → (∀ u, u ∈ l → cl u = c ∧ x_call s u = KDone) → length l ≤ 101 + wire.
Proof. apply stuck_returned. Qed.
End thms.

Section reply.
(** As for C51: hash, signatures, serialisation, erasure code, services. *)
Context (H : bytes → digest) {SK : Type} (sign : SK → digest → bytes) (pub : SK → bytes)
        (sigok : bytes → digest → bytes → bool).
Context (encNote : Note → bytes) (encParcel : Parcel → bytes).
Context {V : Type} (enc : V → bytes).
Context (c : rs_code) (laws : rs_laws c).
Context {hnd : Type} (find : string → option hnd) (run : hnd → string → bytes → outcome code V) (ttl : Z).
Notation served q es := (collect find (Z.of_nat q) ttl ∅ es).

(** What the collector saw: the parcels [par u i] in the order of its log, at any times. *)
Definition seen (par : nat → nat → Parcel) (log : list (nat * nat)) (es : list cevent) : Prop :=
  Forall2 (λ e (t : nat * nat), ∃ now, e = CParcel now (par t.1 t.2)) es log.

Lemma arrived_seen par log es uid u : seen par log es →
  (∀ i, uuid_of (par u i) = uid) → (∀ u' i, u' ≠ u → uuid_of (par u' i) ≠ uid) → (∀ i, is_Some (find (p_method (par u i)))) →
  arrived find uid es = par u <$> omap (λ t : nat * nat, if decide (t.1 = u) then Some t.2 else None) log.
Proof.
  intros Hs H1 H2 H3. induction Hs as [|e [u' i] es log [now ->] _ IH]; [done|]. unfold arrived in *. cbn [omap list_omap fst snd].
  rewrite IH. destruct (decide (u' = u)) as [->|Hne].
  - rewrite decide_True by apply H1. destruct (H3 i) as [h ->]. done.
  - rewrite decide_False by by apply H2. done.
Qed.
Lemma no_ticks par log es uid : seen par log es → in_time ttl uid es.
Proof.
  intros Hs i j now p T _ _ _ Hj. apply (Forall2_lookup_l _ _ _ _ _ Hs) in Hj as (t & _ & now' & E). done.
Qed.

Section one.
Context (n tau wire m : nat) (cl sv : nat → nat).
Notation q := (n - (tau - 1)).
Context (par : nat → nat → Parcel) (uid : nat → string).
(** The parcels of different calls have different ids; their methods are known. *)
Definition contents : Prop :=
  (∀ u i, uuid_of (par u i) = uid u) ∧ (∀ u u', uid u = uid u' → u = u') ∧ (∀ u i, is_Some (find (p_method (par u i)))).

Lemma indices s u : inv n q m sv s →
  let idx := omap (λ t : nat * nat, if decide (t.1 = u) then Some t.2 else None) (x_log s (sv u)) in
  NoDup idx ∧ (∀ i, i ∈ idx ↔ pl s u i = QLog) ∧ length idx = taken n s u.
Proof.
  intros I idx.
  assert (∀ i, i ∈ idx ↔ pl s u i = QLog) as Hin.
  { intros i. unfold idx. rewrite elem_of_list_omap. split.
    - intros ([u' i'] & Ht & Hx). simpl in Hx. case_decide as Eu; [|done]. injection Hx as ->. subst u'.
      by apply (i_log _ _ _ _ s I) in Ht as [_ ?].
    - intros Hp. exists (u, i). split; [by apply (i_log _ _ _ _ s I)|]. simpl. by rewrite decide_True. }
  assert (NoDup idx) as Hnd.
  { unfold idx. pose proof (i_lognd _ _ _ _ s I (sv u)) as Hl. clear -Hl. induction (x_log s (sv u)) as [|[u' i] l IH]; [constructor|].
    apply NoDup_cons in Hl as [Hx Hl]. cbn [omap list_omap fst snd]. case_decide as Eu; [|by apply IH].
    constructor; [|by apply IH]. intros Hi. apply elem_of_list_omap in Hi as ([u2 i2] & Ht & Hx'). simpl in Hx'.
    case_decide; [|done]. injection Hx' as ->. subst. done. }
  split; [done|]. split; [done|]. apply Nat.le_antisymm.
  - apply filter_length_ge; [done|]. intros i Hi. split; [|by apply Hin]. apply elem_of_seq.
    assert (pl s u i ≠ QNot) as Hn by (apply Hin in Hi; by rewrite Hi). apply (i_sent _ _ _ _ s I) in Hn. lia.
  - unfold taken. apply submseteq_length, NoDup_submseteq; [apply NoDup_filter, NoDup_seq|].
    intros i [Hi _]%elem_of_list_filter. by apply Hin.
Qed.

(** The collector of the network is that of C49: it started the call's goroutine exactly when that has run a task. *)
Theorem C95_collector ps s u es : 1 ≤ tau ≤ n → 2 * (tau - 1) < n → contents →
  nsteps n q wire m cl sv ps net_init s → seen par (x_log s (sv u)) es →
  length (runs_of (uid u) (served q es).2) = match x_job s u with JNone => 0 | _ => 1 end.
Proof.
  intros Ht H2 (Hid & Hinj & Hknown) Hs Hseen.
  assert (inv n q m sv s) as I by (eapply (reach_inv n q wire m cl sv); [| |exact Hs]; lia).
  destruct (indices s u I) as (Hnd & Hin & Hlen). set (idx := omap _ _) in *.
  pose proof (arrived_seen par _ es (uid u) u Hseen (Hid u)) as Ha. fold idx in Ha.
  assert (arrived find (uid u) es = par u <$> idx) as Harr.
  { apply Ha; [|apply Hknown]. intros u' i Hne E. rewrite Hid in E. by apply Hinj in E. }
  assert (length (arrived find (uid u) es) = taken n s u) as Hla by (by rewrite Harr, fmap_length).
  destruct (x_job s u) eqn:Ej.
  - destruct (i_none _ _ _ _ s I u Ej) as [_ Hlt].
    rewrite (C49_too_few find ttl q (uid u) es); [done|by eapply no_ticks|by rewrite Hla].
  - destruct (C49_exactly_once find ttl n tau (uid u) (par u <$> seq 0 n) es) as (t & E & _); try done.
    + by rewrite fmap_length, seq_length.
    + by eapply no_ticks.
    + rewrite Harr. apply fmap_submseteq. apply NoDup_submseteq; [done|]. intros i Hi. apply elem_of_seq.
      assert (pl s u i ≠ QNot) as Hn by (apply Hin in Hi; by rewrite Hi). apply (i_sent _ _ _ _ s I) in Hn. lia.
    + rewrite Hla. pose proof (i_job _ _ _ _ s I u) as Hj. rewrite Ej in Hj. specialize (Hj ltac:(done)). lia.
    + by rewrite E.
  - destruct (C49_exactly_once find ttl n tau (uid u) (par u <$> seq 0 n) es) as (t & E & _); try done.
    + by rewrite fmap_length, seq_length.
    + by eapply no_ticks.
    + rewrite Harr. apply fmap_submseteq. apply NoDup_submseteq; [done|]. intros j Hi. apply elem_of_seq.
      assert (pl s u j ≠ QNot) as Hn by (apply Hin in Hi; by rewrite Hi). apply (i_sent _ _ _ _ s I) in Hn. lia.
    + rewrite Hla. pose proof (i_job _ _ _ _ s I u) as Hj. rewrite Ej in Hj. specialize (Hj ltac:(done)). lia.
    + by rewrite E.
Qed.

(** The result of a call that returned, when its client and server follow the code: the handler ran once, on the request's
    bytes, and the call's result is the handler's reply (behind what the pooled buffer contained, C52). *)
Theorem C95_reply nt ps s u es ck ssk mth margs h v a1 a2 a3 a4 qs old :
  quorum_net nt n tau → code_for c n tau → 2 * (tau - 1) < n → signs sign pub sigok ssk →
  (N.of_nat (length margs) < 2 ^ 32)%N → (N.of_nat (length (old ++ enc v)) < 2 ^ 32)%N →
  all_answers a1 → all_answers a2 → all_answers a3 → all_answers a4 →
  find mth = Some h → run h (uid u) margs = Ok v →
  RobustCall_parcels H sign pub encNote encParcel c n ck (pub ssk) mth (uid u) margs a1 = Some qs →
  contents → par u <$> seq 0 n = qs →
  nsteps n q wire m cl sv ps net_init s → x_call s u = KDone → seen par (x_log s (sv u)) es →
  ∃ t rs resps out,
    runs_of (uid u) (served q es).2 = [t] ∧
    runTask enc c run t old a2 a3 = (Ok (RunOk rs), old ++ enc v) ∧
    respond H sign pub encNote c ssk t (RunOk rs) = Some resps ∧ length resps = n ∧
    (∀ resp cache, resp ∈ resps → ∃ cache',
      validateRrpcResponse H sigok encNote cache (pub ssk) (forwarded (uid u) resp) = Ok (None, cache')) ∧
    robust_call nt (omap (λ i, (λ r, (forwarded (uid u) r, @None code)) <$> resps !! i) (x_reads s u)) = RDone out ∧
    client_reconstruct c (omap rr_resp out) a4 = Ok (old ++ enc v).
Proof using laws.
  intros Hq Hcode H2 Hsg Hl1 Hl2 Ha1 Ha2 Ha3 Ha4 Hf Hrun Hsent (Hid & Hinj & Hknown) Hqs Hs Hk Hseen.
  assert (1 ≤ tau ≤ n) as Ht by apply Hq.
  assert (inv n q m sv s) as I by (eapply (reach_inv n q wire m cl sv); [| |exact Hs]; lia).
  destruct (C95_reads n q wire m cl sv ps s u) as (Hnr & Hlr & Hr); [lia|lia|done|done|].
  destruct (indices s u I) as (Hnd & Hin & Hlen). set (idx := omap _ _) in *.
  pose proof (arrived_seen par _ es (uid u) u Hseen (Hid u)) as Ha. fold idx in Ha.
  assert (arrived find (uid u) es = par u <$> idx) as Harr.
  { apply Ha; [|apply Hknown]. intros u' i Hne E. rewrite Hid in E. by apply Hinj in E. }
  assert (length (arrived find (uid u) es) = taken n s u) as Hla by (by rewrite Harr, fmap_length).
  assert (q ≤ taken n s u) as Htaken.
  { destruct (x_reads s u) as [|i l] eqn:Er; [simpl in Hlr; lia|]. destruct (Hr i) as [_ Hri]; [by left|].
    assert (rl s u i ≠ PNot) as Hn by by rewrite Hri. apply (i_resp _ _ _ _ s I) in Hn as (k & Hj & _).
    pose proof (i_job _ _ _ _ s I u) as Hjb. rewrite Hj in Hjb. specialize (Hjb ltac:(done)). lia. }
  destruct (robust_reply H sign pub sigok encNote encParcel enc c laws find run ttl nt n tau ck ssk mth (uid u) margs h v es a1 a2 a3 a4 qs old)
    as (t & rs & resps & E1 & E2 & E3 & E4 & Hndr & E5 & E6); try done.
  { by eapply no_ticks. }
  { rewrite Harr, <-Hqs. apply fmap_submseteq. apply NoDup_submseteq; [done|]. intros i Hi. apply elem_of_seq.
    assert (pl s u i ≠ QNot) as Hn by (apply Hin in Hi; by rewrite Hi). apply (i_sent _ _ _ _ s I) in Hn. lia. }
  { by rewrite Hla. }
  set (f := λ i, (λ r, (forwarded (uid u) r, @None code)) <$> resps !! i).
  assert (∃ rr, omap f (x_reads s u) = (λ r, (forwarded (uid u) r, @None code)) <$> rr ∧ NoDup rr ∧ rr ⊆ resps ∧ length rr = length (x_reads s u))
    as (rr & Hrr & Hrnd & Hrsub & Hrlen).
  { assert (∀ l, NoDup l → (∀ i, i ∈ l → i < length resps) →
      ∃ rr, omap f l = (λ r, (forwarded (uid u) r, @None code)) <$> rr ∧ NoDup rr ∧ length rr = length l ∧ ∀ r, r ∈ rr → ∃ i, i ∈ l ∧ resps !! i = Some r) as Hgen.
    { clear -Hndr. induction l as [|i l IH]; intros Hnd Hi.
      - exists []. split; [done|]. split; [constructor|]. split; [done|]. by intros r ?%elem_of_nil.
      - apply NoDup_cons in Hnd as [Hx Hnd]. destruct IH as (rr & F1 & F2 & F3 & F4); [done|intros; apply Hi; by right|].
        destruct (lookup_lt_is_Some_2 resps i) as [r Hr]; [apply Hi; by left|]. exists (r :: rr). split_and!.
        + cbn [omap list_omap fmap list_fmap]. unfold f at 1. rewrite Hr. cbn [fmap option_fmap option_map]. by rewrite F1.
        + constructor; [|done]. intros Hin. destruct (F4 r Hin) as (j & Hj & Hrj). assert (i = j) as -> by (by eapply (NoDup_lookup resps)). done.
        + simpl. by rewrite F3.
        + intros r' [->|Hin]%elem_of_cons; [exists i; split; [by left|done]|]. destruct (F4 r' Hin) as (j & ? & ?). exists j. split; [by right|done]. }
    destruct (Hgen (x_reads s u) Hnr) as (rr & F1 & F2 & F3 & F4).
    { intros i Hi. rewrite E4. by apply Hr. }
    exists rr. split_and!; try done. intros r Hin'. destruct (F4 r Hin') as (i & _ & Hi). by eapply elem_of_list_lookup_2. }
  assert (∀ r w, (r, w) ∈ omap f (x_reads s u) → w = None ∧ ∃ resp, resp ∈ resps ∧ resp ∈ rr ∧ r = forwarded (uid u) resp) as Hmem.
  { intros r w Hin'. rewrite Hrr in Hin'. apply elem_of_list_fmap in Hin' as (resp & [= -> ->] & Hin'). split; [done|]. exists resp. split; [by apply Hrsub|done]. }
  destruct (E6 (omap f (x_reads s u))) as (out & F1 & F2).
  - rewrite Hrr, fmap_length. lia.
  - intros r w Hin'. destruct (Hmem r w Hin') as (-> & resp & Hresp & _ & ->). destruct (E5 resp ∅ Hresp) as (cache' & E). by exists ∅, cache'.
  - rewrite Hrr. assert (oks ((λ r, (forwarded (uid u) r, @None code)) <$> rr) = forwarded (uid u) <$> rr) as ->.
    { clear. induction rr as [|x l IH]; [done|]. cbn [fmap list_fmap]. unfold oks in *. cbn [omap list_omap]. by rewrite IH. }
    apply NoDup_fmap_2_strong; [|done]. intros x y _ _ E. by injection E.
  - intros r Hin'. destruct (Hmem r None Hin') as (_ & resp & Hresp & _ & ->). by exists resp.
  - exists rr. split; [done|]. split; [done|]. split; [lia|]. rewrite Hrr. intros r Hin'. rewrite <-list_fmap_compose.
    apply elem_of_list_fmap in Hin' as (x & -> & Hx). apply elem_of_list_fmap. by exists x.
  - exists t, rs, resps, out. split_and!; try done.
Qed.
End one.
End reply.

(** * Concrete runs *)
Section exec.
Context (n q wire m : nat) (cl sv : nat → nat).
Notation free P := (Forall (λ u', ¬ P u') (seq 0 m)).
Definition when (P : Prop) `{Decision P} (p : proc) (s : net) : option (proc * net) := if decide P then Some (p, s) else None.
Definition sends (k : call) (i : nat) : Prop := match k with KSend j => j = i | KDone => False end.
Global Instance sends_dec k i : Decision (sends k i). Proof. destruct k; simpl; apply _. Defined.
Definition job_is (j : job) (i : nat) : Prop := match j with JSend k => k = i | _ => False end.
Global Instance job_is_dec j i : Decision (job_is j i). Proof. destruct j; simpl; apply _. Defined.
Definition job_runs (j : job) : Prop := match j with JRun => True | _ => False end.
Global Instance job_runs_dec j : Decision (job_runs j). Proof. destruct j; simpl; apply _. Defined.

(** The k-th rule for call u and relay i, if it applies. *)
Definition exec (s : net) (k u i : nat) : option (proc * net) :=
  let c := AClient (cl u) in let r := ARelay i in let v := AServer (sv u) in
  match k with
  | 0 => when (sends (x_call s u) i ∧ len_req m cl s (cl u) i < 100) c (set_call (set_pl s u i QReq) u (KSend (S i)))
  | 1 => when (pl s u i = QReq ∧ free (λ u', cl u' = cl u ∧ pl s u' i = QReqH)) c (set_pl s u i QReqH)
  | 2 => when (pl s u i = QReqH ∧ len_up m cl s (cl u) i < wire) c (set_pl s u i QUp)
  | 3 => when (pl s u i = QUp ∧ free (λ u', cl u' = cl u ∧ (pl s u' i = QUpH ∨ nl s u' i = TPend))) r (set_pl s u i QUpH)
  | 4 => when (pl s u i = QUpH ∧ len_out m sv s i (sv u) < 100) r (set_nl (set_pl s u i QOut) u i TPend)
  | 5 => when (nl s u i = TPend) r (set_nl s u i TIn)
  | 6 => when (pl s u i = QOut ∧ free (λ u', sv u' = sv u ∧ pl s u' i = QOutH)) r (set_pl s u i QOutH)
  | 7 => when (pl s u i = QOutH ∧ len_to m sv s i (sv u) < wire) r (set_pl s u i QTo)
  | 8 => when (pl s u i = QTo ∧ free (λ u', sv u' = sv u ∧ pl s u' i = QToH)) v (set_pl s u i QToH)
  | 9 => when (pl s u i = QToH ∧ len_coll n m sv s (sv u) < 1000) v (set_pl s u i QColl)
  | 10 => when (pl s u i = QColl ∧ S (x_count s u) < q) v (set_count (add_log (set_pl s u i QLog) (sv u) u i) u (S (x_count s u)))
  | 11 => when (pl s u i = QColl ∧ q ≤ S (x_count s u)) v (set_job (set_count (add_log (set_pl s u i QLog) (sv u) u i) u 0) u JRun)
  | 12 => when (job_runs (x_job s u)) v (set_job s u (JSend 0))
  | 13 => when (job_is (x_job s u) i ∧ len_back m sv s (sv u) i < 100) v (set_job (set_rl s u i PBack) u (JSend (S i)))
  | 14 => when (rl s u i = PBack ∧ free (λ u', sv u' = sv u ∧ rl s u' i = PBackH)) v (set_rl s u i PBackH)
  | 15 => when (rl s u i = PBackH ∧ len_from m sv s (sv u) i < wire) v (set_rl s u i PFrom)
  | 16 => when (rl s u i = PFrom ∧ free (λ u', sv u' = sv u ∧ rl s u' i = PFromH)) r (set_rl s u i PFromH)
  | 17 => when (rl s u i = PFromH ∧ len_inc m s i < 100) r (set_rl s u i PInc)
  | 18 => when (rl s u i = PInc ∧ free (λ u', rl s u' i = PIncH) ∧ nl s u i = TIn) r (set_nl (set_rl s u i PIncH) u i TGone)
  | 19 => when (rl s u i = PInc ∧ free (λ u', rl s u' i = PIncH) ∧ nl s u i ≠ TIn) r (set_rl s u i PEarly)
  | 20 => when (rl s u i = PIncH ∧ len_front m cl s i (cl u) < 100) r (set_rl s u i PFront)
  | 21 => when (rl s u i = PFront ∧ free (λ u', cl u' = cl u ∧ rl s u' i = PFrontH)) r (set_rl s u i PFrontH)
  | 22 => when (rl s u i = PFrontH ∧ len_down m cl s i (cl u) < wire) r (set_rl s u i PDown)
  | 23 => when (rl s u i = PDown ∧ free (λ u', cl u' = cl u ∧ rl s u' i = PDownH)) c (set_rl s u i PDownH)
  | 24 => when (rl s u i = PDownH ∧ len_resp n s u < n) c (set_rl s u i PResp)
  | 25 => when (sends (x_call s u) n ∧ rl s u i = PResp ∧ S (length (x_reads s u)) < q) c (add_read (set_rl s u i PRead) u i)
  | 26 => when (sends (x_call s u) n ∧ rl s u i = PResp ∧ q ≤ S (length (x_reads s u))) c (set_call (add_read (set_rl s u i PRead) u i) u KDone)
  | _ => None
  end.

Lemma when_Some P `{Decision P} p s r : when P p s = Some r → P ∧ r = (p, s).
Proof. unfold when. case_decide; [|done]. intros [= <-]. done. Qed.
Lemma free_all (P : nat → Prop) : (∀ u, m ≤ u → ¬ P u) → free P → ∀ u, ¬ P u.
Proof.
  intros Hout Hf u. destruct (decide (u < m)) as [Hu|]; [|apply Hout; lia].
  rewrite Forall_forall in Hf. apply Hf, elem_of_seq. lia.
Qed.
Lemma exec_sound s k u i p s' : inv n q m sv s → (∀ u i, nl s u i ≠ TNone → u < m ∧ i < n) → u < m → i < n →
  exec s k u i = Some (p, s') → nstep n q wire m cl sv s p s'.
Proof.
  intros I Nt Hu Hi.
  assert (∀ u' i' L, m ≤ u' → L ≠ QNot → pl s u' i' ≠ L) as Op.
  { intros u' i' L Hm HL E. destruct (range_p n q m sv s I u' i'); [congruence|lia]. }
  assert (∀ u' i' L, m ≤ u' → L ≠ PNot → rl s u' i' ≠ L) as Or.
  { intros u' i' L Hm HL E. destruct (range_r n q m sv s I u' i'); [congruence|lia]. }
  assert (∀ u' i' L, m ≤ u' → L ≠ TNone → nl s u' i' ≠ L) as On.
  { intros u' i' L Hm HL E. destruct (Nt u' i'); [congruence|lia]. }
  assert (∀ k j, sends k j → k = KSend j) as Sk by (by intros [?|] j; simpl; intros; subst).
  assert (∀ k j, job_is k j → k = JSend j) as Jk by (by intros [| |?] j; simpl; intros; subst).
  assert (∀ k, job_runs k → k = JRun) as Jr by by intros [| |?].
  do 27 (try (destruct k as [|k])); cbn [exec]; try done; intros E; apply when_Some in E as [E [= -> ->]].
  - destruct E as [E1 E2]. apply N_send; auto.
  - destruct E as [E1 E2]. apply N_req; auto. intros u' Hc E. eapply (free_all _ (λ u' Hm H, Op u' i QReqH Hm ltac:(done) (proj2 H)) E2 u'). done.
  - destruct E as [E1 E2]. apply N_up; auto.
  - destruct E as [E1 E2]. apply N_recv; auto.
    assert (∀ u', ¬ (cl u' = cl u ∧ (pl s u' i = QUpH ∨ nl s u' i = TPend))) as F.
    { apply free_all; [|done]. intros u' Hm [_ [E|E]]; [exact (Op u' i QUpH Hm ltac:(done) E)|exact (On u' i TPend Hm ltac:(done) E)]. }
    intros u' Hc. split; intros E; apply (F u'); auto.
  - destruct E as [E1 E2]. apply N_async; auto.
  - apply N_store; auto.
  - destruct E as [E1 E2]. apply N_out; auto. intros u' Hc E. eapply (free_all _ (λ u' Hm H, Op u' i QOutH Hm ltac:(done) (proj2 H)) E2 u'). done.
  - destruct E as [E1 E2]. apply N_to; auto.
  - destruct E as [E1 E2]. apply N_call; auto. intros u' Hc E. eapply (free_all _ (λ u' Hm H, Op u' i QToH Hm ltac:(done) (proj2 H)) E2 u'). done.
  - destruct E as [E1 E2]. apply N_coll; auto.
  - destruct E as [E1 E2]. apply N_part; auto.
  - destruct E as [E1 E2]. apply N_full; auto.
  - apply N_handler; auto.
  - destruct E as [E1 E2]. apply N_back; auto.
  - destruct E as [E1 E2]. apply N_write; auto. intros u' Hc E. eapply (free_all _ (λ u' Hm H, Or u' i PBackH Hm ltac:(done) (proj2 H)) E2 u'). done.
  - destruct E as [E1 E2]. apply N_from; auto.
  - destruct E as [E1 E2]. apply N_srecv; auto. intros u' Hc E. eapply (free_all _ (λ u' Hm H, Or u' i PFromH Hm ltac:(done) (proj2 H)) E2 u'). done.
  - destruct E as [E1 E2]. apply N_inc; auto.
  - destruct E as (E1 & E2 & E3). apply N_found; auto. intros u'. apply (free_all _ (λ u' Hm, Or u' i PIncH Hm ltac:(done)) E2 u').
  - destruct E as (E1 & E2 & E3). apply N_early; auto. intros u'. apply (free_all _ (λ u' Hm, Or u' i PIncH Hm ltac:(done)) E2 u').
  - destruct E as [E1 E2]. apply N_front; auto.
  - destruct E as [E1 E2]. apply N_fwrite; auto. intros u' Hc E. eapply (free_all _ (λ u' Hm H, Or u' i PFrontH Hm ltac:(done) (proj2 H)) E2 u'). done.
  - destruct E as [E1 E2]. apply N_down; auto.
  - destruct E as [E1 E2]. apply N_receive; auto. intros u' Hc E. eapply (free_all _ (λ u' Hm H, Or u' i PDownH Hm ltac:(done) (proj2 H)) E2 u'). done.
  - destruct E as [E1 E2]. apply N_resp; auto.
  - destruct E as (E1 & E2 & E3). apply N_more; auto.
  - destruct E as (E1 & E2 & E3). apply N_done; auto.
Qed.
Lemma when_is P `{Decision P} p s : P → when P p s = Some (p, s).
Proof. intros. unfold when. by rewrite decide_True. Qed.
Lemma free_of (P Q : nat → Prop) u0 : (∀ u', P u' → Q u' → False) → (∀ u', Q u' → P u') → Forall (λ u', ¬ Q u') (seq u0 m).
Proof. intros H1 H2. apply Forall_forall. intros u' _ Hq. eauto. Qed.
(** Every step is one of the rules, with a call and a relay. *)
Lemma exec_complete s p s' : nstep n q wire m cl sv s p s' → ∃ k u i, k < 27 ∧ u < m ∧ (i < n ∨ k = 12 ∧ i = 0) ∧ exec s k u i = Some (p, s').
Proof.
  assert (∀ Q : nat → Prop, (∀ u', ¬ Q u') → free Q) as F by (intros Q HQ; apply Forall_forall; intros; apply HQ).
  intros Hs. destruct Hs as [u i|u i|u i|u i|u i|u i|u i|u i|u i|u i|u i|u i|u|u i|u i|u i|u i|u i|u i|u i|u i|u i|u i|u i|u i|u i|u i];
    [exists 0|exists 1|exists 2|exists 3|exists 4|exists 5|exists 6|exists 7|exists 8|exists 9|exists 10|exists 11|exists 12|exists 13|exists 14|exists 15
    |exists 16|exists 17|exists 18|exists 19|exists 20|exists 21|exists 22|exists 23|exists 24|exists 25|exists 26]; exists u.
  13: { exists 0. split; [lia|]. split; [done|]. split; [by right|]. apply when_is. unfold job_runs.
        match goal with E : x_job s u = _ |- _ => by rewrite E end. }
  all: exists i; split; [lia|]; split; [done|]; split; [by left|]; cbn [exec]; apply when_is.
  all: repeat match goal with E : x_call ?a ?b = _ |- context [x_call ?a ?b] => rewrite E | E : x_job ?a ?b = _ |- context [x_job ?a ?b] => rewrite E end.
  all: cbn [sends job_is].
  all: repeat (split; [done|]).
  all: first [ done | (apply F; intros u' [Hc [E|E]]; match goal with Hh : ∀ u', cl u' = _ → _ ∧ _ |- _ => destruct (Hh u' Hc); congruence end)
             | (apply F; intros u' [Hc E]; match goal with Hh : ∀ u', _ → _ ≠ _ |- _ => exact (Hh u' Hc E) end)
             | (split; [apply F; done|done]) ].
Qed.

(** A run given by the rules. *)
Definition choice : Type := nat * nat * nat.
Fixpoint play (s : net) (cs : list choice) : option (list proc * net) :=
  match cs with
  | [] => Some ([], s)
  | (k, u, i) :: cs => if decide (u < m ∧ i < n) then r ← exec s k u i; r' ← play r.2 cs; Some (r.1 :: r'.1, r'.2) else None
  end.
Lemma nsteps_trans ps1 ps2 s1 s2 s3 : nsteps n q wire m cl sv ps1 s1 s2 → nsteps n q wire m cl sv ps2 s2 s3 → nsteps n q wire m cl sv (ps1 ++ ps2) s1 s3.
Proof. intros H1 H2. induction H2; [by rewrite app_nil_r|]. rewrite app_assoc. eapply ns_snoc; [by apply IHnsteps|done]. Qed.
Lemma play_sound cs ps0 s ps s' : 1 ≤ q → n < 2 * q → nsteps n q wire m cl sv ps0 net_init s → play s cs = Some (ps, s') →
  nsteps n q wire m cl sv (ps0 ++ ps) net_init s'.
Proof.
  intros Hq H2. revert ps0 s ps s'. induction cs as [|[[k u] i] cs IH]; intros ps0 s ps s' Hs Hp; simpl in Hp.
  - injection Hp as <- <-. by rewrite app_nil_r.
  - case_decide as Hd; [|done]. destruct Hd as [Hu Hi]. destruct (exec s k u i) as [[p s1]|] eqn:E; [|done]. cbn [mbind option_bind fst snd] in Hp.
    destruct (play s1 cs) as [[ps1 s2]|] eqn:E2; [|done]. injection Hp as <- <-. cbn [fst snd].
    rewrite cons_middle, app_assoc. apply (IH (ps0 ++ [p]) s1); [|done]. eapply ns_snoc; [exact Hs|].
    eapply exec_sound; [by eapply (reach_inv n q wire m cl sv)|intros ? ?; by eapply nl_range|done|done|exact E].
Qed.
(** No rule of a live process applies. *)
Definition stops (live : proc → bool) (s : net) : bool :=
  forallb (λ k, forallb (λ u, forallb (λ i, match exec s k u i with Some (p, _) => negb (live p) | None => true end) (seq 0 n)) (seq 0 m)) (seq 0 27).
Lemma stops_settled live s : 1 ≤ n → stops live s = true → settled n q wire m cl sv (λ p, live p = true) s.
Proof.
  intros Hn Hb p s' Hs Hl. apply exec_complete in Hs as (k & u & i & Hk & Hu & Hi & E). unfold stops in Hb.
  rewrite forallb_forall in Hb. specialize (Hb k). rewrite <-elem_of_list_In in Hb. specialize (Hb ltac:(apply elem_of_seq; lia)).
  rewrite forallb_forall in Hb. specialize (Hb u). rewrite <-elem_of_list_In in Hb. specialize (Hb ltac:(apply elem_of_seq; lia)).
  rewrite forallb_forall in Hb. specialize (Hb i). rewrite <-elem_of_list_In in Hb.
  specialize (Hb ltac:(apply elem_of_seq; lia)). rewrite E, Hl in Hb. done.
Qed.
End exec.

(** The rules that take parcel i from the call to the server, except the relay's note (rule 5), and the response back. *)
Definition go (u i : nat) : list choice := (λ k, (k, u, i)) <$> [0; 1; 2; 3; 4; 6; 7; 8; 9].
Definition back (u i : nat) : list choice := (λ k, (k, u, i)) <$> [14; 15; 16; 17].
Definition home (u i : nat) : list choice := (λ k, (k, u, i)) <$> [18; 20; 21; 22; 23; 24].
Definition one_client : nat → nat := λ _, 0.

Lemma witness n q wire m cl sv cs (ok : net → bool) : 1 ≤ q → n < 2 * q →
  match play n q wire m cl sv net_init cs with Some (_, s) => ok s | None => false end = true →
  ∃ ps s, nsteps n q wire m cl sv ps net_init s ∧ ok s = true.
Proof.
  intros Hq H2 Hb. destruct (play n q wire m cl sv net_init cs) as [[ps s]|] eqn:E; [|done].
  exists ps, s. split; [|done]. apply (play_sound n q wire m cl sv cs [] net_init ps s); [done|done|constructor|done].
Qed.

(** Three relays, everything live: all three relays get the response before they noted the request; the call never
    returns. *)
Definition hang_run : list choice :=
  go 0 0 ++ go 0 1 ++ go 0 2 ++ [(10, 0, 0); (11, 0, 1); (10, 0, 2); (12, 0, 0); (13, 0, 0); (13, 0, 1); (13, 0, 2)] ++
  back 0 0 ++ back 0 1 ++ back 0 2 ++ [(19, 0, 0); (19, 0, 1); (19, 0, 2); (5, 0, 0); (5, 0, 1); (5, 0, 2)].
Definition done_b (k : call) : bool := match k with KDone => true | _ => false end.
Theorem C95_hang_example : ∃ ps s, nsteps 3 2 1 1 one_client one_client ps net_init s ∧
  settled 3 2 1 1 one_client one_client (λ _, True) s ∧ x_call s 0 ≠ KDone ∧ x_log s 0 = [(0, 0); (0, 1); (0, 2)].
Proof.
  destruct (witness 3 2 1 1 one_client one_client hang_run (λ s, stops 3 2 1 1 one_client one_client (λ _, true) s &&
    negb (done_b (x_call s 0)) && bool_decide (x_log s 0 = [(0, 0); (0, 1); (0, 2)]))) as (ps & s & Hs & Hb); [lia|lia|by vm_compute|].
  apply andb_prop in Hb as [Hb Hl]. apply andb_prop in Hb as [Hb Hk]. exists ps, s. split; [done|]. split.
  - intros p s' H1 _. eapply (stops_settled 3 2 1 1 one_client one_client (λ _, true)); [lia|done|done|done].
  - split; [by intros E; rewrite E in Hk|by apply bool_decide_eq_true in Hl].
Qed.

(** Two calls of different clients to different servers; relay 2 stops with the parcel of call 0 in its hands; nothing is
    lost; both calls return (the hypotheses of C95_returns). *)
Definition ok_run : list choice :=
  go 0 0 ++ [(5, 0, 0)] ++ go 0 1 ++ [(5, 0, 1)] ++ ((λ k, (k, 0, 2)) <$> [0; 1; 2; 3]) ++
  go 1 0 ++ [(5, 1, 0)] ++ go 1 1 ++ [(5, 1, 1)] ++ ((λ k, (k, 1, 2)) <$> [0; 1; 2]) ++
  [(10, 0, 0); (11, 0, 1); (12, 0, 0); (13, 0, 0); (13, 0, 1); (13, 0, 2)] ++
  [(10, 1, 0); (11, 1, 1); (12, 1, 0); (13, 1, 0); (13, 1, 1); (13, 1, 2)] ++
  back 0 0 ++ home 0 0 ++ back 1 1 ++ home 1 1 ++ back 0 1 ++ home 0 1 ++ back 1 0 ++ home 1 0 ++
  [(25, 0, 0); (26, 0, 1); (25, 1, 1); (26, 1, 0); (14, 0, 2); (15, 0, 2); (14, 1, 2); (15, 1, 2)].
Definition without_2 (p : proc) : bool := match p with ARelay 2 => false | _ => true end.
Theorem C95_returns_example : ∃ ps s, nsteps 3 2 1 2 id S ps net_init s ∧
  settled 3 2 1 2 id S (λ p, without_2 p = true) s ∧ pl s 0 2 = QUpH ∧ rl s 0 2 = PFrom ∧
  (∀ u i, u < 2 → i ∈ [0; 1] → i < 3 ∧ without_2 (ARelay i) = true ∧ rl s u i ≠ PEarly) ∧
  x_call s 0 = KDone ∧ x_call s 1 = KDone ∧ x_reads s 1 = [1; 0].
Proof.
  destruct (witness 3 2 1 2 id S ok_run (λ s, stops 3 2 1 2 id S without_2 s && bool_decide (pl s 0 2 = QUpH) && bool_decide (rl s 0 2 = PFrom) &&
    forallb (λ u, forallb (λ i, bool_decide (rl s u i ≠ PEarly)) [0; 1]) [0; 1] &&
    done_b (x_call s 0) && done_b (x_call s 1) && bool_decide (x_reads s 1 = [1; 0]))) as (ps & s & Hs & Hb); [lia|lia|by vm_compute|].
  do 6 (apply andb_prop in Hb as [Hb ?]). exists ps, s. split; [done|]. split_and!.
  - apply stops_settled; [lia|done].
  - by eapply bool_decide_eq_true.
  - by eapply bool_decide_eq_true.
  - intros u i Hu Hi. match goal with F : forallb _ [0; 1] = true |- _ => rename F into Hf end.
    rewrite forallb_forall in Hf. specialize (Hf u). rewrite <-elem_of_list_In in Hf.
    assert (u ∈ [0; 1]) as Hu' by (destruct u as [|[|u]]; [by left|right; by left|lia]). specialize (Hf Hu').
    rewrite forallb_forall in Hf. specialize (Hf i). rewrite <-elem_of_list_In in Hf. specialize (Hf Hi).
    apply bool_decide_eq_true in Hf. apply elem_of_cons in Hi as [->|Hi]; [|apply elem_of_list_singleton in Hi as ->]; (split; [lia|]; split; done).
  - by destruct (x_call s 0).
  - by destruct (x_call s 1).
  - by eapply bool_decide_eq_true.
Qed.

(** The hypotheses of C95_reply hold of that run with the toy primitives of C51: call 0 has the id "u" and the parcels of
    C51_hypotheses. *)
Definition uid_of (u : nat) : string := String.append "u" (String.string_of_list_ascii (repeat Ascii.zero u)).
Definition par_of (u i : nat) : Parcel :=
  let p := nth_parcel (tps "/S/Do") i in
  let nt := p_note p in
  mkParcel "/S/Do" (p_index p) (mkNote (n_sender nt) (n_receiver nt) (uid_of u) (n_scert nt) (n_rcert nt)) (p_len p) (p_payload p) (p_sig p).
Lemma uid_of_inj u u' : uid_of u = uid_of u' → u = u'.
Proof.
  unfold uid_of. simpl. intros [= E]. apply (f_equal String.list_ascii_of_string) in E.
  rewrite !String.list_ascii_of_string_of_list_ascii in E. apply (f_equal length) in E. by rewrite !repeat_length in E.
Qed.
Example C95_reply_example : ∃ ps s es,
  contents ex_find par_of uid_of ∧ par_of 0 <$> seq 0 3 = tps "/S/Do" ∧ uid_of 0 = "u" ∧
  nsteps 3 2 1 2 id S ps net_init s ∧ x_call s 0 = KDone ∧ seen par_of (x_log s 1) es ∧ length es = 2.
Proof.
  destruct (witness 3 2 1 2 id S ok_run (λ s, done_b (x_call s 0) && bool_decide (x_log s 1 = [(0, 0); (0, 1)])))
    as (ps & s & Hs & Hb); [lia|lia|by vm_compute|].
  apply andb_prop in Hb as [Hb Hl]. apply bool_decide_eq_true in Hl.
  exists ps, s, [CParcel 1 (par_of 0 0); CParcel 1 (par_of 0 1)]. split_and!.
  - split; [done|]. split; [intros u u'; apply uid_of_inj|]. by eexists.
  - vm_compute; reflexivity.
  - done.
  - done.
  - by destruct (x_call s 0).
  - rewrite Hl. repeat constructor; by eexists.
  - done.
Qed.
