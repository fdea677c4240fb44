(** C121, C122: the errors of handlers as statuses: texts that are not UTF-8, and the code OK. *)
From stdpp Require Import gmap.
From Verif.Base Require Import Base.
From Verif.Model Require Import Merkle Ecc Network Robust DirectServer Wire ServerStreams.
From Verif.Properties Require Import P06_Merkle P16_Network P18_Robust P21_Streams P22_DirectServer.
From Verif.Model Require Import Status.

(** The code and the text of an error, as the handler's author knows them (2 is Unknown): *)
Definition code_of (e : goerror) : Z := match e with EStatus s => st_code s | EOther _ => 2 end.
Definition text_of (e : goerror) : string := match e with EStatus s => st_msg s | EOther text => text end.
Lemma errToRpcErr_spec e : errToRpcErr e = mkStatus (code_of e) (text_of e).
Proof. by destruct e as [[]|]. Qed.

(** ** C121: robust calls *)
Section streams.
Context (n : nat).
Implicit Types s : sst SCallResponse.
Implicit Types tr : list (slabel SCallResponse).
Notation run_up := (up_steps n).

Lemma up_is_run tr s s' : run_up tr s s' → ssteps n tr s s'.
Proof using Type. induction 1 as [|? ? ? ? ? ? IH [? _]]; [constructor|]. by econstructor. Qed.

(** With all connections up: if the texts of all errors (and the call ids) are UTF-8 then no send fails and
    the server does not crash. *)
Theorem C121_utf8_is_safe tr s : run_up tr sinit s →
  (∀ j i rs r, SStart j i rs ∈ tr → r ∈ rs → call_sendable r = true) →
  (∀ i, SFail i ∉ tr) ∧ crashed s = false.
Proof using Type.
  intros Hs Hok.
  assert ((∀ i, SFail i ∉ tr) ∧ (∀ i r, r ∈ buf s i → call_sendable r = true) ∧
    ∀ j k rs r, jobs s !! j = Some (k, rs) → r ∈ rs → call_sendable r = true) as (Hf & _).
  { remember sinit as s0 eqn:E0. induction Hs as [s|tr l s1 s2 s3 Hs IH [Hst Hup]]; subst.
    { split; [intros; apply not_elem_of_nil|]. split; [intros i r Hr; by apply elem_of_nil in Hr|done]. }
    destruct IH as (IF & IB & IJ); [done|intros j i rs r Hin; apply (Hok j i); rewrite elem_of_app; by left|].
    assert (∀ k b i (m : gmap nat (list SCallResponse)), default [] (<[k := b]> m !! i) = if decide (k = i) then b else default [] (m !! i)) as Hbuf.
    { intros. case_decide; subst; [by rewrite lookup_insert|by rewrite lookup_insert_ne]. }
    assert (∀ i, l ≠ SFail i) as Hnf.
    { intros i ->. destruct (buf s2 i) as [|r b] eqn:Eb; [done|]. cbn in Hup. rewrite (IB i r) in Hup; [done|]. rewrite Eb. by left. }
    split; [intros i; rewrite elem_of_app, elem_of_list_singleton; intros [?|?]; [by eapply IF|by eapply Hnf]|].
    assert (∀ j i rs r, l = SStart j i rs → r ∈ rs → call_sendable r = true) as Hnew.
    { intros j i rs r -> Hr. eapply (Hok j i); [|exact Hr]. rewrite elem_of_app, elem_of_list_singleton. by right. }
    clear Hok Hup. destruct Hst; unfold buf in *; cbn [bufs jobs]; try (split; [exact IB|exact IJ]).
    - split; [exact IB|]. intros j' k rs' r [[-> [= <- <-]]|[_ ?]]%lookup_insert_Some Hr; [by eapply Hnew|by eapply IJ].
    - split.
      + intros i' r'. rewrite Hbuf. case_decide; [subst|apply IB]. rewrite elem_of_app, elem_of_list_singleton.
        intros [?| ->]; [by eapply IB|]. eapply IJ; [done|]. by left.
      + intros j' k rs' r' [[-> [= <- <-]]|[_ ?]]%lookup_insert_Some Hr; [|by eapply IJ]. eapply IJ; [done|]. by right.
    - split; [|exact IJ]. intros i' r'. rewrite Hbuf. case_decide; [subst|apply IB]. intros Hr. eapply (IB i').
      match goal with E : default [] _ = _ :: _ |- _ => rewrite E end. by right.
    - by destruct (Hnf i).
    - split; [|exact IJ]. intros i' r'. rewrite Hbuf. case_decide; [subst|apply IB]. intros Hr. eapply (IB i').
      match goal with E : default [] _ = _ :: _ |- _ => rewrite E end. by right. }
  split; [done|]. eapply C70_no_crash; [by apply up_is_run|done].
Qed.

(** A response that cannot be encoded is never written; when the writer has come to it, the channel of its
    relay is closed. *)
Theorem C121_never_sent tr s j i r : run_up tr sinit s → call_sendable r = false → SPush j i r ∈ tr →
  SWrite i r ∉ tr ∧ (r ∈ buf s i ∨ i ∈ closed s).
Proof using Type.
  intros Hs Hr Hp. split.
  { clear Hp. induction Hs as [|tr l s1 s2 s3 Hs IH [Hst Hup]]; [apply not_elem_of_nil|].
    rewrite elem_of_app, elem_of_list_singleton. intros [?|<-]; [by apply IH|]. congruence. }
  induction Hs as [|tr l s1 s2 s3 Hs IH [Hst Hup]]; [by apply elem_of_nil in Hp|].
  rewrite elem_of_app, elem_of_list_singleton in Hp.
  assert (∀ k b i (m : gmap nat (list SCallResponse)), default [] (<[k := b]> m !! i) = if decide (k = i) then b else default [] (m !! i)) as Hbuf.
  { intros. case_decide; subst; [by rewrite lookup_insert|by rewrite lookup_insert_ne]. }
  destruct Hp as [Hp|<-].
  2: { inversion Hst; subst. left. unfold buf. cbn [bufs]. rewrite lookup_insert. cbn. rewrite elem_of_app, elem_of_list_singleton. by right. }
  destruct (IH Hp) as [Hb|Hc].
  2: { right. by eapply closed_stays. }
  destruct Hst; unfold buf in *; cbn [bufs closed]; try (by left); rewrite ?Hbuf.
  - left. case_decide; [subst|done]. rewrite elem_of_app. by left.
  - left. case_decide; [subst|done]. match goal with E : default [] _ = _ :: _ |- _ => rewrite E in Hb end.
    apply elem_of_cons in Hb as [->|?]; [congruence|done].
  - case_decide; [subst|by left]. right. apply elem_of_union_l. by apply elem_of_singleton.
  - case_decide; [subst; by right|by left].
Qed.

Lemma unsendable pk note certs e r : utf8 (text_of e) = false → r ∈ error_responses pk note certs e → call_sendable r = false.
Proof using Type.
  intros He Hr. apply elem_of_list_fmap in Hr as (ct & -> & _). unfold call_sendable, status_sendable. cbn [sc_error from_option]. rewrite errToRpcErr_spec. cbn [st_msg]. by rewrite He.
Qed.

(** A handler that returns an error whose text is not UTF-8, in a robust call: no relay is ever sent a
    response to the call, and when the responses have been handed to the writers and taken by them, every
    response of the server to any later call - its own results too - crashes it, and nothing else can
    happen to that response. *)
Theorem C121_crash tr s j k pk note certs e : run_up tr sinit s →
  utf8 (text_of e) = false → length certs = n →
  SStart j 0 (error_responses pk note certs e) ∈ tr → jobs s !! j = Some (k, []) → (∀ i, i < n → buf s i = []) →
  (∀ i r, SPush j i r ∈ tr → SWrite i r ∉ tr) ∧
  ∀ tr' s' j' i rs, run_up tr' s s' → SStart j' i rs ∈ tr' → rs ≠ [] → i + length rs ≤ n →
    (∀ i' r, SPush j' i' r ∉ tr') ∧
    (crashed s' = false → ∃ s'', up_step n SPanic s' s'' ∧ crashed s'' = true).
Proof using Type.
  intros Hs He Hc Hst Hj Hempty. pose proof (up_is_run _ _ _ Hs) as Hr.
  destruct (C70_in_order n tr s j 0 _ Hr Hst) as [_ Hall]. specialize (Hall _ Hj).
  assert (length (error_responses pk note certs e) = n) as Hl by (unfold error_responses; by rewrite fmap_length).
  assert (∀ i r, SPush j i r ∈ tr → call_sendable r = false) as Hbad.
  { intros i r Hp%by_job_in. rewrite Hall in Hp. apply elem_of_zip_r in Hp. by eapply unsendable. }
  assert (∀ i, i < n → i ∈ closed s) as Hclosed.
  { intros i Hi. destruct (lookup_lt_is_Some_2 (error_responses pk note certs e) i) as [r Hir]; [lia|].
    assert (SPush j i r ∈ tr) as Hp.
    { apply by_job_in. rewrite Hall. apply elem_of_list_lookup. exists i. apply lookup_zip_with_Some. exists i, r.
      split; [done|]. split; [|done]. apply lookup_seq. lia. }
    destruct (C121_never_sent _ _ _ _ _ Hs (Hbad _ _ Hp) Hp) as [_ [Hb|?]]; [|done]. rewrite Hempty in Hb by done. by apply elem_of_nil in Hb. }
  split; [intros i r Hp; by apply (C121_never_sent _ _ _ _ _ Hs (Hbad _ _ Hp) Hp)|].
  intros tr' s' j' i rs Hs' Hst' Hne Hlen. pose proof (up_is_run _ _ _ Hs') as Hr'.
  assert (∀ i, i < n → i ∈ closed s' ∧ ∀ j r, SPush j i r ∉ tr') as Hcl' by (intros i0 Hi0; eapply after_closed; [exact Hr'|by apply Hclosed]).
  assert (ssteps n (tr ++ tr') sinit s') as Hrr by by eapply steps_app.
  pose proof (jinv_all _ _ _ j' Hrr) as [I1 I2].
  destruct (jobs s' !! j') as [[k' rest]|] eqn:Ej.
  2: { exfalso. destruct (I1 eq_refl) as [_ Hn]. apply (Hn i rs). rewrite elem_of_app. by right. }
  destruct (I2 _ _ eq_refl) as (i0 & don & Hstart & Hk & Hby & Hlt).
  assert (i = i0 ∧ rs = don ++ rest) as [-> Hrs] by (apply Hstart; rewrite elem_of_app; by right).
  (* started in tr', so it handed over nothing in tr *)
  assert (∀ k r, SPush j' k r ∉ tr) as Hold.
  { assert (jobs s !! j' = None) as Hnone.
    { clear -Hr' Hst'. induction Hr' as [x|tr l x1 x2 x3 Hs IH Hl]; [by apply elem_of_nil in Hst'|].
      rewrite elem_of_app, elem_of_list_singleton in Hst'. destruct Hst' as [?| <-]; [by apply IH|]. inversion Hl; subst.
      match goal with H : jobs x2 !! j' = None |- _ => rename H into Hx end. clear -Hs Hx.
      induction Hs as [|tr l x1 x2 x3 Hs IH Hl]; [done|]. apply IH. destruct Hl; simpl in *; try done.
      - by apply lookup_insert_None in Hx as [? _].
      - by apply lookup_insert_None in Hx as [? _]. }
    destruct (jinv_all _ _ _ j' Hr) as [J1 _]. destruct (J1 Hnone) as [Hb _]. intros k0 r Hin%by_job_in. rewrite Hb in Hin. by apply elem_of_nil in Hin. }
  assert (∀ i' r, SPush j' i' r ∉ tr') as Hnew.
  { intros i' r Hp. assert (i' < n) as Hi'; [|by apply (Hcl' i' Hi') in Hp].
    assert ((i', r) ∈ by_job j' (tr ++ tr')) as Hin by (apply by_job_in; rewrite elem_of_app; by right).
    rewrite Hby in Hin. apply elem_of_zip_l, elem_of_seq in Hin. lia. }
  split; [done|]. intros Hcr.
  assert (don = []) as ->.
  { destruct don as [|r don]; [done|]. exfalso.
    assert ((i0, r) ∈ by_job j' (tr ++ tr')) as Hin by (rewrite Hby; cbn; by left).
    apply by_job_in, elem_of_app in Hin as [?|?]; [by eapply Hold|by eapply Hnew]. }
  cbn in Hrs, Hk. subst rs. destruct rest as [|r rest]; [done|]. cbn in Hlen.
  eexists. split; [split; [eapply ss_push_panic; [done|exact Ej|]|exact I]|done].
  rewrite Hk, Nat.add_0_r. apply Hcl'. lia.
Qed.
End streams.

(** The hypotheses are met: one relay, a handler that returns the byte 255 as the text of its error; then a
    call that succeeds. *)
Definition bad_text : string := String (Ascii.ascii_of_nat 255) "".
Definition ex_note : Note := mkNote [Byte.x01] [Byte.x02] "u" None None.
Definition ex_cert : cert := mkCert (toyH []) [] 0 [].
Definition bad_resps : list SCallResponse := error_responses [Byte.x02] ex_note [ex_cert] (EOther bad_text).
Lemma one_relay (r r' : SCallResponse) : call_sendable r = false → ∃ s s',
  up_steps 1 [SConnect 0; SStart 0 0 [r]; SPush 0 0 r; SFail 0] sinit s ∧
  jobs s !! 0 = Some (1, []) ∧ (∀ i, i < 1 → buf s i = []) ∧
  up_steps 1 [SStart 1 0 [r']] s s' ∧ crashed s' = false.
Proof.
  intros Hr.
  pose proof (up_nil 1 (@sinit SCallResponse)) as X0.
  eassert (X1 : up_steps 1 _ sinit _) by (eapply up_snoc; [exact X0|split; [apply (ss_connect _ _ 0); [done|lia]|exact I]]).
  eassert (X2 : up_steps 1 _ sinit _) by (eapply up_snoc; [exact X1|split; [apply (ss_start _ _ 0 0 [r]); [done|done|simpl; lia]|exact I]]).
  eassert (X3 : up_steps 1 _ sinit _) by (eapply up_snoc; [exact X2|split; [apply (ss_push _ _ 0 0 r []); [done|done|set_solver|vm_compute; lia]|exact I]]).
  eassert (X4 : up_steps 1 _ sinit _) by (eapply up_snoc; [exact X3|split; [apply (ss_fail _ _ 0 r [] 0); [done|done|done|set_solver]|cbn; exact Hr]]).
  eexists _, _. split; [exact X4|]. split; [reflexivity|]. split.
  { intros i Hi. assert (i = 0) as -> by lia. reflexivity. }
  split; [eapply (up_snoc 1 []); [apply up_nil|split; [apply (ss_start _ _ 1 0 [r']); [done|reflexivity|simpl; lia]|exact I]]|done].
Qed.
Example C121_example r' : utf8 (text_of (EOther bad_text)) = false ∧ ∃ tr s s',
  up_steps 1 tr sinit s ∧ SStart 0 0 bad_resps ∈ tr ∧ jobs s !! 0 = Some (1, []) ∧ (∀ i, i < 1 → buf s i = []) ∧
  up_steps 1 [SStart 1 0 [r']] s s' ∧ crashed s' = false.
Proof.
  split; [reflexivity|]. unfold bad_resps, error_responses. cbn [fmap list_fmap].
  edestruct one_relay as (s & s' & H1 & H2 & H3 & H4 & H5); [|eexists _, s, s'; split; [exact H1|]; split; [right; left|split_and!; [exact H2|exact H3|exact H4|exact H5]]].
  reflexivity.
Qed.

(** ** Direct calls *)
Section direct.
Context (H : bytes → digest) {SK : Type} (sign : SK → digest → bytes) (sigok : bytes → digest → bytes → bool).
Context (encNote : Note → bytes).
Context {V hnd : Type} (run : hnd → string → bytes → goerror + V) (enc : V → option bytes) (find : string → option hnd).
Notation stream := (Status.direct_stream H sign sigok encNote run enc find).
Notation genuine := (genuine H sigok encNote find).

Lemma handler_error sk client cache rq h note e : genuine client cache rq h note → run h (n_uuid note) (dq_payload rq) = inl e →
  ∃ ct cache', Status.direct1 H sign sigok encNote run enc find sk client cache rq =
    (Some (h, n_uuid note, dq_payload rq), inr (mkSD (set_rcert note (Some ct)) (SError (errToRpcErr e))), cache').
Proof using Type.
  intros (Hf & Hn & <- & Hct) Hr. unfold Status.direct1. rewrite Hf, Hn. rewrite decide_False by tauto.
  apply (verify_seq_none H sigok cache (n_sender note)) in Hct.
  destruct (VerifySeq H sigok cache (n_sender note) (encNote (set_scert note None)) (n_scert note)) as [[?|] cache'] eqn:Ev; [done|].
  unfold Status.intoDirectCallResponse. rewrite Hr. destruct (sign_one_ok H sign sk (encNote note)) as (ct & -> & _). by eexists _, _.
Qed.
Lemma stream_app sk client pre post rans resps : stream sk client pre = (rans, resps, None) →
  stream sk client (pre ++ post) = let '(rans', resps', e) := stream sk client post in (rans ++ rans', resps ++ resps', e).
Proof using Type.
  revert rans resps. induction pre as [|[cache rq] pre IH]; intros rans resps; cbn [Status.direct_stream app].
  { intros [= <- <-]. by destruct (stream sk client post) as [[? ?] ?]. }
  destruct (Status.direct1 _ _ _ _ _ _ _ _ _ _ _) as [[ran [e|resp]] ?]; [done|]. destruct (direct_sendable resp); [|done].
  destruct (stream sk client pre) as [[ra re] [e|]] eqn:E; [done|]. intros [= <- <-]. rewrite (IH _ _ eq_refl).
  destruct (stream sk client post) as [[? ?] ?]. by rewrite (assoc_L (++)).
Qed.
(** A direct call whose handler returns an error with a text that is not UTF-8: the handler has run, the
    caller gets no response, and the client's stream ends, with all requests that come after it. *)
Theorem C121_direct sk client pre post cache rq h note e rans resps :
  stream sk client pre = (rans, resps, None) → genuine client cache rq h note →
  run h (n_uuid note) (dq_payload rq) = inl e → utf8 (text_of e) = false →
  stream sk client (pre ++ (cache, rq) :: post) = (rans ++ [(h, n_uuid note, dq_payload rq)], resps, Some Internal).
Proof using Type.
  intros Hpre Hg Hr He. rewrite (stream_app _ _ _ _ _ _ Hpre). cbn [Status.direct_stream].
  destruct (handler_error sk client cache rq h note e Hg Hr) as (ct & cache' & ->).
  unfold direct_sendable, status_sendable. cbn [sd_result sd_note]. rewrite errToRpcErr_spec. cbn [st_msg]. rewrite He. cbn. by rewrite app_nil_r.
Qed.
(** One with a UTF-8 text arrives with its code and text, and the stream goes on (the code is not OK: C122). *)
Theorem C121_direct_arrives {Rep : Type} (unmarshal : bytes → Rep → option Rep) (pub : SK → bytes) sk client cache rq h note e post old ccache :
  genuine client cache rq h note → run h (n_uuid note) (dq_payload rq) = inl e →
  utf8 (text_of e) = true → utf8 (n_uuid note) = true → code_of e ≠ 0%Z →
  (∀ d, sigok (pub sk) d (sign sk d) = true) → n_rcert note = None →
  ∃ resp, stream sk client ((cache, rq) :: post) =
      (let '(rans, resps, err) := stream sk client post in ((h, n_uuid note, dq_payload rq) :: rans, resp :: resps, err)) ∧
    dispatch H sigok encNote unmarshal ccache (pub sk) resp old = (Some (DRpc (mkStatus (code_of e) (text_of e))), old).
Proof using Type.
  intros Hg Hr He Hu Hok Hsk Hrc. cbn [Status.direct_stream].
  assert (set_rcert note None = note) as Hnote by (destruct note; cbn in *; by subst).
  destruct Hg as (Hf & Hn & <- & Hct). unfold Status.direct1. rewrite Hf, Hn. rewrite decide_False by tauto.
  apply (verify_seq_none H sigok cache (n_sender note)) in Hct.
  destruct (VerifySeq H sigok cache (n_sender note) (encNote (set_scert note None)) (n_scert note)) as [[?|] cache'] eqn:Ev; [done|].
  unfold Status.intoDirectCallResponse. rewrite Hr, errToRpcErr_spec. destruct (sign_one_ok H sign sk (encNote note)) as (ct & -> & Hsig & Hv).
  exists (mkSD (set_rcert note (Some ct)) (SError (mkStatus (code_of e) (text_of e)))). split.
  - unfold direct_sendable, status_sendable. cbn [sd_result sd_note]. replace (n_uuid (set_rcert note (Some ct))) with (n_uuid note) by done.
    cbn [st_msg]. rewrite He, Hu. cbn. by destruct (stream sk (n_sender note) post) as [[? ?] ?].
  - unfold dispatch. cbn [sd_note sd_result].
    assert ((VerifySeq H sigok ccache (pub sk) (encNote (set_rcert (set_rcert note (Some ct)) None)) (n_rcert (set_rcert note (Some ct)))).1 = None) as ->.
    { apply verify_seq_none. exists ct. split; [done|]. replace (set_rcert (set_rcert note (Some ct)) None) with (set_rcert note None) by done.
      rewrite Hnote. split; [exact Hv|]. right. by rewrite Hsig. }
    unfold status_Err, codes_OK. by rewrite decide_False.
Qed.
End direct.

(** The hypotheses are met: the handler fails with the byte 255 as text on an empty payload, and with the code
    NotFound on the payload 42; the calls before and after succeed. *)
Definition srun (h : nat) (u : string) (b : bytes) : goerror + (byte * byte) :=
  if decide (b = []) then inl (EOther bad_text)
  else if decide (b = [Byte.x42]) then inl (EStatus (mkStatus 5 "no such key"))
  else if decide (b = [Byte.x43]) then inl (EStatus (mkStatus 0 "fine"))
  else inr (N2b (N.of_nat (length b)), default Byte.x00 (head b)).
Notation sdrive l := (Status.direct_stream toyH tsign tsigok tnote srun (λ v, Some (tenc v)) dfind Byte.x06 (tpub Byte.x05) l).
Example C121_direct_example :
  let '(ran, resps, e) := sdrive [(∅, dreq "/S/Do" [Byte.x41]); (∅, dreq "/S/Do" [Byte.x42]); (∅, dreq "/S/Do" []); (∅, dreq "/S/Do" [Byte.x41])] in
  length ran = 3 ∧ sd_result <$> resps = [SPayload (tenc (Byte.x01, Byte.x41)); SError (mkStatus 5 "no such key")] ∧ e = Some Internal.
Proof. vm_compute. done. Qed.

(** ** C122: the client *)
Section client.
Context (H : bytes → digest) (sigok : bytes → digest → bytes → bool) (encNote : Note → bytes).
Notation verdict := (validate H sigok encNote).
(** [note] carries a certificate of [server]: *)
Notation certified cache server note := ((VerifySeq H sigok cache server (encNote (set_rcert note None)) (n_rcert note)).1 = None).

(** The responses a robust call counts as good: those with a certified note and no error - and those whose
    first error status has the code OK, whatever else they hold. *)
Theorem C122_accepted_iff cache server r :
  (∃ cache', verdict cache server r = Ok (None, cache')) ↔
  (∃ m, sr_error r = Some (mkStatus 0 m)) ∨
  (sr_error r = None ∧ ∃ resp, sr_resp r = Some resp ∧
    ((∃ m, sc_error resp = Some (mkStatus 0 m)) ∨
     (sc_error resp = None ∧ ∃ note, sc_note resp = Some note ∧ certified cache server note))).
Proof using Type.
  destruct r as [resp [[k m]|] u]; cbn.
  { unfold status_Err, codes_OK. cbn. split.
    - intros (c & E). case_decide as Hk; [subst|done]. left. by eexists.
    - intros [[m' [= -> ->]]|[? _]]; [|done]. by eexists. }
  destruct resp as [[b [[k m]|] pk note]|]; cbn.
  - unfold status_Err, codes_OK. cbn. split.
    + intros (c & E). case_decide as Hk; [subst|done]. right. split; [done|]. eexists. split; [done|]. left. cbn. by eexists.
    + intros [[? ?]|[_ (resp & [= <-] & [[m' [= -> ->]]|[? _]])]]; [done| |done]. by eexists.
  - destruct note as [note|].
    + destruct (VerifySeq _ _ _ _ _ _) as [[e|] c'] eqn:E; cbn.
      * split; [by intros (? & ?)|]. intros [[? ?]|[_ (resp & [= <-] & [[? ?]|[_ (note' & [= <-] & Hv)]])]]; [done..|]. by rewrite E in Hv.
      * split; [|by eexists]. intros _. right. split; [done|]. eexists. split; [done|]. right. split; [done|]. exists note. by rewrite E.
    + split; [by intros (? & ?)|]. intros [[? ?]|[_ (resp & [= <-] & [[? ?]|[_ (note' & ? & _)]])]]; done.
  - split; [by intros (? & ?)|]. intros [[? ?]|[_ (resp & ? & _)]]; done.
Qed.
(** So any relay, and any server, can have its response counted without a signature. *)
Corollary C122_unsigned cache server body pk note m u : 
  verdict cache server (mkSR (Some (mkSC body (Some (mkStatus 0 m)) pk note)) None u) = Ok (None, cache) ∧
  verdict cache server (mkSR None (Some (mkStatus 0 m)) u) = Ok (None, cache).
Proof using Type. done. Qed.

(** With the codes that the rest of the model has, the verdicts are those of Model/Robust.v, with texts. *)
Definition same_status (e : option code) (s : option status) : Prop :=
  match e, s with
  | None, None => True
  | Some e, Some s => st_code s = code_number e
  | _, _ => False
  end.
Definition same_call (r : CallStreamResponse) (r' : SCallResponse) : Prop :=
  same_status (cr_error r) (sc_error r') ∧ cr_note r = sc_note r'.
Definition same_response (r : RelayStreamResponse) (r' : SRelayResponse) : Prop :=
  same_status (rr_error r) (sr_error r') ∧
  match rr_resp r, sr_resp r' with
  | None, None => True
  | Some r, Some r' => same_call r r'
  | _, _ => False
  end.
Lemma code_number_nz e : code_number e ≠ 0%Z. Proof using Type. by destruct e. Qed.
Lemma same_status_Err e s : same_status (Some e) (Some s) → same_status (Some e) (status_Err s).
Proof using Type.
  cbn. intros Es. unfold status_Err, codes_OK. rewrite decide_False; [done|]. rewrite Es. apply code_number_nz.
Qed.
Theorem C122_otherwise cache server r r' : same_response r r' →
  match validateRrpcResponse H sigok encNote cache server r, verdict cache server r' with
  | Ok (e, c), Ok (s, c') => same_status e s ∧ c = c'
  | Panic, Panic => True
  | _, _ => False
  end.
Proof using Type.
  intros [He Hr]. unfold validateRrpcResponse, validate.
  destruct (rr_error r) as [e|], (sr_error r') as [s|]; try done.
  { split; [|done]. by apply same_status_Err. }
  destruct (rr_resp r) as [resp|], (sr_resp r') as [resp'|]; try done. destruct Hr as [He' Hn].
  destruct (cr_error resp) as [e|], (sc_error resp') as [s|]; try done.
  { split; [|done]. by apply same_status_Err. }
  rewrite <- Hn. destruct (cr_note resp) as [note|]; [|done]. 
  destruct (VerifySeq H sigok cache server (encNote (set_rcert note None)) (n_rcert note)) as [[e|] c']; done.
Qed.

(** *** What the robust call does with an accepted response that has no body *)
Lemma decode_panic c out arr r : r ∈ out → (∀ resp, sr_resp r = Some resp → sc_resp resp = None) → decode c out arr = Panic.
Proof using Type.
  intros Hin Hr. unfold decode. 
  assert (mapM (λ r, resp ← sr_resp r; sc_resp resp) out = None) as ->; [|done].
  induction out as [|x out IH]; [by apply elem_of_nil in Hin|]. cbn. apply elem_of_cons in Hin as [<-|Hin].
  - destruct (sr_resp r) as [resp|]; cbn; [|done]. by rewrite (Hr resp).
  - rewrite (IH Hin). by destruct (x0 ← sr_resp x; sc_resp x0).
Qed.
(** One accepted response without a body among those that come before the quorum is full - from any one relay
    - and the call cannot succeed: if it is not ended by errors, the client panics. *)
Theorem C122_crash {E : Type} nt n tau (pre post : list (SRelayResponse * option E)) r out c arr : quorum_net nt n tau →
  length (oks pre) < quorum n tau → (∀ resp, sr_resp r = Some resp → sc_resp resp = None) →
  robust_call nt (pre ++ (r, None) :: post) = RDone out →
  r ∈ out ∧ decode c out arr = Panic.
Proof using Type.
  intros Hq Hpre Hr Hd. pose proof (robust_call_cases nt n tau (pre ++ (r, None) :: post) Hq) as Hc. rewrite Hd in Hc.
  destruct Hc as (pre' & r' & rest & Heq & -> & Hlen & _).
  assert (r ∈ oks pre' ++ [r']) as Hin; [|split; [done|by eapply decode_panic]].
  rewrite elem_of_app, elem_of_list_singleton.
  destruct (Nat.lt_trichotomy (length pre') (length pre)) as [Hlt|[Hl|Hlt]].
  - exfalso. destruct (app_split _ _ _ _ _ _ Heq ltac:(lia)) as [w Hp]. rewrite Hp, oks_app, app_length, oks_ok in Hpre. cbn in Hpre. lia.
  - right. symmetry in Hl. apply (app_inj_1 _ _ _ _ Hl) in Heq as [_ Heq]. by simplify_eq.
  - left. destruct (app_split _ _ _ _ _ _ (eq_sym Heq) ltac:(lia)) as [w ->]. rewrite oks_app, oks_ok, elem_of_app. right. by left.
Qed.

(** *** A handler's error in a robust call, as every relay hands it on *)
Definition relayed (r : SCallResponse) : SRelayResponse := mkSR (Some r) None (from_option n_uuid "" (sc_note r)).
(** With the code OK: the client panics as soon as it has a quorum. *)
Theorem C122_handler cache server nt n tau pk note certs e c arr : quorum_net nt n tau → length certs = n →
  code_of e = 0%Z →
  ∃ out, robust_call nt ((λ r, (relayed r, match verdict cache server (relayed r) with Ok (v, _) => v | _ => None end)) <$>
           error_responses pk note certs e) = RDone out ∧ decode c out arr = Panic.
Proof using Type.
  intros Hq Hlen Hcode.
  set (l := (λ r, (relayed r, match verdict cache server (relayed r) with Ok (v, _) => v | _ => None end)) <$> error_responses pk note certs e).
  assert (length l = n) as Hl by (unfold l, error_responses; by rewrite !fmap_length).
  assert (∀ x, x ∈ l → x.2 = None ∧ (∀ resp, sr_resp x.1 = Some resp → sc_resp resp = None)) as Hall.
  { intros x (r & -> & Hr)%elem_of_list_fmap. apply elem_of_list_fmap in Hr as (ct & -> & _). rewrite errToRpcErr_spec. cbn.
    unfold status_Err, codes_OK. rewrite decide_True by done. split; [done|]. by intros ? [= <-]. }
  assert (errs l = []) as Hne.
  { clear -Hall. induction l as [|[r [x|]] l IH]; [done| |].
    - destruct (Hall (r, Some x)) as [? _]; [left|done].
    - cbn. apply IH. intros y Hy. apply Hall. by right. }
  assert (length (oks l) = n) as Hok by (pose proof (oks_errs l) as X; rewrite Hne in X; cbn in X; lia).
  pose proof (robust_call_cases nt n tau l Hq) as Hc. destruct Hq as (Hq1 & Hq2 & Hq3 & Hq4).
  destruct (robust_call nt l) as [|out|x| | |] eqn:El; try done.
  - exfalso. unfold quorum in Hc. lia.
  - exists out. split; [done|]. destruct Hc as (pre & r & rest & Heq & -> & _).
    apply (decode_panic c _ arr r); [rewrite elem_of_app, elem_of_list_singleton; by right|].
    apply (Hall (r, None)). rewrite Heq, elem_of_app. right. by left.
  - exfalso. destruct Hc as (pre & r & rest & Heq & _). destruct (Hall (r, Some x)) as [? _]; [|done]. rewrite Heq, elem_of_app. right. by left.
Qed.
(** With another code: the call fails with the handler's code and text. *)
Theorem C122_error_arrives cache server nt n tau pk note certs e : quorum_net nt n tau → length certs = n →
  code_of e ≠ 0%Z →
  robust_call nt ((λ r, (relayed r, match verdict cache server (relayed r) with Ok (v, _) => v | _ => None end)) <$>
           error_responses pk note certs e) = RErr (mkStatus (code_of e) (text_of e)).
Proof using Type.
  intros Hq Hlen Hcode.
  set (l := (λ r, (relayed r, match verdict cache server (relayed r) with Ok (v, _) => v | _ => None end)) <$> error_responses pk note certs e).
  assert (length l = n) as Hl by (unfold l, error_responses; by rewrite !fmap_length).
  assert (∀ x, x ∈ l → x.2 = Some (mkStatus (code_of e) (text_of e))) as Hall.
  { intros x (r & -> & Hr)%elem_of_list_fmap. apply elem_of_list_fmap in Hr as (ct & -> & _). rewrite errToRpcErr_spec. cbn.
    unfold status_Err, codes_OK. by rewrite decide_False by done. }
  assert (oks l = []) as Hno.
  { clear -Hall. induction l as [|[r [x|]] l IH]; [done| |].
    - cbn. apply IH. intros y Hy. apply Hall. by right.
    - pose proof (Hall (r, None)) as Hx. by discriminate Hx; left. }
  assert (length (errs l) = n) as Hok by (pose proof (oks_errs l) as X; rewrite Hno in X; cbn in X; lia).
  pose proof (robust_call_cases nt n tau l Hq) as Hc. destruct Hq as (Hq1 & Hq2 & Hq3 & Hq4).
  destruct (robust_call nt l) as [|out|x| | |] eqn:El; try done.
  - exfalso. lia.
  - exfalso. destruct Hc as (pre & r & rest & Heq & _). pose proof (Hall (r, None)) as Hx. discriminate Hx. rewrite Heq, elem_of_app. right. by left.
  - destruct Hc as (pre & r & rest & Heq & _). pose proof (Hall (r, Some x)) as Hx. f_equal.
    assert (Some x = Some (mkStatus (code_of e) (text_of e))) as [= ->]; [|done]. apply Hx. rewrite Heq, elem_of_app. right. by left.
Qed.

(** *** Direct calls *)
(** A direct call whose handler's error has the code OK returns nil and leaves Reply as it was. *)
Theorem C122_direct {Rep : Type} (unmarshal : bytes → Rep → option Rep) cache server note m old : certified cache server note →
  dispatch H sigok encNote unmarshal cache server (mkSD note (SError (mkStatus 0 m))) old = (None, old).
Proof using Type. intros Hc. unfold dispatch. cbn [sd_note sd_result]. by rewrite Hc. Qed.
End client.

(** The hypotheses are met: three relays, threshold two (a quorum is two responses).  A relay answers with the
    code OK first; then the rest is genuine. *)
Definition ok_resp : SRelayResponse := mkSR (Some (mkSC None (Some (mkStatus 0 "fine")) [] None)) None "u".
Definition body_resp : SRelayResponse := mkSR (Some (mkSC (Some (mkResp [] 0 [])) None [] (Some ex_note))) None "u".
Definition verdicts (l : list SRelayResponse) : list (SRelayResponse * option status) :=
  (λ r, (r, match validate toyH (λ _ _ _, false) tnote ∅ [Byte.x06] r with Ok (v, _) => v | _ => None end)) <$> l.
Example C122_crash_example :
  quorum_net (NewNetworkData C48_cfg) 3 2 ∧ quorum 3 2 = 2 ∧
  robust_call (NewNetworkData C48_cfg) ([(body_resp, None)] ++ (ok_resp, None) :: [(body_resp, @None status)]) = RDone [body_resp; ok_resp] ∧
  (* no signature is accepted at all, and two relays together make the call succeed - and the client panic *)
  robust_call (NewNetworkData C48_cfg) (verdicts [body_resp; body_resp; ok_resp]) = RErr (own_error Unknown) ∧
  robust_call (NewNetworkData C48_cfg) (verdicts [body_resp; ok_resp; ok_resp]) = RDone [ok_resp; ok_resp].
Proof.
  split_and!; try (by vm_compute).
  split_and!; try (by vm_compute); try lia. apply (bool_decide_unpack _). by vm_compute.
Qed.
(** A handler that returns the code OK with an error, in a direct call: the client's call returns nil. *)
Example C122_direct_example :
  match sdrive [(∅, dreq "/S/Do" [Byte.x43])] with
  | (_, [resp], None) => sd_result resp = SError (mkStatus 0 "fine") ∧
      dispatch toyH tsigok tnote (λ b (_ : bytes), Some b) ∅ [Byte.x06] resp [Byte.x99] = (None, [Byte.x99])
  | _ => False
  end.
Proof. vm_compute. done. Qed.

Print Assumptions C121_utf8_is_safe.
Print Assumptions C121_never_sent.
Print Assumptions C121_crash.
Print Assumptions C121_direct.
Print Assumptions C121_direct_arrives.
Print Assumptions C122_accepted_iff.
Print Assumptions C122_unsigned.
Print Assumptions C122_otherwise.
Print Assumptions C122_crash.
Print Assumptions C122_handler.
Print Assumptions C122_error_arrives.
Print Assumptions C122_direct.
