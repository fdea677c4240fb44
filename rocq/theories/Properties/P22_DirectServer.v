(** C68, C69: direct calls on the server. *)
From stdpp Require Import gmap.
From Verif.Base Require Import Base.
From Verif.Model Require Import Merkle Ecc Robust Network DirectServer.
From Verif.Properties Require Import P06_Merkle P14_Ecc P18_Robust.
From Verif.Proofs Require Import RobustCall.

Section direct.
Context (H : bytes → digest) {SK : Type} (sign : SK → digest → bytes) (pub : SK → bytes)
        (sigok : bytes → digest → bytes → bool).
Context (encNote : Note → bytes).
Context {V hnd : Type} (run : hnd → string → bytes → code + V) (enc : V → option bytes).
Context (find : string → option hnd).
Context {Rep : Type} (unmarshal : bytes → Rep → option Rep).

Notation stream := (direct_stream H sign sigok encNote run enc find).
Notation one := (direct1 H sign sigok encNote run enc find).
Notation request := (direct_request H sign pub encNote).
Notation client_gets := (dispatch H sigok encNote unmarshal).

Notation signs := (P18_Robust.signs sign pub sigok).

(** A request of the client with key [client] for method handler h: the method is registered, the note
    names the client as its sender, and the note's certificate is one of a tree whose root the client
    signed, or that was accepted before. *)
Definition genuine (client : bytes) (cache : gset digest) (rq : DirectRequest) (h : hnd) (note : Note) : Prop :=
  find (dq_method rq) = Some h ∧ dq_note rq = Some note ∧ n_sender note = client ∧
  ∃ ct, n_scert note = Some ct ∧
    Verify H (ct_root ct) {[ct_index ct := encNote (set_scert note None)]} (ct_path ct) = true ∧
    (ct_root ct ∈ cache ∨ sigok client (ct_root ct) (ct_sig ct) = true).

Lemma verify_seq_none cache pk s oct : (VerifySeq H sigok cache pk s oct).1 = None ↔
  ∃ ct, oct = Some ct ∧ Verify H (ct_root ct) {[ct_index ct := s]} (ct_path ct) = true ∧
    (ct_root ct ∈ cache ∨ sigok pk (ct_root ct) (ct_sig ct) = true).
Proof using Type.
  destruct oct as [ct|]; [|split; [done|]; intros (ct & [=] & _)].
  destruct (Verify H (ct_root ct) {[ct_index ct := s]} (ct_path ct)) eqn:E.
  - rewrite (VerifySeq_iff H sigok cache pk s ct E). split; [intros; by exists ct|]. intros (? & [= <-] & _ & ?). done.
  - unfold VerifySeq. rewrite E. split; [done|]. intros (? & [= <-] & Hx & _). congruence.
Qed.
Lemma sign_one_ok sk s : ∃ ct, sign_one H sign sk s = Some ct ∧ ct_sig ct = sign sk (ct_root ct) ∧
  Verify H (ct_root ct) {[ct_index ct := s]} (ct_path ct) = true.
Proof using Type.
  destruct (sign_strs_ok H sign sk [s]) as (cs & Hcs & Hl & Hall); [simpl; lia|].
  destruct (Hall 0 s eq_refl) as (ct & Hct & _ & Hsig & Hv). unfold sign_one. rewrite Hcs.
  destruct cs as [|ct0 [|]]; simplify_eq/=. by exists ct.
Qed.

(** ** C68 *)

(** What one request does: nothing runs and the stream ends unless it is genuine; if it is, its handler
    runs once on its call id and payload, and the answer is the handler's result with the note the server
    signed. *)
Theorem C68_runs sk client cache rq ran out cache' : one sk client cache rq = (ran, out, cache') →
  match ran with
  | None => (∀ h note, ¬ genuine client cache rq h note) ∧ ∃ e, out = inl e
  | Some (h, u, b) => b = dq_payload rq ∧ ∃ note, genuine client cache rq h note ∧ n_uuid note = u ∧
      match run h u b with
      | inl e => ∃ ct, out = inr (mkDResp (set_rcert note (Some ct)) (DError e))
      | inr v => match enc v with
                 | Some p => ∃ ct, out = inr (mkDResp (set_rcert note (Some ct)) (DPayload p))
                 | None => out = inl Internal
                 end
      end
  end.
Proof using Type.
  unfold direct1. destruct (find (dq_method rq)) as [h|] eqn:Ef; [|intros [= <- <- <-]; split; [|by eexists]; intros h note (? & _); congruence].
  destruct (dq_note rq) as [note|] eqn:En; [|intros [= <- <- <-]; split; [|by eexists]; intros h0 note (_ & ? & _); congruence].
  case_decide as Hd. { intros [= <- <- <-]; split; [|by eexists]. intros h0 note0 (_ & ? & ? & _). congruence. }
  pose proof (verify_seq_none cache (n_sender note) (encNote (set_scert note None)) (n_scert note)) as Hv.
  destruct (VerifySeq H sigok cache (n_sender note) (encNote (set_scert note None)) (n_scert note)) as [[e|] cache1] eqn:Ev.
  { intros [= <- <- <-]. split; [|by eexists]. intros h0 note0 (_ & E0 & E1 & Hct). simplify_eq. apply Hv in Hct. done. }
  simpl in Hv. assert (genuine client cache rq h note) as Hg.
  { split_and!; [done|done|done|]. rewrite Hd. by apply Hv. }
  destruct (sign_one_ok sk (encNote note)) as (ct & Hs & _). unfold intoDirectCallResponse.
  destruct (run h (n_uuid note) (dq_payload rq)) as [e|v] eqn:Er.
  - rewrite Hs. intros [= <- <- <-]. split; [done|]. exists note. split; [done|]. split; [done|]. rewrite Er. by eexists.
  - destruct (enc v) as [p|] eqn:Ep; cbn [fmap option_fmap option_map]; [rewrite Hs|]; intros [= <- <- <-]; (split; [done|]); exists note;
      (split; [done|]); (split; [done|]); rewrite Er, Ep; [by eexists|done].
Qed.

(** On a stream, the requests are handled one by one, the answers go out in the order of the requests, and
    the first that gets none ends the stream: what comes later is neither run nor answered. *)
Theorem C68_stream sk client l rans resps e : stream sk client l = (rans, resps, e) →
  ∃ k, k ≤ length l ∧ length resps = k ∧
    (∀ i resp, resps !! i = Some resp → ∃ cache ok rq ran cache', l !! i = Some (cache, ok, rq) ∧
       one sk client cache rq = (Some ran, inr resp, cache') ∧ rans !! i = Some ran) ∧
    match e with
    | None => k = length l ∧ length rans = k
    | Some e => ∃ cache ok rq ran out cache', l !! k = Some (cache, ok, rq) ∧
        one sk client cache rq = (ran, out, cache') ∧ (out = inl e ∨ e = Internal ∧ ok = false) ∧
        drop k rans = option_list ran
    end.
Proof using Type.
  revert rans resps e. induction l as [|[[cache ok] rq] l IH]; intros rans resps e.
  { intros [= <- <- <-]. exists 0. simpl. split_and!; try done. }
  cbn [direct_stream]. destruct (one sk client cache rq) as [[ran out] cache'] eqn:E.
  pose proof (C68_runs _ _ _ _ _ _ _ E) as Hr.
  destruct out as [e0|resp].
  { intros [= <- <- <-]. exists 0. split; [lia|]. split; [done|]. split; [by intros i resp|].
    exists cache, ok, rq, ran, (inl e0), cache'. split_and!; try done. by left. }
  destruct ran as [[[h u] b]|]; [|destruct Hr as [_ [? ?]]; done].
  destruct ok.
  - destruct (stream sk client l) as [[rans0 resps0] e0] eqn:El. intros [= <- <- <-].
    destruct (IH _ _ _ eq_refl) as (k & Hk & Hlen & Hall & Hend). exists (S k). simpl. split; [lia|]. split; [lia|]. split.
    + intros [|i] resp0 Hi; simpl in Hi.
      * injection Hi as <-. by exists cache, true, rq, (h, u, b), cache'.
      * apply Hall in Hi as (? & ? & ? & ? & ? & ?). eauto 10.
    + destruct e0; simpl; [done|lia].
  - intros [= <- <- <-]. exists 0. split; [lia|]. split; [done|]. split; [by intros i resp0|].
    exists cache, false, rq, (Some (h, u, b)), (inr resp), cache'. split_and!; try done. by right.
Qed.

(** A client's own request: accepted by the server whatever was cached, run on its id and arguments, and
    the client gets what the handler returned. *)
Theorem C68_honest csk ssk m u margs h cache1 : signs csk → signs ssk → find m = Some h →
  ∃ rq, request csk (pub ssk) m u margs = Some rq ∧
  ∀ ran out cache', one ssk (pub csk) cache1 rq = (ran, out, cache') → ran = Some (h, u, margs) ∧
    ∀ resp, out = inr resp → ∀ cache2 old,
      client_gets cache2 (pub ssk) resp old =
        match run h u margs with
        | inl e => (Some (ERpc e), old)
        | inr v => match enc v ≫= λ p, unmarshal p old with Some r => (None, r) | None => (Some EUnpack, old) end
        end.
Proof using Type.
  intros Hc Hs Hf. unfold direct_request. set (note0 := mkNote (pub csk) (pub ssk) u None None).
  destruct (sign_one_ok csk (encNote note0)) as (ct & Hct & Hsig & Hv). rewrite Hct. eexists. split; [done|].
  intros ran out cache' E. pose proof (C68_runs _ _ _ _ _ _ _ E) as Hr.
  assert (genuine (pub csk) cache1 (mkDReq m margs (Some (set_scert note0 (Some ct)))) h (set_scert note0 (Some ct))) as Hg.
  { split_and!; try done. exists ct. split; [done|]. split; [done|]. right. rewrite Hsig. apply Hc. }
  destruct ran as [[[h' u'] b']|]; [|by destruct Hr as [Hn _]; destruct (Hn _ _ Hg)].
  destruct Hr as (-> & note & (Hf' & Hn' & Hg') & Hu & Hout). simpl in *. injection Hn' as <-. assert (h' = h) as -> by congruence.
  simpl in Hu. subst u'. split; [done|]. intros resp -> cache2 old.
  assert (∃ ct', ds_note resp = set_rcert (set_scert note0 (Some ct)) (Some ct') ∧
     ds_result resp = match run h u margs with inl e => DError e | inr v => match enc v with Some p => DPayload p | None => DUnset end end ∧
     sign_one H sign ssk (encNote (set_scert note0 (Some ct))) = Some ct' ∧
     (∀ v, run h u margs = inr v → is_Some (enc v))) as (ct' & En & Er & Es & Hsome).
  { clear -E Hout. unfold direct1 in E. cbn [dq_method dq_note dq_payload set_scert n_uuid n_sender n_scert note0] in E. destruct (find m); [|done]. case_decide; [done|].
    destruct (VerifySeq _ _ _ _ _ _) as [[|] ?]; [done|]. destruct (intoDirectCallResponse _ _) as [res|] eqn:Ei; [|done].
    destruct (sign_one _ _ _ _) as [ct'|] eqn:Es; [|done]. injection E as E1 E2 E3. exists ct'.
    subst resp. simpl. split; [done|]. unfold intoDirectCallResponse in Ei. simpl in *. subst.
    destruct (run h u margs) as [e|v] eqn:Er.
    - simplify_eq. split_and!; try done.
    - destruct (enc v) eqn:Ee; [|done]. simplify_eq/=. split_and!; try done. intros v' [= <-]. rewrite Ee. by eexists. }
  destruct (sign_one_ok ssk (encNote (set_scert note0 (Some ct)))) as (ct2 & Hct2 & Hsig2 & Hv2). assert (ct2 = ct') as -> by congruence.
  unfold dispatch. rewrite En, Er. cbn [n_rcert set_rcert].
  assert ((VerifySeq H sigok cache2 (pub ssk) (encNote (set_rcert (set_rcert (set_scert note0 (Some ct)) (Some ct')) None)) (Some ct')).1 = None) as ->.
  { apply verify_seq_none. exists ct'. split; [done|]. split; [exact Hv2|]. right. rewrite Hsig2. apply Hs. }
  destruct (run h u margs) as [e|v]; [done|]. destruct (Hsome _ eq_refl) as [p ->]. done.
Qed.

(** ** C69 *)

(** The note is all that is signed. With the note of a genuine request, any registered method runs on any
    payload, again and again, on any stream that claims the client's address. *)
Theorem C69_any_request sk client cache rq h note m' h' b' : genuine client cache rq h note → find m' = Some h' →
  ∃ out cache', one sk client cache (mkDReq m' b' (Some note)) = (Some (h', n_uuid note, b'), out, cache').
Proof using Type.
  intros (Hf & Hn & Hs & Hct) Hf'.
  destruct (one sk client cache (mkDReq m' b' (Some note))) as [[ran out] cache'] eqn:E.
  pose proof (C68_runs _ _ _ _ _ _ _ E) as Hr.
  assert (genuine client cache (mkDReq m' b' (Some note)) h' note) as Hg by done.
  destruct ran as [[[h0 u0] b0]|].
  - destruct Hr as (-> & note0 & (Hf0 & Hn0 & _) & <- & _). simpl in *. exists out, cache'. by simplify_eq.
  - by destruct Hr as [Hno _]; destruct (Hno _ _ Hg).
Qed.
(** The caller of a stream is whom its metadata names. *)
Theorem C69_claimed_caller sk n ip pk l : GetPublicKey n ip = Ok pk →
  DirectCall H sign sigok encNote run enc find sk n (Some [ip]) l = Ok (stream sk pk l).
Proof using Type. intros Hk. unfold DirectCall. simpl. by rewrite Hk. Qed.
(** The notes of a robust call serve as well: who relays one parcel of a client can have any server run any
    registered method on any payload in the client's name. *)
Theorem C69_from_relayed_parcel encParcel c (laws : rs_laws c) sk client_sk n srv m u margs arr ps i p cache m' h' b' :
  signs client_sk → n ≤ rs_k c + rs_m c → (N.of_nat (2 * n) ≤ 2 ^ 64)%N → (N.of_nat (length margs) < 2 ^ 32)%N → all_answers arr →
  RobustCall_parcels H sign pub encNote encParcel c n client_sk srv m u margs arr = Some ps → ps !! i = Some p → find m' = Some h' →
  ∃ out cache', one sk (pub client_sk) cache (mkDReq m' b' (Some (p_note p))) = (Some (h', u, b'), out, cache').
Proof using Type.
  intros Hc Hn H2n Hlen Harr Hsent Hp Hf.
  destruct (parcels_ok H sign pub encNote encParcel c laws n client_sk srv m u margs arr Hn H2n Hlen Harr)
    as (shards & sps & root & _ & _ & _ & Hs & _ & Hall). rewrite Hsent in Hs. injection Hs as <-.
  destruct (Hall _ _ Hp) as (pl & ct1 & ct2 & _ & Ep & _ & Hr & _ & Hsig & _ & Hv).
  assert (p_note p = mkNote (pub client_sk) srv u (Some ct2) None) as En by by rewrite Ep.
  rewrite En in Hv |- *. apply (C69_any_request sk (pub client_sk) cache (mkDReq m' b' (Some (mkNote (pub client_sk) srv u (Some ct2) None))) h' (mkNote (pub client_sk) srv u (Some ct2) None) m' h' b'); [|done].
  split_and!; try done. exists ct2. rewrite Hr, Hsig. split; [done|]. split; [exact Hv|]. right. apply Hc.
Qed.

(** A response whose payload was changed, or dropped, on its way is accepted. *)
Theorem C69_any_reply cache server note res p old :
  (client_gets cache server (mkDResp note res) old).1 = None →
  client_gets cache server (mkDResp note (DPayload p)) old =
    match unmarshal p old with Some r => (None, r) | None => (Some EUnpack, old) end ∧
  client_gets cache server (mkDResp note DUnset) old = (None, old).
Proof using Type.
  unfold dispatch. simpl. destruct (VerifySeq H sigok cache server (encNote (set_rcert note None)) (n_rcert note)).1; [done|]. done.
Qed.
End direct.

(** ** The hypotheses are met: one registered method, whose handler returns the length and the first byte of
    its arguments. *)
Definition dfind (m : string) : option nat := if String.eqb m "/S/Do" then Some 7 else None.
Definition drun (h : nat) (u : string) (b : bytes) : code + (byte * byte) :=
  if decide (b = []) then inl InvalidArgument else inr (N2b (N.of_nat (length b)), default Byte.x00 (head b)).
Definition dreq (m : string) (b : bytes) : DirectRequest :=
  default (mkDReq "" [] None) (direct_request toyH tsign tpub tnote Byte.x05 (tpub Byte.x06) m "u" b).
Notation drive l := (direct_stream toyH tsign tsigok tnote drun (λ v, Some (tenc v)) dfind Byte.x06 (tpub Byte.x05) l).
(** C68: two good calls, one that fails, one to an unknown method; the last request is lost. *)
Example C68_example : let '(rans, resps, e) :=
    drive [(∅, true, dreq "/S/Do" [Byte.x41]); (∅, true, dreq "/S/Do" []); (∅, true, dreq "/S/Gone" [Byte.x41]); (∅, true, dreq "/S/Do" [Byte.x42])] in
  rans = [(7, "u", [Byte.x41]); (7, "u", [])] ∧ ds_result <$> resps = [DPayload [Byte.x01; Byte.x41]; DError InvalidArgument] ∧ e = Some Unknown.
Proof. vm_compute. done. Qed.
(** C69: the note of the first call with other arguments. *)
Example C69_example : let '(rans, resps, e) :=
    drive [(∅, true, dreq "/S/Do" [Byte.x41]); (∅, true, mkDReq "/S/Do" [Byte.x43; Byte.x44] (dq_note (dreq "/S/Do" [Byte.x41])))] in
  rans = [(7, "u", [Byte.x41]); (7, "u", [Byte.x43; Byte.x44])] ∧ length resps = 2 ∧ e = None.
Proof. vm_compute. done. Qed.
