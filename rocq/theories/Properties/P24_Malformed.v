(** C76: one malformed message crashes the process that decodes it. *)
From stdpp Require Import gmap vector.
From Verif.Base Require Import Base.
From Verif.Model Require Import Merkle Ecc Robust.
From Verif.Spec Require Import RobustSpec.
From Verif.Properties Require Import P14_Ecc P17_Collector P18_Robust.
From Verif.Proofs Require Import RobustProofs RobustCall.

(** ** Specification.  A message that can be decoded: its relay index is one of the width relays, and it has
    a piece for each of the 36 chunks. *)
Definition fits (width : nat) (index : Z) (payload : list shard) : Prop :=
  (0 ≤ index < Z.of_nat width)%Z ∧ 36 ≤ length payload.
Global Instance fits_dec width index payload : Decision (fits width index payload).
Proof. unfold fits. apply _. Defined.
Definition fits_response (width : nat) (r : CallStreamResponse) : Prop :=
  match cr_resp r with Some x => fits width (r_index x) (r_payload x) | None => False end.
(** The message length, taken from the first message, has its 4 bytes. *)
Definition has_length (r : CallStreamResponse) : Prop :=
  match cr_resp r with Some x => 4 ≤ length (r_len x) | None => False end.

Section malformed.
Context (c : rs_code).
Notation width := (rs_k c + rs_m c).

Lemma put_all_None ps (sh : list (list shard)) : length sh = 36 →
  (put_all c ps sh = None ↔ ∃ x, x ∈ ps ∧ ¬ fits width x.1 x.2).
Proof.
  revert sh. induction ps as [|[i pl] ps IH]; intros sh Hl; cbn [put_all].
  { split; [done|]. intros (x & Hx & _). by apply elem_of_nil in Hx. }
  destruct (PutIntoShards c i pl sh) as [sh'|] eqn:E; cbn.
  - pose proof (put_lookup _ _ _ _ _ E) as [Hl' _]. rewrite IH by lia.
    unfold PutIntoShards in E. case_decide as Hd; [|done]. split.
    + intros (x & Hx & Hn). exists x. split; [by right|done].
    + intros (x & Hx & Hn). apply elem_of_cons in Hx as [->|Hx]; [|eauto]. exfalso. apply Hn. split; cbn; [tauto|lia].
  - split; [intros _|done]. exists (i, pl). split; [by left|]. intros [H1 H2]. cbn in *.
    unfold PutIntoShards in E. rewrite decide_True in E; [done|]. split; [done|lia].
Qed.

Lemma decode_safe (sh : list (list shard)) arr todo data : length sh = 36 → (∀ i, Some i ∈ arr → i < 36) →
  decode_loop c sh arr todo data ≠ Panic.
Proof.
  intros Hl. revert arr data. induction todo as [|todo IH]; intros arr data Ha; destruct arr as [|[i|] arr]; cbn [decode_loop]; try done.
  destruct (segment _ _) as [a b]. destruct (lookup_lt_is_Some_2 sh i) as [row ->].
  { rewrite Hl. apply Ha. by left. }
  destruct (authReconstruct _ _ _) as [ck|]; [|done]. apply IH. intros j Hj. apply Ha. by right.
Qed.

Lemma reconstruct_panic ps arr : (∀ i, Some i ∈ arr → i < 36) →
  (reconstruct_from c ps arr = Panic ↔
   ∃ it ps', ps = it :: ps' ∧ (length it.1 < 4 ∨ ∃ x, x ∈ ps ∧ ¬ fits width x.2.1 x.2.2)).
Proof.
  intros Ha. unfold reconstruct_from. destruct ps as [|[len y] ps]; [naive_solver|].
  unfold Uint32. case_decide as Hd.
  { split; [|done]. intros _. eexists _, _. split; [done|]. by left. }
  destruct (put_all c ((len, y) :: ps).*2 (NewShards c)) as [sh|] eqn:E.
  - split.
    + intros HP. exfalso. unfold AuthReconstruct in HP. apply put_all_length in E.
      assert (length sh = 36) as Hl by (rewrite E; by unfold NewShards; rewrite replicate_length).
      rewrite decide_False in HP by lia. rewrite decide_False in HP by (rewrite Hl; unfold NumChunks; lia).
      destruct (decode_loop _ _ _ _ _) eqn:Ed; cbn in HP; [|done|by eapply decode_safe].
      rewrite decide_False in HP by (unfold NumChunks; lia). done.
    + intros (it & ps' & [= <- <-] & [Hb|(x & Hx & Hn)]); [cbn in Hb; lia|]. exfalso.
      assert (put_all c ((len, y) :: ps).*2 (NewShards c) = None) as E'; [|congruence].
      apply put_all_None; [by unfold NewShards; rewrite replicate_length|].
      exists x.2. split; [by apply elem_of_list_fmap_1|done].
  - split; [|done]. intros _. eexists _, _. split; [done|]. right.
    apply put_all_None in E; [|by unfold NewShards; rewrite replicate_length].
    destruct E as (x & Hx & Hn). apply elem_of_list_fmap in Hx as (z & -> & Hz). eauto.
Qed.

(** Exactly when decoding the responses of a robust call panics (and with it the client process). *)
Theorem C76_client rs arr : (∀ i, Some i ∈ arr → i < 36) → rs ≠ [] →
  (client_reconstruct c rs arr = Panic ↔
   ¬ (Forall (fits_response width) rs ∧ from_option has_length False (head rs))).
Proof.
  intros Ha Hne. unfold client_reconstruct. destruct (mapM cr_resp rs) as [xs|] eqn:E.
  - apply mapM_Some in E. rewrite reconstruct_panic by done.
    destruct E as [|r x rs xs Hr E]; [done|]. cbn.
    assert (Forall (fits_response width) (r :: rs) ↔ ∀ y, y ∈ response_item <$> x :: xs → fits width y.2.1 y.2.2) as Hf.
    { rewrite <- (Forall_forall (λ y, fits width y.2.1 y.2.2)), Forall_fmap, !Forall_cons.
      assert (Forall (fits_response width) rs ↔ Forall ((λ y, fits width y.2.1 y.2.2) ∘ response_item) xs) as ->.
      { clear -E. induction E as [|r x rs xs Hr E IH]; [done|]. rewrite !Forall_cons, IH.
        unfold fits_response at 1. by rewrite Hr. }
      unfold fits_response. by rewrite Hr. }
    unfold has_length. rewrite Hf, Hr. cbn [fmap list_fmap] in *. split.
    + intros (it & ps' & [= <- <-] & [Hl|(y & Hy & Hn)]) [H1 H2]; [cbn in *; lia|]. by apply Hn, H1.
    + intros Hn. eexists _, _. split; [done|]. cbn.
      destruct (decide (length (r_len x) < 4)) as [|Hl]; [by left|]. right.
      destruct (decide (Forall (λ y, fits width y.2.1 y.2.2) (response_item x :: (response_item <$> xs)))) as [HF|HF].
      * exfalso. apply Hn. split; [|lia]. by apply Forall_forall.
      * apply not_Forall_Exists in HF; [|apply _]. apply Exists_exists in HF as (y & Hy & Hny). eauto.
  - split; [|done]. intros _ [HF _].
    assert (is_Some (mapM cr_resp rs)) as [? ?]; [|congruence]. apply mapM_is_Some_2.
    eapply Forall_impl; [exact HF|]. intros r Hr. unfold fits_response in Hr. unfold compose. destruct (cr_resp r); [eauto|done].
Qed.
End malformed.

Section crash.
Context (H : bytes → digest) {SK : Type} (sign : SK → digest → bytes) (pub : SK → bytes)
        (sigok : bytes → digest → bytes → bool).
Context (encNote : Note → bytes) (encParcel : Parcel → bytes).
Context {V : Type} (enc : V → bytes).
Context (c : rs_code).
Context {hnd : Type} (find : string → option hnd) (run : hnd → string → bytes → outcome code V) (ttl : Z).
Notation width := (rs_k c + rs_m c).
Notation verdict := (validateRrpcResponse H sigok encNote).
Notation served q es := (collect find (Z.of_nat q) ttl ∅ es).
Notation valid := (validateParcel H sigok encNote encParcel).
Notation serve := (runTask enc c run).

(** A relay that removes the body of a response, puts in a shorter payload or another index: the client's
    verdict is the same as for the original, and if it takes the response the client crashes. *)
Theorem C76_relay cache server u e x x' pk note :
  match x' with Some y => ¬ fits width (r_index y) (r_payload y) | None => True end →
  verdict cache server (mkRSR None (Some (mkCSR e x' pk note)) u) =
  verdict cache server (mkRSR None (Some (mkCSR e x pk note)) u) ∧
  ∀ rs arr, (∀ i, Some i ∈ arr → i < 36) → mkCSR e x' pk note ∈ rs → client_reconstruct c rs arr = Panic.
Proof using Type.
  intros Hx. split; [done|]. intros rs arr Ha Hin. apply C76_client; [done|by intros ->; apply elem_of_nil in Hin|].
  intros [HF _]. rewrite Forall_forall in HF. apply HF in Hin. unfold fits_response in Hin. cbn in Hin. by destruct x'.
Qed.

(** The server: a task with such a parcel, or with a first parcel without length, panics in the server's
    goroutine, whatever the handler. *)
Theorem C76_task (t : task hnd) old a2 a3 : (∀ i, Some i ∈ a2 → i < 36) →
  (∃ p, p ∈ t_parcels t ∧ ¬ fits width (p_index p) (p_payload p)) ∨
  (∃ p, head (t_parcels t) = Some p ∧ length (p_len p) < 4) →
  (serve t old a2 a3).1 = Panic.
Proof using Type.
  intros Ha Hp. unfold runTask.
  assert (reconstruct_from c (parcel_item <$> t_parcels t) a2 = Panic) as ->; [|done].
  apply reconstruct_panic; [done|]. destruct (t_parcels t) as [|p0 ps].
  { destruct Hp as [(p & Hp & _)|(p & Hp & _)]; [by apply elem_of_nil in Hp|done]. }
  eexists _, _. split; [done|]. destruct Hp as [(p & Hp & Hn)|(p & [= ->] & Hn)]; [right|by left].
  exists (parcel_item p). split; [by apply elem_of_list_fmap_1|done].
Qed.

(** And any client can have it so: there are parcels, signed by it, that the server accepts from each of its
    relays; as soon as q of them arrive, in any order, it panics. *)
Theorem C76_server n q ck server m u h :
  (N.of_nat (2 * n) ≤ 2 ^ 64)%N → 0 < q →
  (∀ d, sigok (pub ck) d (sign ck d) = true) → find m = Some h →
  ∃ ps, length ps = n ∧
    (∀ i p, ps !! i = Some p → p_method p = m ∧ uuid_of p = u ∧ n_receiver (p_note p) = server ∧
       ∀ cache, (valid cache i p).1 = None) ∧
    ∀ es, in_time ttl u es → (∀ p, p ∈ arrived find u es → p ∈ ps) → q ≤ length (arrived find u es) →
      ∃ t, ORun t ∈ (served q es).2 ∧ ∀ old a2 a3, (∀ i, Some i ∈ a2 → i < 36) → (serve t old a2 a3).1 = Panic.
Proof using Type.
  intros Hn Hq Hck Hf.
  set (ps0 := (λ i : nat, mkParcel m (Z.of_nat i) (mkNote (pub ck) server u None None) (le_enc 4 0) [] None) <$> seq 0 n).
  assert (length ps0 = n) as Hl0 by (unfold ps0; by rewrite fmap_length, seq_length).
  destruct (sign_strs_ok H sign ck ((encParcel <$> ps0) ++ ((λ p, encNote (p_note p)) <$> ps0))) as (cs & Hcs & Hcl & Hv).
  { rewrite app_length, !fmap_length, Hl0. lia. }
  set (root := Root _) in Hv.
  set (ps := imap (λ i p, set_sig (set_note p (set_scert (p_note p) (cs !! (length ps0 + i)))) (cs !! i)) ps0).
  assert (∀ i p, ps !! i = Some p → ∃ p0, ps0 !! i = Some p0 ∧
    p0 = mkParcel m (Z.of_nat i) (mkNote (pub ck) server u None None) (le_enc 4 0) [] None ∧
    p = set_sig (set_note p0 (set_scert (p_note p0) (cs !! (length ps0 + i)))) (cs !! i)) as Hps.
  { intros i p Hi. unfold ps in Hi. rewrite list_lookup_imap in Hi. destruct (ps0 !! i) as [p0|] eqn:E0; [|done].
    cbn in Hi. injection Hi as <-. exists p0. split; [done|]. split; [|done].
    unfold ps0 in E0. rewrite list_lookup_fmap in E0. destruct (seq 0 n !! i) as [j|] eqn:Ej; [|done].
    apply lookup_seq in Ej as [-> _]. cbn in E0. by injection E0 as <-. }
  exists ps. split; [unfold ps; by rewrite imap_length|]. split.
  - intros i p Hi. destruct (Hps i p Hi) as (p0 & Hp0 & E0 & Ep).
    destruct (Hv i (encParcel p0)) as (ct1 & Hct1 & Hr1 & Hs1 & Hv1).
    { apply lookup_app_l_Some. by rewrite list_lookup_fmap, Hp0. }
    destruct (Hv (length ps0 + i) (encNote (p_note p0))) as (ct2 & Hct2 & Hr2 & Hs2 & Hv2).
    { rewrite lookup_app_r by (rewrite fmap_length; lia). rewrite fmap_length.
      replace (length ps0 + i - length ps0) with i by lia. by rewrite list_lookup_fmap, Hp0. }
    rewrite Hct1, Hct2 in Ep. rewrite Hr1 in Hs1, Hv1. rewrite Hr2 in Hs2, Hv2.
    assert (p_index p = Z.of_nat i ∧ p_sig p = Some ct1 ∧ n_scert (p_note p) = Some ct2 ∧ n_sender (p_note p) = pub ck ∧
      set_sig (set_note p (set_scert (p_note p) None)) None = p0 ∧ set_scert (p_note p) None = p_note p0 ∧
      p_method p = m ∧ uuid_of p = u ∧ n_receiver (p_note p) = server)
      as (E1 & E2 & E3 & E4 & E5 & E6 & E7 & E8 & E9) by (rewrite Ep, E0; done).
    split; [done|]. split; [done|]. split; [done|]. intros cache.
    destruct (parcel_accepted_iff H sigok encNote encParcel ct1 ct2 id cache i p root) as [Hin Hiff]; try done.
    { rewrite E4, Hs1. apply Hck. }
    { by rewrite E5. }
    { by rewrite E6. }
    apply Hiff. by left.
  - intros es Hin Hsub Hlen. destruct (C49_runs find ttl q u es Hq Hin) as [Hr _]. cbv zeta in Hr.
    assert (1 ≤ length (arrived find u es) / q) as Hd by (apply Nat.div_le_lower_bound; lia).
    destruct (length (arrived find u es) / q) as [|k]; [lia|]. cbn [seq fmap list_fmap] in Hr.
    destruct (runs_of u (served q es).2) as [|t ts] eqn:E; [done|]. injection Hr as Ht _.
    unfold group in Ht. rewrite Nat.mul_0_l, drop_0 in Ht.
    exists t. split.
    + assert (t ∈ runs_of u (served q es).2) as Hin' by (rewrite E; by left).
      apply elem_of_list_omap in Hin' as (o & Ho & Hx). destruct o; [done|]. case_decide; [|done]. by injection Hx as ->.
    + intros old a2 a3 Ha. apply C76_task; [done|]. left.
      destruct (arrived find u es) as [|p ar] eqn:Ear; [cbn in Hlen; lia|]. exists p. rewrite Ht.
      destruct q as [|q]; [lia|]. split; [by left|].
      intros [_ Hb]. assert (p ∈ ps) as Hp by (apply Hsub; by left).
      apply elem_of_list_lookup in Hp as [i Hi]. destruct (Hps i p Hi) as (p0 & _ & -> & ->). cbn in Hb. lia.
Qed.
End crash.

(** A response of the server in the example of P18 with its body removed. *)
Example C76_example :
  length (tresps []) = 3 ∧
  match tresps [] with
  | r :: rs =>
      cr_error r = None ∧ bool_decide (fits 3 (from_option r_index 0%Z (cr_resp r)) (from_option r_payload [] (cr_resp r))) = true ∧
      client_reconstruct xor_code (mkCSR None None (cr_pk r) (cr_note r) :: rs) ex_answers = Panic ∧
      (match client_reconstruct xor_code (r :: rs) ex_answers with Ok _ => true | _ => false end) = true
  | [] => False
  end.
Proof. split; [vm_compute; reflexivity|]. vm_compute. split_and!; reflexivity. Qed.
