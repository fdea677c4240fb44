(** C117: one relay decides which method a robust call runs.  C118: it can change the bytes it carries.
    C53: the same for replies. *)
From stdpp Require Import gmap vector.
From Verif.Base Require Import Base.
From Verif.Model Require Import Merkle Ecc Network Robust.
From Verif.Spec Require Import RobustSpec.
From Verif.Properties Require Import P06_Merkle P14_Ecc P16_Network P17_Collector P18_Robust.
From Verif.Proofs Require Import RobustProofs RobustCall.

(** ** Which relay carries which byte of a request. *)
Section holder.
Context (c : rs_code) (laws : rs_laws c).

Lemma cut_lookup p k (l : list byte) i : i < k → cut p k l !! i = Some (take p (drop (i * p) l)).
Proof using Type.
  revert l i. induction k as [|k IH]; intros l i Hi; [lia|]. destruct i as [|i]; [by rewrite drop_0|].
  cbn [cut]. change ((take p l :: cut p k (drop p l)) !! S i) with (cut p k (drop p l) !! i).
  rewrite IH by lia. rewrite drop_drop. done.
Qed.
Lemma window_insert (l : list byte) s p o b : o < length l →
  take p (drop s (<[o := b]> l)) =
    if decide (s ≤ o < s + p) then <[o - s := b]> (take p (drop s l)) else take p (drop s l).
Proof using Type.
  intros Ho. case_decide as Hd.
  - rewrite drop_insert_le by lia. rewrite take_insert_lt by lia. done.
  - destruct (decide (o < s)); [by rewrite drop_insert_gt by lia|].
    rewrite drop_insert_le by lia. by rewrite take_insert by lia.
Qed.
Lemma segment_disjoint n x i s e i' s' e' : 36 ≤ n → i < 36 → i' < 36 → segment n i = (s, e) → segment n i' = (s', e') →
  s ≤ x < e → s' ≤ x < e' → i = i'.
Proof using Type.
  intros Hn Hi Hi' [-> ->]%segment_eq [-> ->]%segment_eq. assert (1 ≤ n / 36) as H1 by (apply Nat.div_le_lower_bound; lia).
  generalize dependent (n / 36). intros q H1. intros [Ha Hb] [Ha' Hb'].
  destruct (Nat.lt_trichotomy i i') as [Hlt|[?|Hlt]]; [|done|]; exfalso.
  - rewrite (decide_False (P:=36 ≤ S i)) in Hb by lia. assert (S i * q ≤ i' * q) by (apply Nat.mul_le_mono_r; lia). lia.
  - rewrite (decide_False (P:=36 ≤ S i')) in Hb' by lia. assert (S i' * q ≤ i * q) by (apply Nat.mul_le_mono_r; lia). lia.
Qed.

(** The byte at x of a request of length len: row r of relay j, at offset o. *)
Lemma holder len x : x < len → ∃ j r o, j < rs_k c ∧ r < 36 ∧ ∀ (data : list byte) b, length data = len →
  ∀ r' i w, r' < 36 → i < rs_k c → authEncode c (chunk_of (data ++ zeros) r') = Some w →
    ∃ w', authEncode c (chunk_of (<[x := b]> data ++ zeros) r') = Some w' ∧
      w' !! i = if decide (i = j ∧ r' = r) then <[o := b]> <$> (w !! i) else w !! i.
Proof using laws.
  intros Hx. set (n := len + 36).
  destruct (segment_cover n x) as (r & s & e & Hr & Hse & Hxr); [lia|lia|].
  pose proof (segment_bounds n r s e Hse Hr ltac:(lia)) as [Hb1 Hb2].
  set (per := per_shard c (e - s)).
  destruct (per_shard_bound c laws (e - s)) as [Hp Hp0]; [lia|]. fold per in Hp, Hp0.
  exists ((x - s) / per), r, ((x - s) mod per).
  assert ((x - s) / per < rs_k c) as Hj by (apply Nat.div_lt_upper_bound; lia).
  pose proof (Nat.div_mod (x - s) per ltac:(lia)) as Hdm. pose proof (Nat.mod_upper_bound (x - s) per ltac:(lia)) as Hmu.
  set (j := (x - s) / per) in *. set (o := (x - s) mod per) in *.
  split; [done|]. split; [done|]. intros data b Hl r' i w Hr' Hi Hw.
  assert (length (data ++ zeros) = n) as Hfl by (unfold zeros; rewrite app_length, replicate_length; unfold n; rewrite Hl; done).
  assert (<[x:=b]> data ++ zeros = <[x:=b]> (data ++ zeros)) as -> by (symmetry; apply insert_app_l; lia).
  set (full := data ++ zeros) in *.
  destruct (segment n r') as [s' e'] eqn:Es'.
  pose proof (segment_bounds n r' s' e' Es' Hr' ltac:(lia)) as [Hb1' Hb2'].
  assert (chunk_of (<[x:=b]> full) r' = if decide (s' ≤ x < e') then <[x - s' := b]> (chunk_of full r' : list byte) else chunk_of full r') as Hch.
  { destruct (chunk_of_lookup full r' s' e' 0) as [HL _]; [by rewrite Hfl|done|lia|].
    destruct (chunk_of_lookup (<[x:=b]> full) r' s' e' 0) as [HL' _]; [by rewrite insert_length, Hfl|done|rewrite insert_length; lia|].
    apply list_eq_same_length with (e' - s').
    { case_decide; [by rewrite insert_length|done]. } { done. }
    intros y a a' Hy Ha Ha'.
    destruct (chunk_of_lookup full r' s' e' y) as [_ HLy]; [by rewrite Hfl|done|lia|].
    destruct (chunk_of_lookup (<[x:=b]> full) r' s' e' y) as [_ HLy']; [by rewrite insert_length, Hfl|done|rewrite insert_length; lia|].
    rewrite HLy' in Ha by lia. case_decide as Hd.
    - destruct (decide (y = x - s')) as [->|Hne].
      + rewrite list_lookup_insert in Ha' by lia. replace (s' + (x - s')) with x in Ha by lia.
        rewrite list_lookup_insert in Ha by lia. congruence.
      + rewrite list_lookup_insert_ne in Ha' by lia. rewrite HLy in Ha' by lia.
        rewrite list_lookup_insert_ne in Ha by lia. congruence.
    - rewrite HLy in Ha' by lia. rewrite list_lookup_insert_ne in Ha by lia. congruence. }
  rewrite Hch. destruct (chunk_of_lookup full r' s' e' 0) as [HL _]; [by rewrite Hfl|done|lia|].
  case_decide as Hd.
  2: { exists w. split; [done|]. rewrite decide_False; [done|]. intros [_ ->]. rewrite Hse in Es'. simplify_eq. lia. }
  assert (r' = r) as ->. { eapply (segment_disjoint n x); try done. lia. }
  assert (s' = s ∧ e' = e) as [-> ->] by (rewrite Hse in Es'; by simplify_eq).
  set (chunk := chunk_of full r : list byte) in *.
  unfold authEncode, Split in Hw |- *. rewrite insert_length. rewrite HL in Hw |- *. fold per in Hw |- *.
  rewrite decide_False in Hw |- * by lia. cbn [mbind option_bind] in Hw |- *. injection Hw as <-.
  eexists. split; [reflexivity|].
  assert (<[x - s:=b]> chunk ++ replicate (per * rs_k c - (e - s)) Byte.x00 =
    <[x - s:=b]> (chunk ++ replicate (per * rs_k c - (e - s)) Byte.x00)) as -> by (symmetry; apply insert_app_l; lia).
  set (l := chunk ++ replicate (per * rs_k c - (e - s)) Byte.x00).
  assert (length l = per * rs_k c) as Hll by (unfold l; rewrite app_length, replicate_length; lia).
  rewrite !lookup_app_l by (rewrite cut_length; done). rewrite !cut_lookup by done.
  rewrite window_insert by lia. case_decide as Hw; case_decide as Hij.
  - destruct Hij as [-> _]. cbn [fmap option_fmap option_map]. do 3 f_equal. lia.
  - exfalso. apply Hij. split; [|done]. apply (Nat.div_unique (x - s) per i (x - s - i * per)); lia.
  - exfalso. apply Hw. destruct Hij as [-> _]. lia.
  - done.
Qed.

Lemma encoded_rows (data : list byte) arr shards : all_answers arr → AuthEncode c data arr = Ok (Some <$> shards) →
  length shards = 36 ∧ ∀ r, r < 36 → shards !! r = authEncode c (chunk_of (data ++ zeros) r).
Proof using laws.
  intros (p & Hp & ->) He. destruct (perm_seq p Hp) as [Hpl Hpi].
  destruct (encode_loop_ok c laws (data ++ zeros) p 36 (replicate 36 None)) as (res & Hr & Hrl & Hr1 & _).
  { rewrite app_length. unfold zeros. rewrite replicate_length. unfold NumChunks. lia. }
  { done. } { intros i. apply Hpi. } { by rewrite replicate_length. }
  assert (res = Some <$> shards) as -> by (unfold AuthEncode in He; change NumChunks with 36 in He; congruence).
  rewrite fmap_length in Hrl. split; [done|]. intros r Hrlt.
  specialize (Hr1 r (proj2 (Hpi r) Hrlt)). rewrite list_lookup_fmap in Hr1.
  destruct (shards !! r) as [w|]; [|done]. simpl in Hr1. by injection Hr1.
Qed.
End holder.

Section forgery.
Context (H : bytes → digest) {SK : Type} (sign : SK → digest → bytes) (pub : SK → bytes)
        (sigok : bytes → digest → bytes → bool).
Context (encNote : Note → bytes) (encParcel : Parcel → bytes).
Context {V : Type} (enc : V → bytes).
Context (c : rs_code) (laws : rs_laws c).
Context {hnd : Type} (find : string → option hnd) (run : hnd → string → bytes → outcome code V) (ttl : Z).

Notation signs := (signs sign pub sigok).
Notation code_for := (code_for c).
Notation judged := (judged H sigok encNote).
Notation sent := (RobustCall_parcels H sign pub encNote encParcel c).
Notation answer := (respond H sign pub encNote c).
Notation served q es := (collect find (Z.of_nat q) ttl ∅ es).
Notation valid := (validateParcel H sigok encNote encParcel).
Notation serve := (runTask enc c run).
Notation client_decode := (client_reconstruct c).

(** What a relay with the key rk can make of a parcel p that it was given: a parcel for the same relay and
    call with a method and a piece of its own choice, in its own name, signed by itself the way a client
    signs. *)
Definition reissued (rk : SK) (m : string) (piece : list shard) (p : Parcel) : option Parcel :=
  match sign_requests H sign encNote encParcel rk
          [mkParcel m (p_index p) (mkNote (pub rk) (n_receiver (p_note p)) (uuid_of p) None None) (p_len p) piece None] with
  | Some [p'] => Some p'
  | _ => None
  end.

(** The server accepts it, whatever its verifier has cached; nothing in it is the client's but the call's
    id and the length. *)
Theorem C117_accepted rk m piece p i : signs rk → p_index p = Z.of_nat i →
  ∃ p', reissued rk m piece p = Some p' ∧ p_method p' = m ∧ p_payload p' = piece ∧
    n_sender (p_note p') = pub rk ∧ uuid_of p' = uuid_of p ∧ p_index p' = p_index p ∧ p_len p' = p_len p ∧
    n_rcert (p_note p') = None ∧
    ∀ cache, (valid cache i p').1 = None.
Proof using Type.
  intros Hrk Hi. unfold reissued, sign_requests.
  set (note := mkNote (pub rk) (n_receiver (p_note p)) (uuid_of p) None None).
  set (p0 := mkParcel m (p_index p) note (p_len p) piece None). cbn [fmap list_fmap app].
  destruct (sign_strs_ok H sign rk [encParcel p0; encNote (p_note p0)]) as (cs & Hcs & Hcl & Hc); [simpl; lia|].
  rewrite Hcs. cbn [mbind option_bind]. simpl in Hcl.
  destruct (Hc 0 (encParcel p0)) as (ct1 & Hct1 & Hr1 & Hs1 & Hv1); [done|].
  destruct (Hc 1 (encNote (p_note p0))) as (ct2 & Hct2 & Hr2 & Hs2 & Hv2); [done|].
  cbn [imap length]. rewrite Nat.add_0_r, Hct1, Hct2.
  eexists. split; [reflexivity|]. cbn [set_sig set_note set_scert p_method p_payload p_note n_sender p_index p_len n_rcert p0 note].
  split; [done|]. split; [done|]. split; [done|]. split; [done|]. split; [done|]. split; [done|]. split; [done|].
  intros cache.
  match goal with |- (valid cache i ?x).1 = _ => set (p' := x) end.
  destruct (parcel_accepted_iff H sigok encNote encParcel ct1 ct2 id cache i p' (ct_root ct1)) as [Hin Hiff]; try done.
  - by rewrite Hr1, Hr2.
  - rewrite Hs1. apply Hrk.
  - by rewrite Hr1, <-Hr2.
  - apply Hiff. left. exact Hin.
Qed.

(** A parcel that carries the same piece of the same call. *)
Definition same_piece (p p' : Parcel) : Prop :=
  p_index p' = p_index p ∧ p_len p' = p_len p ∧ p_payload p' = p_payload p ∧ uuid_of p' = uuid_of p ∧
  n_rcert (p_note p') = None.

(** The core: the parcels that arrive carry pieces of the call [ps]; whoever signed them, whatever their
    methods, the request is decoded and the method is that of the first. *)
Lemma pieces_decoded nt n tau ck ssk m u margs es a1 a2 ps p0 h :
  quorum_net nt n tau → code_for n tau → 2 * (tau - 1) < n →
  (N.of_nat (length margs) < 2 ^ 32)%N → all_answers a1 → all_answers a2 →
  sent n ck (pub ssk) m u margs a1 = Some ps →
  in_time ttl u es →
  (∀ p', p' ∈ arrived find u es → ∃ p, p ∈ ps ∧ same_piece p p') → NoDup (p_index <$> arrived find u es) →
  n - (tau - 1) ≤ length (arrived find u es) →
  head (arrived find u es) = Some p0 → find (p_method p0) = Some h →
  ∃ t, runs_of u (served (n - (tau - 1)) es).2 = [t] ∧
    reconstruct_from c (parcel_item <$> t_parcels t) a2 = Ok margs ∧ t_hnd t = h ∧ t_note t = p_note p0.
Proof using laws.
  intros Hq (Hk & Hm & Hmax) H2t Hlen Ha1 Ha2 Hsent Hin Hpieces Hnd Hge Hhead Hf.
  assert (1 ≤ tau ≤ n) as Ht by apply Hq.
  assert (rs_k c + rs_m c = n) as Hw by lia.
  destruct (parcels_ok H sign pub encNote encParcel c laws n ck (pub ssk) m u margs a1) as
    (shards & sps & root & Hs36 & Hfull & Hdec & Hs & Hl & Hp); [lia|by apply small|done|done|].
  assert (sps = ps) as -> by congruence.
  set (a := arrived find u es) in *.
  assert (∀ p', p' ∈ a → ∃ i pl, column shards i pl ∧ i < n ∧
    parcel_item p' = (le_enc 4 (N.of_nat (length margs)), (Z.of_nat i, pl)) ∧ p_index p' = Z.of_nat i) as Hitem.
  { intros p' (p & Hpin & E1 & E2 & E3 & _)%Hpieces. apply elem_of_list_lookup in Hpin as [i Hi].
    destruct (Hp i p Hi) as (pl & ct1 & ct2 & Hcol & Hpe & _). exists i, pl. split; [done|].
    split; [rewrite <-Hl; by eapply lookup_lt_Some|]. unfold parcel_item. rewrite E1, E2, E3, Hpe. done. }
  assert (length a ≤ n) as Hal.
  { rewrite <-(fmap_length p_index a). transitivity (length (Z.of_nat <$> seq 0 n)); [|by rewrite fmap_length, seq_length].
    apply submseteq_length, NoDup_submseteq; [done|]. intros z (p' & -> & Hp')%elem_of_list_fmap.
    destruct (Hitem p' Hp') as (i & pl & _ & Hi & _ & ->). apply elem_of_list_fmap. exists i. split; [done|].
    apply elem_of_seq. lia. }
  destruct (C49_exactly_once find ttl n tau u (a ++ replicate (n - length a) p0) es Ht H2t) as (t & Hruns & Htp & p1 & Hp1 & Hnote & Hh).
  { rewrite app_length, replicate_length. lia. } { done. } { by apply submseteq_inserts_r. } { done. }
  fold a in Htp, Hp1. assert (p1 = p0) as -> by congruence.
  assert (∀ p', p' ∈ t_parcels t → p' ∈ a) as Htin.
  { intros p Hpin. rewrite Htp in Hpin. apply elem_of_take in Hpin as (i & Hi & _). by eapply elem_of_list_lookup_2. }
  exists t. split; [done|]. split; [|split; [congruence|done]].
  apply (reconstruct_columns c laws margs shards); try done.
  - apply Forall_fmap, Forall_forall. intros p' Hpin. apply Htin in Hpin.
    destruct (Hitem p' Hpin) as (i & pl & Hcol & Hi & E & _). cbv beta. unfold compose. rewrite E. split; [done|]. exists i.
    split; [done|]. split; [lia|done].
  - rewrite <-!list_fmap_compose. change (NoDup (p_index <$> t_parcels t)). rewrite Htp.
    rewrite fmap_take. eapply sublist_NoDup; [exact Hnd|apply sublist_take].
  - rewrite fmap_length, Htp, take_length. lia.
Qed.

(** The parcels of a call of which some (q of them arrive first) were reissued, by whomever: the handler
    that runs, once, is that of the first parcel; it runs on the client's request; and the client returns
    its reply, with receipts in the name of that parcel's signer. *)
Theorem C117_first_parcel nt n tau ck ssk m u margs v es a1 a2 a3 a4 ps qs p0 h :
  quorum_net nt n tau → code_for n tau → 2 * (tau - 1) < n → signs ssk →
  (N.of_nat (length margs) < 2 ^ 32)%N → (N.of_nat (length (enc v)) < 2 ^ 32)%N →
  all_answers a1 → all_answers a2 → all_answers a3 → all_answers a4 →
  sent n ck (pub ssk) m u margs a1 = Some ps → Forall2 same_piece ps qs →
  in_time ttl u es → arrived find u es ⊆+ qs → n - (tau - 1) ≤ length (arrived find u es) →
  head (arrived find u es) = Some p0 → find (p_method p0) = Some h → run h u margs = Ok v →
  ∃ t rs resps,
    runs_of u (served (n - (tau - 1)) es).2 = [t] ∧ t_hnd t = h ∧
    serve t [] a2 a3 = (Ok (RunOk rs), enc v) ∧
    answer ssk t (RunOk rs) = Some resps ∧ length resps = n ∧ NoDup resps ∧
    (∀ resp, resp ∈ resps → n_sender <$> cr_note resp = Some (n_sender (p_note p0))) ∧
    (∀ resp cache, resp ∈ resps → ∃ cache',
      validateRrpcResponse H sigok encNote cache (pub ssk) (forwarded u resp) = Ok (None, cache')) ∧
    ∀ l, length l ≤ n → judged (pub ssk) l → NoDup (oks l) →
      (∀ r, (r, None) ∈ l → ∃ resp, resp ∈ resps ∧ r = forwarded u resp) →
      (∃ good, NoDup good ∧ good ⊆ resps ∧ n - (tau - 1) ≤ length good ∧ forwarded u <$> good ⊆ l.*1) →
      ∃ out, robust_call nt l = RDone out ∧ client_decode (omap rr_resp out) a4 = Ok (enc v).
Proof using laws.
  intros Hq Hcode H2t Hssk Hlen Hlen' Ha1 Ha2 Ha3 Ha4 Hsent Hqs Hin Hsub Hge Hhead Hf Hrun.
  assert (∀ p', p' ∈ arrived find u es → ∃ p, p ∈ ps ∧ same_piece p p') as Hpieces.
  { intros p' Hp'. eapply elem_of_submseteq in Hp'; [|done]. apply elem_of_list_lookup in Hp' as [i Hi].
    destruct (Forall2_lookup_r _ _ _ _ _ Hqs Hi) as (p & Hp & Hs). exists p. split; [by eapply elem_of_list_lookup_2|done]. }
  assert (p0 ∈ arrived find u es) as Hp0 by (destruct (arrived find u es); [done|injection Hhead as ->; by left]).
  assert (p_index <$> qs = p_index <$> ps) as Hidx.
  { clear -Hqs. induction Hqs as [|p p' ps qs Hs _ IH]; [done|]. cbn [fmap list_fmap]. f_equal; [apply Hs|done]. }
  assert (NoDup (p_index <$> qs)) as Hndq.
  { rewrite Hidx. destruct Hcode as (Hk & Hm & Hmax). assert (1 ≤ tau ≤ n) as Ht by apply Hq.
    destruct (parcels_ok H sign pub encNote encParcel c laws n ck (pub ssk) m u margs a1) as
      (shards & sps & root & _ & _ & _ & Hs & Hl & Hp); [lia|by apply small|done|done|].
    assert (sps = ps) as -> by congruence.
    apply NoDup_alt. intros i j z Hi Hj. rewrite list_lookup_fmap in Hi, Hj.
    destruct (ps !! i) as [pi|] eqn:Ei; [|done]. destruct (ps !! j) as [pj|] eqn:Ej; [|done].
    injection Hi as Hi. injection Hj as Hj.
    destruct (Hp i pi Ei) as (? & ? & ? & _ & E1 & _). destruct (Hp j pj Ej) as (? & ? & ? & _ & E2 & _).
    rewrite E1 in Hi. rewrite E2 in Hj. simpl in *. lia. }
  assert (NoDup (p_index <$> arrived find u es)) as Hnda.
  { apply submseteq_Permutation in Hsub as [k Hk]. rewrite Hk, fmap_app in Hndq. by apply NoDup_app in Hndq as [? _]. }
  destruct (pieces_decoded nt n tau ck ssk m u margs es a1 a2 ps p0 h) as (t & Hruns & Hrec & Hth & Htn); try done.
  destruct (Hpieces p0 Hp0) as (p & Hpin & _ & _ & _ & Hu & Hrc).
  assert (uuid_of p0 = u) as Hu0.
  { unfold arrived in Hp0. apply elem_of_list_omap in Hp0 as (e & _ & He). destruct e as [now p'|]; [|done].
    case_decide as Hd; [|done]. destruct (find (p_method p')); [|done]. simpl in He. by injection He as <-. }
  destruct (task_reply H sign pub sigok encNote enc c laws run nt n tau ssk u margs h v a2 a3 a4 [] t) as
    (rs & resps & E1 & E2 & E3 & E4 & E5 & E6); try done.
  { by rewrite Htn. } { by rewrite Htn. }
  exists t, rs, resps. split; [done|]. split; [done|]. split; [done|]. split; [done|]. split; [done|]. split; [done|].
  split; [by rewrite <-Htn|done].
Qed.

(** So relay j alone makes the server run any registered method m' in place of the client's, on the
    client's request, by having its own parcel arrive first; the call succeeds at the client, with the
    reply of m' and receipts in the relay's name. *)
Theorem C117_relay_chooses nt n tau ck rk ssk m m' u margs v es a1 a2 a3 a4 ps j p rest h' :
  quorum_net nt n tau → code_for n tau → 2 * (tau - 1) < n → signs ssk → signs rk →
  (N.of_nat (length margs) < 2 ^ 32)%N → (N.of_nat (length (enc v)) < 2 ^ 32)%N →
  all_answers a1 → all_answers a2 → all_answers a3 → all_answers a4 →
  sent n ck (pub ssk) m u margs a1 = Some ps → ps !! j = Some p →
  find m' = Some h' → run h' u margs = Ok v →
  ∃ p', reissued rk m' (p_payload p) p = Some p' ∧ (∀ cache, (valid cache j p').1 = None) ∧
    (in_time ttl u es → arrived find u es = p' :: rest → rest ⊆+ delete j ps → n - tau ≤ length rest →
     ∃ t rs resps,
      runs_of u (served (n - (tau - 1)) es).2 = [t] ∧ t_hnd t = h' ∧
      serve t [] a2 a3 = (Ok (RunOk rs), enc v) ∧
      answer ssk t (RunOk rs) = Some resps ∧ length resps = n ∧ NoDup resps ∧
      (∀ resp, resp ∈ resps → n_sender <$> cr_note resp = Some (pub rk)) ∧
      (∀ resp cache, resp ∈ resps → ∃ cache',
        validateRrpcResponse H sigok encNote cache (pub ssk) (forwarded u resp) = Ok (None, cache')) ∧
      ∀ l, length l ≤ n → judged (pub ssk) l → NoDup (oks l) →
        (∀ r, (r, None) ∈ l → ∃ resp, resp ∈ resps ∧ r = forwarded u resp) →
        (∃ good, NoDup good ∧ good ⊆ resps ∧ n - (tau - 1) ≤ length good ∧ forwarded u <$> good ⊆ l.*1) →
        ∃ out, robust_call nt l = RDone out ∧ client_decode (omap rr_resp out) a4 = Ok (enc v)).
Proof using laws.
  intros Hq Hcode H2t Hssk Hrk Hlen Hlen' Ha1 Ha2 Ha3 Ha4 Hsent Hj Hf Hrun.
  assert (1 ≤ tau ≤ n) as Ht by apply Hq.
  assert (∀ i p, ps !! i = Some p → p_index p = Z.of_nat i ∧ n_rcert (p_note p) = None) as Hps.
  { destruct Hcode as (Hk & Hm & Hmax).
    destruct (parcels_ok H sign pub encNote encParcel c laws n ck (pub ssk) m u margs a1) as
      (shards & sps & root & _ & _ & _ & Hs & Hl & Hp); [lia|by apply small|done|done|].
    assert (sps = ps) as -> by congruence. intros i q Hi. by destruct (Hp i q Hi) as (? & ? & ? & _ & -> & _). }
  destruct (Hps j p Hj) as [Hpj _].
  destruct (C117_accepted rk m' (p_payload p) p j Hrk Hpj) as (p' & Hre & E1 & E2 & E3 & E4 & E5 & E6 & E7 & Hval).
  exists p'. split; [done|]. split; [done|]. intros Hin Harr Hrest Hge.
  destruct (C117_first_parcel nt n tau ck ssk m u margs v es a1 a2 a3 a4 ps (<[j := p']> ps) p' h') as (t & rs & resps & X);
    try done.
  - apply Forall2_same_length_lookup_2; [by rewrite insert_length|]. intros i x y Hx Hy.
    destruct (decide (i = j)) as [->|Hne].
    + rewrite list_lookup_insert in Hy by by eapply lookup_lt_Some. assert (x = p) as -> by congruence.
      injection Hy as <-. done.
    + rewrite list_lookup_insert_ne in Hy by done. assert (y = x) as -> by congruence.
      split_and!; try done. by apply (Hps i x).
  - rewrite Harr. etransitivity; [apply submseteq_skip, Hrest|].
    rewrite insert_take_drop by by eapply lookup_lt_Some. rewrite delete_take_drop.
    apply Permutation_submseteq. apply Permutation_middle.
  - rewrite Harr. simpl. lia.
  - by rewrite Harr.
  - by rewrite E1.
  - exists t, rs, resps. by rewrite E3 in X.
Qed.
(** ** C118 *)

Lemma sent_rows n ck srv m u margs arr ps : n ≤ rs_k c + rs_m c → all_answers arr →
  sent n ck srv m u margs arr = Some ps →
  ∃ shards, AuthEncode c margs arr = Ok (Some <$> shards) ∧
    ∀ i p, ps !! i = Some p → length (p_payload p) = 36 ∧
      ∀ r row, shards !! r = Some row → p_payload p !! r = row !! i.
Proof using laws.
  intros Hn Harr Hs. destruct (C45_roundtrip c laws margs arr Harr) as (shards & Henc & Hl & Hfull & _).
  exists shards. split; [done|]. unfold RobustCall_parcels, requestIntoRobust in Hs. case_decide; [done|].
  rewrite Henc in Hs. set (f := λ i, pl ← InsertECCPayload (Some <$> shards) i;
    Some (mkParcel m (Z.of_nat i) (mkNote (pub ck) srv u None None) (le_enc 4 (N.of_nat (length margs))) pl None)) in Hs.
  destruct (mapM f (seq 0 n)) as [qs|] eqn:Eq; [|done].
  apply mapM_Some_1 in Eq. unfold sign_requests in Hs. destruct (sign_strs _ _ _ _) as [cs|]; [|done].
  cbn [mbind option_bind] in Hs. injection Hs as <-. intros i p Hi.
  rewrite list_lookup_imap in Hi. destruct (qs !! i) as [q|] eqn:Hq; [|done]. simpl in Hi. injection Hi as <-.
  cbn [set_sig set_note p_payload].
  destruct (Forall2_lookup_r _ _ _ _ _ Eq Hq) as (i' & Hi' & Hf). apply lookup_seq in Hi' as [-> Hlt]. simpl in Hf.
  unfold f in Hf. destruct (InsertECCPayload (Some <$> shards) i) as [pl|] eqn:Hpl; [|done].
  simpl in Hf. injection Hf as <-. cbn [p_payload].
  unfold InsertECCPayload in Hpl. apply mapM_Some_1 in Hpl.
  split; [apply Forall2_length in Hpl; rewrite fmap_length in Hpl; lia|]. intros r row Hrow.
  destruct (Forall2_lookup_l _ _ _ r (Some row) Hpl) as (y & Hy & Hyy); [by rewrite list_lookup_fmap, Hrow|].
  simpl in Hyy. by rewrite Hy, Hyy.
Qed.

(** Each byte of a request is in the hands of one relay, which depends only on the length and the
    position: by overwriting it in its own piece (row r, offset o: it needs nothing else) and signing the
    parcel itself, it makes the server run the handler on the request with that byte changed, if the
    parcels that arrive (in any order) are those of the first k relays; and the call succeeds at the
    client, with the reply to the changed request. *)
Theorem C118_changed_byte n tau len x : code_for n tau → 1 ≤ tau ≤ n → x < len →
  ∃ j r o, j < n - (tau - 1) ∧
    ∀ nt ck rk ssk m u margs b v es a1 a2 a3 a4 ps p h,
      quorum_net nt n tau → 2 * (tau - 1) < n → signs ssk → signs rk →
      length margs = len → (N.of_nat len < 2 ^ 32)%N → (N.of_nat (length (enc v)) < 2 ^ 32)%N →
      all_answers a1 → all_answers a2 → all_answers a3 → all_answers a4 →
      sent n ck (pub ssk) m u margs a1 = Some ps → ps !! j = Some p →
      find m = Some h → run h u (<[x := b]> margs) = Ok v →
      ∃ p', reissued rk m (alter (<[o := b]>) r (p_payload p)) p = Some p' ∧ (∀ cache, (valid cache j p').1 = None) ∧
        (in_time ttl u es → arrived find u es ≡ₚ <[j := p']> (take (n - (tau - 1)) ps) →
         ∃ t rs resps,
          runs_of u (served (n - (tau - 1)) es).2 = [t] ∧
          serve t [] a2 a3 = (Ok (RunOk rs), enc v) ∧
          answer ssk t (RunOk rs) = Some resps ∧ length resps = n ∧ NoDup resps ∧
          (∀ resp cache, resp ∈ resps → ∃ cache',
            validateRrpcResponse H sigok encNote cache (pub ssk) (forwarded u resp) = Ok (None, cache')) ∧
          ∀ l, length l ≤ n → judged (pub ssk) l → NoDup (oks l) →
            (∀ r, (r, None) ∈ l → ∃ resp, resp ∈ resps ∧ r = forwarded u resp) →
            (∃ good, NoDup good ∧ good ⊆ resps ∧ n - (tau - 1) ≤ length good ∧ forwarded u <$> good ⊆ l.*1) →
            ∃ out, robust_call nt l = RDone out ∧ client_decode (omap rr_resp out) a4 = Ok (enc v)).
Proof using laws.
  intros Hcode Ht Hx. pose proof Hcode as (Hk & Hm & Hmax).
  destruct (holder c laws len x Hx) as (j & r & o & Hj & Hr & Hold).
  exists j, r, o. split; [lia|].
  intros nt ck rk ssk m u margs b v es a1 a2 a3 a4 ps p h Hq H2t Hssk Hrk Hlm Hlen Hlen' Ha1 Ha2 Ha3 Ha4 Hsent Hp Hf Hrun.
  destruct (parcels_ok H sign pub encNote encParcel c laws n ck (pub ssk) m u margs a1) as
    (sha & sps & roota & _ & _ & _ & Hs & Hl & Hps); [lia|by apply small|by rewrite Hlm|done|].
  assert (sps = ps) as -> by congruence. clear Hs.
  destruct (parcels_ok H sign pub encNote encParcel c laws n ck (pub ssk) m u (<[x:=b]> margs) a1) as
    (shb & ps' & rootb & _ & _ & _ & Hsent' & Hl' & Hps'); [lia|by apply small|by rewrite insert_length, Hlm|done|].
  destruct (sent_rows n ck (pub ssk) m u margs a1 ps ltac:(lia) Ha1 Hsent) as (sh & He & Hrows).
  destruct (sent_rows n ck (pub ssk) m u (<[x:=b]> margs) a1 ps' ltac:(lia) Ha1 Hsent') as (sh' & He' & Hrows').
  destruct (encoded_rows c laws margs a1 sh Ha1 He) as [Hsl Hsr].
  destruct (encoded_rows c laws (<[x:=b]> margs) a1 sh' Ha1 He') as [Hsl' Hsr'].
  (* the pieces *)
  assert (∀ i q q', i < rs_k c → ps !! i = Some q → ps' !! i = Some q' →
    p_payload q' = if decide (i = j) then alter (<[o := b]>) r (p_payload q) else p_payload q) as Hpieces.
  { intros i q q' Hi Hqi Hqi'.
    assert (length (p_payload q) = 36 ∧ length (p_payload q') = 36) as [L1 L2].
    { split; [by apply (Hrows i q Hqi)|by apply (Hrows' i q' Hqi')]. }
    apply list_eq_same_length with 36; [case_decide; by rewrite ?alter_length|done|].
    intros r' y y' Hr' Hy Hy'.
    destruct (lookup_lt_is_Some_2 sh r') as [w Hw]; [lia|]. destruct (lookup_lt_is_Some_2 sh' r') as [w' Hw']; [lia|].
    pose proof Hw as Hw2. pose proof Hw' as Hw2'. rewrite Hsr in Hw2 by done. rewrite Hsr' in Hw2' by done.
    destruct (Hold margs b Hlm r' i w Hr' Hi Hw2) as (w'' & Hw'' & Hwi). rewrite Hw2' in Hw''. injection Hw'' as <-.
    rewrite (proj2 (Hrows' i q' Hqi') r' w' Hw') in Hy. pose proof (proj2 (Hrows i q Hqi) r' w Hw) as Hqr.
    destruct (decide (i = j)) as [Hij|Hij].
    - destruct (decide (r' = r)) as [->|Hne].
      + rewrite list_lookup_alter, Hqr in Hy'. rewrite decide_True in Hwi by done. congruence.
      + rewrite list_lookup_alter_ne, Hqr in Hy' by done. rewrite decide_False in Hwi by (by intros [_ ?]). congruence.
    - rewrite Hqr in Hy'. rewrite decide_False in Hwi by (by intros [? _]). congruence. }
  assert (p_index p = Z.of_nat j) as Hpj by by destruct (Hps j p Hp) as (? & ? & ? & _ & -> & _).
  destruct (C117_accepted rk m (alter (<[o := b]>) r (p_payload p)) p j Hrk Hpj) as
    (p' & Hre & E1 & E2 & E3 & E4 & E5 & E6 & E7 & Hval).
  exists p'. split; [done|]. split; [done|]. intros Hin Harr.
  assert (j < length ps) as Hjl by by eapply lookup_lt_Some.
  assert (∀ i q, <[j := p']> (take (n - (tau - 1)) ps) !! i = Some q →
    ∃ q', i < rs_k c ∧ ps' !! i = Some q' ∧ same_piece q' q ∧ p_method q = m ∧ p_index q = Z.of_nat i) as Hall.
  { intros i q Hiq. assert (i < rs_k c) as Hi.
    { apply lookup_lt_Some in Hiq. rewrite insert_length, take_length in Hiq. lia. }
    destruct (lookup_lt_is_Some_2 ps i) as [q0 Hq0]; [lia|]. destruct (lookup_lt_is_Some_2 ps' i) as [q' Hq']; [lia|].
    exists q'. split; [done|]. split; [done|]. pose proof (Hpieces i q0 q' Hi Hq0 Hq') as Hpl.
    destruct (Hps' i q' Hq') as (pl' & ct1' & ct2' & _ & Eq' & _).
    assert (p_index q' = Z.of_nat i ∧ p_len q' = le_enc 4 (N.of_nat (length margs)) ∧ uuid_of q' = u) as (F1 & F2 & F3).
    { rewrite Eq'. by rewrite insert_length. }
    destruct (decide (i = j)) as [->|Hne].
    - rewrite list_lookup_insert in Hiq by (rewrite take_length; lia). injection Hiq as <-.
      assert (q0 = p) as -> by congruence. split; [|split; [done|congruence]].
      assert (p_len p = le_enc 4 (N.of_nat (length margs)) ∧ uuid_of p = u) as [G2 G3].
      { by destruct (Hps j p Hp) as (? & ? & ? & _ & -> & _). }
      unfold same_piece. rewrite F1, F2, F3, Hpl, E5, E6, E2, E4, E7. done.
    - rewrite list_lookup_insert_ne in Hiq by done. rewrite lookup_take in Hiq by lia. assert (q0 = q) as -> by congruence.
      destruct (Hps i q Hq0) as (pl & ct1 & ct2 & _ & Eq & _).
      assert (p_index q = Z.of_nat i ∧ p_len q = le_enc 4 (N.of_nat (length margs)) ∧ uuid_of q = u ∧ p_method q = m ∧ n_rcert (p_note q) = None)
        as (G1 & G2 & G3 & G4 & G5) by by rewrite Eq.
      split; [|done]. unfold same_piece. rewrite F1, F2, F3, Hpl, G1, G2, G3, G5. done. }
  set (a := arrived find u es) in *.
  assert (length a = n - (tau - 1)) as Hal by (rewrite Harr, insert_length, take_length; lia).
  destruct a as [|p0 a'] eqn:Ea; [simpl in Hal; lia|].
  assert (∀ q, q ∈ p0 :: a' → ∃ i q', ps' !! i = Some q' ∧ same_piece q' q ∧ p_method q = m) as Hina.
  { intros q Hqin. rewrite Harr in Hqin. apply elem_of_list_lookup in Hqin as [i Hi]. destruct (Hall i q Hi) as (q' & _ & ? & ? & ? & _).
    by exists i, q'. }
  destruct (Hina p0) as (i0 & q0 & Hq0 & Hs0 & Hm0); [by left|].
  assert (uuid_of p0 = u) as Hu0.
  { destruct Hs0 as (_ & _ & _ & -> & _). by destruct (Hps' i0 q0 Hq0) as (? & ? & ? & _ & -> & _). }
  destruct (pieces_decoded nt n tau ck ssk m u (<[x:=b]> margs) es a1 a2 ps' p0 h) as (t & Hruns & Hrec & Hth & Htn); try done.
  - by rewrite insert_length, Hlm.
  - intros q Hqin. fold a in Hqin. rewrite Ea in Hqin. destruct (Hina q Hqin) as (i & q' & ? & ? & _).
    exists q'. split; [by eapply elem_of_list_lookup_2|done].
  - fold a. rewrite Ea, Harr. apply NoDup_alt. intros i i' z Hi Hi'. rewrite list_lookup_fmap in Hi, Hi'.
    destruct (<[j:=p']> (take (n - (tau - 1)) ps) !! i) as [q|] eqn:Hqi; [|done].
    destruct (<[j:=p']> (take (n - (tau - 1)) ps) !! i') as [q'|] eqn:Hqi'; [|done].
    injection Hi as Hi. injection Hi' as Hi'.
    destruct (Hall i q Hqi) as (_ & _ & _ & _ & _ & Z1). destruct (Hall i' q' Hqi') as (_ & _ & _ & _ & _ & Z2). lia.
  - fold a. rewrite Ea. lia.
  - fold a. by rewrite Ea.
  - by rewrite Hm0.
  - destruct (task_reply H sign pub sigok encNote enc c laws run nt n tau ssk u (<[x:=b]> margs) h v a2 a3 a4 [] t) as
      (rs & resps & X1 & X2 & X3 & X4 & _ & X6); try done.
    { by rewrite Htn. } { rewrite Htn. apply Hs0. }
    exists t, rs, resps. done.
Qed.
(** ** C53, to the end: replies *)

(** A response with one byte of its piece overwritten. *)
Definition tampered (r o : nat) (b : byte) (resp : CallStreamResponse) : CallStreamResponse :=
  mkCSR (cr_error resp)
        ((λ x, mkResp (r_len x) (r_index x) (alter (<[o := b]>) r (r_payload x))) <$> cr_resp resp)
        (cr_pk resp) (cr_note resp).

Lemma reply_rows t (a2 a3 : list (option nat)) v rs ssk resps : all_answers a3 →
  serve t [] a2 a3 = (Ok (RunOk rs), enc v) → answer ssk t (RunOk rs) = Some resps →
  n_rcert (t_note t) = None → (N.of_nat (rs_k c + rs_m c) ≤ 2 ^ 64)%N →
  ∃ shards ct, AuthEncode c (enc v) a3 = Ok (Some <$> shards) ∧ length resps = rs_k c + rs_m c ∧
    ct_sig ct = sign ssk (ct_root ct) ∧ Verify H (ct_root ct) {[ct_index ct := encNote (t_note t)]} (ct_path ct) = true ∧
    ∀ i resp, resps !! i = Some resp → ∃ pl,
      resp = mkCSR None (Some (mkResp (le_enc 4 (N.of_nat (length (enc v)))) (Z.of_nat i) pl)) (pub ssk)
        (Some (set_rcert (t_note t) (Some ct))) ∧
      length pl = 36 ∧ ∀ r row, shards !! r = Some row → pl !! r = row !! i.
Proof using laws.
  intros Ha3 Hserve Hans Hrc Hw. unfold runTask in Hserve.
  destruct (reconstruct_from c _ a2) as [margs| |]; [|done|done].
  destruct (run _ _ margs) as [v'| |]; [|done|done].
  destruct (responses_ok H sign pub encNote enc c laws ssk t [] v' a3 Hw Ha3 Hrc) as
    (shards0 & rs' & resps' & ct & _ & _ & _ & Hprep & _ & Hans' & Hl & Hsig & Hver & Hri).
  cbn [app] in *. rewrite Hprep in Hserve. injection Hserve as -> Hv.
  assert (resps' = resps) as -> by congruence.
  destruct (C45_roundtrip c laws (enc v') a3 Ha3) as (shards & Henc & Hs & Hfull & _).
  exists shards, ct. rewrite <-Hv. split; [done|]. split; [done|]. split; [done|]. split; [done|].
  intros i resp Hi. destruct (Hri i resp Hi) as (pl & _ & Hre). exists pl. split; [done|].
  unfold prepareCallResponse in Hprep. cbn [app] in Hprep. rewrite Henc in Hprep.
  set (f := λ i, pl ← InsertECCPayload (Some <$> shards) i;
     Some (mkResp (le_enc 4 (N.of_nat (length (enc v')))) (Z.of_nat i) pl)) in Hprep.
  destruct (mapM f (seq 0 (rs_k c + rs_m c))) as [qs|] eqn:Eq; [|done]. injection Hprep as ->.
  apply mapM_Some_1 in Eq.
  assert (∃ x, rs !! i = Some x ∧ cr_resp resp = Some x) as (x & Hx & Hrx).
  { unfold respond in Hans. destruct (sign_strs _ _ _ _) as [cs|]; [|done]. destruct (last cs) as [ct'|].
    - injection Hans as <-. change (map ?g rs) with (g <$> rs) in Hi. rewrite list_lookup_fmap in Hi.
      destruct (rs !! i) as [x|]; [|done]. exists x. split; [done|]. simpl in Hi. by injection Hi as <-.
    - injection Hans as <-. done. }
  rewrite Hre in Hrx. simpl in Hrx. injection Hrx as Hrx.
  destruct (Forall2_lookup_r _ _ _ _ _ Eq Hx) as (i' & Hi' & Hf). apply lookup_seq in Hi' as [-> Hlt]. simpl in Hf.
  unfold f in Hf. destruct (InsertECCPayload (Some <$> shards) i) as [pl'|] eqn:Hpl; [|done].
  simpl in Hf. injection Hf as Hf. rewrite <-Hrx in Hf. injection Hf as ->.
  unfold InsertECCPayload in Hpl. apply mapM_Some_1 in Hpl.
  split; [apply Forall2_length in Hpl; rewrite fmap_length in Hpl; lia|]. intros r row Hrow.
  destruct (Forall2_lookup_l _ _ _ r (Some row) Hpl) as (y & Hy & Hyy); [by rewrite list_lookup_fmap, Hrow|].
  simpl in Hyy. by rewrite Hy, Hyy.
Qed.

(** Each byte of a reply is in the hands of one relay as well: overwriting it in its own piece, it makes the
    client return the reply with exactly that byte changed, if the responses that the client accepts are
    those of the first k relays, in any order. *)
Theorem C53_changed_reply n tau len x : code_for n tau → 1 ≤ tau ≤ n → x < len →
  ∃ j r o, j < n - (tau - 1) ∧
    ∀ nt ssk u v b (t : task hnd) a2 a3 a4 rs resps resp,
      quorum_net nt n tau → signs ssk → length (enc v) = len → (N.of_nat len < 2 ^ 32)%N →
      all_answers a3 → all_answers a4 → n_rcert (t_note t) = None →
      serve t [] a2 a3 = (Ok (RunOk rs), enc v) → answer ssk t (RunOk rs) = Some resps → resps !! j = Some resp →
      (∀ cache, ∃ cache',
        validateRrpcResponse H sigok encNote cache (pub ssk) (forwarded u (tampered r o b resp)) = Ok (None, cache')) ∧
      ∀ l, length l ≤ n → judged (pub ssk) l →
        oks l ≡ₚ forwarded u <$> <[j := tampered r o b resp]> (take (n - (tau - 1)) resps) →
        ∃ out, robust_call nt l = RDone out ∧ client_decode (omap rr_resp out) a4 = Ok (<[x := b]> (enc v)).
Proof using laws.
  intros Hcode Ht Hx. pose proof Hcode as (Hk & Hm & Hmax).
  destruct (holder c laws len x Hx) as (j & r & o & Hj & Hr & Hold).
  exists j, r, o. split; [lia|].
  intros nt ssk u v b t a2 a3 a4 rs resps resp Hq Hssk Hlv Hlen Ha3 Ha4 Hrc Hserve Hans Hresp.
  destruct (reply_rows t a2 a3 v rs ssk resps Ha3 Hserve Hans Hrc) as (sh & ct & He & Hrl & Hsig & Hver & Hri).
  { apply small in Hmax. lia. }
  destruct (encoded_rows c laws (enc v) a3 sh Ha3 He) as [Hsl Hsr].
  assert (∀ ct, set_rcert (set_rcert (t_note t) ct) None = t_note t) as Hback.
  { intros ct'. destruct (t_note t) as [? ? ? ? rc]. simpl in Hrc. by subst rc. }
  split.
  { intros cache. destruct (Hri j resp Hresp) as (pl & -> & _).
    unfold validateRrpcResponse, forwarded, tampered. cbn [rr_error rr_resp cr_error cr_note].
    rewrite Hback. cbn [n_rcert set_rcert].
    destruct (VerifySeq_ok H sigok cache (pub ssk) (encNote (t_note t)) ct Hver) as [E _].
    { right. rewrite Hsig. apply Hssk. }
    destruct (VerifySeq H sigok cache _ _ _) as [o' cache']. simpl in E. subst o'. by exists cache'. }
  intros l Hll Hjudge Hoks. set (k := n - (tau - 1)) in *.
  assert (length (oks l) = k) as Hokl by (rewrite Hoks, fmap_length, insert_length, take_length; lia).
  pose proof (oks_errs l) as Hcount.
  pose proof (robust_call_cases nt n tau l Hq) as Hcases.
  destruct (robust_call nt l) as [|out|e| | |] eqn:Ecall; try done.
  { unfold quorum in Hcases. lia. }
  2: { exfalso. destruct Hcases as (pre & r0 & rest & -> & _ & Herr). rewrite errs_app, app_length, errs_err in Hcount. simpl in Hcount. lia. }
  exists out. split; [done|]. apply (C47_succeeds nt n tau) in Ecall; [|done].
  destruct Ecall as (pre & r0 & rest & Hpre & Hout & Houtl & _).
  assert (out = oks l) as Hol.
  { rewrite Hpre, oks_app, oks_ok in Hokl |- *. rewrite Hout in Houtl |- *. rewrite app_length in Hokl, Houtl. simpl in Hokl, Houtl.
    destruct (oks rest); [done|]. simpl in Hokl. lia. }
  rewrite <-Hol in Hoks. apply Permutation_map_inv in Hoks as (L & -> & HL).
  assert (omap rr_resp (forwarded u <$> L) = L) as HomapL.
  { clear. induction L as [|y L IH]; [done|]. cbn [fmap list_fmap omap list_omap forwarded rr_resp]. f_equal. exact IH. }
  change (map (forwarded u) L) with (forwarded u <$> L). rewrite HomapL.
  (* the pieces are those of the changed reply *)
  destruct (C45_roundtrip c laws (<[x:=b]> (enc v : list byte)) a3 Ha3) as (sh' & He' & Hsl36 & Hfull' & Hdec').
  destruct (encoded_rows c laws (<[x:=b]> (enc v : list byte)) a3 sh' Ha3 He') as [Hsl' Hsr'].
  assert (∀ y, y ∈ L → ∃ i pl, i < rs_k c ∧ column sh' i pl ∧ <[j := tampered r o b resp]> (take k resps) !! i = Some y ∧
    cr_resp y = Some (mkResp (le_enc 4 (N.of_nat (length (enc v)))) (Z.of_nat i) pl)) as HinL.
  { intros y Hy. rewrite <-HL in Hy. apply elem_of_list_lookup in Hy as [i Hi].
    assert (i < rs_k c) as Hik by (apply lookup_lt_Some in Hi; rewrite insert_length, take_length in Hi; lia).
    destruct (lookup_lt_is_Some_2 resps i) as [y0 Hy0]; [lia|].
    destruct (Hri i y0 Hy0) as (pl & Hy0e & Hpl & Hcol).
    exists i, (if decide (i = j) then alter (<[o := b]>) r pl else pl). split; [done|]. split; [|split; [done|]].
    - split; [case_decide; rewrite ?alter_length; lia|]. intros r' w' Hw'.
      assert (r' < 36) as Hr' by (apply lookup_lt_Some in Hw'; lia).
      destruct (lookup_lt_is_Some_2 sh r') as [w Hw]; [lia|].
      pose proof Hw as Hw2. pose proof Hw' as Hw2'. rewrite Hsr in Hw2 by done. rewrite Hsr' in Hw2' by done.
      destruct (Hold (enc v) b Hlv r' i w Hr' Hik Hw2) as (w'' & Hw'' & Hwi). rewrite Hw2' in Hw''. injection Hw'' as <-.
      rewrite Hwi, <-(Hcol r' w Hw). destruct (decide (i = j)) as [Hij|Hij].
      + destruct (decide (r' = r)) as [->|Hne].
        * rewrite list_lookup_alter. by rewrite decide_True by done.
        * rewrite list_lookup_alter_ne by done. by rewrite decide_False by (by intros [_ ?]).
      + by rewrite decide_False by (by intros [? _]).
    - destruct (decide (i = j)) as [->|Hij].
      + rewrite list_lookup_insert in Hi by (rewrite take_length; lia). injection Hi as <-.
        assert (y0 = resp) as -> by congruence. rewrite Hy0e. done.
      + rewrite list_lookup_insert_ne in Hi by done. rewrite lookup_take in Hi by lia. assert (y0 = y) as -> by congruence.
        by rewrite Hy0e. }
  assert (NoDup L) as HndL.
  { rewrite <-HL. apply NoDup_alt. intros i i' y Hi Hi'.
    assert (∀ i, <[j := tampered r o b resp]> (take k resps) !! i = Some y → ∃ z, cr_resp y = Some z ∧ r_index z = Z.of_nat i) as Hidx.
    { intros i0 Hi0. assert (i0 < rs_k c) as Hik by (apply lookup_lt_Some in Hi0; rewrite insert_length, take_length in Hi0; lia).
      destruct (decide (i0 = j)) as [->|Hij].
      - rewrite list_lookup_insert in Hi0 by (rewrite take_length; lia). injection Hi0 as <-.
        destruct (Hri j resp Hresp) as (pl & -> & _). eexists. done.
      - rewrite list_lookup_insert_ne in Hi0 by done. rewrite lookup_take in Hi0 by lia.
        destruct (Hri i0 y Hi0) as (pl & -> & _). eexists. done. }
    destruct (Hidx i Hi) as (z & Hz & Hzi). destruct (Hidx i' Hi') as (z' & Hz' & Hzi'). assert (z' = z) as -> by congruence. lia. }
  assert (∃ rso, mapM cr_resp L = Some rso ∧ length rso = length L ∧
    Forall (λ z, ∃ i pl y, y ∈ L ∧ <[j := tampered r o b resp]> (take k resps) !! i = Some y ∧ i < rs_k c ∧ column sh' i pl ∧
      z = mkResp (le_enc 4 (N.of_nat (length (enc v)))) (Z.of_nat i) pl) rso ∧
    NoDup (r_index <$> rso)) as (rso & Hmap & Hrsol & Hrso & Hndr).
  { clear -HinL HndL. induction L as [|y L IH]; [exists []; split_and!; try done; constructor|].
    apply NoDup_cons in HndL as [Hnin HndL].
    destruct IH as (rso & IH1 & IH2 & IH3 & IH4); [intros; apply HinL; by right|done|].
    destruct (HinL y) as (i & pl & Hik & Hcol & Hi & Hy); [by left|].
    exists (mkResp (le_enc 4 (N.of_nat (length (enc v)))) (Z.of_nat i) pl :: rso). split_and!.
    - cbn [mapM]. by rewrite Hy, IH1.
    - simpl. by rewrite IH2.
    - constructor.
      + exists i, pl, y. split; [by left|]. done.
      + eapply Forall_impl; [exact IH3|]. intros z (i' & pl' & y' & ? & ?). exists i', pl', y'. split; [by right|done].
    - cbn [fmap list_fmap]. constructor; [|done]. intros Hbad. apply elem_of_list_fmap in Hbad as (z & Hz & Hzin).
      rewrite Forall_forall in IH3. destruct (IH3 z Hzin) as (i' & pl' & y' & Hy' & Hi' & _ & _ & ->).
      simpl in Hz. assert (i = i') as <- by lia. assert (y = y') as <- by congruence. done. }
  unfold client_reconstruct. rewrite Hmap.
  apply (reconstruct_columns c laws (<[x:=b]> (enc v : list byte)) sh'); try done.
  - by rewrite insert_length, Hlv.
  - rewrite insert_length. apply Forall_fmap. eapply Forall_impl; [exact Hrso|].
    intros z (i & pl & y & _ & _ & Hi & Hcol & ->). split; [done|]. exists i. split; [done|]. split; [|done]. simpl. lia.
  - rewrite <-!list_fmap_compose. exact Hndr.
  - rewrite fmap_length, Hrsol. rewrite <-HL, insert_length, take_length. lia.
Qed.
End forgery.

(** ** Instances: three relays of which one may fail, two methods. *)
Section example.
Definition find2 (m : string) : option nat :=
  if String.eqb m "/S/Do" then Some 7 else if String.eqb m "/S/Wipe" then Some 8 else None.
(** Both methods return their number and the sixth byte of the request. *)
Definition run2 (h : nat) (u : string) (payload : bytes) : outcome code (byte * byte) :=
  Ok (N2b (N.of_nat h), default Byte.x00 (payload !! 5)).
(** The client's key is 5, the server's 6; relay j has the key 9 and sends a parcel with its own method and
    its piece changed by f. *)
Definition forged (j : nat) (m : string) (f : list shard → list shard) : Parcel :=
  let p := nth_parcel (tps "/S/Do") j in
  default p (reissued toyH tsign tpub tnote tparcel Byte.x09 m (f (p_payload p)) p).
Definition relayed (j i : nat) (m : string) (f : list shard → list shard) : list cevent :=
  [CParcel 1 (forged j m f); CTick 3; CParcel 4 (nth_parcel (tps "/S/Do") i)].
(** What the client returns when all relays pass on the server's answers. *)
Definition returned (es : list cevent) : option (byte * byte) :=
  match head (runs_of "u" (collect find2 2 5 ∅ es).2) with
  | Some t =>
      match (runTask tenc xor_code run2 t [] ex_answers ex_answers).1 with
      | Ok o =>
          let judge r := (r, match validateRrpcResponse toyH tsigok tnote ∅ (tpub Byte.x06) r with
                             | Ok (v, _) => v | _ => Some Aborted end) in
          match robust_call tnt (judge <$> (forwarded "u" <$> default [] (respond toyH tsign tpub tnote xor_code Byte.x06 t o))) with
          | RDone out => match client_reconstruct xor_code (omap rr_resp out) ex_answers with
                         | Ok payload => tdec payload | _ => None end
          | _ => None
          end
      | _ => None
      end
  | None => None
  end.
(** Relay 0 chooses the method. *)
Example C117_example :
  (∀ d, tsigok (tpub Byte.x09) d (tsign Byte.x09 d) = true) ∧
  arrived find2 "u" (relayed 0 2 "/S/Wipe" id) = forged 0 "/S/Wipe" id :: [nth_parcel (tps "/S/Do") 2] ∧
  delete 0 (tps "/S/Do") = [nth_parcel (tps "/S/Do") 1; nth_parcel (tps "/S/Do") 2] ∧
  in_time 5 "u" (relayed 0 2 "/S/Wipe" id) ∧
  returned (relayed 0 2 "/S/Do" id) = Some (Byte.x07, Byte.x41) ∧
  returned (relayed 0 2 "/S/Wipe" id) = Some (Byte.x08, Byte.x41).
Proof.
  split; [intros d; by apply bool_decide_eq_true|]. split; [vm_compute; reflexivity|].
  split; [vm_compute; reflexivity|]. split; [apply tes_in_time|]. split; vm_compute; reflexivity.
Qed.
(** Relay 1 changes the byte at position 5 (row 2, offset 0 of its piece). *)
Example C118_example :
  let f : list shard → list shard := alter (<[0 := Byte.x7a]>) 2 in
  arrived find2 "u" (relayed 1 0 "/S/Do" f) = [forged 1 "/S/Do" f; nth_parcel (tps "/S/Do") 0] ∧
  <[1 := forged 1 "/S/Do" f]> (take 2 (tps "/S/Do")) = [nth_parcel (tps "/S/Do") 0; forged 1 "/S/Do" f] ∧
  in_time 5 "u" (relayed 1 0 "/S/Do" f) ∧
  returned (relayed 1 0 "/S/Do" f) = Some (Byte.x07, Byte.x7a).
Proof.
  intros f. split; [vm_compute; reflexivity|]. split; [vm_compute; reflexivity|].
  split; [apply tes_in_time|]. vm_compute; reflexivity.
Qed.
(** Relay 0 changes the second byte of the reply (row 1, offset 0 of its piece); relay 2 fails. *)
Definition honest : list cevent := CParcel 1 <$> tps "/S/Do".
Definition replies : list CallStreamResponse :=
  match head (runs_of "u" (collect find2 2 5 ∅ honest).2) with
  | Some t => match (runTask tenc xor_code run2 t [] ex_answers ex_answers).1 with
              | Ok o => default [] (respond toyH tsign tpub tnote xor_code Byte.x06 t o)
              | _ => [] end
  | None => []
  end.
Definition received (f : CallStreamResponse → CallStreamResponse) : list (RelayStreamResponse * option code) :=
  match replies with
  | [r0; r1; r2] =>
      (λ r, (r, match validateRrpcResponse toyH tsigok tnote ∅ (tpub Byte.x06) r with
                | Ok (v, _) => v | _ => Some Aborted end)) <$>
      [forwarded "u" r1; mkRSR (Some Internal) None "u"; forwarded "u" (f r0)]
  | _ => []
  end.
Example C53_changed_example :
  length replies = 3 ∧
  oks (received (tampered 1 0 Byte.x7a)) ≡ₚ
    forwarded "u" <$> (match replies !! 0 with
                       | Some r0 => <[0 := tampered 1 0 Byte.x7a r0]> (take 2 replies) | None => [] end) ∧
  (match robust_call tnt (received id) with
   | RDone out => client_reconstruct xor_code (omap rr_resp out) ex_answers | _ => Panic end) = Ok [Byte.x07; Byte.x41] ∧
  (match robust_call tnt (received (tampered 1 0 Byte.x7a)) with
   | RDone out => client_reconstruct xor_code (omap rr_resp out) ex_answers | _ => Panic end) = Ok [Byte.x07; Byte.x7a].
Proof.
  split; [vm_compute; reflexivity|]. split; [|split; vm_compute; reflexivity].
  assert (∃ x y, oks (received (tampered 1 0 Byte.x7a)) = [x; y] ∧
    forwarded "u" <$> (match replies !! 0 with
                       | Some r0 => <[0 := tampered 1 0 Byte.x7a r0]> (take 2 replies) | None => [] end) = [y; x]) as (x & y & -> & ->).
  { eexists _, _. split; vm_compute; reflexivity. }
  apply Permutation_swap.
Qed.
End example.
Print Assumptions C117_relay_chooses.
Print Assumptions C118_changed_byte.
Print Assumptions C53_changed_reply.
