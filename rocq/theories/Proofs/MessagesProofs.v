(** Proofs about the message generator. *)
From Coq Require Import Ascii.
From stdpp Require Import gmap.
From Verif.Base Require Import Base Strs.
From Verif.Model Require Import Topology Onion Rounds ChainCount Messages.
From Verif.Spec Require Import MessagesSpec.
From Verif.Proofs Require Import TopologyProofs OnionProofs ChainCountProofs.

Lemma to_uint32_small n : (N.of_nat n < 2 ^ 32)%N → to_uint32 n = N.of_nat n.
Proof. intros. unfold to_uint32. by apply N.mod_small. Qed.

Section gen.
  Context {MPK D R : Type} (sha3id : string → D) (Encrypt : MPK → D → bytes → R → outcome code bytes).
  Context (t : topology) (mpks : gmap string MPK).
  Context (decrypt : string → D → bytes → option bytes).
  Context (Hdec : ∀ h mpk id m r c, mpks !! h = Some mpk → Encrypt mpk id m r = Ok c → decrypt h id c = Some m).
  Context (round : Z).

  Definition peel (h : string) (o : onion) : option bytes :=
    c ← cipher_part o; decrypt h (computeId sha3id h round) c.

  Lemma onionWrap_peels i chain o mix r o' :
    (N.of_nat i < 2 ^ 32)%N → (N.of_nat chain < 2 ^ 32)%N →
    (row ← tp_layers t !! i; row !! chain) = Some mix →
    onionWrap sha3id Encrypt t round (to_uint32 i) (to_uint32 chain) o (mpks !! mx_host mix) r = Ok o' →
    ExtractMixConfig t o' = Some mix ∧ peel (mx_host mix) o' = Some o.
  Proof.
    intros Hi Hc Hm. unfold onionWrap. rewrite !to_uint32_small by done. rewrite !Nat2N.id, Hm.
    destruct (mpks !! mx_host mix) as [k|] eqn:K; [|done]. simpl.
    destruct (Encrypt k _ o r) as [c| |] eqn:E; simpl; try done. intros [= <-].
    destruct (onion_header_attach c (N.of_nat i) (N.of_nat chain) Hi Hc) as [H1 H2].
    split.
    - unfold ExtractMixConfig. rewrite H1. simpl. rewrite !Nat2N.id. exact Hm.
    - unfold peel. rewrite H2. simpl. by eapply Hdec.
  Qed.

  Lemma wrapLayers_delivers chain rnd k o o' :
    (N.of_nat k ≤ 2 ^ 32)%N → (N.of_nat chain < 2 ^ 32)%N →
    wrapLayers sha3id Encrypt t mpks round chain rnd k o = Ok o' →
    ∃ ms, length ms = k ∧ (∀ i, i < k → ms !! i = (row ← tp_layers t !! i; row !! chain)) ∧
      ∀ rest msg, delivers t peel rest o msg → delivers t peel (ms ++ rest) o' msg.
  Proof.
    intros Hk Hc. revert o. induction k as [|k IH]; intros o; simpl.
    { intros [= <-]. exists []. split; [done|]. split; [lia|]. done. }
    destruct (row ← tp_layers t !! k; row !! chain) as [mix|] eqn:Hm; [|done].
    destruct (onionWrap _ _ _ _ _ _ _ _ _) as [o1| |] eqn:Hw; try done.
    intros Ho. destruct (IH ltac:(lia) _ Ho) as (ms & Hl & Hms & Hd).
    apply onionWrap_peels in Hw as [H1 H2]; [|lia|done|done].
    exists (ms ++ [mix]). rewrite app_length; simpl. split; [lia|]. split.
    - intros i Hi. destruct (decide (i = k)) as [->|].
      + rewrite lookup_app_r by lia. rewrite Hl, Nat.sub_diag. simpl. by rewrite Hm.
      + rewrite lookup_app_l by lia. apply Hms. lia.
    - intros rest msg Hr. rewrite <-app_assoc. apply Hd. simpl. split; [done|]. by exists o.
  Qed.

  Lemma chain_mixes_eq chain ms :
    length ms = length (tp_layers t) →
    (∀ i, i < length (tp_layers t) → ms !! i = (row ← tp_layers t !! i; row !! chain)) →
    chain_mixes t chain = ms.
  Proof.
    unfold chain_mixes. generalize (tp_layers t) as ls. intros ls. revert ms.
    induction ls as [|row ls IH]; intros [|m ms] Hl H; simpl in *; try done.
    pose proof (H 0 ltac:(lia)) as H0'. simpl in H0'. rewrite <-H0'. f_equal.
    apply IH; [lia|]. intros i Hi. apply (H (S i)). lia.
  Qed.

  Lemma wrapLayers_spec chain rnd msg o :
    (N.of_nat (length (tp_layers t)) ≤ 2 ^ 32)%N → (N.of_nat chain < 2 ^ 32)%N →
    wrapLayers sha3id Encrypt t mpks round chain rnd (length (tp_layers t)) msg = Ok o →
    delivers t peel (chain_mixes t chain) o msg ∧ length (chain_mixes t chain) = length (tp_layers t).
  Proof.
    intros Hl Hc Hw. apply wrapLayers_delivers in Hw as (ms & H1 & H2 & H3); [|done|done].
    rewrite (chain_mixes_eq chain ms) by done. split; [|done].
    specialize (H3 [] msg eq_refl). by rewrite app_nil_r in H3.
  Qed.

  Context (Henc : ∀ k id m r, ∃ c, Encrypt k id m r = Ok c).

  Lemma wrapLayers_ok chain rnd k o :
    (N.of_nat k ≤ 2 ^ 32)%N → (N.of_nat chain < 2 ^ 32)%N →
    (∀ i, i < k → ∃ row mix, tp_layers t !! i = Some row ∧ row !! chain = Some mix ∧
       is_Some (mpks !! mx_host mix)) →
    ∃ o', wrapLayers sha3id Encrypt t mpks round chain rnd k o = Ok o'.
  Proof using Henc.
    intros Hk Hc. revert o. induction k as [|k IH]; intros o Hrow; simpl; [by eexists|].
    destruct (Hrow k ltac:(lia)) as (row & mix & H1 & H2 & [mk Hm]).
    rewrite H1. simpl. rewrite H2. unfold onionWrap. rewrite !to_uint32_small by lia.
    rewrite !Nat2N.id, H1. simpl. rewrite H2, Hm.
    destruct (Henc mk (computeId sha3id (mx_host mix) round) o (rnd k)) as [c Hcc]. rewrite Hcc. simpl.
    apply IH; [lia|]. intros i Hi. apply Hrow. lia.
  Qed.

  Lemma wrapChains_spec msg rnd j chains os :
    wrapChains sha3id Encrypt t mpks round msg rnd j chains = Ok os →
    Forall2 (λ chain o, ∃ rnd, wrapLayers sha3id Encrypt t mpks round chain rnd (length (tp_layers t)) msg = Ok o)
      chains os.
  Proof.
    revert j os. induction chains as [|c cs IH]; intros j os; simpl; [by intros [= <-]|].
    destruct (wrapLayers _ _ _ _ _ _ _ _ _) as [o| |] eqn:E; simpl; try done.
    destruct (wrapChains _ _ _ _ _ _ _ _ _) as [os'| |] eqn:E2; simpl; try done.
    intros [= <-]. constructor; [by eexists|by eapply IH].
  Qed.

  Lemma wrapChains_ok msg rnd j chains :
    Forall (λ chain, ∀ rnd, ∃ o, wrapLayers sha3id Encrypt t mpks round chain rnd (length (tp_layers t)) msg = Ok o) chains →
    ∃ os, wrapChains sha3id Encrypt t mpks round msg rnd j chains = Ok os.
  Proof.
    intros Hf. revert j. induction Hf as [|c cs Hc Hcs IH]; intros j; simpl; [by eexists|].
    destruct (Hc (rnd j)) as [o ->]. simpl. destruct (IH (S j)) as [os ->]. simpl. by eexists.
  Qed.
End gen.

Lemma row_of_lt n cur : 0 < n → row_of n cur < n.
Proof. intros. unfold row_of. pose proof (N.mod_lt (be_dec (take 8 cur)) (N.of_nat n)). lia. Qed.

(** The i-th hash of the chain. *)
Lemma chain_loop_lookup sha3 n k cur i :
  i < k → chain_loop sha3 n k cur !! i = Some (row_of n (Nat.iter (S i) sha3 cur)).
Proof.
  revert cur i. induction k as [|k IH]; intros cur i Hi; [lia|].
  destruct i as [|i]; cbn [chain_loop lookup list_lookup]; [done|].
  rewrite IH by lia. do 2 f_equal.
  clear. change (Nat.iter (S i) sha3 (sha3 cur)) with (sha3 (Nat.iter i sha3 (sha3 cur))).
  change (Nat.iter (S (S i)) sha3 cur) with (sha3 (sha3 (Nat.iter i sha3 cur))). f_equal.
  induction i as [|i IH]; simpl; [done|]. by f_equal.
Qed.
Lemma chain_loop_length sha3 n k cur : length (chain_loop sha3 n k cur) = k.
Proof. revert cur. induction k as [|k IH]; intros; simpl; [done|]. by rewrite IH. Qed.

(** Integer square roots exist. *)
Lemma ceil_sqrt_exists (m : Z) : (1 ≤ m)%Z → ∃ k, (1 ≤ k)%Z ∧ ((k - 1) * (k - 1) < m ≤ k * k)%Z.
Proof.
  intros Hm. destruct (Z.sqrt_spec (m - 1)) as [H1 H2]; [lia|].
  exists (Z.sqrt (m - 1) + 1)%Z. pose proof (Z.sqrt_nonneg (m - 1)). nia.
Qed.

(** * Producers *)
Lemma quota_nonneg N n i : 0 < N → i < N → (0 ≤ n)%Z → (0 ≤ quota N n i)%Z.
Proof.
  intros HN Hi Hn. unfold quota.
  pose proof (Z.quot_pos n (Z.of_nat N) Hn ltac:(lia)).
  pose proof (Z.mul_quot_le n (Z.of_nat N) Hn ltac:(lia)).
  case_decide; [|lia]. nia.
Qed.

Lemma zsum_app (a b : list Z) : foldr Z.add 0%Z (a ++ b) = (foldr Z.add 0 a + foldr Z.add 0 b)%Z.
Proof. induction a as [|x a IH]; simpl; [lia|]. rewrite IH. lia. Qed.

Lemma quota_sum N n : 0 < N → foldr Z.add 0%Z (quota N n <$> seq 0 N) = n.
Proof.
  intros HN. destruct N as [|N]; [lia|]. rewrite seq_S, fmap_app, zsum_app. simpl.
  set (p := (n `quot` Z.of_nat (S N))%Z).
  assert (∀ k, k ≤ N → foldr Z.add 0%Z (quota (S N) n <$> seq 0 k) = (Z.of_nat k * p)%Z) as Hk.
  { induction k as [|k IH]; intros Hk; [simpl; lia|].
    rewrite seq_S, fmap_app, zsum_app, IH by lia. simpl. unfold quota.
    rewrite decide_False by lia. fold p. lia. }
  rewrite Hk by lia. unfold quota. rewrite decide_True by lia. fold p. lia.
Qed.

  Lemma zsum_insert (l : list Z) i q q' :
    l !! i = Some q → foldr Z.add 0%Z (<[i := q']> l) = (foldr Z.add 0 l - q + q')%Z.
  Proof.
    revert i. induction l as [|x l IH]; intros [|i] Hl; simpl in *; try done.
    - injection Hl as ->. lia.
    - rewrite (IH i) by done. lia.
  Qed.

  Lemma zsum_pos (l : list Z) : Forall (λ q, 0 ≤ q)%Z l → (0 < foldr Z.add 0 l)%Z → ∃ i q, l !! i = Some q ∧ (0 < q)%Z.
  Proof.
    induction l as [|x l IH]; intros Hf Hs; simpl in *; [lia|]. inversion Hf; subst.
    destruct (decide (0 < x)%Z); [by exists 0, x|].
    destruct IH as (i & q & ? & ?); [done|lia|]. by exists (S i), q.
  Qed.
  Lemma zsum_nonneg (l : list Z) : Forall (λ q, 0 ≤ q)%Z l → (0 ≤ foldr Z.add 0 l)%Z.
  Proof. induction 1; simpl; lia. Qed.
  Lemma zsum_zero (l : list Z) : Forall (λ q, 0 ≤ q)%Z l → foldr Z.add 0%Z l = 0%Z → Forall (λ q, q = 0)%Z l.
  Proof.
    induction 1 as [|x l Hx Hl IH]; simpl; intros Hs; [constructor|].
    pose proof (zsum_nonneg l Hl). constructor; [lia|]. apply IH. lia.
  Qed.

Section prod.
  Context {X : Type} (produces : X → Prop) (N : nat) (numClients : Z) (HN : 0 < N) (Hn : (0 ≤ numClients)%Z).
  Notation step := (gen_step produces N numClients).

  Record ginv (s : @gen_state X) : Prop := {
    gi_nonneg : Forall (λ q, 0 ≤ q)%Z (g_left s);
    gi_sum : (foldr Z.add 0 (g_left s) + Z.of_nat (length (g_chan s)) + Z.of_nat (length (g_out s)) = numClients)%Z;
    gi_prod : Forall produces (g_chan s ++ g_out s);
    gi_cap : length (g_chan s) ≤ 2 * N }.

  Lemma ginv_init s : gen_init N numClients = Some s → ginv s.
  Proof using HN Hn.
    unfold gen_init. rewrite decide_False by lia. intros [= <-]. split; simpl.
    - apply Forall_fmap, Forall_forall. intros i Hi. apply elem_of_seq in Hi. apply quota_nonneg; lia.
    - rewrite quota_sum by lia. lia.
    - constructor.
    - lia.
  Qed.

  Lemma ginv_step s s' : ginv s → step s s' → ginv s'.
  Proof using Type.
    clear HN Hn. intros [H1 H2 H3 H4] Hs. destruct Hs as [i q x s Hi Hq Hx Hc|x xs s Hc Ho]; split; simpl in *.
    - apply Forall_insert; [done|lia].
    - rewrite (zsum_insert _ _ q) by done. rewrite app_length. simpl. lia.
    - rewrite <-app_assoc, Forall_app in *. destruct H3. split; [done|]. simpl. by constructor.
    - rewrite app_length; simpl; lia.
    - done.
    - rewrite Hc in H2. simpl in H2. rewrite app_length; simpl. lia.
    - rewrite Hc in H3. rewrite !Forall_app in *. simpl in H3. destruct H3 as [H3 ?].
      inversion H3; subst. split; [done|]. split; [done|]. by constructor.
    - rewrite Hc in H4. simpl in H4. lia.
  Qed.

  Lemma ginv_steps s s' : ginv s → rtc step s s' → ginv s'.
  Proof using Type. intros Hi Hr. induction Hr; [done|]. eauto using ginv_step. Qed.

  Lemma gprogress s : (∃ x, produces x) → ginv s → ¬ gen_returned numClients s → ∃ s', step s s'.
  Proof using HN.
    intros [x Hx] [H1 H2 H3 H4] Hr. unfold gen_returned in Hr.
    destruct (g_chan s) as [|y ys] eqn:E.
    - destruct (zsum_pos (g_left s) H1) as (i & q & Hi & Hq); [simpl in H2; lia|].
      eexists. eapply (gen_send _ _ _ i q x s); try done. rewrite E. simpl. lia.
    - eexists. eapply (gen_recv _ _ _ y ys s); [done|lia].
  Qed.

  Definition gmeasure (s : @gen_state X) : nat :=
    Z.to_nat (2 * foldr Z.add 0 (g_left s) + Z.of_nat (length (g_chan s)))%Z.

  Lemma gmeasure_dec s s' : ginv s → step s s' → S (gmeasure s') = gmeasure s.
  Proof using Type.
    clear HN Hn. intros [H1 H2 H3 H4] Hs. pose proof (zsum_nonneg _ H1) as Hnn. unfold gmeasure.
    destruct Hs as [i q x s Hi Hq Hx Hc|x xs s Hc Ho]; simpl in *.
    - rewrite (zsum_insert _ _ q) by done. rewrite app_length. simpl.
      assert (q ≤ foldr Z.add 0 (g_left s))%Z as Hle.
      { clear -H1 Hi. revert i Hi. induction H1 as [|y l Hy Hl IH]; intros [|i] Hi; simpl in *; try done.
        - injection Hi as ->. pose proof (zsum_nonneg l Hl). lia.
        - specialize (IH i Hi). lia. }
      lia.
    - rewrite Hc. simpl. lia.
  Qed.

  Lemma greturned s : ginv s → gen_returned numClients s →
    g_chan s = [] ∧ Forall (λ q, q = 0)%Z (g_left s) ∧ Z.of_nat (length (g_out s)) = numClients.
  Proof using Type.
    clear HN Hn. intros [H1 H2 H3 H4] Hr. unfold gen_returned in Hr. pose proof (zsum_nonneg _ H1).
    split; [|split].
    - destruct (g_chan s); [done|simpl in *; lia].
    - apply zsum_zero; [done|]. lia.
    - lia.
  Qed.
End prod.

(** * Cache *)
Lemma pretty_Z_head (z : Z) : str_all (λ c, is_digit c || Ascii.eqb c "-"%char) (pretty z) = true.
Proof.
  unfold pretty, pretty_Z. destruct z as [|p|p].
  - done.
  - eapply str_all_impl; [|exact (pretty_N_digits (Npos p))]. intros c Hc. by rewrite Hc.
  - change (pretty (N.pos p)) with (pretty (N.pos p)). rewrite str_cons_app. simpl.
    eapply str_all_impl; [|exact (pretty_N_digits (Npos p))]. intros c Hc. by rewrite Hc.
Qed.
Lemma pretty_Z_inj (a b : Z) : pretty a = pretty b → a = b.
Proof. intros H. by apply (inj pretty). Qed.

Lemma cache_file_inj n r n' r' : cache_file n r = cache_file n' r' → n = n' ∧ r = r'.
Proof.
  unfold cache_file. intros Heq.
  assert (∀ z : Z, str_all (λ x, negb (Ascii.eqb x "."%char)) (pretty z) = true) as Hz.
  { intros z. eapply str_all_impl; [|apply pretty_Z_head]. intros c Hc. simpl in Hc.
    destruct (Ascii.eqb c ".") eqn:E; [|done]. apply Ascii.eqb_eq in E as ->. done. }
  apply (str_split_unique "."%char _ _ ("round." +:+ pretty n +:+ "." +:+ "message.storage")
           ("round." +:+ pretty n' +:+ "." +:+ "message.storage")) in Heq as [H1 H2]; [|apply Hz..].
  apply (str_app_inj_l "round.") in H2.
  apply (str_split_unique "."%char _ _ "message.storage" "message.storage") in H2 as [H2 _]; [|apply Hz..].
  split; by apply pretty_Z_inj.
Qed.

Section cache.
  Context {A : Type} (marshal : A → bytes) (unmarshal : bytes → option A) (generates : Z → Z → A → Prop).
  Context (Hrt : ∀ a, unmarshal (marshal a) = Some a).
  Notation call := (load_or_create marshal unmarshal generates).
  Notation hist := (cache_history marshal unmarshal generates).

  Lemma call_keeps n r d e d' f c : call n r d e d' → d !! f = Some c → d' !! f = Some c.
  Proof.
    intros Hc Hf. destruct Hc; try done. all: (rewrite (lookup_insert_ne (M:=gmap string)); [done|congruence]).
  Qed.

  Lemma call_returned n r d a d' : call n r d (CReturn a) d' →
    ∃ c, d' !! cache_file n r = Some c ∧ unmarshal c = Some a.
  Proof using Hrt.
    intros Hc. inversion Hc as [? ? ? ? | | ? ? ? | ? ? ? ? ? ? Hor | ? Hor]; subst; simplify_eq.
    - by eexists.
    - exists (marshal a). by rewrite lookup_insert.
    - destruct Hor; done.
    - destruct Hor as [[_ [|]]|]; done.
  Qed.

  Lemma call_on_existing n r d e d' c : call n r d e d' → d !! cache_file n r = Some c →
    d' = d ∧ (e = CCrash ∨ match unmarshal c with Some a => e = CReturn a | None => e = CError end).
  Proof.
    intros Hc Hd. destruct Hc as [? ? Hl Hu | ? Hl Hu | ? ? ? | ? ? ? ? ? ? Hor | ? Hor]; simplify_eq.
    - split; [done|]. right. by rewrite Hu.
    - split; [done|]. right. by rewrite Hu.
    - split; [done|]. left. destruct Hor as [[??]|]; [congruence|done].
  Qed.

  Lemma hist_keeps d h d' f c : hist d h d' → d !! f = Some c → d' !! f = Some c.
  Proof. induction 1; eauto using call_keeps. Qed.

  Lemma hist_split d h1 h2 d' : hist d (h1 ++ h2) d' → ∃ d1, hist d h1 d1 ∧ hist d1 h2 d'.
  Proof.
    revert d'. induction h2 as [|x h2 IH] using rev_ind; intros d' Hh.
    - rewrite app_nil_r in Hh. exists d'. split; [done|constructor].
    - rewrite app_assoc in Hh. inversion Hh as [Hn|h n r e d1 d2 Hh1 Hc Heq]; subst.
      + by destruct (h1 ++ h2).
      + apply app_inj_tail in Heq as [-> <-]. destruct (IH _ Hh1) as (d3 & ? & ?).
        exists d3. split; [done|]. econstructor; eauto.
  Qed.

  Lemma hist_existing d h d' n r c :
    hist d h d' → d !! cache_file n r = Some c →
    ∀ e, (n, r, e) ∈ h → e = CCrash ∨ match unmarshal c with Some a => e = CReturn a | None => e = CError end.
  Proof.
    intros Hh Hd. induction Hh as [|h n' r' e' d1 d2 Hh IH Hc]; intros e He.
    - by apply elem_of_nil in He.
    - apply elem_of_app in He as [He|He]; [by apply IH|].
      apply elem_of_list_singleton in He. simplify_eq.
      eapply call_on_existing; [done|]. by eapply hist_keeps.
  Qed.
End cache.
