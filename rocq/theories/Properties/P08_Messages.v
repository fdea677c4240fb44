(** C18, C19, C20, C60: the message generator. *)
From stdpp Require Import gmap.
From Verif.Base Require Import Base Strs.
From Verif.Model Require Import Topology Onion Rounds ChainCount Messages.
From Verif.Spec Require Import MessagesSpec.
From Verif.Proofs Require Import TopologyProofs OnionProofs ChainCountProofs MessagesProofs.

(** C18.  [decrypt h id] is decryption with host h's key for identity id; the hypothesis is the
    correctness of the encryption scheme (C26, C35, C36).  For every message, chain, round and all
    random choices: every onion that is produced follows its chain and ends in the message. *)
Theorem C18_onion_peels {MPK D R} (sha3id : string → D)
    (Encrypt : MPK → D → bytes → R → outcome code bytes) (t : topology) (mpks : gmap string MPK)
    (decrypt : string → D → bytes → option bytes) :
  (∀ h mpk id m r c, mpks !! h = Some mpk → Encrypt mpk id m r = Ok c → decrypt h id c = Some m) →
  (N.of_nat (length (tp_layers t)) ≤ 2 ^ 32)%N →
  ∀ (round : Z) (chain : nat) (rnd : nat → R) (msg : bytes) (o : onion),
  (N.of_nat chain < 2 ^ 32)%N →
  wrapLayers sha3id Encrypt t mpks round chain rnd (length (tp_layers t)) msg = Ok o →
  let peel := λ h (o : onion), c ← cipher_part o; decrypt h (computeId sha3id h round) c in
  length (chain_mixes t chain) = length (tp_layers t) ∧
  delivers t peel (chain_mixes t chain) o msg.
Proof.
  intros Hdec Hl round chain rnd msg o Hc Hw. cbv zeta.
  destruct (wrapLayers_spec sha3id Encrypt t mpks decrypt Hdec round chain rnd msg o Hl Hc Hw) as [H1 H2].
  done.
Qed.
Print Assumptions C18_onion_peels.

(** ... and generateOnion produces one such onion for each chosen chain, without panicking, whenever
    the topology is a cascade of servers whose master keys are known and Encrypt does not fail. *)
Theorem C18_generateOnion {MPK D R} (sha3id : string → D)
    (Encrypt : MPK → D → bytes → R → outcome code bytes) (mpks : gmap string MPK)
    (decrypt : string → D → bytes → option bytes) (sha3 : bytes → bytes)
    (servers : list string) (L : nat) (t : topology) :
  (∀ h mpk id m r c, mpks !! h = Some mpk → Encrypt mpk id m r = Ok c → decrypt h id c = Some m) →
  (∀ mpk id m r, ∃ c, Encrypt mpk id m r = Ok c) →
  CreateCascadeTopology servers (Z.of_nat L) = Some t →
  0 < length servers → (N.of_nat (length servers) ≤ 2 ^ 32)%N → 0 < L → (N.of_nat L ≤ 2 ^ 32)%N →
  (∀ h, h ∈ servers → is_Some (mpks !! h)) →
  ∀ (msg : bytes) (round : Z) (rnd : nat → nat → R),
  ∃ chains os,
    calculateChain sha3 (length servers) msg = Ok chains ∧
    generateOnion sha3id Encrypt t mpks sha3 msg round rnd = Ok os ∧
    let peel := λ h (o : onion), c ← cipher_part o; decrypt h (computeId sha3id h round) c in
    Forall2 (λ chain o,
      length (chain_mixes t chain) = L ∧ delivers t peel (chain_mixes t chain) o msg) chains os.
Proof.
  intros Hdec Henc Ht Hs Hs32 HL HL32 Hk msg round rnd.
  destruct (cascade_form servers L) as (mixes & Ht' & _). rewrite Ht in Ht'. injection Ht' as Ht'.
  assert (length (tp_layers t) = L) as HtL.
  { rewrite Ht'. simpl. apply grid_length. }
  assert (∀ l, l < L → ∃ row, tp_layers t !! l = Some row ∧ length row = length servers ∧
            ∀ i m, row !! i = Some m → mx_host m ∈ servers) as Hrows.
  { intros l Hll. rewrite Ht'. simpl. rewrite grid_lookup, decide_True by done.
    eexists. split; [done|]. split; [by rewrite fmap_length, seq_length|].
    intros i m Hm. rewrite grid_row_lookup in Hm. case_decide as Hi; [|done].
    injection Hm as <-. simpl. apply (elem_of_list_lookup_2 _ (pos servers l i)).
    apply list_lookup_lookup_total_lt. apply rot_lt. lia. }
  set (chains := row_of (length servers) (sha3 msg) :: chain_loop sha3 (length servers)
          (Z.to_nat (numberOfRepetitions (Z.of_nat (length servers)) - 1)) (sha3 msg)).
  assert (Forall (λ c, c < length servers) chains) as Hch.
  { constructor; [by apply row_of_lt|]. apply Forall_lookup. intros i c Hi.
    assert (i < Z.to_nat (numberOfRepetitions (Z.of_nat (length servers)) - 1)).
    { apply lookup_lt_Some in Hi. by rewrite chain_loop_length in Hi. }
    rewrite chain_loop_lookup in Hi by done. injection Hi as <-. by apply row_of_lt. }
  destruct (wrapChains_ok sha3id Encrypt t mpks round msg rnd 0 chains) as [os Hos].
  { eapply Forall_impl; [exact Hch|]. intros c Hc rnd'. cbv beta in Hc. rewrite HtL; apply wrapLayers_ok; [done|done|lia|].
    intros i Hi. destruct (Hrows i ltac:(lia)) as (row & Hr & Hrl & Hrh).
    destruct (row !! c) as [m|] eqn:Hm.
    - exists row, m. split; [done|]. split; [done|]. apply Hk. by eapply Hrh.
    - apply lookup_ge_None in Hm. lia. }
  exists chains, os. split; [unfold calculateChain; by rewrite decide_False by lia|]. split.
  - unfold generateOnion. destruct (Hrows 0 ltac:(lia)) as (row & Hr & Hrl & _).
    rewrite Hr. unfold calculateChain. rewrite Hrl, decide_False by lia. simpl. exact Hos.
  - simpl. apply wrapChains_spec in Hos.
    clearbody chains. clear -Hos Hch Hdec HtL HL32 Hs32.
    induction Hos as [|c o cs os [rnd' Ho] Hos IH]; constructor.
    + inversion Hch; subst.
      destruct (wrapLayers_spec sha3id Encrypt t mpks decrypt Hdec round c rnd' msg o) as [Hd1 Hd2]; try lia; done.
    + apply IH. by inversion Hch.
Qed.
Print Assumptions C18_generateOnion.

(** A toy scheme: the key is a byte put in front, decryption removes it. *)
Example C18_example :
  let Enc := λ (k : byte) (_ : string) (m : bytes) (_ : unit), Ok (E:=code) (k :: m) in
  let keys : gmap string byte := {["a" := Byte.x41; "b" := Byte.x42]} in
  let dec := λ h (_ : string) (c : bytes),
    match c, keys !! h with x :: m, Some k => if decide (x = k) then Some m else None | _, _ => None end in
  (∀ h mpk id m r c, keys !! h = Some mpk → Enc mpk id m r = Ok c → dec h id c = Some m) ∧
  ∃ t o, CreateCascadeTopology ["a"; "b"] 2 = Some t ∧
    wrapLayers (λ s, s) Enc t keys 7 1 (λ _, tt) 2 [Byte.x01; Byte.x02] = Ok o ∧
    o = [Byte.x42; Byte.x41; Byte.x01; Byte.x02] ++ be_enc 4 1 ++ be_enc 4 1 ++ be_enc 4 0 ++ be_enc 4 1 ∧
    (mx_name <$> chain_mixes t 1) = ["m(0,1)"; "m(1,0)"].
Proof.
  cbv zeta. split.
  - intros h mpk id m r c Hk [= <-]. rewrite Hk. by rewrite decide_True.
  - eexists _, _. split; [by vm_compute|]. split; [by vm_compute|]. by vm_compute.
Qed.

(** C19.  The number of chains is the ceiling of the square root of 2n (k - 1 < sqrt(2n) <= k), all
    are below n, and the j-th is the first 8 bytes, big endian and modulo n, of the (j+1)-fold hash
    of the message: nothing but n and the message matters. *)
Theorem C19_chains (sha3 : bytes → bytes) (n : nat) (msg : bytes) :
  1 ≤ n → (Z.of_nat n ≤ 2 ^ 51)%Z →
  ∃ chains k, calculateChain sha3 n msg = Ok chains ∧
    length chains = k ∧ 1 ≤ k ∧
    (Z.of_nat (k - 1) * Z.of_nat (k - 1) < 2 * Z.of_nat n ≤ Z.of_nat k * Z.of_nat k)%Z ∧
    (∀ c, c ∈ chains → c < n) ∧
    (∀ j, j < k → ∃ c, chains !! j = Some c ∧
       N.of_nat c = (be_dec (take 8 (Nat.iter (S j) sha3 msg)) mod N.of_nat n)%N).
Proof.
  intros Hn Hn51. destruct (ceil_sqrt_exists (2 * Z.of_nat n)) as (kz & Hk & Hlo & Hhi); [lia|].
  pose proof (numberOfRepetitions_exact (Z.of_nat n) kz ltac:(lia) Hk ltac:(lia)) as Hreps.
  unfold calculateChain. rewrite decide_False by lia. rewrite Hreps.
  set (m := Z.to_nat (kz - 1)).
  assert (∀ j, j < S m → (row_of n (sha3 msg) :: chain_loop sha3 n m (sha3 msg)) !! j =
             Some (row_of n (Nat.iter (S j) sha3 msg))) as Hl.
  { intros [|j] Hj; [done|]. cbn [lookup list_lookup]. rewrite chain_loop_lookup by lia. do 2 f_equal.
    clear. induction j as [|j IH]; [done|]. simpl in *. by rewrite IH. }
  eexists _, (S m). split; [done|]. split; [simpl; by rewrite chain_loop_length|].
  split; [lia|]. split; [unfold m; split; nia|]. split.
  - intros c Hc. apply elem_of_list_lookup in Hc as [j Hj].
    assert (j < S m) as Hjm.
    { apply lookup_lt_Some in Hj. simpl in Hj. by rewrite chain_loop_length in Hj. }
    rewrite Hl in Hj by done. injection Hj as <-. by apply row_of_lt.
  - intros j Hj. exists (row_of n (Nat.iter (S j) sha3 msg)). split; [by apply Hl|].
    unfold row_of. by rewrite N2Nat.id.
Qed.
Print Assumptions C19_chains.

(** Without servers calculateChain panics (remainder by zero); and the bound on n cannot be dropped:
    for n = 2^51+2^26+1 the rounded square root gives one chain too few. *)
Theorem C19_boundaries (sha3 : bytes → bytes) (msg : bytes) :
  calculateChain sha3 0 msg = Panic ∧
  (numberOfRepetitions (2 ^ 51 + 2 ^ 26 + 1) * numberOfRepetitions (2 ^ 51 + 2 ^ 26 + 1)
     < 2 * (2 ^ 51 + 2 ^ 26 + 1))%Z.
Proof. split; [done|]. exact numberOfRepetitions_2_51_refuted. Qed.

Example C19_example :
  calculateChain (λ m, rev m ++ [Byte.x07]) 9 [Byte.x01; Byte.x02] =
    Ok [7; 2; 0; 1; 5].
Proof. vm_compute. done. Qed.

(** C20.  [produces x]: x is a message/onions pair a goroutine may send. *)
Theorem C20_quotas (N : nat) (numClients : Z) :
  1 ≤ N → (0 ≤ numClients)%Z →
  Forall (λ q, 0 ≤ q)%Z (quota N numClients <$> seq 0 N) ∧
  foldr Z.add 0%Z (quota N numClients <$> seq 0 N) = numClients.
Proof.
  intros HN Hn. split; [|by apply quota_sum].
  apply Forall_fmap, Forall_forall. intros i Hi. apply elem_of_seq in Hi. apply quota_nonneg; lia.
Qed.
Print Assumptions C20_quotas.

(** In every reachable state: if generateOnions has not returned, some goroutine or the collector can
    move; no execution is longer than twice the number of clients; and when it returns, exactly
    numClients pairs were collected, all of them produced by the goroutines, with no goroutine left
    with work to do and nothing left in the channel. *)
Theorem C20_collects_all {X} (produces : X → Prop) (N : nat) (numClients : Z) s0 s :
  1 ≤ N → (∃ x, produces x) →
  gen_init N numClients = Some s0 → rtc (gen_step produces N numClients) s0 s →
  (¬ gen_returned numClients s → ∃ s', gen_step produces N numClients s s') ∧
  (∀ k s', nsteps (gen_step produces N numClients) k s0 s' → k ≤ 2 * Z.to_nat numClients) ∧
  (gen_returned numClients s →
     Z.of_nat (length (g_out s)) = numClients ∧ Forall produces (g_out s) ∧
     g_chan s = [] ∧ Forall (λ q, q = 0)%Z (g_left s) ∧
     ∀ s', ¬ gen_step produces N numClients s s').
Proof.
  intros HN Hx Hi Hr.
  assert (0 ≤ numClients)%Z as Hn.
  { unfold gen_init in Hi. case_decide; [done|lia]. }
  pose proof (ginv_init produces N numClients HN Hn s0 Hi) as I0.
  pose proof (ginv_steps produces N numClients s0 s I0 Hr) as Is.
  split; [|split].
  - intros Hret. by eapply gprogress.
  - intros k s' Hk.
    assert (gmeasure s0 = 2 * Z.to_nat numClients) as Hm.
    { unfold gen_init in Hi. rewrite decide_False in Hi by lia. injection Hi as <-.
      unfold gmeasure. simpl. rewrite quota_sum by lia. lia. }
    rewrite <-Hm. clear -Hk I0. revert I0. induction Hk as [|k x y z Hxy Hyz IH]; intros Ix; [lia|].
    pose proof (gmeasure_dec _ _ _ _ _ Ix Hxy). pose proof (IH (ginv_step _ _ _ _ _ Ix Hxy)). lia.
  - intros Hret. destruct (greturned _ _ _ _ Is Hret) as (H1 & H2 & H3).
    split; [done|]. split.
    { destruct Is as [_ _ Hp _]. rewrite H1 in Hp. done. }
    split; [done|]. split; [done|].
    intros s' Hs. destruct Hs as [i q x s Hl Hq Hp Hc|x xs s Hc Ho].
    + eapply (Forall_lookup_1 (λ q, q = 0)%Z) in H2; [|exact Hl]. simpl in H2. lia.
    + congruence.
Qed.
Print Assumptions C20_collects_all.

(** A negative count makes make([]MessageOnionsPair, 0, numClients) panic. *)
Theorem C20_negative {X} N numClients : (numClients < 0)%Z → @gen_init X N numClients = None.
Proof. intros. unfold gen_init. by rewrite decide_True. Qed.

Example C20_example :
  quota 4 10 <$> seq 0 4 = [2; 2; 2; 4]%Z ∧ quota 4 3 <$> seq 0 4 = [0; 0; 0; 3]%Z ∧
  ∃ s0, gen_init (X:=nat) 2 3 = Some s0 ∧
    rtc (gen_step (λ _ : nat, True) 2 3) s0 (mkGen [0; 1]%Z [8] [7]).
Proof.
  split; [by vm_compute|]. split; [by vm_compute|]. eexists. split; [by vm_compute|].
  eapply rtc_l. { eapply (gen_send _ 2 3 1 2%Z 7 (mkGen [1; 2]%Z [] [])); done || (simpl; lia). }
  eapply rtc_l. { eapply (gen_send _ 2 3 0 1%Z 8 (mkGen [1; 1]%Z [7] [])); done || (simpl; lia). }
  eapply rtc_l. { eapply (gen_recv _ 2 3 7 [8] (mkGen [0; 1]%Z [7; 8] [])); done || (simpl; lia). }
  done.
Qed.

(** C60.  In every history of calls, by any number of successive processes: once a call for
    (numClients, round) returned pairs [a], every later call with these arguments returns exactly [a]
    (unless the process dies during it). *)
Theorem C60_same_pairs {A} (marshal : A → bytes) (unmarshal : bytes → option A)
    (generates : Z → Z → A → Prop) :
  (∀ a, unmarshal (marshal a) = Some a) →
  ∀ d before numClients round a after d' e,
  cache_history marshal unmarshal generates d (before ++ (numClients, round, CReturn a) :: after) d' →
  (numClients, round, e) ∈ after → e = CReturn a ∨ e = CCrash.
Proof.
  intros Hrt d before n r a after d' e Hh He.
  rewrite cons_middle, app_assoc in Hh.
  apply hist_split in Hh as (d1 & Hh1 & Hh2).
  inversion Hh1 as [Hn|h n' r' e' d2 d3 Hh0 Hc Heq]; subst; [by destruct before|].
  apply app_inj_tail in Heq as [-> Heq]. injection Heq as -> -> ->.
  destruct (call_returned _ _ _ Hrt _ _ _ _ _ Hc) as (c & Hc1 & Hc2).
  destruct (hist_existing _ _ _ _ _ _ _ _ _ Hh2 Hc1 e He) as [|Hm]; [by right|].
  rewrite Hc2 in Hm. by left.
Qed.
Print Assumptions C60_same_pairs.

(** Different arguments use different files, so they do not disturb each other. *)
Theorem C60_files_distinct n r n' r' : cache_file n r = cache_file n' r' → n = n' ∧ r = r'.
Proof. apply cache_file_inj. Qed.

(** FINDING.  A failed or interrupted write leaves a prefix of the file; if it is not the whole
    file, every later call with these arguments fails, for ever. *)
Theorem C60_partial_write_is_fatal {A} (marshal : A → bytes) (unmarshal : bytes → option A)
    (generates : Z → Z → A → Prop) :
  (∀ a p, p `prefix_of` marshal a → p ≠ marshal a → unmarshal p = None) →
  ∀ d numClients round a p,
  d !! cache_file numClients round = None → generates numClients round a →
  p `prefix_of` marshal a → p ≠ marshal a →
  ∃ d1, load_or_create marshal unmarshal generates numClients round d CCrash d1 ∧
    ∀ later d' e, cache_history marshal unmarshal generates d1 later d' →
      (numClients, round, e) ∈ later → e = CError ∨ e = CCrash.
Proof.
  intros Hpre d n r a p Hd Hg Hp Hne. eexists. split.
  - eapply (loc_write_fails _ _ _ n r d a p); eauto.
  - intros later d' e Hh He.
    destruct (hist_existing _ _ _ _ _ _ n r p Hh) with (e := e) as [|Hm]; [by rewrite lookup_insert|done|by right|].
    rewrite (Hpre a p Hp Hne) in Hm. by left.
Qed.
Print Assumptions C60_partial_write_is_fatal.

(** The codec hypotheses are satisfiable: unary numbers with a terminator. *)
Definition unary_enc (n : nat) : bytes := replicate n Byte.x01 ++ [Byte.x00].
Fixpoint unary_dec (b : bytes) : option nat :=
  match b with
  | [Byte.x00] => Some 0
  | Byte.x01 :: b => S <$> unary_dec b
  | _ => None
  end.
Example C60_example :
  (∀ n, unary_dec (unary_enc n) = Some n) ∧
  (∀ n p, p `prefix_of` unary_enc n → p ≠ unary_enc n → unary_dec p = None) ∧
  cache_file 3 (-2) = "-2.round.3.message.storage" ∧
  cache_history unary_enc unary_dec (λ _ _ _, True) ∅
    [(3%Z, 1%Z, CReturn 5); (3%Z, 1%Z, CReturn 5)] {["1.round.3.message.storage" := unary_enc 5]}.
Proof.
  split; [|split; [|split]].
  - intros n. induction n as [|n IH]; [done|]. simpl. unfold unary_enc in IH. by rewrite IH.
  - induction n as [|n IH]; intros p [k Hp] Hne.
    + destruct p as [|x p]; [done|]. unfold unary_enc in Hp. simpl in Hp. injection Hp as <- Hp.
      destruct p; [by destruct Hne|done].
    + unfold unary_enc in Hp. simpl in Hp. destruct p as [|x p]; [done|]. simpl in Hp.
      injection Hp as <- Hp. simpl. rewrite (IH p); [done|by exists k|].
      intros ->. by destruct Hne.
  - by vm_compute.
  - apply (ch_snoc _ _ _ ∅ [(3%Z, 1%Z, CReturn 5)] 3 1 (CReturn 5) {["1.round.3.message.storage" := unary_enc 5]}).
    + apply (ch_snoc _ _ _ ∅ [] 3 1 (CReturn 5) ∅); [constructor|].
      apply (loc_create unary_enc unary_dec (λ _ _ _, True) 3 1 ∅ 5); done.
    + eapply loc_load; [by vm_compute|done].
Qed.
