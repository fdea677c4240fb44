(** C84: a generated deployment, end to end: key set-up, onions, mixing, delivery. *)
From stdpp Require Import gmap.
From Verif.Base Require Import Base.
From Verif.Model Require Import Topology Shuffle Onion Mixer Rounds Messages System.
From Verif.Model Require Tibe TibeCodec KeyConfig Deployment Cfb.
From Verif.Spec Require Import MixerSpec MessagesSpec SystemSpec DeploymentSpec.
From Verif.Proofs Require Import SystemProofs.
From Verif.Proofs Require DeploymentProofs TopologyProofs FpSetting.
From Verif.Properties Require Import P08_Messages P27_System.
From Verif.Properties Require P13_KeyConfig.

Lemma nth_error_lookup_eq {A} (l : list A) i : nth_error l i = l !! i.
Proof. revert i; induction l as [|x l IH]; intros [|i]; simpl; auto. Qed.

Section C84.
Context {St : Tibe.setting} (cd : TibeCodec.element_codecs (ssralg.GRing.Field.sort (Tibe.sF St)) (ssralg.GRing.Lmodule.sort (Tibe.sG1 St))).
(** The libraries: a pairing, codecs of fixed size that round-trip, and a MAC of 32 bytes. *)
Hypotheses (laws : Tibe.pairing_laws St) (claws : TibeCodec.element_laws cd)
  (mac_len : ∀ data key, length (Tibe.hmac St data key) = 32).

Lemma gs_facts addrs d L dkg polys t nodes mpks :
  generated_system cd addrs d L dkg polys t nodes mpks →
  (∀ h p, mpks !! h = Some p → ∀ id m r c, Deployment.EncryptBytes cd p id m r = Ok c →
     Deployment.DecryptBytes cd (nodes h) id c = Some (Some m)) ∧
  (∀ h, h ∈ addrs → is_Some (mpks !! h)).
Proof using laws claws mac_len.
  intros (Hnd & Hn & Hd & Hdkg & Hpl & Hps & Ht & Hnodes & order & sc0 & ks & Ho & Hsc & Hks & ->).
  apply NoDup_ListNoDup in Hnd.
  assert (∀ p, In p polys → seq.size p = S d) as Hps' by (intros p Hp; apply Hps; by apply elem_of_list_In).
  assert (∀ m, Permutation (order m) m) as Ho' by exact Ho.
  destruct (DeploymentProofs.generator_keys_spec claws Hpl Hps' Hdkg Hn Hd Ho' Hsc) as (ks' & E & Hk1 & Hk2).
  rewrite Hks in E. injection E as <-.
  split.
  - intros h p Hp id m r c Henc. apply elem_of_list_to_map_2, elem_of_list_In in Hp.
    destruct (Hk2 h p Hp) as (j & own & Hj & Hown & _).
    assert (addrs !! j = Some h) as Hj' by (by rewrite <-nth_error_lookup_eq).
    destruct (Hnodes _ _ Hj') as (order' & sc & Ho2 & Hsc2 & Hnd2).
    eapply (DeploymentProofs.scheme_correct laws claws mac_len Hnd Hpl Hps' Hdkg Hn Hd Ho' Hsc Hks Hp Hj); [|exact Henc].
    exists order', sc. done.
  - intros h Hh. apply elem_of_list_In, Hk1, elem_of_list_In in Hh.
    destruct (list_to_map ks !! h) eqn:E2; [by eexists|]. apply not_elem_of_list_to_map in E2.
    exfalso. apply E2. exact Hh.
Qed.

(** Every message gets an onion on every chain, if the random source delivers the 16 bytes of an IV. *)
Theorem C84_onions_exist addrs d L dkg polys t nodes mpks sha3 round i rnd msg :
  generated_system cd addrs d L dkg polys t nodes mpks → (Z.of_nat L ≤ 2 ^ 31)%Z → i < length addrs →
  (∀ k, length (rnd k).2 = 16) →
  ∃ o, wrapLayers sha3 (Deployment.EncryptBytes cd) t mpks round i rnd (length (tp_layers t)) msg = Ok o.
Proof using laws claws mac_len.
  intros Hg HL Hi Hrnd. destruct (gs_facts _ _ _ _ _ _ _ _ Hg) as [_ Hk].
  destruct Hg as (Hnd & Hn & _ & _ & _ & _ & Ht & _).
  assert (∀ k, k ≤ L → ∀ o, ∃ o', wrapLayers sha3 (Deployment.EncryptBytes cd) t mpks round i rnd k o = Ok o') as Hall.
  { induction k as [|k IH]; intros HkL o; [by eexists|]. cbn [wrapLayers].
    destruct (deref_ex t addrs L Ht k i ltac:(lia) Hi) as [x Hx].
    pose proof (deref_host t addrs L Ht k i x Hx) as Hh. unfold deref in Hx. cbn [fst snd] in Hx.
    assert (∀ m, (Z.of_nat m < 2 ^ 32)%Z → N.to_nat (to_uint32 m) = m) as H32.
    { intros m Hm. unfold to_uint32. rewrite N.mod_small; [lia|].
      assert (Z.of_N (N.of_nat m) < Z.of_N (2 ^ 32))%Z; [|lia]. change (Z.of_N (2 ^ 32)) with (2 ^ 32)%Z. lia. }
    assert (2 ^ 31 < 2 ^ 32)%Z by done.
    rewrite Hx. unfold onionWrap. rewrite !H32 by lia. rewrite Hx. destruct (Hk _ Hh) as [p ->].
    destruct (DeploymentProofs.encrypt_ok cd p (computeId sha3 (mx_host x) round) o (Hrnd k)) as [c Hc].
    rewrite Hc. cbn [obind]. apply IH. lia. }
  destruct (Hall _ (Nat.le_refl L) msg) as [o Ho]. exists o. by rewrite (tp_len t addrs L Ht).
Qed.

Lemma honest_of_protocol addrs d L dkg polys t nodes mpks sha3 round tr :
  generated_system cd addrs d L dkg polys t nodes mpks → (Z.of_nat L ≤ 2 ^ 31)%Z →
  protocol_clients cd sha3 t mpks round tr → honest_clients t (server_peel cd sha3 nodes round) tr.
Proof using laws claws mac_len.
  intros Hg HL Hp h rq m Hin Hm. destruct (Hp _ _ _ Hin Hm) as (H1 & H2 & H3 & i & first & H4 & H5 & H6 & H7).
  do 3 (split; [done|]). exists i, first. do 3 (split; [done|]). intros o Ho. destruct (H7 _ Ho) as (msg & rnd & Hw).
  exists msg. destruct (gs_facts _ _ _ _ _ _ _ _ Hg) as [Hs _]. destruct Hg as (_ & Hn & _ & _ & _ & _ & Ht & _).
  destruct (deref_bound t addrs L Ht _ _ _ H4) as [_ Hi]. pose proof (tp_len t addrs L Ht) as HtL.
  assert (∀ n, (Z.of_nat n < 2 ^ 32)%Z → (N.of_nat n < 2 ^ 32)%N) as HN.
  { intros n Hn'. assert (Z.of_N (N.of_nat n) < Z.of_N (2 ^ 32))%Z; [|lia]. change (Z.of_N (2 ^ 32)) with (2 ^ 32)%Z. lia. }
  assert (2 ^ 31 < 2 ^ 32)%Z by done.
  destruct (C18_onion_peels sha3 (Deployment.EncryptBytes cd) t mpks
    (λ h id c, mjoin (Deployment.DecryptBytes cd (nodes h) id c))) with (round := round) (chain := i) (rnd := rnd) (msg := msg) (o := o)
    as [_ Hd].
  - intros h' p id m' r c Hp' Hc. by rewrite (Hs _ _ Hp' _ _ _ _ Hc).
  - apply N.lt_le_incl, HN. lia.
  - apply HN. lia.
  - exact Hw.
  - clear -Hd. revert o Hd. induction (chain_mixes t i) as [|x ms IH]; intros o; simpl; [done|].
    intros (E1 & o' & E2 & E3). split; [done|]. exists o'. split; [|by apply IH].
    unfold opens, server_peel. destruct (cipher_part o); [exact E2|done].
Qed.

(** C84: in every history of a round of a generated deployment whose clients follow the protocol and do
    not send more than announced, GetMessages returns exactly the messages whose onions were sent. *)
Theorem C84_delivers_exactly addrs d L dkg polys t nodes mpks sha3 round req fuel w workers taskCap outCap s0 tr s i x v msgs :
  generated_system cd addrs d L dkg polys t nodes mpks → 0 < L → (Z.of_nat L ≤ 2 ^ 31)%Z →
  round_workload fuel t req = Some (Ok w) → round_opened t addrs w s0 →
  yrun t round (server_peel cd sha3 nodes round) workers taskCap outCap s0 tr s →
  protocol_clients cd sha3 t mpks round tr → within_announced t w tr →
  deref t (L - 1, i) = Some x → GetMessages s (mx_host x) (mx_name x) v →
  Forall2 (generated_onion cd sha3 t mpks round i) (sent_into t i tr) msgs →
  v ≡ₚ Some <$> msgs.
Proof using laws claws mac_len.
  intros Hg HL HL31 Hw Hop Hr Hp Hwi Hx Hget HF. destruct (gs_facts _ _ _ _ _ _ _ _ Hg) as [Hs _].
  destruct Hg as (_ & Hn & _ & _ & _ & _ & Ht & _). pose proof (tp_len t addrs L Ht) as HtL.
  assert (N.of_nat (length addrs) ≤ 2 ^ 32)%N as Hn'.
  { assert (Z.of_N (N.of_nat (length addrs)) < Z.of_N (2 ^ 32))%Z; [|lia]. change (Z.of_N (2 ^ 32)) with (2 ^ 32)%Z. lia. }
  eapply (C61_generated sha3 (Deployment.EncryptBytes cd) mpks
    (λ h id c, mjoin (Deployment.DecryptBytes cd (nodes h) id c))); try done.
  - intros h p id m r c Hp' Hc. by rewrite (Hs _ _ Hp' _ _ _ _ Hc).
  - intros h o. unfold opens, server_peel. by destruct (cipher_part o).
  - intros h rq m Hin Hm. destruct (Hp _ _ _ Hin Hm) as (H1 & H2 & H3 & i' & first & H4 & H5 & H6 & H7).
    do 3 (split; [done|]). exists i', first. do 3 (split; [done|]). intros o Ho. rewrite <-HtL. exact (H7 _ Ho).
  - rewrite <-HtL. exact HF.
Qed.

(** ... and a round that has nothing left to do returns them, for every chain into which all announced
    messages (at least one) were sent. *)
Theorem C84_completes addrs d L dkg polys t nodes mpks sha3 round req fuel w workers taskCap outCap s0 tr s i x msgs :
  generated_system cd addrs d L dkg polys t nodes mpks → 0 < L → (Z.of_nat L ≤ 2 ^ 31)%Z →
  round_workload fuel t req = Some (Ok w) → round_opened t addrs w s0 →
  (∀ h, h ∈ addrs → 0 < workers h ∧ 0 < taskCap h ∧ 0 < outCap h) →
  yrun t round (server_peel cd sha3 nodes round) workers taskCap outCap s0 tr s →
  protocol_clients cd sha3 t mpks round tr → within_announced t w tr →
  (∀ h, YHost h LClose ∉ tr) → (∀ c, YLose c ∉ tr) →
  settled t round (server_peel cd sha3 nodes round) workers taskCap outCap s →
  Forall2 (generated_onion cd sha3 t mpks round i) (sent_into t i tr) msgs →
  msgs ≠ [] → Z.of_nat (length msgs) = announced t w i →
  deref t (L - 1, i) = Some x →
  ∃ v, GetMessages s (mx_host x) (mx_name x) v ∧ v ≡ₚ Some <$> msgs.
Proof using laws claws mac_len.
  intros Hg HL HL31 Hw Hop Hcap Hr Hp Hwi Hcl Hlo Hset HF Hne Hlen Hx.
  pose proof (honest_of_protocol _ _ _ _ _ _ _ _ _ _ _ Hg HL31 Hp) as Hh.
  pose proof (Forall2_length _ _ _ HF) as Hl.
  assert (CreateCascadeTopology addrs (Z.of_nat L) = Some t) as Ht by apply Hg.
  destruct (C82_completes _ _ _ _ _ _ _ _ _ _ _ _ _ _ i x Ht HL HL31 Hw Hop Hcap Hr Hh Hwi Hcl Hlo Hset) as (v & msgs' & Hget & _); [|congruence|done|].
  - intros E. rewrite E in Hl. by destruct msgs.
  - exists v. split; [done|]. eapply C84_delivers_exactly; eauto.
Qed.
End C84.

(** The hypothesis [generated_system] is met by every choice of distinct addresses and polynomials of the
    right size: the configurations exist, and every server and the generator can be made from them. *)
Theorem C84_systems_exist {St : Tibe.setting} (cd : TibeCodec.element_codecs (ssralg.GRing.Field.sort (Tibe.sF St)) (ssralg.GRing.Lmodule.sort (Tibe.sG1 St)))
    (addrs : list string) (d L : nat) dkg polys :
  TibeCodec.element_laws cd →
  addrs ≠ [] → NoDup addrs → (Z.of_nat (length addrs) < 2 ^ 32)%Z → (Z.of_nat (S d) < 2 ^ 32)%Z →
  length dkg = S d → length polys = length addrs → (∀ p, p ∈ polys → length p = S d) →
  ∃ t nodes mpks, generated_system cd addrs d L dkg polys t nodes mpks.
Proof.
  intros claws Hne Hnd Hn Hd Hdkg Hpl Hps.
  pose proof (proj1 (NoDup_ListNoDup _) Hnd) as Hnd'.
  assert (∀ p, In p polys → seq.size p = S d) as Hps' by (intros p Hp; apply Hps; by apply elem_of_list_In).
  assert (∀ j h, addrs !! j = Some h → ∃ sc nd, KeyConfig.server_config_of cd addrs d dkg polys j = Some sc ∧
    KeyConfig.CreateTIBENode cd (λ m, m) sc = Some nd) as Hmk.
  { intros j h Hj. destruct (polys !! j) as [own|] eqn:Ho; [|apply lookup_ge_None in Ho; apply lookup_lt_Some in Hj; lia].
    assert (nth_error addrs j = Some h) as Hj' by (etrans; [apply nth_error_lookup_eq|exact Hj]).
    assert (nth_error polys j = Some own) as Ho' by (etrans; [apply nth_error_lookup_eq|exact Ho]).
    destruct (P13_KeyConfig.C36_node claws Hnd' Hpl Hps' Hdkg Hn Hd Hj' Ho' (order := λ m, m)) as (sc & nd & H1 & _ & H2 & _);
      [by intros m|]. eauto. }
  destruct (TopologyProofs.cascade_form addrs L) as (mixes & Ht & _).
  destruct addrs as [|a0 addrs']; [done|]. destruct (Hmk 0 a0 eq_refl) as (sc0 & nd0 & Hsc0 & _).
  assert (∀ m : KeyConfig.smap bytes, Permutation ((λ m, m) m) m) as Ho by done.
  destruct (DeploymentProofs.generator_keys_spec claws Hpl Hps' Hdkg Hn Hd Ho Hsc0) as (ks & Hks & _).
  set (addrs := a0 :: addrs') in *.
  exists (mkTopo (TopologyProofs.grid addrs L (TopologyProofs.final_mix addrs L)) mixes), (λ h, default nd0 (e ← list_find (eq h) addrs; sc ← KeyConfig.server_config_of cd addrs d dkg polys e.1; KeyConfig.CreateTIBENode cd (λ m, m) sc)), (list_to_map ks).
  do 6 (split; [done|]). split; [exact Ht|]. split.
  - intros j h Hj. exists (λ m, m). destruct (Hmk j h Hj) as (sc & nd & H1 & H2). exists sc. split; [done|]. split; [done|].
    destruct (list_find (eq h) addrs) as [[j' h']|] eqn:Ef.
    + apply list_find_Some in Ef as (Hj' & <- & _). assert (j' = j) as -> by (by eapply NoDup_lookup).
      cbn [mbind option_bind fst]. rewrite H1. cbn [mbind option_bind]. by rewrite H2.
    + exfalso. apply list_find_None in Ef. rewrite Forall_forall in Ef. eapply Ef; [by eapply elem_of_list_lookup_2|done].
  - exists (λ m, m), sc0, ks. done.
Qed.

(** A concrete deployment over the scalar field of BLS12-381: three servers, degree 1, four layers; onions
    exist for it and deliver. *)
Example C84_example : ∃ (St : Tibe.setting) (cd : TibeCodec.element_codecs (ssralg.GRing.Field.sort (Tibe.sF St)) (ssralg.GRing.Lmodule.sort (Tibe.sG1 St))),
  Tibe.pairing_laws St ∧ TibeCodec.element_laws cd ∧ (∀ data key, length (Tibe.hmac St data key) = 32) ∧
  ∃ dkg polys t nodes mpks, generated_system cd ["a"; "b"; "c"]%string 1 4 dkg polys t nodes mpks ∧
  ∀ sha3 round msg, ∃ o, generated_onion cd sha3 t mpks round 2 o msg.
Proof.
  destruct FpSetting.setting32_exists as (St & cd & laws & claws & Hmac). exists St, cd.
  do 3 (split; [done|]). exists (P13_KeyConfig.ex_dkg (Tibe.sF St)), (P13_KeyConfig.ex_polys (Tibe.sF St)).
  destruct (C84_systems_exist cd ["a"; "b"; "c"]%string 1 4 (P13_KeyConfig.ex_dkg (Tibe.sF St)) (P13_KeyConfig.ex_polys (Tibe.sF St)))
    as (t & nodes & mpks & Hg); try done.
  - repeat constructor; set_solver.
  - intros p Hp. apply elem_of_list_In in Hp. by destruct Hp as [<-|[<-|[<-|[]]]].
  - exists t, nodes, mpks. split; [done|]. intros sha3 round msg.
    destruct (C84_onions_exist cd laws claws Hmac _ _ _ _ _ _ _ _ sha3 round 2 (λ _, (ssralg.GRing.zero (ssralg.GRing.Field.zmodType (Tibe.sF St)) : ssralg.GRing.Field.sort (Tibe.sF St), replicate 16 Byte.x00)) msg Hg) as [o Ho];
      [done|cbn; lia|done|]. exists o. by eexists.
Qed.
Print Assumptions C84_onions_exist.
Print Assumptions C84_delivers_exactly.
Print Assumptions C84_completes.
Print Assumptions C84_systems_exist.
Print Assumptions C84_example.
