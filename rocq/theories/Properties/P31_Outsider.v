(** C86, continued: what the constant seed means for a deployment and its onions. *)
From stdpp Require Import gmap.
From Verif.Base Require Import Base.
From Verif.Model Require Import Topology Shuffle Onion Mixer Rounds Messages System.
From Verif.Model Require Tibe TibeCodec KeyConfig Deployment KeySeed Cfb.
From Verif.Spec Require Import MixerSpec MessagesSpec SystemSpec DeploymentSpec.
From Verif.Spec Require KeySeedSpec.
From Verif.Proofs Require Import SystemProofs.
From Verif.Proofs Require DeploymentProofs FpSetting KeySeedProofs.
From Verif.Properties Require Import P08_Messages P28_Deployment.
From Verif.Properties Require P13_KeyConfig P30_KeySeed.

Section C86.
Context {St : Tibe.setting} (cd : TibeCodec.element_codecs (ssralg.GRing.Field.sort (Tibe.sF St)) (ssralg.GRing.Lmodule.sort (Tibe.sG1 St))).
Hypotheses (laws : Tibe.pairing_laws St) (claws : TibeCodec.element_laws cd)
  (mac_len : ∀ data key, length (Tibe.hmac St data key) = 32).
Context {R : Type} (absorb : string → R) (Random : R → ssralg.GRing.Field.sort (Tibe.sF St) * R).

(** Server number of a host in the public list of addresses. *)
Definition host_index (addrs : list string) (h : string) : nat := default 0 (fst <$> list_find (eq h) addrs).

(** FINDING.  Anybody opens every onion completely, with nothing but public knowledge: the addresses and
    the topology, the degree and the round number. *)
Theorem C86_outsider_opens addrs d L h dkg polys rest t nodes mpks sha3 round i o msg :
  KeySeed.process_keys absorb Random (KeySeed.CallSystem addrs d :: h) = (dkg, polys) :: rest →
  generated_system cd addrs d L dkg polys t nodes mpks → (Z.of_nat L ≤ 2 ^ 31)%Z → i < length addrs →
  generated_onion cd sha3 t mpks round i o msg →
  delivers t (λ h o, c ← cipher_part o;
      KeySeedSpec.outsider_decrypt cd absorb Random (length addrs) d (host_index addrs h) (computeId sha3 h round) c)
    (chain_mixes t i) o msg.
Proof using laws claws mac_len.
  intros Hk Hg HL31 Hi [rnd Hw].
  destruct Hg as (Hnd & Hn & Hd & Hdkg & Hpl & Hps & Ht & _ & order & sc0 & ks & Ho & Hsc & Hks & ->).
  pose proof (proj1 (NoDup_ListNoDup _) Hnd) as Hnd'. pose proof (tp_len t addrs L Ht) as HtL.
  assert (∀ n, (Z.of_nat n < 2 ^ 32)%Z → (N.of_nat n < 2 ^ 32)%N) as HN.
  { intros n Hn'. assert (Z.of_N (N.of_nat n) < Z.of_N (2 ^ 32))%Z; [|lia]. change (Z.of_N (2 ^ 32)) with (2 ^ 32)%Z. lia. }
  assert (2 ^ 31 < 2 ^ 32)%Z by done.
  assert (∀ m, Permutation (order m) m) as Ho' by exact Ho.
  eapply (C18_onion_peels sha3 (Deployment.EncryptBytes cd) t (list_to_map ks)
    (λ h id c, KeySeedSpec.outsider_decrypt cd absorb Random (length addrs) d (host_index addrs h) id c)); [| | |exact Hw].
  - intros h' p id m r c Hp Henc. apply elem_of_list_to_map_2, elem_of_list_In in Hp.
    assert (∀ p', In p' polys → seq.size p' = S d) as Hps' by (intros p' Hp'; apply Hps; by apply elem_of_list_In).
    destruct (DeploymentProofs.generator_keys_spec claws Hpl Hps' Hdkg Hn Hd Ho' Hsc) as (ks' & E & _ & Hk2).
    rewrite Hks in E. injection E as <-. destruct (Hk2 h' p Hp) as (j & own & Hj & _ & _).
    assert (host_index addrs h' = j) as ->.
    { unfold host_index. rewrite nth_error_lookup_eq in Hj. destruct (list_find (eq h') addrs) as [[j' h2]|] eqn:Ef.
      - apply list_find_Some in Ef as (Hj' & <- & _). cbn. by eapply NoDup_lookup.
      - exfalso. apply list_find_None in Ef. rewrite Forall_forall in Ef. eapply Ef; [by eapply elem_of_list_lookup_2|done]. }
    exact (P30_KeySeed.C86_outsider_decrypts laws claws mac_len Hk Hnd' Hn Hd Ho' Hsc Hks Hp Hj Henc).
  - apply N.lt_le_incl, HN. lia.
  - apply HN. lia.
Qed.

(** FINDING.  Two systems that separate processes created first, with equally many servers and the same
    degree: server j of either decrypts what is encrypted for server j of the other. *)
Theorem C86_foreign_server addrs d L h dkg polys rest t nodes mpks addrs' L' hs' dkg' polys' rest' t' nodes' mpks' j host host' p id m r c :
  KeySeed.process_keys absorb Random (KeySeed.CallSystem addrs d :: h) = (dkg, polys) :: rest →
  KeySeed.process_keys absorb Random (KeySeed.CallSystem addrs' d :: hs') = (dkg', polys') :: rest' →
  length addrs = length addrs' →
  generated_system cd addrs d L dkg polys t nodes mpks →
  generated_system cd addrs' d L' dkg' polys' t' nodes' mpks' →
  addrs !! j = Some host → addrs' !! j = Some host' →
  mpks !! host = Some p → Deployment.EncryptBytes cd p id m r = Ok c →
  Deployment.DecryptBytes cd (nodes' host') id c = Some (Some m).
Proof using laws claws mac_len.
  intros Hk Hk' Hlen Hg Hg' Hj Hj' Hp Henc.
  assert (dkg = dkg' ∧ polys = polys') as [<- <-].
  { unfold KeySeed.process_keys in Hk, Hk'. cbn [KeySeed.key_history KeySeed.key_step] in Hk, Hk'.
    rewrite Hlen in Hk.
    destruct (KeySeed.createConfigs_polys _ _ _ _) as [[dk ps] r1]. injection Hk as <- <- _. injection Hk' as <- <- _. done. }
  destruct (gs_facts cd laws claws mac_len _ _ _ _ _ _ _ _ Hg') as [Hdec Hex].
  destruct (Hex host') as [p' Hp']; [by eapply elem_of_list_lookup_2|].
  assert (p = p') as ->; [|by eapply Hdec].
  assert (∀ ad L t nd mp (hst : string) q, generated_system cd ad d L dkg polys t nd mp → ad !! j = Some hst → mp !! hst = Some q →
    ∃ own, nth_error polys j = Some own ∧ q = KeySeedProofs.mpk_of own) as Hkey.
  { clear -claws. intros ad L t nd mp hst q Hg Hj Hq.
    destruct Hg as (Hnd & Hn & Hd & Hdkg & Hpl & Hps & Ht & _ & order & sc0 & ks & Ho & Hsc & Hks & ->).
    assert (∀ p', In p' polys → seq.size p' = S d) as Hps' by (intros p' Hp'; apply Hps; by apply elem_of_list_In).
    assert (∀ m, Permutation (order m) m) as Ho' by exact Ho.
    destruct (DeploymentProofs.generator_keys_spec claws Hpl Hps' Hdkg Hn Hd Ho' Hsc) as (ks' & E & _ & Hk2).
    rewrite Hks in E. injection E as <-. apply elem_of_list_to_map_2, elem_of_list_In in Hq.
    destruct (Hk2 _ _ Hq) as (j' & own & Hj2 & Hown & ->). rewrite nth_error_lookup_eq in Hj2.
    assert (j' = j) as -> by (by eapply NoDup_lookup). eauto. }
  destruct (Hkey _ _ _ _ _ _ _ Hg Hj Hp) as (own & Ho & ->). destruct (Hkey _ _ _ _ _ _ _ Hg' Hj' Hp') as (own' & Ho' & ->).
  rewrite Ho in Ho'. by injection Ho' as <-.
Qed.
End C86.

(** The hypotheses are met: three servers, degree 1, three layers. *)
Example C86_outsider_example : ∃ (St : Tibe.setting) (cd : TibeCodec.element_codecs (ssralg.GRing.Field.sort (Tibe.sF St)) (ssralg.GRing.Lmodule.sort (Tibe.sG1 St))),
  let addrs := ["a"; "b"; "c"]%string in
  ∃ dkg polys rest t nodes mpks,
    KeySeed.process_keys (λ _, 7) (KeySeedProofs.counter St) [KeySeed.CallSystem addrs 1] = (dkg, polys) :: rest ∧
    generated_system cd addrs 1 3 dkg polys t nodes mpks ∧
    ∀ sha3 round msg, ∃ o, generated_onion cd sha3 t mpks round 2 o msg ∧
      delivers t (λ h o, c ← cipher_part o;
        KeySeedSpec.outsider_decrypt cd (λ _, 7) (KeySeedProofs.counter St) 3 1 (host_index addrs h) (computeId sha3 h round) c)
      (chain_mixes t 2) o msg.
Proof.
  destruct FpSetting.setting32_exists as (St & cd & laws & claws & Hmac). exists St, cd. cbv zeta.
  destruct (P30_KeySeed.C86_sizes (λ _, 7) (KeySeedProofs.counter St) ["a"; "b"; "c"]%string 1 []) as (dkg & polys & rest & Hk & H1 & H2 & H3).
  exists dkg, polys, rest.
  destruct (C84_systems_exist cd ["a"; "b"; "c"]%string 1 3 dkg polys) as (t & nodes & mpks & Hg); try done.
  - repeat constructor; set_solver.
  - intros p Hp. by apply H3, elem_of_list_In.
  - exists t, nodes, mpks. split; [exact Hk|]. split; [done|]. intros sha3 round msg.
    destruct (C84_onions_exist cd laws claws Hmac _ _ _ _ _ _ _ _ sha3 round 2 (λ _, ((KeySeedProofs.counter St 0).1, replicate 16 Byte.x00)) msg Hg) as [o Ho];
      [done|cbn; lia|done|]. exists o.
    assert (generated_onion cd sha3 t mpks round 2 o msg) as Hgen by (by eexists). split; [done|].
    exact (C86_outsider_opens cd laws claws Hmac (λ _, 7) (KeySeedProofs.counter St) ["a"; "b"; "c"]%string 1 3 [] dkg polys rest t nodes mpks
      sha3 round 2 o msg Hk Hg ltac:(done) ltac:(cbn; lia) Hgen).
Qed.
Print Assumptions C86_outsider_opens.
Print Assumptions C86_foreign_server.
Print Assumptions C86_outsider_example.
