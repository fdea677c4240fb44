(** C115: what a group of servers can open together. *)
From stdpp Require Import gmap.
From Verif.Base Require Import Base.
From Verif.Model Require Import Topology Shuffle Onion Mixer Rounds Messages System.
From Verif.Model Require Tibe TibeCodec KeyConfig Deployment.
From Verif.Spec Require Import MessagesSpec SystemSpec DeploymentSpec.
From Verif.Proofs Require Import SystemProofs.
From Verif.Proofs Require FpSetting.
From Verif.Properties Require Import P08_Messages P27_System P28_Deployment.
From Verif.Properties Require P13_KeyConfig.

Section vocabulary.
Context {St : Tibe.setting} (cd : TibeCodec.element_codecs (ssralg.GRing.Field.sort (Tibe.sF St)) (ssralg.GRing.Lmodule.sort (Tibe.sG1 St))).

(** The members' votes on the identity [id] of server [h]: one Vote call at every member's node. *)
Definition members_votes (nodes : string → Tibe.node St) (members : list string) (h : string) (id : bytes) : list (Tibe.vote St) :=
  omap (λ g, Tibe.NodeVote (nodes g) h id) members.

(** What a group makes of an onion addressed to a mix of server [h]: one of them, [g], rebuilds the key of the
    server's identity for the round from the members' votes and decrypts with it.  Nothing of [h]'s own node is used
    unless [h] is a member.  None: no key is rebuilt (or the bytes are no cipher). *)
Definition members_peel (sha3 : string → bytes) (nodes : string → Tibe.node St) (round : Z)
    (g : string) (members : list string) (h : string) (o : onion) : option (option onion) :=
  c ← cipher_part o;
  match Tibe.ReconstructDecrypter (nodes g) h (members_votes nodes members h (computeId sha3 h round)) with
  | Tibe.RKey sk => Deployment.DecryptWith cd sk c
  | _ => None
  end.
End vocabulary.

(** Members of a generated system, with their places in the list of addresses. *)
Lemma places (addrs members : list string) : members ⊆ addrs → NoDup members →
  ∃ js, Forall2 (λ g j, addrs !! j = Some g) members js ∧ NoDup js.
Proof.
  intros Hs Hnd. induction Hnd as [|g gs Hni Hnd IH]; [exists []; split; constructor|].
  destruct IH as (js & HF & Hjs); [intros x Hx; apply Hs; by right|].
  assert (g ∈ addrs) as Hg by (apply Hs; left). apply elem_of_list_lookup in Hg as [j Hj].
  exists (j :: js). split; [by constructor|]. constructor; [|done].
  intros Hin. apply elem_of_list_lookup in Hin as [k Hk].
  destruct (Forall2_lookup_r _ _ _ _ _ HF Hk) as (g' & Hg' & Hj'). rewrite Hj in Hj'. injection Hj' as <-.
  apply Hni. by eapply elem_of_list_lookup_2.
Qed.

Section C115.
Context {St : Tibe.setting} (cd : TibeCodec.element_codecs (ssralg.GRing.Field.sort (Tibe.sF St)) (ssralg.GRing.Lmodule.sort (Tibe.sG1 St))).
Hypotheses (laws : Tibe.pairing_laws St) (claws : TibeCodec.element_laws cd)
  (mac_len : ∀ data key, length (Tibe.hmac St data key) = 32).

Section system.
Context addrs d L dkg polys t nodes mpks
  (Hg : generated_system cd addrs d L dkg polys t nodes mpks).

Lemma sys_facts :
  List.NoDup addrs ∧ length polys = length addrs ∧ (∀ p, In p polys → seq.size p = S d) ∧ seq.size dkg = S d ∧
  (Z.of_nat (length addrs) < 2 ^ 32)%Z ∧ (Z.of_nat (S d) < 2 ^ 32)%Z ∧
  (∀ j h, addrs !! j = Some h → nth_error addrs j = Some h ∧ P13_KeyConfig.generated_node cd addrs d dkg polys j (nodes h)).
Proof using Hg.
  destruct Hg as (Hnd & Hn & Hd & Hdkg & Hpl & Hps & Ht & Hnodes & _).
  split_and!; try done.
  - by apply NoDup_ListNoDup.
  - intros p Hp. apply Hps. by apply elem_of_list_In.
  - intros j h Hj. split; [by rewrite nth_error_lookup_eq|]. destruct (Hnodes _ _ Hj) as (o & sc & H1 & H2 & H3).
    by exists o, sc.
Qed.

(** Every member of a generated system has a vote on every server. *)
Lemma votes_exist members js h id : Forall2 (λ g j, addrs !! j = Some g) members js → h ∈ addrs →
  List.Forall2 (λ q v, Tibe.NodeVote (snd q) h id = Some v) (zip js (nodes <$> members)) (members_votes nodes members h id).
Proof using Hg claws.
  intros HF Hh. apply elem_of_list_lookup in Hh as [i Hi].
  destruct sys_facts as (H1 & H2 & H3 & H4 & H5 & H6 & H7).
  destruct (H7 _ _ Hi) as [Hi' _].
  destruct (P13_KeyConfig.some_poly (j := i) H2 H4 H6 Hi') as [p Hp].
  induction HF as [|g j gs js' Hj HF IH]; [constructor|].
  destruct (H7 _ _ Hj) as [_ Hgen].
  destruct (P13_KeyConfig.generated_nodeE claws H1 H2 H3 H4 H5 H6 Hgen) as (_ & _ & _ & _ & _ & _ & Hs).
  unfold members_votes. cbn [omap list_omap]. unfold Tibe.NodeVote at 2. rewrite (Hs _ _ _ Hi' Hp). cbn [ssrfun.omap ssrfun.Option.map ssrfun.Option.bind ssrfun.Option.apply].
  cbn [zip zip_with fmap list_fmap]. constructor; [|exact IH].
  unfold Tibe.NodeVote. cbn [snd]. by rewrite (Hs _ _ _ Hi' Hp).
Qed.

Lemma zip_fst (members : list string) (js : list nat) : length js = length members → map fst (zip js (nodes <$> members)) = js.
Proof using Type.
  revert members; induction js as [|j js IH]; intros [|g gs] Hl; [done..|]. simpl. f_equal. apply IH. simpl in Hl. lia.
Qed.

Lemma zip_generated members js : Forall2 (λ g j, addrs !! j = Some g) members js →
  ∀ q, In q (zip js (nodes <$> members)) → P13_KeyConfig.generated_node cd addrs d dkg polys (fst q) (snd q).
Proof using Hg.
  destruct sys_facts as (_ & _ & _ & _ & _ & _ & H7).
  induction 1 as [|g j gs js' Hj HF IH]; [done|]. intros q [<-|Hq]; [|by apply IH]. apply H7. done.
Qed.

(** The votes of any degree+2 servers on a server's identity rebuild the decrypter that server uses. *)
Theorem C115_key g members h id :
  g ∈ addrs → h ∈ addrs → members ⊆ addrs → NoDup members → d + 2 ≤ length members →
  Tibe.ReconstructDecrypter (nodes g) h (members_votes nodes members h id) = Tibe.RKey (Tibe.MasterDecrypter (nodes h) id).
Proof using Hg claws laws.
  intros Hgm Hh Hs Hnd Hlen. destruct (places addrs members Hs Hnd) as (js & HF & Hjs).
  pose proof (votes_exist members js h id HF Hh) as HV.
  destruct sys_facts as (H1 & H2 & H3 & H4 & H5 & H6 & H7).
  apply elem_of_list_lookup in Hgm as [k Hk], Hh as [i Hi]. destruct (H7 _ _ Hi) as [Hi' Hown]. destruct (H7 _ _ Hk) as [_ Hreb].
  pose proof (Forall2_length _ _ _ HF) as Hl.
  refine (P13_KeyConfig.C36_votes laws claws H1 H2 H3 H4 H5 H6 Hown Hreb Hi' _ _ HV _).
  - by apply zip_generated.
  - change (List.NoDup (map fst (zip js (nodes <$> members)))). rewrite zip_fst by lia. by apply NoDup_ListNoDup.
  - apply (ssrbool.introT ssrnat.leP). change (d + 2 ≤ length (zip js (nodes <$> members))).
    rewrite zip_with_length, fmap_length. lia.
Qed.

(** So degree+2 servers open, for every server, exactly what it opens, and see exactly what it sees; ... *)
Theorem C115_open_alike sha3 round g members h o :
  g ∈ addrs → h ∈ addrs → members ⊆ addrs → NoDup members → d + 2 ≤ length members →
  members_peel cd sha3 nodes round g members h o = server_peel cd sha3 nodes round h o.
Proof using Hg claws laws.
  intros. unfold members_peel, server_peel. destruct (cipher_part o) as [c|]; [|done]. cbn [mbind option_bind].
  by rewrite C115_key.
Qed.

(** ... in particular the other servers open what a server that is gone was sent, if there are degree+2 of them; *)
Corollary C115_survivors sha3 round g h o :
  g ∈ addrs → g ≠ h → h ∈ addrs → d + 3 ≤ length addrs →
  members_peel cd sha3 nodes round g (filter (.≠ h) addrs) h o = server_peel cd sha3 nodes round h o.
Proof using Hg claws laws.
  intros Hgm _ Hh Hlen. assert (base.NoDup addrs) as Hnd by apply Hg.
  apply C115_open_alike; [done|done| |by apply NoDup_filter|].
  - intros x Hx. by apply elem_of_list_filter in Hx as [_ Hx].
  - assert (∀ l : list string, base.NoDup l → length l ≤ S (length (filter (.≠ h) l))) as Hc; [|specialize (Hc _ Hnd); lia].
    clear. intros l Hnd. induction Hnd as [|x l Hni Hnd IH]; [simpl; lia|].
    rewrite filter_cons. case_decide as Hx; simpl; [lia|].
    assert (x = h) as -> by (destruct (decide (x = h)); [done|contradiction]).
    assert (filter (.≠ h) l = l) as ->; [|done]. clear IH Hnd Hx. induction l as [|y l IH]; [done|].
    rewrite filter_cons. apply not_elem_of_cons in Hni as [Hn1 Hn2]. rewrite decide_True by done. by rewrite IH.
Qed.

(** ... and degree+2 servers open every onion of every client, from the first layer to the message, whichever
    servers its chain passes: no mix on the way is needed. *)
Theorem C115_read_everything sha3 round g members i o msg :
  (Z.of_nat L ≤ 2 ^ 31)%Z → i < length addrs →
  g ∈ addrs → members ⊆ addrs → NoDup members → d + 2 ≤ length members →
  generated_onion cd sha3 t mpks round i o msg →
  length (chain_mixes t i) = L ∧
  delivers t (opens (members_peel cd sha3 nodes round g members)) (chain_mixes t i) o msg.
Proof using Hg claws laws mac_len.
  intros HL Hi Hgm Hs Hnd Hlen (rnd & Hw).
  destruct (gs_facts cd laws claws mac_len _ _ _ _ _ _ _ _ Hg) as [Hdec _].
  assert (CreateCascadeTopology addrs (Z.of_nat L) = Some t) as Ht by apply Hg.
  assert (Z.of_nat (length addrs) < 2 ^ 32)%Z as Hn by apply Hg.
  pose proof (tp_len t addrs L Ht) as HtL.
  assert (∀ n, (Z.of_nat n < 2 ^ 32)%Z → (N.of_nat n < 2 ^ 32)%N) as HN.
  { intros n Hn'. assert (Z.of_N (N.of_nat n) < Z.of_N (2 ^ 32))%Z; [|lia]. change (Z.of_N (2 ^ 32)) with (2 ^ 32)%Z. lia. }
  assert (2 ^ 31 < 2 ^ 32)%Z by done.
  destruct (C18_onion_peels sha3 (Deployment.EncryptBytes cd) t mpks
    (λ h id c, mjoin (Deployment.DecryptBytes cd (nodes h) id c))) with (round := round) (chain := i) (rnd := rnd) (msg := msg) (o := o)
    as [Hcl Hd].
  - intros h' p id m' r c Hp' Hc. by rewrite (Hdec _ _ Hp' _ _ _ _ Hc).
  - apply N.lt_le_incl, HN. lia.
  - apply HN. lia.
  - exact Hw.
  - split; [lia|].
    assert (∀ m, m ∈ chain_mixes t i → mx_host m ∈ addrs) as Hhosts.
    { intros m Hm. unfold chain_mixes in Hm. apply elem_of_list_omap in Hm as (row & Hrow & Hm).
      apply elem_of_list_lookup in Hrow as [l Hl]. apply (deref_host t addrs L Ht l i m). unfold deref. cbn [fst snd]. by rewrite Hl. }
    clear -Hd Hhosts Hg laws claws Hgm Hs Hnd Hlen. revert o Hd. induction (chain_mixes t i) as [|x ms IH]; intros o; simpl; [done|].
    intros (E1 & o' & E2 & E3). split; [done|]. exists o'. split.
    + unfold opens. rewrite C115_open_alike by (done || apply Hhosts; left).
      unfold server_peel. destruct (cipher_part o); [exact E2|done].
    + apply IH; [|done]. intros m Hm. apply Hhosts. by right.
Qed.

(** With fewer than degree+2 votes the library gives no key (and up to degree of them say nothing about it: C105). *)
Theorem C115_too_few sha3 round g members h o :
  g ∈ addrs → h ∈ addrs → members ⊆ addrs → NoDup members → length members < d + 2 →
  Tibe.ReconstructDecrypter (nodes g) h (members_votes nodes members h (computeId sha3 h round)) = Tibe.RError St ∧
  members_peel cd sha3 nodes round g members h o = None.
Proof using Hg claws laws.
  intros Hgm Hh Hs Hnd Hlen. 
  assert (Tibe.ReconstructDecrypter (nodes g) h (members_votes nodes members h (computeId sha3 h round)) = Tibe.RError St) as HE.
  { destruct (places addrs members Hs Hnd) as (js & HF & Hjs).
    pose proof (votes_exist members js h (computeId sha3 h round) HF Hh) as HV.
    destruct sys_facts as (H1 & H2 & H3 & H4 & H5 & H6 & H7).
    apply elem_of_list_lookup in Hgm as [k Hk], Hh as [i Hi]. destruct (H7 _ _ Hi) as [Hi' Hown]. destruct (H7 _ _ Hk) as [_ Hreb].
    pose proof (Forall2_length _ _ _ HF) as Hl.
    refine (P13_KeyConfig.C36_one_vote_short laws claws H1 H2 H3 H4 H5 H6 Hown Hreb Hi' _ HV _).
    - by apply zip_generated.
    - apply (ssrbool.introT ssrnat.leP). change (length (zip js (nodes <$> members)) ≤ d + 1).
      rewrite zip_with_length, fmap_length. lia. }
  split; [done|]. unfold members_peel. rewrite HE. by destruct (cipher_part o).
Qed.
End system.
End C115.

(** A concrete deployment of five servers, degree 1, three layers: the three servers "c", "a", "e" read the onions
    of chain 1; the two servers "c", "a" get no key. *)
Definition ex_addrs5 : list string := ["a"; "b"; "c"; "d"; "e"]%string.
Example C115_example : ∃ (St : Tibe.setting) (cd : TibeCodec.element_codecs (ssralg.GRing.Field.sort (Tibe.sF St)) (ssralg.GRing.Lmodule.sort (Tibe.sG1 St))),
  Tibe.pairing_laws St ∧ TibeCodec.element_laws cd ∧ (∀ data key, length (Tibe.hmac St data key) = 32) ∧
  ∃ dkg polys t nodes mpks, generated_system cd ex_addrs5 1 3 dkg polys t nodes mpks ∧
  (mx_host <$> chain_mixes t 1) = ["b"; "c"; "d"]%string ∧
  ∀ sha3 round msg, ∃ o, generated_onion cd sha3 t mpks round 1 o msg ∧
    delivers t (opens (members_peel cd sha3 nodes round "c" ["c"; "a"; "e"]%string)) (chain_mixes t 1) o msg ∧
    members_peel cd sha3 nodes round "c" ["c"; "a"]%string "b" o = None.
Proof.
  destruct FpSetting.setting32_exists as (St & cd & laws & claws & Hmac). exists St, cd.
  do 3 (split; [done|]).
  set (one := ssralg.GRing.one (ssralg.GRing.Field.ringType (Tibe.sF St)) : ssralg.GRing.Field.sort (Tibe.sF St)). set (z := ssralg.GRing.zero (ssralg.GRing.Field.zmodType (Tibe.sF St)) : ssralg.GRing.Field.sort (Tibe.sF St)).
  exists [one; z], [[one; z]; [one; one]; [z; one]; [one; one]; [one; z]].
  destruct (C84_systems_exist cd ex_addrs5 1 3 [one; z] [[one; z]; [one; one]; [z; one]; [one; one]; [one; z]])
    as (t & nodes & mpks & Hg); try done.
  - by repeat constructor; set_solver.
  - intros p Hp. apply elem_of_list_In in Hp. by destruct Hp as [<-|[<-|[<-|[<-|[<-|[]]]]]].
  - exists t, nodes, mpks. split; [done|]. split.
    { destruct Hg as (_ & _ & _ & _ & _ & _ & Ht & _). vm_compute in Ht. injection Ht as <-. reflexivity. }
    intros sha3 round msg.
    destruct (C84_onions_exist cd laws claws Hmac _ _ _ _ _ _ _ _ sha3 round 1 (λ _, (z : ssralg.GRing.Field.sort (Tibe.sF St), replicate 16 Byte.x00)) msg Hg) as [o Ho];
      [done|cbn; lia|done|]. exists o. assert (generated_onion cd sha3 t mpks round 1 o msg) as Hgo by (by eexists).
    split; [done|]. split.
    + eapply (C115_read_everything cd laws claws Hmac); try exact Hg; try exact Hgo; try done; try (cbn; lia).
      * unfold ex_addrs5. set_solver.
      * unfold ex_addrs5. set_solver.
      * by repeat constructor; set_solver.
    + eapply (C115_too_few cd laws claws); try exact Hg; try (cbn; lia).
      * unfold ex_addrs5. set_solver.
      * unfold ex_addrs5. set_solver.
      * unfold ex_addrs5. set_solver.
      * by repeat constructor; set_solver.
Qed.
Print Assumptions C115_key.
Print Assumptions C115_open_alike.
Print Assumptions C115_survivors.
Print Assumptions C115_read_everything.
Print Assumptions C115_too_few.
Print Assumptions C115_example.
