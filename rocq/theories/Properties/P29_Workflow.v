(** C85: the whole workflow of a round of a generated deployment. *)
From stdpp Require Import gmap.
From Verif.Base Require Import Base.
From Verif.Model Require Import Topology Shuffle Onion Mixer Rounds Messages System.
From Verif.Model Require Tibe TibeCodec KeyConfig Deployment Cfb.
From Verif.Spec Require Import MixerSpec MessagesSpec RoundsSpec SystemSpec DeploymentSpec.
From Verif.Proofs Require Import TopologyProofs OnionProofs MixerExec RoundsProofs SystemProofs MessagesProofs.
From Verif.Proofs Require DeploymentProofs.
From Verif.Proofs Require FpSetting.
From Verif.Properties Require Import P03_Onion P05_Rounds P08_Messages P27_System P28_Deployment.
From Verif.Properties Require P13_KeyConfig.

(** Grouping a list by a key and concatenating the groups gives the list back. *)
Lemma regroup {A K} `{EqDecision K} (key : A → K) (ks : list K) (l : list A) :
  NoDup ks → (∀ a, a ∈ l → key a ∈ ks) → concat ((λ k, filter (λ a, key a = k) l) <$> ks) ≡ₚ l.
Proof.
  revert l. induction ks as [|k ks IH]; intros l Hnd Hk; simpl.
  - destruct l as [|a l]; [done|]. exfalso. assert (key a ∈ []) as Ha by (apply Hk; left). by apply elem_of_nil in Ha.
  - apply NoDup_cons in Hnd as [Hk1 Hnd].
    transitivity (filter (λ a, key a = k) l ++ filter (λ a, key a ≠ k) l).
    2:{ clear. induction l as [|a l IH]; [done|]. rewrite !filter_cons. destruct (decide (key a = k)).
        - rewrite (decide_False (P := key a ≠ k)) by auto. simpl. by f_equiv.
        - rewrite (decide_True (P := key a ≠ k)) by auto. rewrite <-Permutation_middle. by f_equiv. }
    f_equiv. etransitivity; [|apply (IH (filter (λ a, key a ≠ k) l) Hnd)].
    + clear -Hk1. induction ks as [|k' ks IH]; [done|]. cbn [fmap list_fmap concat].
      apply not_elem_of_cons in Hk1 as [Hne Hk1]. f_equiv; [|by apply IH].
      clear -Hne. induction l as [|a l IH]; [done|]. rewrite !filter_cons.
      destruct (decide (key a = k')) as [E|E], (decide (key a ≠ k)) as [E2|E2]; rewrite ?filter_cons.
      * rewrite decide_True by done. by f_equiv.
      * exfalso. apply E2. congruence.
      * rewrite decide_False by done. done.
      * done.
    + intros a [Hne Ha]%elem_of_list_filter. specialize (Hk a Ha). by apply elem_of_cons in Hk as [?|?].
Qed.

Section C85.
Context {St : Tibe.setting} (cd : TibeCodec.element_codecs (ssralg.GRing.Field.sort (Tibe.sF St)) (ssralg.GRing.Lmodule.sort (Tibe.sG1 St))).
Hypotheses (laws : Tibe.pairing_laws St) (claws : TibeCodec.element_laws cd)
  (mac_len : ∀ data key, length (Tibe.hmac St data key) = 32).
Notation F := (ssralg.GRing.Field.sort (Tibe.sF St)).
Context (addrs : list string) (d L : nat) (dkg : list F) (polys : list (list F)) (t : topology)
  (nodes : string → Tibe.node St) (mpks : gmap string (Deployment.mpk St)) (sha3 : string → bytes) (round : Z).
Hypotheses (Hg : generated_system cd addrs d L dkg polys t nodes mpks) (HL : 0 < L) (HL31 : (Z.of_nat L ≤ 2 ^ 31)%Z).

Lemma sys_topology : CreateCascadeTopology addrs (Z.of_nat L) = Some t.
Proof. apply Hg. Qed.
Notation Ht := sys_topology.

Lemma layer_rows l : l < L → default [] (tp_layers t !! l) = omap (λ i, deref t (l, i)) (seq 0 (length addrs)).
Proof.
  intros Hl. pose proof (tp_len t addrs L Ht) as HtL.
  destruct (tp_layers t !! l) as [row|] eqn:E; [|apply lookup_ge_None in E; lia]. cbn [from_option]. unfold id.
  assert (∀ j, deref t (l, j) = row !! j) as Hd by (intros j; unfold deref; cbn [fst snd]; by rewrite E).
  assert (length row = length addrs) as Hlen.
  { destruct (decide (length row = length addrs)) as [|Hne]; [done|]. exfalso.
    destruct (decide (length row < length addrs)) as [Hlt|Hge].
    - destruct (deref_ex t addrs L Ht l (length row) Hl Hlt) as [x Hx]. rewrite Hd in Hx. apply lookup_lt_Some in Hx. lia.
    - destruct (row !! length addrs) as [x|] eqn:Ex; [|apply lookup_ge_None in Ex; lia].
      destruct (deref_bound t addrs L Ht l (length addrs) x) as [_ ?]; [|lia]. by rewrite Hd. }
  rewrite <-Hlen. clear Hlen.
  transitivity (omap (λ i, row !! i) (seq 0 (length row))).
  2:{ induction (seq 0 (length row)) as [|j js IH]; [done|]. cbn [omap list_omap]. by rewrite Hd, IH. }
  clear. induction row as [|x row IH]; [done|]. cbn [length seq omap list_omap lookup list_lookup]. f_equal. rewrite <-seq_shift.
  etransitivity; [exact IH|]. clear IH.
  induction (seq 0 (length row)) as [|j js IH2]; [done|]. cbn [map omap list_omap lookup list_lookup].
  destruct (row !! j); by rewrite IH2.
Qed.
Lemma first_rows : first_layer t = omap (λ i, deref t (0, i)) (seq 0 (length addrs)).
Proof. by apply layer_rows. Qed.
Lemma last_rows : last_layer t = omap (λ i, deref t (L - 1, i)) (seq 0 (length addrs)).
Proof.
  unfold last_layer. rewrite last_lookup, (tp_len t addrs L Ht).
  replace (pred L) with (L - 1) by lia. apply layer_rows. lia.
Qed.
Lemma rows_elem l m : m ∈ omap (λ i, deref t (l, i)) (seq 0 (length addrs)) ↔ ∃ i, deref t (l, i) = Some m.
Proof.
  rewrite elem_of_list_omap. split; [intros (i & _ & ?); eauto|]. intros [i Hi]. exists i. split; [|done].
  apply elem_of_seq. destruct (deref_bound t addrs L Ht _ _ _ Hi). lia.
Qed.
Lemma rows_nodup l js : NoDup js → NoDup (mx_name <$> omap (λ i, deref t (l, i)) js).
Proof.
  intros Hnd. induction js as [|j js IH]; [constructor|]. apply NoDup_cons in Hnd as [Hj Hnd].
  cbn [omap list_omap]. destruct (deref t (l, j)) as [m|] eqn:E; [|by apply IH]. cbn [fmap list_fmap]. apply NoDup_cons.
  split; [|by apply IH]. intros (m' & Hn & Hm')%elem_of_list_fmap. apply elem_of_list_omap in Hm' as (j' & Hj' & Hd).
  destruct (deref_inj t addrs L Ht _ _ _ _ _ _ E Hd Hn) as (_ & -> & _). done.
Qed.

(** The pairs as a list of onions with their messages. *)
Definition flat (pairs : list (bytes * list onion)) : list (onion * bytes) :=
  concat ((λ p : bytes * list onion, (λ o : onion, (o, p.1)) <$> p.2) <$> pairs).
Lemma flat_1 pairs : (flat pairs).*1 = all_onions pairs.
Proof.
  unfold flat, all_onions. induction pairs as [|[m os] ps IH]; [done|]. cbn [fmap list_fmap concat fst snd].
  rewrite fmap_app, <-list_fmap_compose. f_equal; [|exact IH]. clear. induction os as [|o os IH]; [done|]. simpl. by f_equal.
Qed.
Lemma flat_2 pairs : (flat pairs).*2 = concat ((λ p : bytes * list onion, replicate (length p.2) p.1) <$> pairs).
Proof.
  unfold flat. induction pairs as [|[m os] ps IH]; [done|]. cbn [fmap list_fmap concat fst snd].
  rewrite fmap_app, <-list_fmap_compose. f_equal; [|exact IH]. clear. induction os as [|o os IH]; [done|]. simpl. by f_equal.
Qed.
Lemma elem_flat o m pairs : (o, m) ∈ flat pairs → ∃ os, (m, os) ∈ pairs ∧ o ∈ os.
Proof.
  unfold flat. induction pairs as [|[m' os] ps IH]; [by intros ?%elem_of_nil|]. cbn [fmap list_fmap concat fst snd].
  rewrite elem_of_app. intros [H|H].
  - apply elem_of_list_fmap in H as (o' & [= -> ->] & Ho). exists os. split; [left|done].
  - destruct (IH H) as (os' & ? & ?). exists os'. split; [by right|done].
Qed.

Lemma n32 n : (Z.of_nat n < 2 ^ 32)%Z → (N.of_nat n < 2 ^ 32)%N.
Proof. intros Hn'. assert (Z.of_N (N.of_nat n) < Z.of_N (2 ^ 32))%Z; [|lia]. change (Z.of_N (2 ^ 32)) with (2 ^ 32)%Z. lia. Qed.

Lemma generated_names i first o msg : deref t (0, i) = Some first →
  generated_onion cd sha3 t mpks round i o msg → ExtractMixConfig t o = Some first.
Proof.
  intros Hd [rnd Hw]. destruct (gs_facts cd laws claws mac_len _ _ _ _ _ _ _ _ Hg) as [Hs _].
  destruct (deref_bound t addrs L Ht _ _ _ Hd) as [_ Hi]. pose proof (tp_len t addrs L Ht) as HtL.
  assert (Z.of_nat (length addrs) < 2 ^ 32)%Z as Hn by apply Hg. assert (2 ^ 31 < 2 ^ 32)%Z by done.
  destruct (C18_onion_peels sha3 (Deployment.EncryptBytes cd) t mpks
    (λ h id c, mjoin (Deployment.DecryptBytes cd (nodes h) id c))) with (round := round) (chain := i) (rnd := rnd) (msg := msg) (o := o)
    as [_ Hdel].
  - intros h' p id m' r c Hp' Hc. by rewrite (Hs _ _ Hp' _ _ _ _ Hc).
  - apply N.lt_le_incl, n32. lia.
  - apply n32. lia.
  - exact Hw.
  - pose proof (chain_lookup t addrs L Ht HL i 0 Hi) as Hc. rewrite Hd in Hc. destruct (chain_mixes t i) as [|m ms]; [done|].
    injection Hc as ->. apply Hdel.
Qed.

Section pairs.
Context (pairs : list (bytes * list onion)) (g : gmap string (list onion)).
Hypotheses (Hpairs : made_pairs cd sha3 t mpks round pairs)
  (Hgroup : GroupOnionsByMixName (all_onions pairs) t = Some g).

Definition named (first : string) (e : onion * bytes) : Prop := mx_name <$> ExtractMixConfig t e.1 = Some first.
Global Instance named_dec first e : Decision (named first e).
Proof. unfold named. apply _. Defined.

Lemma flat_facts e : e ∈ flat pairs → ∃ i first, deref t (0, i) = Some first ∧
  ExtractMixConfig t e.1 = Some first ∧ generated_onion cd sha3 t mpks round i e.1 e.2.
Proof.
  destruct e as [o m]. intros (os & Hp & Ho)%elem_flat. destruct (Hpairs _ _ _ Hp Ho) as (i & first & Hd & Hgen).
  exists i, first. split; [done|]. split; [by eapply generated_names|done].
Qed.
Lemma group_of first : default [] (g !! first) = (filter (named first) (flat pairs)).*1.
Proof.
  destruct (group_by_spec _ _ _ _ Hgroup) as [_ Hsp].
  assert (filter (λ o, key_of mx_name t o = Some first) (all_onions pairs) = (filter (named first) (flat pairs)).*1) as E.
  { rewrite <-flat_1. induction (flat pairs) as [|e l IH]; [done|]. cbn [fmap list_fmap]. rewrite !filter_cons.
    destruct (decide (key_of mx_name t e.1 = Some first)) as [E|E].
    - rewrite decide_True by exact E. cbn [fmap list_fmap]. by f_equal.
    - rewrite decide_False by exact E. exact IH. }
  rewrite <-E. destruct (Hsp first) as [H1 H2]. destruct (g !! first) as [grp|] eqn:Eg; [by destruct (H2 _ eq_refl)|].
  symmetry. by apply H1.
Qed.

(** The onions sent into a chain are those of its group. *)
Lemma sent_group tr i first : client_calls tr ≡ₚ start_call round g <$> first_layer t → deref t (0, i) = Some first →
  sent_into t i tr = default [] (g !! mx_name first).
Proof.
  intros Hc Hd. unfold sent_into. rewrite Hd. cbn [fmap option_fmap option_map].
  set (mk := λ m : LogicalMix, mkMessages (default [] (g !! mx_name m)) GenesisName GenesisName (mx_name m)).
  assert (concat ((λ e, rq_msgs e.2) <$> client_calls tr) ≡ₚ mk <$> first_layer t) as Hp.
  { rewrite Hc. clear. induction (first_layer t) as [|m l IH]; [done|]. cbn [fmap list_fmap concat start_call snd rq_msgs app]. by f_equiv. }
  assert (filter (λ m, Some (mx_name first) = Some (msg_recv m)) (mk <$> first_layer t) = [mk first]) as Hf.
  { rewrite first_rows. pose proof (rows_nodup 0 (seq 0 (length addrs)) (NoDup_seq _ _)) as Hnd.
    assert (first ∈ omap (λ i, deref t (0, i)) (seq 0 (length addrs))) as Hin by (apply rows_elem; eauto).
    revert Hnd Hin. generalize (omap (λ i, deref t (0, i)) (seq 0 (length addrs))) as l. clear.
    induction l as [|m l IH]; intros Hnd Hin; [by apply elem_of_nil in Hin|]. cbn [fmap list_fmap] in *.
    apply NoDup_cons in Hnd as [Hm Hnd]. rewrite filter_cons. cbn [mk msg_recv].
    destruct (decide (Some (mx_name first) = Some (mx_name m))) as [E|E].
    - injection E as E. assert (first = m) as ->.
      { apply elem_of_cons in Hin as [?|Hin]; [done|]. exfalso. apply Hm. rewrite <-E. by apply elem_of_list_fmap_1. }
      f_equal. clear -Hm. induction l as [|m' l IH]; [done|]. cbn [fmap list_fmap] in *. apply not_elem_of_cons in Hm as [Hne Hm].
      rewrite filter_cons. cbn [msg_recv mk]. rewrite decide_False by congruence. by apply IH.
    - apply elem_of_cons in Hin as [->|Hin]; [done|]. by apply IH. }
  assert (filter (λ m, Some (mx_name first) = Some (msg_recv m)) (concat ((λ e, rq_msgs e.2) <$> client_calls tr)) ≡ₚ [mk first]) as Hp2.
  { by rewrite Hp, Hf. }
  apply Permutation_singleton_r in Hp2. 
  assert (concat (msg_onions <$> [mk first]) = default [] (g !! mx_name first)) as <- by (cbn; by rewrite app_nil_r).
  by rewrite <-Hp2.
Qed.

(** A chain without any onion: every NewRound is refused. *)
Theorem C85_refused : ¬ every_chain_used t g →
  (∃ r, round_workload L t (group_sizes g) = Some r) ∧
  ∀ fuel r, round_workload fuel t (group_sizes g) = Some r → r = Err FailedPrecondition.
Proof.
  intros Hne. destruct (C05_propagation addrs L t (group_sizes g) Ht HL) as [H1 H2]. split; [by apply H1|].
  intros fuel r Hr. specialize (H2 fuel r Hr). destruct r as [w|c|]; [|by destruct H2 as [-> _]|done].
  exfalso. destruct H2 as [Hl _]. apply Hne. intros m Hm. rewrite first_rows in Hm. apply rows_elem in Hm as [i Hi].
  destruct (g !! mx_name m) as [os|] eqn:E; [by eexists|]. exfalso. apply Hl. exists i, m. split; [done|].
  unfold group_sizes. by rewrite lookup_fmap, E.
Qed.

Hypotheses (Hused : every_chain_used t g) (Hsmall : (N.of_nat (length (all_onions pairs)) < 2 ^ 63)%N).

Lemma group_small n os : g !! n = Some os → os ≠ [] ∧ (N.of_nat (length os) < 2 ^ 63)%N.
Proof.
  intros E. destruct (group_by_spec _ _ _ _ Hgroup) as [_ Hsp]. destruct (proj2 (Hsp n) _ E) as [-> Hne]. split; [done|].
  pose proof (filter_length (λ o, key_of mx_name t o = Some n) (all_onions pairs)). lia.
Qed.

(** Otherwise every server opens the round ... *)
Theorem C85_opens : ∃ w s0, round_workload L t (group_sizes g) = Some (Ok w) ∧ round_opened t addrs w s0.
Proof.
  destruct (C05_propagation addrs L t (group_sizes g) Ht HL) as [H1 H2]. destruct (H1 L (le_n _)) as [r Hr].
  specialize (H2 _ _ Hr). destruct r as [w|c|]; [|exfalso|done].
  2:{ destruct H2 as [_ (i & m & Hd & Hn)]. destruct (Hused m) as [os Hos].
      { rewrite first_rows. apply rows_elem. eauto. }
      unfold group_sizes in Hn. rewrite lookup_fmap, Hos in Hn. done. }
  destruct H2 as [_ Hcar]. exists w.
  set (ms := λ h, filter (λ m, mx_host m = h) (omap (λ e, deref t e.2) (map_to_list (tp_mixes t)))).
  assert (∀ l i m, deref t (l, i) = Some m → newMixState t w m ≠ None) as Hnew.
  { intros l i m Hd Hnone. destruct (deref_bound t addrs L Ht _ _ _ Hd) as [Hl Hi].
    destruct (deref_ex t addrs L Ht 0 i HL Hi) as [m0 Hd0].
    destruct (Hcar _ _ _ _ Hd0 Hd) as (k & Hk & Hw). unfold group_sizes in Hk. rewrite lookup_fmap in Hk.
    destruct (g !! mx_name m0) as [os|] eqn:Eos; [|done]. cbn in Hk. injection Hk as <-.
    destruct (group_small _ _ Eos) as [_ Hs].
    pose proof Ht as E. destruct (cascade_form addrs L) as (mixes & E' & Hinv). rewrite E in E'. injection E' as Et.
    rewrite Et in Hd, Hnone. apply cascade_deref_Some in Hd as (_ & _ & ->).
    apply (newMixState_cascade addrs L mixes Hinv) in Hnone; [|lia|lia|solve [intros; eauto; lia]].
    unfold workload_of in Hnone. cbn [mx_name final_mix] in Hw. rewrite Hw in Hnone. cbn [default from_option id] in Hnone.
    rewrite to_int64_small in Hnone by done. lia. }
  assert (∀ h, ∃ m, NewMixers t (ms h) w = Some m) as HM.
  { intros h. assert (∀ m, m ∈ ms h → newMixState t w m ≠ None) as Hall.
    { intros m Hm. apply elem_of_list_filter in Hm as [_ Hm]. apply elem_of_list_omap in Hm as ([n [l i]] & _ & Hd).
      by eapply Hnew. }
    unfold NewMixers. assert (∃ sts, newStates t w (ms h) ∅ = Some sts) as [sts ->]; [|by eexists].
    generalize (∅ : gmap string mixState). revert Hall. generalize (ms h). clear. intros l.
    induction l as [|m l IH]; intros Hall acc; [by eexists|]. cbn [newStates].
    destruct (newMixState t w m) eqn:E; [|exfalso; eapply Hall; [left|done]]. cbn. apply IH. intros m' Hm'. apply Hall. by right. }
  set (M := λ h, default (mkMixers ∅ [] false [] None [] [] false) (NewMixers t (ms h) w)).
  exists (mkSystem (list_to_map ((λ h, (h, M h)) <$> addrs)) [] [] ∅). split; [done|].
  assert (NoDup addrs) as Hnd by apply Hg.
  assert (((λ h, (h, M h)) <$> addrs).*1 = addrs) as Hfst.
  { rewrite <-list_fmap_compose. clear. induction addrs as [|a l IH]; [done|]. cbn. by f_equal. }
  split; [|split; [|done]].
  - intros h Hh. destruct (HM h) as [m Hm]. exists (ms h), m. split; [unfold hosted; reflexivity|]. split; [done|].
    cbn [sy_srv]. apply elem_of_list_to_map_1; [by rewrite Hfst|]. apply elem_of_list_fmap. exists h. split; [|done].
    unfold M. by rewrite Hm.
  - intros h Hh. cbn [sy_srv]. apply not_elem_of_list_to_map_1. by rewrite Hfst.
Qed.

Section round.
Context (fuel : nat) (w : gmap string Z) (workers taskCap outCap : string → nat) (s0 : system).
Hypotheses (Hw : round_workload fuel t (group_sizes g) = Some (Ok w)) (Hop : round_opened t addrs w s0).
Notation yrun := (yrun t round (server_peel cd sha3 nodes round) workers taskCap outCap).
Notation settled := (settled t round (server_peel cd sha3 nodes round) workers taskCap outCap).

Lemma announced_group i first : deref t (0, i) = Some first →
  announced t w i = Z.of_nat (length (default [] (g !! mx_name first))) ∧ default [] (g !! mx_name first) ≠ [].
Proof.
  intros Hd. destruct (proj2 (C05_propagation addrs L t (group_sizes g) Ht HL) _ _ Hw) as [_ Hcar].
  destruct (Hcar _ _ _ _ Hd Hd) as (k & Hk & Hwk). unfold announced, workload_of. rewrite Hd. cbn [fmap option_fmap option_map default from_option id].
  rewrite Hwk. unfold group_sizes in Hk. rewrite lookup_fmap in Hk. destruct (g !! mx_name first) as [os|] eqn:Eos; [|done].
  cbn in Hk. injection Hk as <-. destruct (group_small _ _ Eos) as [? ?]. cbn. rewrite to_int64_small by done. split; [lia|done].
Qed.

Lemma starts_protocol tr : client_calls tr ≡ₚ start_call round g <$> first_layer t →
  protocol_clients cd sha3 t mpks round tr ∧ within_announced t w tr.
Proof.
  intros Hc. split.
  - intros h rq m Hin Hm. rewrite Hc in Hin. apply elem_of_list_fmap in Hin as (first & Heq & Hf).
    unfold start_call in Heq. injection Heq as -> ->. cbn [rq_msgs] in Hm. apply elem_of_list_singleton in Hm as ->.
    cbn [msg_phys msg_lsender msg_onions msg_recv]. rewrite first_rows in Hf. apply rows_elem in Hf as [i Hd].
    split; [done|]. split; [done|]. split; [by eapply announced_group|]. exists i, first. do 3 (split; [done|]).
    intros o Ho. rewrite group_of in Ho. apply elem_of_list_fmap in Ho as (e & -> & He).
    apply elem_of_list_filter in He as [Hn He]. destruct (flat_facts _ He) as (j & f & Hdj & Hx & Hgen).
    unfold named in Hn. rewrite Hx in Hn. cbn in Hn. injection Hn as Hn.
    destruct (deref_inj t addrs L Ht _ _ _ _ _ _ Hdj Hd Hn) as (_ & -> & _). by exists e.2.
  - intros i first Hd. rewrite (sent_group tr i first Hc Hd). rewrite (proj1 (announced_group i first Hd)). lia.
Qed.

Lemma chain_result tr i first : client_calls tr ≡ₚ start_call round g <$> first_layer t → deref t (0, i) = Some first →
  Forall2 (generated_onion cd sha3 t mpks round i) (sent_into t i tr) (filter (named (mx_name first)) (flat pairs)).*2.
Proof.
  intros Hc Hd. rewrite (sent_group tr i first Hc Hd), group_of.
  assert (∀ e, e ∈ filter (named (mx_name first)) (flat pairs) → generated_onion cd sha3 t mpks round i e.1 e.2) as Hall.
  { intros e He. apply elem_of_list_filter in He as [Hn He]. destruct (flat_facts _ He) as (j & f & Hdj & Hx & Hgen).
    unfold named in Hn. rewrite Hx in Hn. cbn in Hn. injection Hn as Hn.
    by destruct (deref_inj t addrs L Ht _ _ _ _ _ _ Hdj Hd Hn) as (_ & -> & _). }
  revert Hall. generalize (filter (named (mx_name first)) (flat pairs)). clear. intros l Hall.
  induction l as [|e l IH]; [constructor|]. cbn [fmap list_fmap]. constructor; [apply Hall; left|].
  apply IH. intros e' He'. apply Hall. by right.
Qed.

Lemma chains_together (idx : list nat) (vs : list (list (option onion))) :
  Forall2 (λ i v, ∃ first, deref t (0, i) = Some first ∧
     v ≡ₚ Some <$> (filter (named (mx_name first)) (flat pairs)).*2) idx vs →
  concat vs ≡ₚ Some <$> (concat ((λ k, filter (named k) (flat pairs)) <$> (mx_name <$> omap (λ i, deref t (0, i)) idx))).*2.
Proof.
  intros H. induction H as [|i v idx vs (first & Hd & Hv) _ IH]; [done|]. cbn [concat omap list_omap]. rewrite Hd.
  cbn [fmap list_fmap concat]. rewrite fmap_app, fmap_app. rewrite Hv. by f_equiv.
Qed.
Lemma chains_all : (concat ((λ k, filter (named k) (flat pairs)) <$> (mx_name <$> omap (λ i, deref t (0, i)) (seq 0 (length addrs))))).*2
  ≡ₚ all_messages pairs.
Proof.
  unfold all_messages. rewrite <-flat_2. apply fmap_Permutation.
  set (ks := mx_name <$> _). pose (key := λ e : onion * bytes, default "" (mx_name <$> ExtractMixConfig t e.1)).
  transitivity (concat ((λ k, filter (λ e, key e = k) (flat pairs)) <$> ks)).
  - apply Permutation_refl'. f_equal. apply list_fmap_ext. intros _ k _. 
    assert (∀ e, e ∈ flat pairs → named k e ↔ key e = k) as Hk.
    { intros e He. destruct (flat_facts _ He) as (j & f & Hdj & Hx & _). unfold named, key. rewrite Hx. cbn. split; [by intros [= ->]|by intros ->]. }
    revert Hk. generalize (flat pairs). clear. intros l Hk. induction l as [|e l IH]; [done|]. rewrite !filter_cons.
    rewrite IH by (intros e' He'; apply Hk; by right).
    destruct (decide (named k e)) as [E|E]; [rewrite decide_True by (apply Hk; [left|done])|rewrite decide_False by (rewrite <-Hk; [done|left])]; done.
  - apply regroup.
    + apply rows_nodup, NoDup_seq.
    + intros e He. destruct (flat_facts _ He) as (j & f & Hdj & Hx & _). unfold key. rewrite Hx. cbn.
      apply elem_of_list_fmap_1. apply rows_elem. eauto.
Qed.

(** ... and whatever the schedule: if all last mixes answer, the answers together are exactly the clients'
    messages, each as often as it has onions; ... *)
Theorem C85_collects_exactly tr s vs :
  yrun s0 tr s → client_calls tr ≡ₚ start_call round g <$> first_layer t →
  Forall2 (λ m v, GetMessages s (mx_host m) (mx_name m) v) (last_layer t) vs →
  concat vs ≡ₚ Some <$> all_messages pairs.
Proof.
  intros Hr Hc HF. destruct (starts_protocol tr Hc) as [Hp Hwi].
  etransitivity; [|apply fmap_Permutation, chains_all]. apply chains_together.
  rewrite last_rows in HF.
  assert (∀ i, i ∈ seq 0 (length addrs) → i < length addrs) as Hidx by (intros i [??]%elem_of_seq; lia).
  revert vs HF Hidx. induction (seq 0 (length addrs)) as [|i idx IH]; intros vs HF Hidx.
  { cbn in HF. apply Forall2_nil_inv_l in HF as ->. constructor. }
  assert (i < length addrs) as Hi by (apply Hidx; left).
  cbn [omap list_omap] in HF. destruct (deref_ex t addrs L Ht (L - 1) i ltac:(lia) Hi) as [x Hx].
  destruct (deref_ex t addrs L Ht 0 i HL Hi) as [first Hd].
  rewrite Hx in HF. apply Forall2_cons_inv_l in HF as (v & vs' & Hv & HF & ->). constructor.
  - exists first. split; [done|].
    exact (C84_delivers_exactly cd laws claws mac_len _ _ _ _ _ _ _ _ _ _ _ _ _ _ _ _ _ _ _ _ _ _ _
      Hg HL HL31 Hw Hop Hr Hp Hwi Hx Hv (chain_result tr i first Hc Hd)).
  - apply IH; [done|]. intros j Hj. apply Hidx. by right.
Qed.

(** ... they do answer when nothing is left to do, if no call was lost; ... *)
Theorem C85_collects tr s :
  (∀ h, h ∈ addrs → 0 < workers h ∧ 0 < taskCap h ∧ 0 < outCap h) →
  yrun s0 tr s → client_calls tr ≡ₚ start_call round g <$> first_layer t →
  (∀ h, YHost h LClose ∉ tr) → (∀ c, YLose c ∉ tr) → settled s →
  ∃ vs, Forall2 (λ m v, GetMessages s (mx_host m) (mx_name m) v) (last_layer t) vs ∧
    concat vs ≡ₚ Some <$> all_messages pairs.
Proof.
  intros Hcap Hr Hc Hcl Hlo Hset. destruct (starts_protocol tr Hc) as [Hp Hwi].
  assert (∃ vs, Forall2 (λ m v, GetMessages s (mx_host m) (mx_name m) v) (last_layer t) vs) as [vs Hvs].
  { assert (∀ m, m ∈ last_layer t → ∃ v, GetMessages s (mx_host m) (mx_name m) v) as Hall.
    { intros m Hm. rewrite last_rows in Hm. apply rows_elem in Hm as [i Hx].
      destruct (deref_bound t addrs L Ht _ _ _ Hx) as [_ Hi]. destruct (deref_ex t addrs L Ht 0 i HL Hi) as [first Hd].
      pose proof (chain_result tr i first Hc Hd) as HF. pose proof (announced_group i first Hd) as [Ha Hne].
      pose proof (Forall2_length _ _ _ HF) as Hlen. rewrite (sent_group tr i first Hc Hd) in Hlen.
      destruct (C84_completes cd laws claws mac_len _ _ _ _ _ _ _ _ _ _ _ _ _ _ _ _ _ _ _ i m _
        Hg HL HL31 Hw Hop Hcap Hr Hp Hwi Hcl Hlo Hset HF) as (v & Hv & _); [| |done|by exists v].
      - intros E. rewrite E in Hlen. apply nil_length_inv in Hlen. done.
      - rewrite Ha, Hlen. done. }
    revert Hall. generalize (last_layer t). clear. intros l Hall. induction l as [|m l IH]; [by exists []|].
    destruct (Hall m) as [v Hv]; [left|]. destruct IH as [vs Hvs]; [intros m' Hm'; apply Hall; by right|].
    exists (v :: vs). by constructor. }
  exists vs. split; [done|]. by eapply C85_collects_exactly.
Qed.

(** ... and such an execution exists. *)
Theorem C85_possible :
  (∀ h, h ∈ addrs → 0 < workers h ∧ 0 < taskCap h ∧ 0 < outCap h) →
  ∃ tr s, yrun s0 tr s ∧ client_calls tr ≡ₚ start_call round g <$> first_layer t ∧
    (∀ h, YHost h LClose ∉ tr) ∧ (∀ c, YLose c ∉ tr) ∧ settled s.
Proof.
  intros Hcap.
  assert (∀ l sys, ∃ s, yrun sys ((λ e, YClient e.1 e.2) <$> l) s) as Hcalls.
  { intros l. induction l as [|e l IH]; intros sys; [eexists; constructor|].
    edestruct (IH (mkSystem (sy_srv sys) (sy_queue sys) (sy_net sys ++ [mkCall None e.1 e.2]) (sy_down sys))) as [s Hs].
    exists s. cbn [fmap list_fmap]. eapply yrun_cons; [apply y_client|exact Hs]. }
  destruct (Hcalls (start_call round g <$> first_layer t) s0) as [s1 Hs1].
  set (tr1 := (λ e, YClient e.1 e.2) <$> (start_call round g <$> first_layer t)) in *.
  assert (client_calls tr1 = start_call round g <$> first_layer t) as Hc1.
  { unfold tr1. generalize (start_call round g <$> first_layer t). clear. intros l. induction l as [|[h rq] l IH]; [done|].
    cbn [fmap list_fmap]. unfold client_calls in *. cbn [omap list_omap fst snd]. by f_equal. }
  assert (∀ l, l ∈ tr1 → ∃ h rq, l = YClient h rq) as Hcl1.
  { intros l Hl. unfold tr1 in Hl. apply elem_of_list_fmap in Hl as (e & -> & _). eauto. }
  destruct (starts_protocol tr1) as [Hp Hwi]; [by rewrite Hc1|].
  pose proof (honest_of_protocol cd laws claws mac_len _ _ _ _ _ _ _ _ _ _ _ Hg HL31 Hp) as Hh.
  destruct (C82_settles _ _ _ _ _ _ _ _ _ _ _ _ _ _ Ht HL HL31 Hw Hop Hcap Hs1 Hh Hwi) as (tr2 & s & Hr & Hown & Hset).
  { intros h Hin. apply Hcl1 in Hin as (? & ? & ?). done. }
  exists (tr1 ++ tr2), s. split; [done|]. rewrite Forall_forall in Hown. split; [|split; [|split; [|done]]].
  - rewrite client_calls_app, Hc1. assert (client_calls tr2 = []) as ->; [|by rewrite app_nil_r].
    clear -Hown. unfold client_calls. induction tr2 as [|l tr IH]; [done|]. cbn [omap list_omap].
    assert (own_step l = true) by (apply Hown; left). destruct l; try done; apply IH; intros; apply Hown; by right.
  - intros h [Hin|Hin]%elem_of_app; [by apply Hcl1 in Hin as (? & ? & ?)|]. by apply Hown in Hin.
  - intros c [Hin|Hin]%elem_of_app; [by apply Hcl1 in Hin as (? & ? & ?)|]. by apply Hown in Hin.
Qed.
End round.
End pairs.

(** The generator's pairs are such pairs: what generateOnions returns after any schedule of its goroutines. *)
Theorem C85_generator (hash : bytes → bytes) N numClients g0 gs :
  1 ≤ N →
  gen_init N numClients = Some g0 →
  rtc (gen_step (λ x : bytes * list onion, ∃ rnd,
         generateOnion sha3 (Deployment.EncryptBytes cd) t mpks hash x.1 round rnd = Ok x.2) N numClients) g0 gs →
  gen_returned numClients gs →
  made_pairs cd sha3 t mpks round (g_out gs) ∧ Z.of_nat (length (g_out gs)) = numClients ∧
  ∀ msg os, (msg, os) ∈ g_out gs → os ≠ [].
Proof.
  intros HN Hi Hr Hret. set (P := λ x : bytes * list onion, _) in Hr.
  assert (0 ≤ numClients)%Z as Hn.
  { unfold gen_init in Hi. destruct (decide (numClients < 0)%Z); [done|lia]. }
  destruct (decide (Z.to_nat numClients = 0)) as [E0|E0].
  { assert (numClients = 0%Z) as -> by lia.
    assert (∀ a b, rtc (gen_step P N 0) a b → g_chan a = [] → Forall (λ q, q ≤ 0)%Z (g_left a) → b = a) as Hst.
    { intros a b Hab. apply rtc_inv in Hab as [->|(c & Hac & _)]; [done|]. intros Hc Hl. exfalso.
      destruct Hac as [j q x s Hq Hpos|x xs s Hx]; [|congruence].
      rewrite Forall_lookup in Hl. specialize (Hl _ _ Hq). cbn in Hl. lia. }
    assert (gs = g0) as ->.
    { apply Hst; [done| |]; unfold gen_init in Hi; injection Hi as <-; cbn [g_chan g_left]; [done|].
      pose proof (C20_quotas N 0 HN ltac:(lia)) as [Hq Hsum].
      assert (∀ l : list Z, Forall (λ q, 0 ≤ q)%Z l → foldr Z.add 0%Z l = 0%Z → Forall (λ q, q ≤ 0)%Z l) as Hz.
      { intros l Hl. induction Hl as [|q l Hq0 Hl IH]; intros Hs; [constructor|]. cbn in Hs.
        assert (0 ≤ foldr Z.add 0%Z l)%Z by (clear -Hl; induction Hl; cbn; lia). constructor; [lia|]. apply IH. lia. }
      by apply Hz. }
    unfold gen_init in Hi. injection Hi as <-. cbn [g_out]. split; [|split; [done|]]; intros ? ?; [|by intros ?%elem_of_nil].
    intros o Hin. by apply elem_of_nil in Hin. }
  assert (Forall P (g_out gs) ∧ Z.of_nat (length (g_out gs)) = numClients) as [HF Hlen].
  { assert ((∃ x, P x) ∨ gs = g0) as [Hx|Heq].
    { apply rtc_inv in Hr as [->|(c & Hac & _)]; [by right|]. left. destruct Hac as [j q x s0 Hq Hpos Hp|x xs s0 Hx]; [by exists x|].
      exfalso. unfold gen_init in Hi. destruct (decide (numClients < 0)%Z); [done|]. injection Hi as <-. done. }
    - destruct (C20_collects_all P N numClients g0 gs HN Hx Hi Hr) as (_ & _ & H3). destruct (H3 Hret) as (? & ? & _). done.
    - subst gs. unfold gen_init in Hi. destruct (decide (numClients < 0)%Z); [done|]. injection Hi as <-.
      unfold gen_returned in Hret. cbn in Hret. lia. }
  rewrite Forall_forall in HF.
  assert (∀ msg os, (msg, os) ∈ g_out gs → os ≠ [] ∧ ∀ o, o ∈ os → ∃ i first, deref t (0, i) = Some first ∧ generated_onion cd sha3 t mpks round i o msg) as Hall.
  { intros msg os Hin. destruct (HF _ Hin) as [rnd Hgen]. cbn [fst snd] in Hgen. unfold generateOnion in Hgen.
    destruct (tp_layers t !! 0) as [l0|] eqn:El; [|done].
    destruct (calculateChain hash (length l0) msg) as [chains|c|] eqn:Ec; try done. cbn [obind] in Hgen.
    assert (chains ≠ [] ∧ ∀ c, c ∈ chains → c < length l0) as [Hne Hlt].
    { unfold calculateChain in Ec. destruct (decide (length l0 = 0)); [done|]. injection Ec as <-. split; [done|].
      intros c [->|Hc]%elem_of_cons; [apply row_of_lt; lia|].
      apply elem_of_list_lookup in Hc as [k Hk]. pose proof (lookup_lt_Some _ _ _ Hk) as Hl. rewrite chain_loop_length in Hl.
      rewrite chain_loop_lookup in Hk by done. injection Hk as <-. apply row_of_lt. lia. }
    apply wrapChains_spec in Hgen. split.
    - intros ->. by inversion Hgen; subst.
    - intros o Ho. apply elem_of_list_lookup in Ho as [k Hk]. destruct (Forall2_lookup_r _ _ _ _ _ Hgen Hk) as (c & Hc & Hw).
      exists c. destruct (lookup_lt_is_Some_2 l0 c) as [first Hf]; [by apply Hlt, elem_of_list_lookup; eauto|].
      exists first. split; [|exact Hw]. unfold deref. cbn [fst snd]. by rewrite El. }
  split; [|split; [done|]].
  - intros msg os o Hin Ho. by apply (Hall _ _ Hin).
  - intros msg os Hin. by apply (Hall _ _ Hin).
Qed.

(** The hypotheses are met: every non-empty list of messages has onions that use every chain. *)
Lemma C85_workable (msgs : list bytes) : msgs ≠ [] →
  ∃ pairs g, pairs.*1 = msgs ∧ (∀ msg os, (msg, os) ∈ pairs → length os = length addrs) ∧
    made_pairs cd sha3 t mpks round pairs ∧
    GroupOnionsByMixName (all_onions pairs) t = Some g ∧ every_chain_used t g.
Proof.
  intros Hne.
  assert (∀ msg, ∃ os, Forall2 (λ i o, generated_onion cd sha3 t mpks round i o msg) (seq 0 (length addrs)) os) as Hos.
  { intros msg. assert (∀ i, i ∈ seq 0 (length addrs) → ∃ o, generated_onion cd sha3 t mpks round i o msg) as Hex.
    { intros i [_ Hi]%elem_of_seq.
      assert (1 ≤ length addrs) as Hpos by lia.
      destruct (C84_onions_exist cd laws claws mac_len _ _ _ _ _ _ _ _ sha3 round i
        (λ _, (ssralg.GRing.zero (ssralg.GRing.Field.zmodType (Tibe.sF St)) : F, replicate 16 Byte.x00)) msg Hg HL31 ltac:(lia) ltac:(done)) as [o Ho].
      exists o. by eexists. }
    revert Hex. generalize (seq 0 (length addrs)). clear. intros l. induction l as [|i l IH]; intros Hex; [by exists []|].
    destruct (Hex i) as [o Ho]; [left|]. destruct IH as [os Hos]; [intros j Hj; apply Hex; by right|]. exists (o :: os). by constructor. }
  assert (∃ pairs : list (bytes * list onion), pairs.*1 = msgs ∧ ∀ msg os, (msg, os) ∈ pairs →
    Forall2 (λ i o, generated_onion cd sha3 t mpks round i o msg) (seq 0 (length addrs)) os) as (pairs & H1 & H2).
  { clear Hne. induction msgs as [|m ms IH]; [exists []; split; [done|]; by intros ?? ?%elem_of_nil|].
    destruct IH as (pairs & <- & H2). destruct (Hos m) as [os Hm]. exists ((m, os) :: pairs). split; [done|].
    intros msg os' [[= -> ->]|Hin]%elem_of_cons; [done|by apply H2]. }
  assert (made_pairs cd sha3 t mpks round pairs) as Hmade.
  { intros msg os o Hin Ho. apply elem_of_list_lookup in Ho as [k Hk].
    destruct (Forall2_lookup_r _ _ _ _ _ (H2 _ _ Hin) Hk) as (i & Hi & Hw). apply lookup_seq in Hi as [-> Hlt].
    destruct (deref_ex t addrs L Ht 0 (0 + k) HL ltac:(lia)) as [first Hf]. exists (0 + k), first. done. }
  assert (is_Some (GroupOnionsByMixName (all_onions pairs) t)) as [g Hgr].
  { apply group_by_success. split.
    - destruct (tp_layers t !! 0) as [l0|] eqn:E.
      + exists l0. split; [done|]. intros ->. pose proof (layer_rows 0 HL) as Hr. rewrite E in Hr. cbn in Hr.
        destruct (length addrs) as [|n] eqn:En.
        * assert (∀ p, p ∈ pairs → p.2 = []) as Hnil.
          { intros [m os] Hp. specialize (H2 _ _ Hp). cbn in H2. by apply Forall2_nil_inv_l in H2. }
          unfold all_onions. clear -Hnil. induction pairs as [|p ps IH]; [done|]. cbn [fmap list_fmap concat].
          rewrite (Hnil p) by left. apply IH. intros q Hq. apply Hnil. by right.
        * exfalso. destruct (deref_ex t addrs L Ht 0 0 HL ltac:(lia)) as [x Hx].
          assert (x ∈ omap (λ i, deref t (0, i)) (seq 0 (S n))) as Hin by (apply elem_of_list_omap; exists 0; split; [apply elem_of_seq; lia|done]).
          rewrite <-Hr in Hin. by apply elem_of_nil in Hin.
      + apply lookup_ge_None in E. rewrite (tp_len t addrs L Ht) in E. lia.
    - apply Forall_forall. intros o Ho. rewrite <-flat_1 in Ho. apply elem_of_list_fmap in Ho as (e & -> & He).
      destruct (flat_facts pairs Hmade e He) as (? & first & _ & Hx & _). rewrite Hx. by eexists. }
  exists pairs, g. split; [done|]. split.
  { intros msg os Hin. apply H2, Forall2_length in Hin. by rewrite seq_length in Hin. }
  split; [done|]. split; [done|].
  intros m Hm. rewrite first_rows in Hm. apply rows_elem in Hm as [i Hd]. destruct (deref_bound t addrs L Ht _ _ _ Hd) as [_ Hi].
  destruct pairs as [|[m0 os0] ps]; [by subst msgs|].
  destruct (Forall2_lookup_l _ _ _ i i (H2 m0 os0 ltac:(left))) as (o & Ho & Hgen); [by apply lookup_seq|].
  pose proof (generated_names _ _ _ _ Hd Hgen) as Hx.
  destruct (group_by_spec _ _ _ _ Hgr) as [_ Hsp]. destruct (Hsp (mx_name m)) as [Hs1 _].
  destruct (g !! mx_name m) eqn:E; [by eexists|]. exfalso. pose proof (proj1 Hs1 eq_refl) as E2.
  assert (o ∈ filter (λ o, key_of mx_name t o = Some (mx_name m)) (all_onions ((m0, os0) :: ps))) as Hin.
  { apply elem_of_list_filter. split; [unfold key_of; by rewrite Hx|]. unfold all_onions. cbn [fmap list_fmap concat].
    apply elem_of_app. left. by eapply elem_of_list_lookup_2. }
  rewrite E2 in Hin. by apply elem_of_nil in Hin.
Qed.
End C85.

(** What AllOnions and AllMessages give: all onions and all messages, in order; FINDING: for an empty
    array, which is what generateOnions(0, round) returns, AllOnions panics. *)
Theorem C85_inputs (pairs : list (bytes * list onion)) :
  AllOnions pairs = (if decide (pairs = []) then Panic else Ok (all_onions pairs)) ∧ AllMessages pairs = pairs.*1.
Proof.
  assert (∀ acc, foldl (λ onions pair, onions ++ pair.2) acc pairs = acc ++ all_onions pairs) as H1.
  { unfold all_onions. induction pairs as [|p ps IH]; intros acc; cbn [foldl fmap list_fmap concat]; [by rewrite app_nil_r|].
    rewrite IH. by rewrite app_assoc. }
  assert (∀ acc, foldl (λ msgs pair, msgs ++ [pair.1]) acc pairs = acc ++ pairs.*1) as H2.
  { clear H1. induction pairs as [|p ps IH]; intros acc; cbn [foldl fmap list_fmap]; [by rewrite app_nil_r|].
    rewrite IH. by rewrite <-app_assoc. }
  split; [|exact (H2 [])]. unfold AllOnions. destruct pairs as [|p ps]; [done|]. rewrite decide_False by done. by rewrite H1.
Qed.
Print Assumptions C85_inputs.
Print Assumptions C85_refused.
Print Assumptions C85_opens.
Print Assumptions C85_collects_exactly.
Print Assumptions C85_collects.
Print Assumptions C85_possible.
Print Assumptions C85_generator.

(** A concrete case: three servers, degree 1, two layers, three messages, one worker each: the round runs
    and every chain answers. *)
Example C85_example : ∃ (St : Tibe.setting) (cd : TibeCodec.element_codecs (ssralg.GRing.Field.sort (Tibe.sF St)) (ssralg.GRing.Lmodule.sort (Tibe.sG1 St))),
  ∃ dkg polys t nodes mpks, generated_system cd ["a"; "b"; "c"]%string 1 2 dkg polys t nodes mpks ∧
  ∀ sha3 round (m1 m2 m3 : bytes), ∃ pairs g w s0 tr s vs,
    pairs.*1 = [m1; m2; m3] ∧ GroupOnionsByMixName (all_onions pairs) t = Some g ∧
    round_workload 2 t (group_sizes g) = Some (Ok w) ∧ round_opened t ["a"; "b"; "c"]%string w s0 ∧
    System.yrun t round (server_peel cd sha3 nodes round) (λ _, 1) (λ _, 1) (λ _, 1) s0 tr s ∧
    client_calls tr ≡ₚ start_call round g <$> first_layer t ∧
    Forall2 (λ m v, GetMessages s (mx_host m) (mx_name m) v) (last_layer t) vs ∧
    concat vs ≡ₚ Some <$> [m1; m1; m1; m2; m2; m2; m3; m3; m3].
Proof.
  destruct FpSetting.setting32_exists as (St & cd & laws & claws & Hmac). exists St, cd.
  exists (P13_KeyConfig.ex_dkg (Tibe.sF St)), (P13_KeyConfig.ex_polys (Tibe.sF St)).
  destruct (C84_systems_exist cd ["a"; "b"; "c"]%string 1 2 (P13_KeyConfig.ex_dkg (Tibe.sF St)) (P13_KeyConfig.ex_polys (Tibe.sF St)))
    as (t & nodes & mpks & Hg); try done.
  { repeat constructor; set_solver. }
  { intros p Hp. apply elem_of_list_In in Hp. by destruct Hp as [<-|[<-|[<-|[]]]]. }
  exists t, nodes, mpks. split; [done|]. intros sha3 round m1 m2 m3.
  assert (0 < 2) as H02 by lia. assert (Z.of_nat 2 ≤ 2 ^ 31)%Z as H231 by done.
  destruct (C85_workable cd laws claws Hmac _ _ _ _ _ _ _ _ sha3 round Hg H02 H231 [m1; m2; m3]) as (pairs & g & Hp & Hlen & Hmade & Hgr & Hused); [done|].
  assert (length (all_onions pairs) = 9 ∧ all_messages pairs = [m1; m1; m1; m2; m2; m2; m3; m3; m3]) as [Hsz Hall].
  { destruct pairs as [|[a1 o1] [|[a2 o2] [|[a3 o3] [|]]]]; try done. injection Hp as -> -> ->.
    assert (length o1 = 3) as E1 by (apply (Hlen m1); left). assert (length o2 = 3) as E2 by (apply (Hlen m2); right; left).
    assert (length o3 = 3) as E3 by (apply (Hlen m3); right; right; left).
    unfold all_onions, all_messages. cbn [fmap list_fmap concat fst snd]. rewrite !app_length, E1, E2, E3. done. }
  destruct (C85_opens cd _ _ _ _ _ _ _ _ Hg H02 pairs g Hgr Hused) as (w & s0 & Hw & Hop); [by rewrite Hsz|].
  destruct (C85_possible cd laws claws Hmac _ _ _ _ _ _ _ _ sha3 round Hg H02 H231 pairs g Hmade Hgr ltac:(by rewrite Hsz) 2 w (λ _, 1) (λ _, 1) (λ _, 1) s0 Hw Hop)
    as (tr & s & Hr & Hc & Hcl & Hlo & Hset); [intros; lia|].
  destruct (C85_collects cd laws claws Hmac _ _ _ _ _ _ _ _ sha3 round Hg H02 H231 pairs g Hmade Hgr ltac:(by rewrite Hsz) 2 w (λ _, 1) (λ _, 1) (λ _, 1) s0 Hw Hop tr s)
    as (vs & Hvs & Hv); [intros; lia|done..|].
  exists pairs, g, w, s0, tr, s, vs. rewrite <-Hall. done.
Qed.
Print Assumptions C85_example.
