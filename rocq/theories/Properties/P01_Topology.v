(** C01-C04: the cascade topology. *)
From stdpp Require Import gmap.
From Verif.Base Require Import Base Strs.
From Verif.Model Require Import Topology.
From Verif.Proofs Require Import TopologyProofs.

(** Specification: what the documentation says the i-th mix of layer l is.  [l],[i] are plain
    numbers, names are the printed pair. *)
Record mix_as_documented (servers : list string) (L l i : nat) (m : LogicalMix) : Prop := {
  doc_host : servers !! ((i + l) mod length servers) = Some (mx_host m);
  doc_name : mx_name m = "m(" +:+ pretty l +:+ "," +:+ pretty ((i + l) mod length servers) +:+ ")";
  doc_server : mx_server m = Z.of_nat ((i + l) mod length servers);
  doc_layer : mx_layer m = Z.of_nat l;
  doc_pred_first : l = 0 → mx_preds m = ["GENESIS"];
  doc_succ_last : S l = L → mx_succs m = ["GENESIS"]
}.

(** C01.  For every server list and number of layers (in the int32 range of the recorded fields). *)
Theorem C01_cascade_shape (servers : list string) (L : nat) :
  (Z.of_nat L ≤ 2 ^ 31)%Z → (Z.of_nat (length servers) ≤ 2 ^ 31)%Z →
  ∃ t, CreateCascadeTopology servers (Z.of_nat L) = Some t ∧
    length (tp_layers t) = L ∧
    (∀ l layer, tp_layers t !! l = Some layer → length layer = length servers) ∧
    (∀ l i, l < L → i < length servers →
       ∃ m, deref t (l, i) = Some m ∧ mix_as_documented servers L l i m) ∧
    (∀ l i m m', deref t (l, i) = Some m → deref t (S l, i) = Some m' →
       mx_succs m = [mx_name m'] ∧ mx_preds m' = [mx_name m]).
Proof.
  intros HL Hn. destruct (cascade_form servers L) as (mixes & E & Hinv).
  eexists. split; [exact E|]. split; [apply grid_length|]. split.
  { intros l layer Hl. simpl in Hl. rewrite grid_lookup in Hl. case_decide; [|done].
    injection Hl as <-. by rewrite fmap_length, seq_length. }
  split.
  - intros l i Hl Hi. exists (final_mix servers L l i). split; [by apply cascade_deref|].
    pose proof (rot_lt (length servers) l i ltac:(lia)) as Hr.
    split; simpl; unfold pos.
    + by apply list_lookup_lookup_total_lt.
    + done.
    + unfold to_int32. rewrite Z.mod_small by lia. lia.
    + unfold to_int32. rewrite Z.mod_small by lia. lia.
    + by intros ->.
    + intros <-. unfold succs_of. by rewrite decide_True.
  - intros l i m m' Hm Hm'.
    apply cascade_deref_Some in Hm as (Hl & Hi & ->).
    apply cascade_deref_Some in Hm' as (Hl' & _ & ->). simpl.
    unfold succs_of. rewrite decide_False by lia. done.
Qed.
Print Assumptions C01_cascade_shape.

(** A negative number of layers is a panic, never a topology. *)
Theorem C01_negative_layers servers L : (L < 0)%Z → CreateCascadeTopology servers L = None.
Proof. intros H. unfold CreateCascadeTopology. by rewrite decide_True. Qed.
Print Assumptions C01_negative_layers.

Example C01_example : ∃ t, CreateCascadeTopology ["a"; "b"; "c"] 2 = Some t ∧
  mx_host <$> deref t (1, 2) = Some "a" ∧ mx_name <$> deref t (1, 2) = Some "m(1,0)" ∧
  mx_preds <$> deref t (1, 2) = Some ["m(0,2)"] ∧ mx_succs <$> deref t (0, 2) = Some ["m(1,0)"].
Proof. eexists. vm_compute. done. Qed.

(** C02. *)
Theorem C02_names_identify_mixes (servers : list string) (L : nat) t :
  CreateCascadeTopology servers (Z.of_nat L) = Some t →
  (∀ l i m, deref t (l, i) = Some m → GetMix t (mx_name m) = Some m) ∧
  (∀ name, (∀ l i m, deref t (l, i) = Some m → mx_name m ≠ name) → GetMix t name = None) ∧
  GetMix t "GENESIS" = None ∧
  (∀ l i m l' i' m', deref t (l, i) = Some m → deref t (l', i') = Some m' →
     mx_name m = mx_name m' → l = l' ∧ i = i').
Proof.
  intros E. destruct (cascade_form servers L) as (mixes & E' & Hinv).
  rewrite E in E'. injection E' as ->. split; [|split; [|split]].
  - intros l i m (Hl & Hi & ->)%cascade_deref_Some. simpl. by apply GetMix_cascade.
  - intros name H. destruct (GetMix _ name) as [m|] eqn:G; [|done].
    apply GetMix_cascade_Some in G as (l & i & Hl & Hi & -> & ->); [|done].
    exfalso. eapply H; [by apply cascade_deref|]. done.
  - destruct (GetMix _ "GENESIS") as [m|] eqn:G; [|done].
    apply GetMix_cascade_Some in G as (l & i & _ & _ & G & _); [|done].
    by apply symmetry, mix_name_not_genesis in G.
  - intros l i m l' i' m' (Hl & Hi & ->)%cascade_deref_Some (Hl' & Hi' & ->)%cascade_deref_Some.
    simpl. intros [-> Hp]%mix_name_inj. split; [done|].
    unfold pos in Hp. by eapply rot_inj.
Qed.
Print Assumptions C02_names_identify_mixes.

Example C02_example : ∃ t, CreateCascadeTopology ["a"; "b"] 12 = Some t ∧
  (mx_layer <$> GetMix t "m(11,0)") = Some 11%Z ∧ GetMix t "m(1,10)" = None.
Proof. eexists. vm_compute. done. Qed.

(** C03.  [walk] (Proofs/TopologyProofs.v) is the relation "repeatedly moving to
    GetMix(Successors[0]) visits exactly this list and then reaches nil"; it is deterministic. *)
Theorem C03_chain_traversal (servers : list string) (L : nat) t i m0 :
  CreateCascadeTopology servers (Z.of_nat L) = Some t →
  deref t (0, i) = Some m0 →
  ∃ ms, walk t (Some m0) ms ∧ length ms = L ∧
    (∀ l, ms !! l = deref t (l, i)) ∧
    (∀ ms', walk t (Some m0) ms' → ms' = ms).
Proof.
  intros E Hm. destruct (cascade_form servers L) as (mixes & E' & Hinv).
  rewrite E in E'. injection E' as ->. apply cascade_deref_Some in Hm as (Hl & Hi & ->).
  pose proof (walk_cascade servers L mixes i L Hinv Hi ltac:(lia) Hl) as W.
  rewrite Nat.sub_diag in W. simpl in W.
  eexists. split; [exact W|]. split; [by rewrite fmap_length, seq_length|]. split.
  - intros l. rewrite list_lookup_fmap. destruct (decide (l < L)).
    + rewrite lookup_seq_lt by done. simpl. by rewrite cascade_deref.
    + rewrite lookup_seq_ge by lia. simpl. unfold deref. simpl.
      by rewrite grid_lookup, decide_False.
  - intros ms' W'. symmetry. by eapply walk_det.
Qed.
Print Assumptions C03_chain_traversal.

Example C03_example : ∃ t m, CreateCascadeTopology ["a"; "b"; "c"] 4 = Some t ∧
  deref t (0, 1) = Some m ∧ ∃ ms, walk t (Some m) ms ∧ (mx_host <$> ms) = ["b"; "c"; "a"; "b"].
Proof.
  destruct (CreateCascadeTopology ["a"; "b"; "c"] 4) as [t|] eqn:E; [|by vm_compute in E].
  destruct (deref t (0, 1)) as [m|] eqn:D;
    [|vm_compute in E; injection E as <-; by vm_compute in D].
  exists t, m. split; [done|]. split; [done|].
  destruct (C03_chain_traversal ["a"; "b"; "c"] 4 t 1 m E D) as (ms & W & Hl & Hms & _).
  exists ms. split; [done|]. apply list_eq. intros l. rewrite list_lookup_fmap, Hms.
  vm_compute in E. injection E as <-. clear.
  do 4 (destruct l as [|l]; [done|]). done.
Qed.

(** C04. *)
Theorem C04_server_schedule (servers : list string) (L : nat) t :
  NoDup servers → (Z.of_nat L ≤ 2 ^ 31)%Z →
  CreateCascadeTopology servers (Z.of_nat L) = Some t →
  (∀ l layer, tp_layers t !! l = Some layer → mx_host <$> layer ≡ₚ servers) ∧
  (∀ i l hops, i < length servers → l + length servers ≤ L →
     length hops = length servers →
     (∀ k, k < length servers → hops !! k = mx_host <$> deref t (l + k, i)) →
     hops ≡ₚ servers) ∧
  (∀ k host out, servers !! k = Some host → setMixNames t host out →
     out = (λ l, "m(" +:+ pretty l +:+ "," +:+ pretty k +:+ ")") <$> seq 0 L).
Proof.
  intros Hnd HL E. destruct (cascade_form servers L) as (mixes & E' & Hinv).
  rewrite E in E'. injection E' as ->. split; [|split].
  - intros l layer Hl. simpl in Hl. rewrite grid_lookup in Hl. case_decide; [|done].
    injection Hl as <-. rewrite <-list_fmap_compose. apply layer_hosts_perm.
  - intros i l hops Hi Hl Hlen Hk.
    enough (hops = (λ k, servers !!! pos servers k i) <$> seq l (length servers)) as ->
      by apply chain_hosts_perm.
    apply list_eq. intros k. rewrite list_lookup_fmap.
    destruct (decide (k < length servers)) as [Hlt|Hge].
    + rewrite Hk by done. rewrite cascade_deref by lia. by rewrite lookup_seq_lt.
    + rewrite lookup_seq_ge by lia. apply lookup_ge_None. lia.
  - intros k host out Hk Hset. by eapply setMixNames_cascade.
Qed.
Print Assumptions C04_server_schedule.

(** The relation setMixNames is satisfied by an actual run. *)
Example C04_example : ∃ t, CreateCascadeTopology ["a"; "b"; "c"] 2 = Some t ∧ NoDup ["a"; "b"; "c"] ∧
  setMixNames t "c" ["m(0,2)"; "m(1,2)"].
Proof.
  eexists. split; [by vm_compute|]. split; [by apply (bool_decide_eq_true_1 _); vm_compute|].
  eexists. split; [done|]. split.
  - apply (bool_decide_eq_true_1 _). by vm_compute.
  - intros [|[|i]] [|[|j]] a b Hij Ha Hb; try lia; simplify_eq/=; vm_compute; done.
Qed.
