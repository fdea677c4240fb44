(** C120: a parcel counts for one run of a handler, whatever expires; but nothing recognises a replayed call. *)
From stdpp Require Import gmap.
From Verif.Base Require Import Base.
From Verif.Model Require Import Merkle Ecc Robust DirectServer.
From Verif.Spec Require Import RobustSpec.
From Verif.Properties Require Import P06_Merkle P17_Collector P18_Robust P22_DirectServer.
From Verif.Proofs Require Import RobustProofs RobustCall.

Section collector.
Context {hnd : Type} (find : string → option hnd) (ttl : Z).
Notation served q es := (collect find (Z.of_nat q) ttl ∅ es).

Definition pending (ts : gmap string (task hnd)) (u : string) : list Parcel :=
  match ts !! u with Some t => t_parcels t | None => [] end.
Definition keyed (q : nat) (ts : gmap string (task hnd)) : Prop :=
  ∀ u t, ts !! u = Some t → n_uuid (t_note t) = u ∧ length (t_parcels t) < q.

Lemma arrived_one u now p : arrived find u [CParcel now p] =
  if decide (n_uuid (p_note p) = u) then match find (p_method p) with Some _ => [p] | None => [] end else [].
Proof using Type. unfold arrived, uuid_of. cbn. destruct (decide _); [|done]. by destruct (find (p_method p)). Qed.
Lemma runs_one u (t : task hnd) : runs_of u [ORun t] = if decide (n_uuid (t_note t) = u) then [t] else [].
Proof using Type. unfold runs_of. cbn. by destruct (decide _). Qed.
Lemma step_sublist (q : nat) u tasks e ts o : 0 < q → keyed q tasks → collect1 find (Z.of_nat q) ttl tasks e = (ts, o) →
  concat (t_parcels <$> runs_of u o) ++ pending ts u `sublist_of` pending tasks u ++ arrived find u [e] ∧
  Forall (λ t, length (t_parcels t) = q) (runs_of u o) ∧ keyed q ts.
Proof using Type.
  intros Hq Hk. destruct e as [now p|now]; unfold collect1; cbv zeta.
  2: { intros [= <- <-]. cbn [runs_of omap list_omap fmap list_fmap concat app arrived]. split; [|split; [constructor|]].
       - unfold pending. rewrite app_nil_r. destruct (filter _ tasks !! u) as [t|] eqn:E; [|apply sublist_nil_l].
         apply map_filter_lookup_Some in E as [-> _]. done.
       - intros u' t [? _]%map_filter_lookup_Some. by apply Hk. }
  rewrite arrived_one.
  destruct (find (p_method p)) as [h|] eqn:Ef.
  2: { intros [= <- <-]. cbn [runs_of omap list_omap fmap list_fmap concat app].
       assert ((if decide (n_uuid (p_note p) = u) then ([] : list Parcel) else []) = []) as -> by by case_decide.
       rewrite app_nil_r. split; [done|]. split; [constructor|done]. }
  set (u' := n_uuid (p_note p)).
  set (v0 := default (mkTask [] (p_note p) now h) (tasks !! u')).
  assert (n_uuid (t_note v0) = u' ∧ t_parcels v0 = pending tasks u' ∧ length (pending tasks u') < q) as (Hv1 & Hv2 & Hv3).
  { unfold v0, pending. destruct (tasks !! u') as [t|] eqn:Et; cbn [default from_option].
    - destruct (Hk u' t Et). done.
    - by split_and!. }
  cbn [t_parcels t_note]. rewrite Hv1.
  assert (keyed q (delete u' tasks)) as Hkd. { intros u0 t [_ ?]%lookup_delete_Some. by apply Hk. }
  case_decide as Hl; intros [= <- <-]; rewrite app_length, Hv2 in Hl; cbn [length] in Hl.
  - split; [|split; [constructor|]].
    + cbn [runs_of omap list_omap fmap list_fmap concat app]. unfold pending at 1. destruct (decide (u' = u)) as [<-|Hne].
      * rewrite lookup_insert. cbn [t_parcels]. by rewrite Hv2.
      * rewrite lookup_insert_ne by done. fold (pending tasks u). by rewrite app_nil_r.
    + intros u0 t [[<- <-]|[_ ?]]%lookup_insert_Some; [|by apply Hk]. cbn [t_note t_parcels]. split; [done|].
      rewrite app_length, Hv2. cbn [length]. lia.
  - rewrite delete_insert_delete. split; [|split; [|done]].
    + rewrite runs_one. cbn [t_note]. rewrite Hv1. unfold pending at 1. destruct (decide (u' = u)) as [<-|Hne].
      * rewrite lookup_delete. cbn [fmap list_fmap concat t_parcels]. by rewrite !app_nil_r, Hv2.
      * rewrite lookup_delete_ne by done. fold (pending tasks u). cbn [fmap list_fmap concat app]. by rewrite app_nil_r.
    + rewrite runs_one. cbn [t_note]. rewrite Hv1. destruct (decide (u' = u)); constructor; [|constructor]. cbn [t_parcels].
      rewrite app_length, Hv2. cbn [length]. lia.
Qed.
Lemma collect_sublist (q : nat) u es tasks ts os : 0 < q → keyed q tasks → collect find (Z.of_nat q) ttl tasks es = (ts, os) →
  concat (t_parcels <$> runs_of u os) ++ pending ts u `sublist_of` pending tasks u ++ arrived find u es ∧
  Forall (λ t, length (t_parcels t) = q) (runs_of u os) ∧ keyed q ts.
Proof using Type.
  intros Hq. revert tasks ts os. induction es as [|e es IH]; intros tasks ts os Hk; cbn [collect].
  { intros [= <- <-]. cbn. rewrite app_nil_r. split; [done|]. split; [constructor|done]. }
  destruct (collect1 find (Z.of_nat q) ttl tasks e) as [t1 o1] eqn:E1.
  destruct (collect find (Z.of_nat q) ttl t1 es) as [t2 o2] eqn:E2. intros [= <- <-].
  destruct (step_sublist q u tasks e t1 o1 Hq Hk E1) as (S1 & L1 & K1). destruct (IH t1 t2 o2 K1 E2) as (S2 & L2 & K2).
  unfold runs_of at 1 2. rewrite omap_app. fold (runs_of u o1) (runs_of u o2). rewrite fmap_app, concat_app.
  split; [|split; [by apply Forall_app|done]].
  assert (arrived find u (e :: es) = arrived find u [e] ++ arrived find u es) as ->.
  { unfold arrived. change (e :: es) with ([e] ++ es). by rewrite omap_app. }
  rewrite <-(assoc_L (++)). etrans; [apply sublist_app; [reflexivity|exact S2]|].
  rewrite !(assoc_L (++)). apply sublist_app; [exact S1|done].
Qed.

(** Every history - other calls, repetitions, expiry at any time: the runs of a call use q of its parcels
    each, in the order in which they arrived, and no parcel twice. *)
Theorem C120_each_parcel_once (q : nat) u es : 0 < q →
  concat (t_parcels <$> runs_of u (served q es).2) `sublist_of` arrived find u es ∧
  ∀ t, t ∈ runs_of u (served q es).2 → length (t_parcels t) = q.
Proof using Type.
  intros Hq. destruct (served q es) as [ts os] eqn:E.
  destruct (collect_sublist q u es ∅ ts os Hq) as (H1 & H2 & _); [by intros ? ? ?|done|].
  split; [|by apply Forall_forall]. unfold pending at 2 in H1. rewrite lookup_empty in H1. cbn [app] in H1.
  etrans; [|exact H1]. by apply sublist_inserts_r.
Qed.
Lemma concat_length_const {A} (l : list (list A)) q : Forall (λ x, length x = q) l → length (concat l) = length l * q.
Proof using Type. induction 1 as [|x l Hx _ IH]; [done|]. cbn [concat length]. rewrite app_length, IH. lia. Qed.
Lemma by_index (l : list Parcel) (n r : nat) : (∀ p, p ∈ l → (0 ≤ p_index p < Z.of_nat n)%Z) →
  (∀ i : nat, length (filter (λ p, p_index p = Z.of_nat i) l) ≤ r) → length l ≤ n * r.
Proof using Type.
  revert l. induction n as [|n IH]; intros l Hl Hr.
  { destruct l as [|p l]; [done|]. exfalso. specialize (Hl p ltac:(left)). lia. }
  assert (length l = length (filter (λ p, p_index p = Z.of_nat n) l) + length (filter (λ p, p_index p ≠ Z.of_nat n) l)) as ->.
  { clear. induction l as [|p l IH]; [done|]. rewrite !filter_cons. destruct (decide (p_index p = Z.of_nat n)) as [E|E].
    - rewrite (decide_False (P := p_index p ≠ Z.of_nat n)) by tauto. cbn [length]. lia.
    - rewrite (decide_True (P := p_index p ≠ Z.of_nat n)) by done. cbn [length]. lia. }
  pose proof (Hr n) as Hn. assert (length (filter (λ p, p_index p ≠ Z.of_nat n) l) ≤ n * r); [|lia].
  apply IH.
  - intros p [Hne Hp]%elem_of_list_filter. specialize (Hl p Hp). lia.
  - intros i. etrans; [|apply (Hr i)]. clear. induction l as [|p l IH]; [done|]. rewrite !filter_cons.
    destruct (decide (p_index p ≠ Z.of_nat n)); [rewrite filter_cons|]; destruct (decide (p_index p = Z.of_nat i)); cbn [length]; lia.
Qed.
(** So n relays that bring at most r parcels of a call each cause at most n * r / q runs of it. *)
Theorem C120_bound (q n r : nat) u es : 0 < q →
  (∀ p, p ∈ arrived find u es → (0 ≤ p_index p < Z.of_nat n)%Z) →
  (∀ i : nat, length (filter (λ p, p_index p = Z.of_nat i) (arrived find u es)) ≤ r) →
  length (runs_of u (served q es).2) ≤ n * r / q.
Proof using Type.
  intros Hq Hi Hr. destruct (C120_each_parcel_once q u es Hq) as [Hs Hl].
  apply Nat.div_le_lower_bound; [lia|]. apply sublist_length in Hs. rewrite (concat_length_const _ q) in Hs.
  2: { apply Forall_fmap, Forall_forall. exact Hl. }
  rewrite fmap_length in Hs. pose proof (by_index _ n r Hi Hr). lia.
Qed.
(** With the quorum of the network, relays that do not repeat parcels cause at most one run, also if parcels
    expire and others arrive later. *)
Corollary C120_at_most_once (n tau : nat) u es : 1 ≤ tau ≤ n → 2 * (tau - 1) < n →
  (∀ p, p ∈ arrived find u es → (0 ≤ p_index p < Z.of_nat n)%Z) → NoDup (p_index <$> arrived find u es) →
  length (runs_of u (served (n - (tau - 1)) es).2) ≤ 1.
Proof using Type.
  intros Ht H2 Hi Hnd. etrans; [apply (C120_bound _ n 1); [lia|done|]|].
  - intros i. revert Hnd. clear. induction (arrived find u es) as [|p l IH]; [intros; cbn; lia|]. cbn [fmap list_fmap].
    intros [Hp Hnd]%NoDup_cons. rewrite filter_cons. case_decide as E; [|by apply IH]. cbn [length].
    assert (filter (λ p, p_index p = Z.of_nat i) l = []) as ->; [|done].
    destruct (filter (λ p, p_index p = Z.of_nat i) l) as [|p' l'] eqn:El; [done|]. exfalso. apply Hp.
    assert (p' ∈ filter (λ p, p_index p = Z.of_nat i) l) as [E' Hin]%elem_of_list_filter by (rewrite El; by left).
    apply elem_of_list_fmap. exists p'. split; [congruence|done].
  - rewrite Nat.mul_1_r. assert (n / (n - (tau - 1)) < 2); [|lia]. apply Nat.div_lt_upper_bound; lia.
Qed.

(** But when the parcels of a run come again, the handler runs again: the same parcels, note and method, so
    the same request, once more for every time. *)
Theorem C120_replay (q : nat) u es ts os t es' : 0 < q → served q es = (ts, os) → t ∈ runs_of u os → ts !! u = None →
  in_time ttl u es' → arrived find u es' = t_parcels t →
  ∃ t' ts' os', collect find (Z.of_nat q) ttl ts es' = (ts', os') ∧ runs_of u os' = [t'] ∧ ts' !! u = None ∧
    t_parcels t' = t_parcels t ∧ t_note t' = t_note t ∧ t_hnd t' = t_hnd t.
Proof using Type.
  intros Hq E Ht Hnone Hin Harr.
  destruct (collect_sublist q u es ∅ ts os Hq) as (_ & HL & Hk); [by intros ? ? ?|done|].
  destruct (collect_well_made find ttl (Z.of_nat q) es ∅ ts os) as [Hw1 Hw2]; [by intros ? ? ?|done|].
  destruct (collect find (Z.of_nat q) ttl ts es') as [ts' os'] eqn:E'.
  assert (∀ u t, ts !! u = Some t → n_uuid (t_note t) = u ∧ t_parcels t ≠ [] ∧ length (t_parcels t) < q) as Hinv.
  { intros u0 t0 Ht0. destruct (Hk u0 t0 Ht0). destruct (Hw1 u0 t0 Ht0) as [_ (p & ps & Hp & _)]. rewrite Hp. rewrite <-Hp. split_and!; try done. by rewrite Hp. }
  destruct (collect_uuid find ttl q u es' ts ts' os' Hq Hin Hinv) as (R1 & R2 & R3); [intros t0 j T Ht0; by rewrite Hnone in Ht0|done|].
  rewrite Hnone, Harr in R1, R2. cbv zeta in R1, R2.
  rewrite Forall_forall in HL. specialize (HL t Ht).
  destruct (blk_groups q (t_parcels t) Hq) as [G1 G2]. rewrite G1, HL, Nat.div_same in R1 by lia.
  rewrite G2, HL, Nat.div_same, Nat.mul_1_l in R2 by lia. rewrite <-HL, drop_all in R2.
  cbn [seq fmap list_fmap] in R1. unfold group in R1. rewrite Nat.mul_0_l, drop_0, <-HL, firstn_all in R1.
  destruct (runs_of u os') as [|t' [|? ?]] eqn:Er; try done. injection R1 as R1.
  exists t', ts', os'. split; [done|]. split; [done|]. split.
  { destruct (ts' !! u) as [t0|] eqn:E0; [|done]. destruct (R3 u t0 E0) as (_ & Hne & _). done. }
  split; [done|].
  assert (∀ (os : list (cout hnd)) u (t : task hnd), t ∈ runs_of u os → ORun t ∈ os ∧ n_uuid (t_note t) = u) as Hrun.
  { clear. intros os u t (o & Ho & Hs)%elem_of_list_omap. destruct o; [done|]. case_decide; [|done]. by injection Hs as ->. }
  destruct (Hrun os u t Ht) as [Ho _]. destruct (Hw2 t Ho) as (p & ps & Hp & Hn & Hf & _).
  destruct (Hrun os' u t') as [Ho' _]; [rewrite Er; by left|].
  destruct (collect_well_made find ttl (Z.of_nat q) es' ts ts' os') as [_ Hw2']; [done|done|].
  destruct (Hw2' t' Ho') as (p' & ps' & Hp' & Hn' & Hf' & _).
  assert (p' = p) as -> by congruence. split; congruence.
Qed.
End collector.

Section signed.
Context (H : bytes → digest) {SK : Type} (sign : SK → digest → bytes) (sigok : bytes → digest → bytes → bool).
Context (encNote : Note → bytes) (encParcel : Parcel → bytes).
Context {V hnd : Type} (run : hnd → string → bytes → code + V) (enc : V → option bytes) (find : string → option hnd).
Notation valid := (validateParcel H sigok encNote encParcel).

(** And nothing stops them before: a parcel that was accepted is accepted again, as long as the verifier
    remembers what it did then (one accepted by a new server: always). *)
Theorem C120_accepted_again i p cache cache' : (valid cache i p).1 = None → cache ⊆ cache' → (valid cache' i p).1 = None.
Proof using Type.
  assert (∀ c1 c2 pk s ct, (VerifySeq H sigok c1 pk s ct).1 = None → c1 ⊆ c2 →
    (VerifySeq H sigok c2 pk s ct).1 = None ∧ (VerifySeq H sigok c1 pk s ct).2 ⊆ (VerifySeq H sigok c2 pk s ct).2) as HV.
  { intros c1 c2 pk s ct. unfold VerifySeq. destruct ct as [ct|]; [|done]. destruct (Verify _ _ _ _); [|done].
    destruct (decide (ct_root ct ∈ c1)) as [H1|H1], (decide (ct_root ct ∈ c2)) as [H2|H2]; cbn [fst snd].
    - done.
    - intros _ Hs. destruct H2. by apply Hs.
    - destruct (sigok _ _ _); cbn [fst snd]; [|done]. intros _ Hs. split; [done|]. apply union_least; [by apply singleton_subseteq_l|done].
    - destruct (sigok _ _ _); cbn [fst snd]; [|done]. intros _ Hs. split; [done|]. by apply union_mono_l. }
  unfold validateParcel, validateParcelWith, id. destruct (decide _); [done|].
  match goal with |- context [VerifySeq H sigok cache ?pk ?s ?ct] => specialize (HV cache cache' pk s ct) as H1 end.
  destruct (VerifySeq H sigok cache _ _ _) as [[e|] c1]; [done|]. destruct (VerifySeq H sigok cache' _ _ _) as [[e|] c2].
  - intros _ Hsub. destruct (H1 eq_refl Hsub) as [? _]. done.
  - intros Hv Hsub. destruct (H1 eq_refl Hsub) as [_ Hs]. cbn in Hs. by apply (HV c1 c2).
Qed.

(** A direct request that comes k times runs k times. *)
Theorem C120_direct sk client rq h note caches : genuine H sigok encNote find client ∅ rq h note →
  match run h (n_uuid note) (dq_payload rq) with inl _ => True | inr v => is_Some (enc v) end →
  ∃ resps, direct_stream H sign sigok encNote run enc find sk client ((λ c, (c, true, rq)) <$> caches) =
    (replicate (length caches) (h, n_uuid note, dq_payload rq), resps, None) ∧ length resps = length caches.
Proof using Type.
  intros Hg Hrun. induction caches as [|c caches (resps & IH & Hl)]; [by exists []|]. cbn [fmap list_fmap direct_stream].
  destruct (direct1 H sign sigok encNote run enc find sk client c rq) as [[ran out] c'] eqn:E.
  pose proof (C68_runs _ _ _ _ _ _ _ _ _ _ _ _ _ _ E) as Hr.
  assert (genuine H sigok encNote find client c rq h note) as Hgc.
  { destruct Hg as (? & ? & ? & ct & ? & ? & [?|?]); [set_solver|]. unfold genuine. eauto 10. }
  destruct ran as [[[h' u'] b']|]; [|destruct Hr as [Hr _]; by destruct (Hr h note)].
  destruct Hr as (-> & note' & Hg' & Hu & Hr).
  assert (h' = h ∧ note' = note) as [-> ->].
  { destruct Hg' as (F1 & N1 & _), Hgc as (F2 & N2 & _). split; congruence. }
  subst u'.
  assert (∃ resp, out = inr resp) as [resp ->].
  { destruct (run h (n_uuid note) (dq_payload rq)) as [e|v]; [destruct Hr as [ct ->]; eauto|].
    destruct Hrun as [b Hb]. rewrite Hb in Hr. destruct Hr as [ct ->]. eauto. }
  fold ((λ c : gset digest, (c, true, rq)) <$> caches). rewrite IH. eexists. split; [reflexivity|]. cbn [length]. by rewrite Hl.
Qed.
End signed.

(** ** Instances (that a server accepts the parcels of a client: C51_accepted): two of three relays repeat their parcels; the first time, one of the two expires. *)
Section example.
Definition ex_twice : list cevent :=
  [CParcel 1 (nth_parcel (tps "/S/Do") 1); CTick 9; CParcel 10 (nth_parcel (tps "/S/Do") 2); CParcel 11 (nth_parcel (tps "/S/Do") 0)].
Definition ex_again : list cevent := [CParcel 100 (nth_parcel (tps "/S/Do") 2); CTick 101; CParcel 102 (nth_parcel (tps "/S/Do") 0)].
Lemma again_in_time u p p' : in_time 5 u [CParcel 100 p; CTick 101; CParcel 102 p'].
Proof.
  intros i j now p0 T Hij Hi _ Hj. assert (j = 1 ∧ T = 101%Z) as [-> ->].
  { destruct j as [|[|[|j]]]; try discriminate Hj. split; [done|]. by injection Hj. }
  assert (now = 100%Z) as ->; [|lia]. destruct i as [|i]; [|lia]. by injection Hi.
Qed.
Definition ex_ts := (collect ex_find 2 5 ∅ ex_twice).1.
Definition ex_os := (collect ex_find 2 5 ∅ ex_twice).2.
Example C120_example :
  p_index <$> arrived ex_find "u" ex_twice = [1; 2; 0]%Z ∧ NoDup (p_index <$> arrived ex_find "u" ex_twice) ∧
  length (runs_of "u" ex_os) = 1 ∧ ex_ts !! "u" = None ∧ in_time 5 "u" ex_again ∧
  [arrived ex_find "u" ex_again] = t_parcels <$> runs_of "u" ex_os ∧
  length (runs_of "u" (collect ex_find 2 5 ex_ts ex_again).2) = 1.
Proof.
  split; [by vm_compute|]. split; [apply (bool_decide_eq_true_1 _); by vm_compute|]. split; [by vm_compute|].
  split; [by vm_compute|]. split; [apply again_in_time|]. split; [by vm_compute|].
  vm_compute; reflexivity.
Qed.
Definition ex_dreq : DirectRequest := dreq "/S/Do" [Byte.x41].
Definition ex_dnote : Note := default (mkNote [] [] "" None None) (dq_note ex_dreq).
Definition ex_dcert : cert := default (mkCert (toyH []) [] 0 []) (n_scert ex_dnote).
Example C120_direct_example : genuine toyH tsigok tnote dfind (tpub Byte.x05) ∅ ex_dreq 7 ex_dnote ∧
  (direct_stream toyH tsign tsigok tnote drun (λ v, Some (tenc v)) dfind Byte.x06 (tpub Byte.x05)
    (replicate 3 (∅, true, ex_dreq))).1.1 = replicate 3 (7, "u", [Byte.x41]).
Proof.
  split; [|vm_compute; reflexivity]. unfold genuine. split; [vm_compute; reflexivity|]. split; [vm_compute; reflexivity|].
  split; [vm_compute; reflexivity|]. exists ex_dcert. split; [vm_compute; reflexivity|]. split; [vm_compute; reflexivity|].
  right. vm_compute; reflexivity.
Qed.
End example.
Print Assumptions C120_each_parcel_once.
Print Assumptions C120_bound.
Print Assumptions C120_at_most_once.
Print Assumptions C120_replay.
Print Assumptions C120_accepted_again.
Print Assumptions C120_direct.
