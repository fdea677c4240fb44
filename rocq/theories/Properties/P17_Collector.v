(** C49: a robust call runs the handler exactly once.  C64: call ids reused within the ttl. *)
From stdpp Require Import gmap vector.
From Verif.Base Require Import Base.
From Verif.Model Require Import Merkle Ecc Robust.
From Verif.Spec Require Import RobustSpec.
From Verif.Properties Require Import P14_Ecc.
From Verif.Proofs Require Import RobustProofs.

Section C49.
Context {hnd : Type} (find : string → option hnd) (ttl : Z).
(** A server that starts with no task and receives these events. *)
Notation served q es := (collect find (Z.of_nat q) ttl ∅ es).

(** Whatever else the server does meanwhile: the runs for call u are the consecutive groups of q of its
    parcels; what is left over stays in the table. *)
Theorem C49_runs (q : nat) u es : 0 < q → in_time ttl u es →
  let a := arrived find u es in
  t_parcels <$> runs_of u (served q es).2 = group q a <$> seq 0 (length a / q) ∧
  match (served q es).1 !! u with Some t => t_parcels t | None => [] end = drop (length a / q * q) a.
Proof using Type.
  intros Hq Hin a. destruct (served q es) as [ts os] eqn:E.
  destruct (collect_uuid find ttl q u es ∅ ts os Hq Hin) as (H1 & H2 & _); [done..|].
  rewrite lookup_empty in H1, H2. cbv zeta in H1, H2. simpl.
  destruct (blk_groups q a Hq) as [H3 H4]. rewrite H1, H2. split; [exact H3|exact H4].
Qed.
(** Every run, of any call, has parcels of one call only, and its note and handler are those of its first
    parcel. *)
Theorem C49_own_parcels (q : nat) es t : ORun t ∈ (served q es).2 →
  ∃ p ps, t_parcels t = p :: ps ∧ t_note t = p_note p ∧ find (p_method p) = Some (t_hnd t) ∧
    ∀ p', p' ∈ t_parcels t → uuid_of p' = uuid_of p ∧ is_Some (find (p_method p')).
Proof using Type.
  intros Ht. destruct (served q es) as [ts os] eqn:E.
  destruct (collect_well_made find ttl (Z.of_nat q) es ∅ ts os) as [_ H]; [by intros ? ? ?|done|].
  destruct (H t Ht) as (p & ps & H1 & H2 & H3 & H4). exists p, ps. split; [done|]. split; [done|]. split; [done|].
  intros p' Hp'. rewrite Forall_forall in H4. destruct (H4 p' Hp') as [H5 H6]. split; [|done]. by rewrite H5, H2.
Qed.

(** One parcel per relay ([all]), at least n-(tau-1) of them arrive, in any order, anywhere among
    other events: exactly one run, on the first n-(tau-1) that arrived. *)
Theorem C49_exactly_once (n tau : nat) u (all : list Parcel) es :
  1 ≤ tau ≤ n → 2 * (tau - 1) < n → length all = n →
  in_time ttl u es →
  arrived find u es ⊆+ all → n - (tau - 1) ≤ length (arrived find u es) →
  ∃ t, runs_of u (served (n - (tau - 1)) es).2 = [t] ∧
    t_parcels t = take (n - (tau - 1)) (arrived find u es) ∧
    ∃ p, head (arrived find u es) = Some p ∧ t_note t = p_note p ∧ find (p_method p) = Some (t_hnd t).
Proof using Type.
  intros Ht Hn Hall Hin Hsub Hlen. set (a := arrived find u es) in *. set (q := n - (tau - 1)) in *.
  assert (0 < q) as Hq by (unfold q; lia).
  destruct (C49_runs q u es Hq Hin) as [H1 _]. fold a in H1. cbv zeta in H1.
  apply submseteq_length in Hsub.
  assert (length a / q = 1) as Hd.
  { symmetry. apply (Nat.div_unique _ _ 1 (length a - q)); unfold q in *; lia. }
  rewrite Hd in H1. cbn [seq fmap list_fmap] in H1. unfold group in H1. rewrite Nat.mul_0_l, drop_0 in H1.
  destruct (runs_of u (served q es).2) as [|t [|t' l]] eqn:E; try done. injection H1 as H1.
  exists t. split; [done|]. split; [done|].
  assert (ORun t ∈ (served q es).2) as Hrun.
  { assert (t ∈ runs_of u (served q es).2) as Hin' by (rewrite E; by left).
    apply elem_of_list_omap in Hin' as (o & Ho & Hx). destruct o; [done|]. case_decide; [|done]. by injection Hx as ->. }
  destruct (C49_own_parcels q es t Hrun) as (p & ps & H2 & H3 & H4 & _). exists p. split; [|done].
  rewrite H1 in H2. unfold a in *. destruct (arrived find u es); [by destruct q|]. destruct q; [lia|]. simpl in H2. by injection H2 as ->.
Qed.
(** With fewer parcels than the quota nothing runs. *)
Theorem C49_too_few (q : nat) u es : in_time ttl u es → length (arrived find u es) < q →
  runs_of u (served q es).2 = [].
Proof using Type.
  intros Hin Hl. destruct (C49_runs q u es) as [H1 _]; [lia|done|]. cbv zeta in H1.
  rewrite Nat.div_small in H1 by done. by apply fmap_nil_inv in H1.
Qed.
(** The configured threshold meets the condition. *)
Theorem C49_configured (n : nat) : 2 ≤ n → 1 ≤ n / 2 ≤ n ∧ 2 * (n / 2 - 1) < n.
Proof using Type.
  intros Hn. pose proof (Nat.div_mod n 2 ltac:(lia)) as Hd. pose proof (Nat.mod_upper_bound n 2 ltac:(lia)).
  set (h := n / 2) in *. lia.
Qed.
(** Beyond that condition (tau too large) the handler can run twice for one call although no relay
    repeats its parcel. *)
Theorem C49_twice (n tau : nat) u es : 1 ≤ tau ≤ n → n ≤ 2 * (tau - 1) →
  in_time ttl u es → length (arrived find u es) = n →
  2 ≤ length (runs_of u (served (n - (tau - 1)) es).2).
Proof using Type.
  intros Ht Hn Hin Hl. set (q := n - (tau - 1)) in *.
  destruct (C49_runs q u es) as [H1 _]; [unfold q; lia|done|]. cbv zeta in H1.
  apply (f_equal length) in H1. rewrite !fmap_length, seq_length in H1.
  rewrite H1, Hl. apply Nat.div_le_lower_bound; unfold q; lia.
Qed.

(** C64: the same call id used again before the leftovers of the first call expired.  The first call's n
    parcels leave n-q behind; the second call's first run mixes them with its own. *)
Theorem C64_mixed (q : nat) u es ps ps' : 0 < q → in_time ttl u es →
  arrived find u es = ps ++ ps' → q ≤ length ps < 2 * q → 2 * q ≤ length ps + length ps' →
  ∃ t1 t2 rest, runs_of u (served q es).2 = t1 :: t2 :: rest ∧
    t_parcels t1 = take q ps ∧ t_parcels t2 = drop q ps ++ take (2 * q - length ps) ps'.
Proof using Type.
  intros Hq Hin Ha Hl1 Hl2. destruct (C49_runs q u es Hq Hin) as [H1 _]. rewrite Ha in H1. cbv zeta in H1.
  assert (2 ≤ length (ps ++ ps') / q) as Hd.
  { apply Nat.div_le_lower_bound; [lia|]. rewrite app_length. lia. }
  destruct (length (ps ++ ps') / q) as [|[|k]]; [lia|lia|]. cbn [seq fmap list_fmap] in H1.
  destruct (runs_of u (served q es).2) as [|t1 [|t2 rest]]; try done. cbn [fmap list_fmap] in H1.
  injection H1 as H1 H2 _. exists t1, t2, rest. split; [done|]. unfold group in H1, H2. split.
  - rewrite H1, Nat.mul_0_l, drop_0. by rewrite take_app_le by lia.
  - rewrite H2, Nat.mul_1_l. rewrite drop_app_le by lia. rewrite take_app_ge by (rewrite drop_length; lia).
    rewrite drop_length. f_equal. f_equal. lia.
Qed.
End C49.

(** ** Expiry: a tick forgets exactly the tasks older than the ttl. *)
Theorem C49_expiry {hnd : Type} (find : string → option hnd) q ttl tasks now u t :
  (collect1 find q ttl tasks (CTick now)).1 !! u = Some t ↔ tasks !! u = Some t ∧ (now - t_start t ≤ ttl)%Z.
Proof. simpl. rewrite map_filter_lookup_Some. simpl. split; intros [? ?]; (split; [done|lia]). Qed.

(** ** Instances *)
Section example.
Definition ex_find (m : string) : option nat := if String.eqb m "/S/Do" then Some 7 else None.
Definition ex_note (u : string) : Note := mkNote [Byte.x01] [Byte.x02] u None None.
Definition ex_answers : list (option nat) := Some <$> reverse (seq 0 36).
(** Three relays, two data shards. *)
Definition ex_parcels (u : string) (msg : bytes) : list Parcel :=
  match requestIntoRobust xor_code 3 [Byte.x01] [Byte.x02] "/S/Do" u msg ex_answers with Ok ps => ps | _ => [] end.
Definition msg1 : bytes := replicate 40 Byte.x41.
Definition msg2 : bytes := replicate 38 Byte.x61 ++ [Byte.x00; Byte.x63].
Definition nth_parcel (l : list Parcel) (i : nat) : Parcel :=
  default (mkParcel "" 0 (ex_note "") [] [] None) (l !! i).
(** Relay 0 is silent; another call's parcel, an unknown method and a tick intervene. *)
Definition ex_events : list cevent :=
  [CParcel 10 (nth_parcel (ex_parcels "u" msg1) 2); CParcel 11 (nth_parcel (ex_parcels "w" msg2) 0);
   CTick 13; CParcel 14 (mkParcel "/S/Other" 1 (ex_note "u") [] [] None);
   CParcel 14 (nth_parcel (ex_parcels "u" msg1) 1)].
Example C49_example :
  in_time 5 "u" ex_events ∧
  arrived ex_find "u" ex_events = [nth_parcel (ex_parcels "u" msg1) 2; nth_parcel (ex_parcels "u" msg1) 1] ∧
  t_parcels <$> runs_of "u" (collect ex_find 2 5 ∅ ex_events).2 =
    [[nth_parcel (ex_parcels "u" msg1) 2; nth_parcel (ex_parcels "u" msg1) 1]].
Proof.
  split; [|split; vm_compute; reflexivity].
  intros i j now p T Hij Hi _ Hj.
  assert (j = 2 ∧ T = 13%Z) as [-> ->].
  { destruct j as [|[|[|[|[|j]]]]]; try discriminate Hj. split; [done|]. by injection Hj. }
  assert (now = 10 ∨ now = 11)%Z as Hn.
  { destruct i as [|[|i]]; [| |lia]; unfold ex_events in Hi; cbn [lookup list_lookup] in Hi; injection Hi; intros; lia. }
  clear -Hn. lia.
Qed.
(** C64, concretely: the handler of the second call is given a payload that nobody sent. *)
Definition ex_reuse : list cevent :=
  (CParcel 10 <$> ex_parcels "u" msg1) ++ (CParcel 12 <$> ex_parcels "u" msg2).
Example C64_garbage :
  arrived ex_find "u" ex_reuse = ex_parcels "u" msg1 ++ ex_parcels "u" msg2 ∧
  match runs_of "u" (collect ex_find 2 5 ∅ ex_reuse).2 with
  | t1 :: t2 :: _ =>
      reconstruct_from xor_code (parcel_item <$> t_parcels t1) ex_answers = Ok msg1 ∧
      ∃ m, reconstruct_from xor_code (parcel_item <$> t_parcels t2) ex_answers = Ok m ∧ m ≠ msg1 ∧ m ≠ msg2
  | _ => False
  end.
Proof.
  split; [by vm_compute|].
  assert (∃ r, runs_of "u" (collect ex_find 2 5 ∅ ex_reuse).2 = r) as [r Hr] by by eexists.
  rewrite Hr. vm_compute in Hr. subst r. split; [vm_compute; reflexivity|].
  eexists. split; [vm_compute; reflexivity|]. split; done.
Qed.
End example.
