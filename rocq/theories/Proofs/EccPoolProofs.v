(** Proofs about the worker pool of the erasure coder. *)
From stdpp Require Import gmap.
From Verif.Base Require Import Base.
From Verif.Model Require Import Ecc EccPool.
From Verif.Spec Require Import EccPoolSpec.

Lemma n36 : NumChunks = 36. Proof. done. Qed.
Global Opaque NumChunks.

(** * The order of the answers does not matter *)
Lemma segment_eq n i s e : segment n i = (s, e) →
  s = i * (n / 36) ∧ e = if decide (36 ≤ S i) then n else i * (n / 36) + n / 36.
Proof.
  unfold segment. rewrite n36. intros H. split; [by apply (f_equal fst) in H|by apply (f_equal snd) in H].
Qed.
Lemma segment_in n i s e : segment n i = (s, e) → i < 36 → s ≤ e ∧ e ≤ n.
Proof.
  intros [-> ->]%segment_eq Hi.
  pose proof (Nat.mul_div_le n 36 ltac:(lia)). generalize dependent (n / 36). intros q Hq.
  case_decide as Hc.
  - assert (i = 35) as -> by lia. lia.
  - assert (i * q ≤ 35 * q) by (apply Nat.mul_le_mono_r; lia). assert (S i * q ≤ 36 * q) by (apply Nat.mul_le_mono_r; lia). lia.
Qed.
Lemma segment_disjoint n i j s e s' e' : segment n i = (s, e) → segment n j = (s', e') → i < j → j < 36 → e ≤ s'.
Proof.
  intros [-> ->]%segment_eq [-> ->]%segment_eq Hi Hj. generalize (n / 36). intros q.
  rewrite decide_False by lia. assert (S i * q ≤ j * q) by (apply Nat.mul_le_mono_r; lia). lia.
Qed.
Lemma copy_lookup (d : list byte) s e (ch : list byte) : s ≤ e → e ≤ length d → length ch = e - s →
  length (copy_into d s e ch) = length d ∧
  ∀ j, (copy_into d s e ch : list byte) !! j = if decide (s ≤ j < e) then ch !! (j - s) else d !! j.
Proof.
  intros H1 H2 H3. unfold copy_into. rewrite (take_ge ch) by lia.
  rewrite !app_length, take_length, drop_length. split; [lia|]. intros j.
  destruct (decide (j < s)) as [Hlt|Hge].
  - rewrite decide_False by lia. rewrite lookup_app_l by (rewrite take_length; lia). by rewrite lookup_take.
  - rewrite lookup_app_r by (rewrite take_length; lia). rewrite take_length.
    replace (j - s `min` length d) with (j - s) by lia. destruct (decide (j < e)) as [Hlt|Hge2].
    + rewrite decide_True by lia. by rewrite lookup_app_l by lia.
    + rewrite decide_False by lia. rewrite lookup_app_r by lia. rewrite lookup_drop. f_equal. lia.
Qed.
Lemma copy_commute (d : list byte) s e (ch : list byte) s' e' (ch' : list byte) :
  s ≤ e → e ≤ s' → s' ≤ e' → e' ≤ length d → length ch = e - s → length ch' = e' - s' →
  copy_into (copy_into d s e ch) s' e' ch' = copy_into (copy_into d s' e' ch') s e ch.
Proof.
  intros H1 H2 H3 H4 H5 H6.
  destruct (copy_lookup d s e ch) as [L1 K1]; [lia..|]. destruct (copy_lookup d s' e' ch') as [L2 K2]; [lia..|].
  destruct (copy_lookup (copy_into d s e ch) s' e' ch') as [L3 K3]; [lia..|].
  destruct (copy_lookup (copy_into d s' e' ch') s e ch) as [L4 K4]; [lia..|].
  apply list_eq. intros j. rewrite K3, K4, K1, K2. repeat case_decide; try done; lia.
Qed.

Section c.
Context (c : rs_code).

Lemma reconstruct_length sh n ch : authReconstruct c sh n = Some ch → length ch = n.
Proof.
  unfold authReconstruct, Join. destruct (recon c sh) as [w|]; [|done]. cbn [mbind option_bind].
  case_decide as Hd; [done|]. intros [= <-]. rewrite take_length. lia.
Qed.

Lemma encode_loop_perm data p p' : Permutation p p' → ∀ acc,
  encode_loop c data (Some <$> p) (length p) acc = encode_loop c data (Some <$> p') (length p') acc.
Proof.
  induction 1 as [|i p p' _ IH|i j p|p p' p'' _ IH1 _ IH2]; intros acc; cbn [fmap list_fmap length encode_loop].
  - done.
  - destruct (authEncode c _); [apply IH|done].
  - destruct (authEncode c (chunk_of data i)) as [a|] eqn:Ei, (authEncode c (chunk_of data j)) as [b|] eqn:Ej; try done.
    destruct (decide (i = j)) as [->|Hne]; [|by rewrite list_insert_commute]. congruence.
  - by rewrite IH1.
Qed.
Lemma encode_loop_app data p q todo acc : encode_loop c data (Some <$> p ++ q) (length p + todo) acc =
  match encode_loop c data (Some <$> p) (length p) acc with
  | Ok acc => encode_loop c data (Some <$> q) todo acc
  | r => r
  end.
Proof.
  revert acc. induction p as [|i p IH]; intros acc; cbn [app fmap list_fmap length encode_loop Nat.add]; [done|].
  destruct (authEncode c _); [apply IH|done].
Qed.

Lemma decode_loop_length got p data d : (∀ i, i ∈ p → i < 36) →
  decode_loop c got (Some <$> p) (length p) data = Ok d → length d = length data.
Proof.
  revert data. induction p as [|i p IH]; intros data Hp; cbn [fmap list_fmap length decode_loop]; [by intros [= <-]|].
  destruct (segment (length data) i) as [s e] eqn:Es. destruct (got !! i) as [g|]; [|done].
  destruct (authReconstruct c g (e - s)) as [ch|] eqn:Er; [|done]. intros Hd.
  apply IH in Hd; [|intros; apply Hp; by right]. rewrite Hd.
  destruct (segment_in _ _ _ _ Es) as [??]; [apply Hp; left|].
  apply copy_lookup; [lia..|by eapply reconstruct_length].
Qed.
Lemma decode_loop_perm got p p' : Permutation p p' → (∀ i, i ∈ p → i < 36 ∧ is_Some (got !! i)) → ∀ data,
  decode_loop c got (Some <$> p) (length p) data = decode_loop c got (Some <$> p') (length p') data.
Proof.
  induction 1 as [|i p p' _ IH|i j p|p p' p'' Hpp IH1 _ IH2]; intros Hp data; cbn [fmap list_fmap length decode_loop].
  - done.
  - destruct (segment (length data) i) as [s e]. destruct (got !! i); [|done].
    destruct (authReconstruct c _ _); [|done]. apply IH. intros; apply Hp; by right.
  - destruct (Hp i) as [Hi [gi Hgi]]; [right; left|]. destruct (Hp j) as [Hj [gj Hgj]]; [left|].
    destruct (segment (length data) i) as [s e] eqn:Ei. destruct (segment (length data) j) as [s' e'] eqn:Ej.
    rewrite Hgi, Hgj.
    destruct (segment_in _ _ _ _ Ei Hi) as [??]. destruct (segment_in _ _ _ _ Ej Hj) as [??].
    destruct (authReconstruct c gi (e - s)) as [a|] eqn:Ai.
    + apply reconstruct_length in Ai as La. destruct (copy_lookup data s e a) as [L1 _]; [lia..|]. rewrite L1, Ej.
      destruct (authReconstruct c gj (e' - s')) as [b|] eqn:Aj; [|done].
      apply reconstruct_length in Aj as Lb. destruct (copy_lookup data s' e' b) as [L2 _]; [lia..|].
      rewrite L2, Ei, Ai.
      destruct (lt_eq_lt_dec i j) as [[Hlt|Heq]|Hlt].
      * rewrite (copy_commute data s e a s' e' b); [done|..]; try lia. eapply segment_disjoint; [exact Ei|exact Ej|lia..].
      * subst j. rewrite Ei in Ej. injection Ej as <- <-. congruence.
      * rewrite (copy_commute data s' e' b s e a); [done|..]; try lia. eapply segment_disjoint; [exact Ej|exact Ei|lia..].
    + destruct (authReconstruct c gj (e' - s')) as [b|] eqn:Aj; [|done].
      apply reconstruct_length in Aj as Lb. destruct (copy_lookup data s' e' b) as [L2 _]; [lia..|].
      by rewrite L2, Ei, Ai.
  - rewrite IH1 by done. apply IH2. intros i Hi. apply Hp. by rewrite Hpp.
Qed.
Lemma decode_loop_app got p q todo data : decode_loop c got (Some <$> p ++ q) (length p + todo) data =
  match decode_loop c got (Some <$> p) (length p) data with
  | Ok data => decode_loop c got (Some <$> q) todo data
  | r => r
  end.
Proof.
  revert data. induction p as [|i p IH]; intros data; cbn [app fmap list_fmap length decode_loop Nat.add]; [done|].
  destruct (segment (length data) i). destruct (got !! i); [|done]. destruct (authReconstruct c _ _); [apply IH|done].
Qed.

(** * The variables of a call after the answers [p] *)
Definition loop_state (j : job) (p : list nat) (v : local) : Prop :=
  match j, v with
  | JEncode data, LEncode acc =>
      encode_loop c (data ++ zeros) (Some <$> p) (length p) (replicate NumChunks None) = Ok acc
  | JDecode got n, LDecode data =>
      decode_loop c got (Some <$> p) (length p) (replicate (buf_size n) Byte.x00) = Ok data
  | _, _ => False
  end.
(** The arguments do not make the call panic before the receiving loop. *)
Definition good_job (j : job) : Prop :=
  match j with JEncode _ => True | JDecode got n => (0 ≤ n + Z.of_nat 36)%Z ∧ 36 ≤ length got end.

Lemma start_ok j : loop_state j [] (start_local j).
Proof. by destruct j. Qed.

Lemma receive_ok j p v i w rest :
  good_job j → loop_state j p v → Permutation (p ++ i :: rest) (seq 0 36) → request j i = Some w →
  match receive v i (run_work c w) with
  | inl a => a = alone c j
  | inr v' => loop_state j (p ++ [i]) v' ∧
      (rest = [] → match finish v' with Some a => a = alone c j | None => match j with JDecode _ n => (n < 0)%Z | _ => False end end)
  end.
Proof.
  intros Hg Hv Hp Hw.
  assert (Hin : ∀ x, x ∈ p ++ i :: rest → x < 36) by (intros x Hx; rewrite Hp, elem_of_seq in Hx; lia).
  assert (Hlen : length (p ++ i :: rest) = 36) by (by rewrite Hp).
  assert (Hi : i < 36) by (apply Hin, elem_of_app; right; left).
  assert (Hs36 : length (seq 0 36) = 36) by apply seq_length.
  destruct j as [data|got n], v as [acc|data']; simpl in Hv; try done.
  - simpl in Hw. injection Hw as <-. cbn [run_work].
    assert (Hall : AuthEncode c data (Some <$> seq 0 36) =
      encode_loop c (data ++ zeros) (Some <$> p ++ [i] ++ rest) (length p + S (length rest)) (replicate NumChunks None)).
    { unfold AuthEncode. rewrite n36. rewrite <-Hs36 at 2. rewrite <-(encode_loop_perm _ _ _ Hp). f_equal.
      rewrite app_length. done. }
    rewrite encode_loop_app, Hv in Hall. cbn [app fmap list_fmap encode_loop] in Hall.
    destruct (authEncode c (chunk_of (data ++ zeros) i)) as [sh|] eqn:Ea.
    + cbn [receive]. split.
      * cbn [loop_state]. rewrite app_length. rewrite encode_loop_app, Hv. cbn [fmap list_fmap encode_loop length].
        by rewrite Ea.
      * intros ->. cbn [fmap list_fmap encode_loop length] in Hall. cbn [finish]. unfold alone. by rewrite Hall.
    + cbn [receive]. unfold alone. by rewrite Hall.
  - destruct Hg as [Hn Hgl]. cbn [request] in Hw.
    assert (Hld : length data' = buf_size n).
    { apply decode_loop_length in Hv; [by rewrite replicate_length in Hv|]. intros x Hx. apply Hin, elem_of_app. by left. }
    destruct (segment (buf_size n) i) as [s e] eqn:Es. destruct (got !! i) as [g|] eqn:Eg; [|done].
    cbn [mbind option_bind] in Hw. injection Hw as <-. cbn [run_work].
    assert (Hall : AuthReconstruct c got n (Some <$> seq 0 36) =
      let! d := decode_loop c got (Some <$> p ++ [i] ++ rest) (length p + S (length rest)) (replicate (buf_size n) Byte.x00) in
      if decide (buf_size n < 36) then Panic else Ok (take (buf_size n - 36) d)).
    { unfold AuthReconstruct. rewrite n36. rewrite decide_False by lia. rewrite decide_False by lia.
      cbv zeta. assert (Z.to_nat (n + Z.of_nat 36) = buf_size n) as -> by (unfold buf_size; by rewrite n36).
      f_equal.
      rewrite <-Hs36 at 2. rewrite <-(decode_loop_perm _ _ _ Hp).
      - rewrite app_length. done.
      - intros x Hx. split; [by apply Hin|]. apply lookup_lt_is_Some. apply Hin in Hx. lia. }
    rewrite decode_loop_app, Hv in Hall. cbn [app fmap list_fmap decode_loop] in Hall.
    rewrite Hld, Es, Eg in Hall.
    destruct (authReconstruct c g (e - s)) as [ch|] eqn:Ea.
    + cbn [receive]. rewrite Hld, Es. split.
      * cbn [loop_state]. rewrite app_length. rewrite decode_loop_app, Hv. cbn [fmap list_fmap decode_loop length].
        by rewrite Hld, Es, Eg, Ea.
      * intros ->. cbn [fmap list_fmap length decode_loop] in Hall. cbn [finish]. rewrite n36.
        assert (length (copy_into data' s e ch) = buf_size n) as ->.
        { rewrite <-Hld. destruct (segment_in _ _ _ _ Es Hi). apply copy_lookup; [lia..|by eapply reconstruct_length]. }
        destruct (decide (buf_size n < 36)) as [Hd|Hd].
        -- unfold buf_size in Hd. rewrite n36 in Hd. lia.
        -- unfold alone. by rewrite Hall.
    + cbn [receive]. unfold alone. by rewrite Hall.
Qed.

(** * The invariant *)
Definition idx (ts : list task) (k : nat) : list nat := t_index <$> filter (λ t, t_call t = k) ts.
Definition pc_inv (stopped : bool) (il : list nat) (j : job) (p : epc) : Prop :=
  match p with
  | PSend i => i < 36 ∧ Permutation il (seq 0 i)
  | PRecv n v => n < 36 ∧ good_job j ∧ ∃ p, length p = n ∧ loop_state j p v ∧ Permutation (p ++ il) (seq 0 36)
  | PDone a => (a = alone c j ∨ stopped = true ∧ a = stopped_answer j) ∧ ∃ p m, m ≤ 36 ∧ Permutation (p ++ il) (seq 0 m)
  end.
Record call_inv (stopped : bool) (il : list nat) (x : ecall) : Prop := {
  ci_chan : Forall (λ ir, ∃ w, request (ec_job x) ir.1 = Some w ∧ ir.2 = run_work c w) (ec_chan x);
  ci_size : match ec_job x with JEncode _ => True | JDecode _ n => (0 ≤ n + Z.of_nat 36)%Z end;
  ci_pc : pc_inv stopped il (ec_job x) (ec_pc x) }.
Record core (calls : gmap nat ecall) (ts : list task) (stopped : bool) : Prop := {
  co_call : ∀ k x, calls !! k = Some x → call_inv stopped (idx ts k ++ (ec_chan x).*1) x;
  co_task : ∀ t, t ∈ ts → ∃ x, calls !! t_call t = Some x ∧ request (ec_job x) (t_index t) = Some (t_work t) }.

Lemma pc_inv_perm b il il' j p : Permutation il il' → pc_inv b il j p → pc_inv b il' j p.
Proof.
  intros Hp. destruct p as [i|n v|a]; cbn [pc_inv].
  - by rewrite Hp.
  - intros (H1 & H2 & q & H3 & H4 & H5). split; [done|]. split; [done|]. exists q. by rewrite <-Hp.
  - intros (H1 & q & m & H2 & H3). split; [done|]. exists q, m. by rewrite <-Hp.
Qed.
Lemma call_inv_perm b il il' x : Permutation il il' → call_inv b il x → call_inv b il' x.
Proof. intros Hp []. constructor; [done|done|]. by eapply pc_inv_perm. Qed.
Lemma idx_perm ts ts' k : Permutation ts ts' → Permutation (idx ts k) (idx ts' k).
Proof. intros H. unfold idx. by rewrite H. Qed.
Lemma core_perm calls ts ts' b : Permutation ts ts' → core calls ts b → core calls ts' b.
Proof.
  intros Hp [H1 H2]. constructor.
  - intros k x Hk. eapply call_inv_perm; [|by apply H1]. by rewrite (idx_perm _ _ k Hp).
  - intros t. rewrite <-Hp. apply H2.
Qed.
Lemma idx_cons_eq t ts : idx (t :: ts) (t_call t) = t_index t :: idx ts (t_call t).
Proof. unfold idx. by rewrite filter_cons_True. Qed.
Lemma idx_cons_ne t ts k : t_call t ≠ k → idx (t :: ts) k = idx ts k.
Proof. intros H. unfold idx. by rewrite filter_cons_False. Qed.

Lemma core_new calls ts b k j :
  core calls ts b → calls !! k = None → match j with JEncode _ => True | JDecode _ n => (0 ≤ n + Z.of_nat 36)%Z end →
  core (<[k := mkECall j (PSend 0) []]> calls) ts b.
Proof.
  intros [H1 H2] Hk Hj. constructor.
  - intros k' x. destruct (decide (k = k')) as [<-|Hne].
    + rewrite lookup_insert. intros [= <-]. constructor; [constructor|done|]. cbn. split; [lia|].
      assert (idx ts k = []) as ->; [|done]. unfold idx.
      assert (filter (λ t, t_call t = k) ts = []) as ->; [|done].
      destruct (filter (λ t, t_call t = k) ts) as [|t l] eqn:E; [done|].
      assert (t ∈ filter (λ t, t_call t = k) ts) as [Ht1 Ht2]%elem_of_list_filter by (rewrite E; left).
      destruct (H2 t Ht2) as (x & Hx & _). congruence.
    + rewrite lookup_insert_ne by done. apply H1.
  - intros t Ht. destruct (H2 t Ht) as (x & Hx & Hr). exists x. split; [|done].
    rewrite lookup_insert_ne; [done|]. intros ->. congruence.
Qed.

(** Updating a call with one for the same job. *)
Lemma core_update calls ts ts' b k x x' :
  core calls ts b → calls !! k = Some x → ec_job x' = ec_job x →
  (∀ k', k' ≠ k → idx ts' k' = idx ts k') →
  (∀ t, t ∈ ts' → t ∈ ts ∨ t_call t = k ∧ request (ec_job x) (t_index t) = Some (t_work t)) →
  call_inv b (idx ts' k ++ (ec_chan x').*1) x' →
  core (<[k := x']> calls) ts' b.
Proof.
  intros [H1 H2] Hk Hj Hidx Hts Hx. constructor.
  - intros k' y. destruct (decide (k = k')) as [<-|Hne].
    + rewrite lookup_insert. by intros [= <-].
    + rewrite lookup_insert_ne by done. intros Hy. rewrite Hidx by done. by apply H1.
  - intros t Ht. assert (∃ y, calls !! t_call t = Some y ∧ request (ec_job y) (t_index t) = Some (t_work t)) as (y & Hy & Hr).
    { destruct (Hts t Ht) as [Hin|[-> Hr]]; [by apply H2|]. by exists x. }
    destruct (decide (t_call t = k)) as [E|Hne].
    + exists x'. rewrite E in Hy |- *. rewrite lookup_insert. split; [done|]. rewrite Hj.
      assert (x = y) as -> by congruence. done.
    + exists y. by rewrite lookup_insert_ne.
Qed.

Lemma request_good j : match j with JEncode _ => True | JDecode _ n => (0 ≤ n + Z.of_nat 36)%Z end →
  is_Some (request j 35) → good_job j.
Proof.
  destruct j as [d|got n]; [done|]. intros Hn [w Hw]. split; [done|]. cbn [request] in Hw.
  destruct (segment _ 35). destruct (got !! 35) as [g|] eqn:E; [|done]. apply lookup_lt_Some in E. lia.
Qed.

Lemma core_send calls ts b k x i w :
  core calls ts b → calls !! k = Some x → ec_pc x = PSend i → request (ec_job x) i = Some w →
  core (<[k := set_pc x (after_send (ec_job x) i)]> calls) (mkTask k i w :: ts) b.
Proof.
  intros Hc Hk Hpc Hr. destruct (co_call _ _ _ Hc _ _ Hk) as [Hch Hsz Hp]. rewrite Hpc in Hp. destruct Hp as [Hi Hp].
  eapply core_update; [exact Hc|exact Hk|done|..].
  - intros k' Hne. by apply idx_cons_ne.
  - intros t [->|Ht]%elem_of_cons; [right|left]; done.
  - change k with (t_call (mkTask k i w)). rewrite idx_cons_eq. cbn [t_index t_call].
    constructor; [done|done|]. cbn [set_pc ec_chan ec_job ec_pc]. unfold after_send. rewrite n36.
    assert (Hp' : Permutation ((i :: idx ts k) ++ (ec_chan x).*1) (seq 0 (S i))).
    { rewrite seq_S. cbn [app]. rewrite Hp. apply Permutation_cons_append. }
    case_decide as Hd; cbn [pc_inv].
    + assert (i = 35) as -> by lia. split; [lia|]. split; [apply request_good; [done|by eexists]|].
      exists []. split; [done|]. split; [apply start_ok|exact Hp'].
    + split; [lia|exact Hp'].
Qed.
Lemma pc_some_list b il j p : pc_inv b il j p → ∃ q m, m ≤ 36 ∧ Permutation (q ++ il) (seq 0 m).
Proof.
  destruct p as [i|n v|a]; cbn [pc_inv].
  - intros [Hi Hp]. exists [], i. split; [lia|done].
  - intros (_ & _ & q & _ & _ & Hq). exists q, 36. split; [lia|done].
  - by intros [_ H].
Qed.
Lemma core_stop_call calls ts k x :
  core calls ts true → calls !! k = Some x → core (<[k := set_pc x (PDone (stopped_answer (ec_job x)))]> calls) ts true.
Proof.
  intros Hc Hk. destruct (co_call _ _ _ Hc _ _ Hk) as [Hch Hsz Hp].
  eapply core_update; [exact Hc|exact Hk|done|done|by left|].
  constructor; [done|done|]. cbn. split; [by right|]. by eapply pc_some_list.
Qed.
Lemma core_finish calls t ts b x :
  core calls (t :: ts) b → calls !! t_call t = Some x →
  core (<[t_call t := mkECall (ec_job x) (ec_pc x) (ec_chan x ++ [(t_index t, run_work c (t_work t))])]> calls) ts b.
Proof.
  intros Hc Hk. destruct (co_call _ _ _ Hc _ _ Hk) as [Hch Hsz Hp].
  destruct (co_task _ _ _ Hc t) as (x' & Hx' & Hr); [left|]. assert (x' = x) as -> by congruence.
  eapply core_update; [exact Hc|exact Hk|done|..].
  - intros k' Hne. symmetry. by apply idx_cons_ne.
  - intros t' Ht. left. by right.
  - constructor; [|done|].
    + cbn. apply Forall_app. split; [done|]. constructor; [|constructor]. by exists (t_work t).
    + cbn. eapply pc_inv_perm; [|exact Hp]. rewrite idx_cons_eq, fmap_app. cbn.
      rewrite app_assoc, (Permutation_app_comm _ [t_index t]). done.
Qed.
Lemma chan_room calls t ts b x : core calls (t :: ts) b → calls !! t_call t = Some x → length (ec_chan x) < 36.
Proof.
  intros Hc Hk. destruct (co_call _ _ _ Hc _ _ Hk) as [_ _ Hp].
  apply pc_some_list in Hp as (q & m & Hm & Hq). apply Permutation_length in Hq.
  rewrite seq_length, !app_length, fmap_length, idx_cons_eq in Hq. cbn in Hq. lia.
Qed.

Lemma core_recv calls ts b k x n v i r rest :
  core calls ts b → calls !! k = Some x → ec_pc x = PRecv n v → ec_chan x = (i, r) :: rest →
  match receive v i r with
  | inl a => core (<[k := mkECall (ec_job x) (PDone a) rest]> calls) ts b
  | inr v' =>
      if decide (36 ≤ S n) then
        match finish v' with
        | Some a => core (<[k := mkECall (ec_job x) (PDone a) rest]> calls) ts b
        | None => match ec_job x with JDecode _ n => (n < 0)%Z | _ => False end
        end
      else core (<[k := mkECall (ec_job x) (PRecv (S n) v') rest]> calls) ts b
  end.
Proof.
  intros Hc Hk Hpc Hch'. destruct (co_call _ _ _ Hc _ _ Hk) as [Hch Hsz Hp]. rewrite Hpc in Hp. rewrite Hch' in Hch, Hp.
  apply Forall_cons in Hch as [(w & Hw & Hr) Hch]. cbn [fst snd] in Hw, Hr.
  destruct Hp as (Hn & Hg & p & Hlp & Hls & Hp). cbn [fmap list_fmap fst] in Hp.
  assert (Hp2 : Permutation (p ++ i :: (idx ts k ++ rest.*1)) (seq 0 36)).
  { rewrite <-Hp. apply Permutation_app_head. apply Permutation_middle. }
  assert (Hp3 : Permutation ((p ++ [i]) ++ idx ts k ++ rest.*1) (seq 0 36)) by (by rewrite <-app_assoc).
  pose proof (receive_ok _ _ _ _ _ _ Hg Hls Hp2 Hw) as Hrec. rewrite <-Hr in Hrec.
  assert (Hup : ∀ q, pc_inv b (idx ts k ++ rest.*1) (ec_job x) q → core (<[k := mkECall (ec_job x) q rest]> calls) ts b).
  { intros q Hq. eapply core_update; [exact Hc|exact Hk|done|done|by left|]. constructor; [done|done|exact Hq]. }
  assert (Hdone : ∀ a, a = alone c (ec_job x) → core (<[k := mkECall (ec_job x) (PDone a) rest]> calls) ts b).
  { intros a ->. apply Hup. cbn. split; [by left|]. exists (p ++ [i]), 36. split; [lia|done]. }
  destruct (receive v i r) as [a|v'].
  - by apply Hdone.
  - destruct Hrec as [Hls' Hfin]. case_decide as Hd.
    + assert (idx ts k ++ rest.*1 = []) as Hnil.
      { apply Permutation_length in Hp2. rewrite seq_length, app_length in Hp2. cbn [length] in Hp2.
        apply nil_length_inv. lia. }
      specialize (Hfin Hnil). destruct (finish v') as [a|]; [by apply Hdone|done].
    + apply Hup. cbn [pc_inv]. split; [lia|]. split; [done|]. exists (p ++ [i]). rewrite app_length. cbn [length].
      split; [lia|]. split; [done|]. exact Hp3.
Qed.
Lemma core_stop calls ts b : core calls ts b → core calls ts true.
Proof.
  intros [H1 H2]. constructor; [|done]. intros k x Hk. destruct (H1 _ _ Hk) as [Hc Hs Hp]. constructor; [done|done|].
  destruct (ec_pc x); cbn [pc_inv] in *; [done|done|]. destruct Hp as [[Ha|[_ Ha]] Hp]; (split; [|done]); [by left|by right].
Qed.

Definition all_tasks (s : estate) : list task := e_enc s ++ e_dec s ++ e_busy s.
Record Inv (cpus : nat) (s : estate) : Prop := {
  iv_core : core (e_calls s) (all_tasks s) (e_stopped s);
  iv_busy : length (e_busy s) ≤ e_alive s;
  iv_alive : e_stopped s = false → e_alive s = cpus }.

Lemma inv_start cpus : Inv cpus (NewRSEncoderDecoder cpus).
Proof. constructor; cbn; [|lia|done]. constructor; [done|]. by intros t ?%elem_of_nil. Qed.
Lemma inv_crash cpus s : Inv cpus s → Inv cpus (crash s).
Proof. intros []. by constructor. Qed.

Lemma inv_step cpus s l s' : Inv cpus s → estep c cpus s l s' → Inv cpus s'.
Proof.
  intros Hinv Hs. pose proof Hinv as [Hc Hb Ha].
  destruct Hs as [k j Hcr Hk Hj|k sh n Hcr Hk Hn|k x i w Hcr Hk Hpc Hr Hq|k x i Hcr Hk Hpc Hr|k x i Hcr Hk Hpc Hr Hst
    |t q Hcr Hq Hlt|t q Hcr Hq Hlt|b1 t b2 x Hcr Hbu Hk Hroom|k x n v i r rest Hcr Hk Hpc Hch|k x n v Hcr Hk Hpc Hst|Hcr|Hcr Hst Hlt].
  - constructor; [|done|done]. apply core_new; [done|done|]. by rewrite n36 in Hj.
  - by apply inv_crash.
  - pose proof (core_send _ _ _ _ _ _ _ Hc Hk Hpc Hr) as Hc'.
    unfold enqueue. destruct (is_encode _); constructor; try done; cbn;
      (eapply core_perm; [|exact Hc']); unfold all_tasks; cbn; rewrite <-?app_assoc; cbn.
    + apply Permutation_middle.
    + rewrite (app_assoc (e_enc s) (e_dec s)). rewrite (app_assoc (e_enc s) (e_dec s)). apply Permutation_middle.
  - by apply inv_crash.
  - constructor; try done. cbn. rewrite Hst in Hc |- *. by apply core_stop_call.
  - constructor; cbn; [|rewrite app_length; cbn; lia|done].
    eapply core_perm; [|exact Hc]. unfold all_tasks; cbn. rewrite Hq. cbn.
    rewrite !app_assoc. apply Permutation_cons_append.
  - constructor; cbn; [|rewrite app_length; cbn; lia|done].
    eapply core_perm; [|exact Hc]. unfold all_tasks; cbn. rewrite Hq. cbn. apply Permutation_app_head.
    rewrite !app_assoc. apply Permutation_cons_append.
  - constructor; cbn; [|rewrite Hbu, app_length in Hb; rewrite app_length; cbn in Hb; lia|done].
    apply (core_finish _ _ (e_enc s ++ e_dec s ++ b1 ++ b2)); [|done].
    eapply core_perm; [|exact Hc]. unfold all_tasks; cbn. rewrite Hbu.
    rewrite (app_assoc (e_dec s)), (app_assoc (e_enc s)). rewrite <-Permutation_middle. by rewrite <-!app_assoc.
  - pose proof (core_recv _ _ _ _ _ _ _ _ _ _ Hc Hk Hpc Hch) as Hc'. rewrite n36.
    destruct (receive v i r) as [a|v']; [by constructor|]. case_decide; [|by constructor].
    destruct (finish v') as [a|]; [by constructor|by apply inv_crash].
  - constructor; try done. cbn. rewrite Hst in Hc |- *. by apply core_stop_call.
  - constructor; cbn; [|done|done]. by eapply core_stop.
  - constructor; cbn; [done|lia|]. congruence.
Qed.
Lemma inv_steps cpus s ls s' : Inv cpus s → esteps c cpus s ls s' → Inv cpus s'.
Proof. intros Hi Hs. induction Hs as [|s l s1 ls s2 H1 _ IH]; [done|]. apply IH. by eapply inv_step. Qed.
Lemma inv_ran cpus ls s : ran c cpus ls s → Inv cpus s.
Proof. apply inv_steps, inv_start. Qed.

(** * What the history says about the state *)
Lemma step_calls cpus s l s' k x' : estep c cpus s l s' → e_calls s' !! k = Some x' →
  (∃ x, e_calls s !! k = Some x ∧ ec_job x = ec_job x') ∨ e_calls s !! k = None ∧ l = LNew k (ec_job x').
Proof.
  intros Hs. destruct Hs as [k0 j Hcr Hk Hj|k0 sh n Hcr Hk Hn|k0 x i w Hcr Hk Hpc Hr Hq|k0 x i Hcr Hk Hpc Hr|k0 x i Hcr Hk Hpc Hr Hst
    |t q Hcr Hq Hlt|t q Hcr Hq Hlt|b1 t b2 x Hcr Hbu Hk Hroom|k0 x n v i r rest Hcr Hk Hpc Hch|k0 x n v Hcr Hk Hpc Hst|Hcr|Hcr Hst Hlt].
  1: { cbn. destruct (decide (k0 = k)) as [->|Hne]; [rewrite lookup_insert; intros [= <-]; by right|].
    rewrite lookup_insert_ne by done. intros ->. left. by eexists. }
  all: try (intros Hx; left; by eexists).
  all: assert (Hup : ∀ k0 x y, e_calls s !! k0 = Some x → ec_job y = ec_job x → <[k0 := y]> (e_calls s) !! k = Some x' →
         ∃ x, e_calls s !! k = Some x ∧ ec_job x = ec_job x') by
       (intros k1 y z Hy Hz; destruct (decide (k1 = k)) as [->|Hne];
        [rewrite lookup_insert; intros [= <-]; by exists y|rewrite lookup_insert_ne by done; intros ->; by eexists]).
  - intros Hx. left. eapply (Hup k0 x); [done| |unfold enqueue in Hx; destruct (is_encode _); exact Hx]. done.
  - intros Hx. left. eapply (Hup k0 x); [exact Hk| |exact Hx]. done.
  - intros Hx. left. eapply (Hup _ x); [exact Hk| |exact Hx]. done.
  - destruct (receive v i r) as [a|v'].
    + intros Hx. left. eapply (Hup k0 x); [done| |exact Hx]. done.
    + case_decide.
      * destruct (finish v') as [a|].
        -- intros Hx. left. eapply (Hup k0 x); [done| |exact Hx]. done.
        -- intros Hx. left. by eexists.
      * intros Hx. left. eapply (Hup k0 x); [done| |exact Hx]. done.
  - intros Hx. left. eapply (Hup k0 x); [exact Hk| |exact Hx]. done.
Qed.
Lemma step_calls_fwd cpus s l s' k x : estep c cpus s l s' → e_calls s !! k = Some x →
  ∃ x', e_calls s' !! k = Some x' ∧ ec_job x' = ec_job x.
Proof.
  intros Hs Hx. destruct Hs as [k0 j Hcr Hk Hj|k0 sh n Hcr Hk Hn|k0 y i w Hcr Hk Hpc Hr Hq|k0 y i Hcr Hk Hpc Hr|k0 y i Hcr Hk Hpc Hr Hst
    |t q Hcr Hq Hlt|t q Hcr Hq Hlt|b1 t b2 y Hcr Hbu Hk Hroom|k0 y n v i r rest Hcr Hk Hpc Hch|k0 y n v Hcr Hk Hpc Hst|Hcr|Hcr Hst Hlt].
  1: { cbn. rewrite lookup_insert_ne by congruence. by eexists. }
  all: try by eexists.
  all: assert (Hup : ∀ k0 y z, e_calls s !! k0 = Some y → ec_job z = ec_job y →
         ∃ x', <[k0 := z]> (e_calls s) !! k = Some x' ∧ ec_job x' = ec_job x) by
       (intros k1 y' z Hy Hz; destruct (decide (k1 = k)) as [->|Hne];
        [rewrite lookup_insert; eexists; split; [done|]; congruence|rewrite lookup_insert_ne by done; by eexists]).
  - unfold enqueue; destruct (is_encode _); by eapply (Hup k0 y).
  - by eapply (Hup k0 y).
  - by eapply (Hup _ y).
  - destruct (receive v i r) as [a|v']; [by eapply (Hup k0 y)|].
    case_decide; [|by eapply (Hup k0 y)]. destruct (finish v'); [by eapply (Hup k0 y)|by eexists].
  - by eapply (Hup k0 y).
Qed.
Lemma step_new cpus s k j s' : estep c cpus s (LNew k j) s' → e_calls s !! k = None ∧
  ((∃ x, e_calls s' !! k = Some x ∧ ec_job x = j) ∨ e_crashed s' = true ∧ e_calls s' !! k = None).
Proof.
  intros Hs. inversion Hs as [k0 j0 Hcr Hk Hj|k0 sh n Hcr Hk Hn| | | | | | | | | |]; subst.
  - split; [done|]. left. cbn. rewrite lookup_insert. by eexists.
  - split; [done|]. right. done.
Qed.
Lemma step_crashed cpus s l s' : estep c cpus s l s' → e_crashed s = false.
Proof. by destruct 1. Qed.
Lemma step_stopped cpus s l s' : estep c cpus s l s' → e_stopped s' = true → e_stopped s = true ∨ l = LStop.
Proof.
  intros Hs. destruct Hs; cbn; try (intros; by left); try (intros; by right).
  - unfold enqueue. destruct (is_encode _); intros; by left.
  - destruct (receive _ _ _); [intros; by left|]. case_decide; [|intros; by left]. destruct (finish _); intros; by left.
Qed.

Lemma steps_calls_fwd cpus s ls s' k x : esteps c cpus s ls s' → e_calls s !! k = Some x →
  ∃ x', e_calls s' !! k = Some x' ∧ ec_job x' = ec_job x.
Proof.
  intros Hs. revert x. induction Hs as [|s l s1 ls s2 H1 _ IH]; intros x Hx; [by eexists|].
  destruct (step_calls_fwd _ _ _ _ _ _ H1 Hx) as (y & Hy & <-). by apply IH.
Qed.
Lemma steps_new cpus s ls s' k j : esteps c cpus s ls s' → LNew k j ∈ ls →
  (∃ x, e_calls s' !! k = Some x ∧ ec_job x = j) ∨ e_crashed s' = true ∧ e_calls s' !! k = None.
Proof.
  intros Hs. induction Hs as [|s l s1 ls s2 H1 H2 IH]; [by intros ?%elem_of_nil|].
  intros [<-|Hin]%elem_of_cons; [|by apply IH].
  apply step_new in H1 as [_ [(x & Hx & <-)|[Hcr Hn]]].
  - left. by eapply steps_calls_fwd.
  - right. destruct H2 as [|s1 l s2 ls s3 H2 _]; [done|]. apply step_crashed in H2. congruence.
Qed.
Lemma steps_calls cpus s ls s' k x : esteps c cpus s ls s' → e_calls s' !! k = Some x →
  (∃ y, e_calls s !! k = Some y) ∨ LNew k (ec_job x) ∈ ls.
Proof.
  intros Hs. induction Hs as [|s l s1 ls s2 H1 H2 IH]; [left; by eexists|]. intros Hx.
  destruct (IH Hx) as [[y Hy]|Hin]; [|right; by right].
  destruct (step_calls _ _ _ _ _ _ H1 Hy) as [(z & Hz & _)|[_ ->]]; [left; by eexists|].
  right. destruct (steps_calls_fwd _ _ _ _ _ _ H2 Hy) as (z & Hz & Hj). assert (z = x) as -> by congruence. rewrite Hj. left.
Qed.
Lemma steps_stopped cpus s ls s' : esteps c cpus s ls s' → e_stopped s' = true → e_stopped s = true ∨ LStop ∈ ls.
Proof.
  intros Hs. induction Hs as [|s l s1 ls s2 H1 H2 IH]; [by left|]. intros Hx.
  destruct (IH Hx) as [Hy|Hin]; [|right; by right]. apply step_stopped in H1 as [?| ->]; [by left|right; left|done].
Qed.

(** Which step crashes. *)
Lemma step_crash cpus s l s' : Inv cpus s → estep c cpus s l s' → e_crashed s' = true →
  (∃ k j, l = LNew k j ∧ bad_job j) ∨ ∃ k x, e_calls s !! k = Some x ∧ bad_job (ec_job x).
Proof.
  intros [Hc _ _] Hs. destruct Hs as [k j Hcr Hk Hj|k sh n Hcr Hk Hn|k x i w Hcr Hk Hpc Hr Hq|k x i Hcr Hk Hpc Hr|k x i Hcr Hk Hpc Hr Hst
    |t q Hcr Hq Hlt|t q Hcr Hq Hlt|b1 t b2 x Hcr Hbu Hk Hroom|k x n v i r rest Hcr Hk Hpc Hch|k x n v Hcr Hk Hpc Hst|Hcr|Hcr Hst Hlt];
    cbn; try congruence.
  - intros _. left. eexists _, _. split; [done|]. left. rewrite n36 in Hn. lia.
  - unfold enqueue. destruct (is_encode _); cbn; congruence.
  - intros _. right. exists k, x. split; [done|].
    destruct (co_call _ _ _ Hc _ _ Hk) as [_ _ Hp]. rewrite Hpc in Hp. destruct Hp as [Hi _].
    destruct (ec_job x) as [d|got n]; [done|]. right. cbn [request] in Hr. destruct (segment _ i).
    destruct (got !! i) eqn:E; [done|]. apply lookup_ge_None in E. lia.
  - pose proof (core_recv _ _ _ _ _ _ _ _ _ _ Hc Hk Hpc Hch) as Hc'. rewrite n36.
    destruct (receive v i r) as [a|v']; cbn; [congruence|]. case_decide; cbn; [|congruence].
    destruct (finish v'); cbn; [congruence|]. intros _. right. exists k, x. split; [done|].
    destruct (ec_job x); [done|]. by left.
Qed.
Lemma steps_crash cpus s ls s' : Inv cpus s → esteps c cpus s ls s' → e_crashed s = false → e_crashed s' = true →
  ∃ k j, bad_job j ∧ (LNew k j ∈ ls ∨ ∃ x, e_calls s !! k = Some x ∧ ec_job x = j).
Proof.
  intros Hi Hs. induction Hs as [|s l s1 ls s2 H1 H2 IH]; [congruence|]. intros Hcr Hcr2.
  destruct (e_crashed s1) eqn:E1.
  - destruct (step_crash _ _ _ _ Hi H1 E1) as [(k & j & -> & Hb)|(k & x & Hx & Hb)]; eexists _, _; (split; [exact Hb|]).
    + left. left.
    + right. by eexists.
  - destruct IH as (k & j & Hb & [Hin|(x & Hx & <-)]); [by eapply inv_step|done|done|..].
    + exists k, j. split; [done|]. left. by right.
    + destruct (step_calls _ _ _ _ _ _ H1 Hx) as [(y & Hy & Hj)|[_ ->]]; exists k, (ec_job x); (split; [done|]).
      * right. by exists y.
      * left. left.
Qed.

(** * Steps are bounded *)
Definition call_cost (x : ecall) : nat :=
  match ec_pc x with PSend i => 4 * (36 - i) + 1 | PRecv _ _ => 1 | PDone _ => 0 end + length (ec_chan x).
Definition sum_cost (m : gmap nat ecall) : nat := map_fold (λ _ p n, call_cost p + n) 0 m.
Definition cost (s : estate) : nat :=
  sum_cost (e_calls s) + 3 * length (e_enc s) + 3 * length (e_dec s) + 2 * length (e_busy s) + e_alive s +
  if e_crashed s then 0 else 1.

Lemma cost_new m k x : m !! k = None → sum_cost (<[k := x]> m) = call_cost x + sum_cost m.
Proof. intros H. apply (map_fold_insert_L (λ _ p n, call_cost p + n) 0); [|done]. intros. lia. Qed.
Lemma cost_delete m k x : m !! k = Some x → sum_cost m = call_cost x + sum_cost (delete k m).
Proof. intros H. rewrite <-(insert_delete m k x H) at 1. apply cost_new, lookup_delete. Qed.
Lemma cost_insert m k x y : m !! k = Some x → sum_cost (<[k := y]> m) + call_cost x = call_cost y + sum_cost m.
Proof.
  intros H. rewrite (cost_delete m k x H), (cost_delete (<[k := y]> m) k y) by apply lookup_insert.
  rewrite delete_insert_delete. lia.
Qed.
Lemma step_cost cpus s l s' : Inv cpus s → estep c cpus s l s' →
  cost s' + (if is_work l then 1 else 0) ≤ cost s + (if is_new l then 145 else 0).
Proof.
  intros [Hc Hb _] Hs.
  assert (Hcrash : e_crashed s = false → cost (crash s) + 1 ≤ cost s) by (intros E; unfold cost; rewrite E; cbn; lia).
  destruct Hs as [k j Hcr Hk Hj|k sh n Hcr Hk Hn|k x i w Hcr Hk Hpc Hr Hq|k x i Hcr Hk Hpc Hr|k x i Hcr Hk Hpc Hr Hst
    |t q Hcr Hq Hlt|t q Hcr Hq Hlt|b1 t b2 x Hcr Hbu Hk Hroom|k x n v i r rest Hcr Hk Hpc Hch|k x n v Hcr Hk Hpc Hst|Hcr|Hcr Hst Hlt];
    cbn [is_work is_new].
  - unfold cost. cbn [with_call e_calls e_enc e_dec e_busy e_alive e_crashed]. rewrite cost_new by done. rewrite Hcr.
    unfold call_cost. cbn [ec_pc ec_chan length]. lia.
  - specialize (Hcrash Hcr). lia.
  - destruct (co_call _ _ _ Hc _ _ Hk) as [_ _ Hp]. rewrite Hpc in Hp. destruct Hp as [Hi _].
    pose proof (cost_insert _ _ _ (set_pc x (after_send (ec_job x) i)) Hk) as Hins.
    unfold call_cost in Hins. rewrite Hpc in Hins. cbn [set_pc ec_pc ec_chan] in Hins. unfold after_send in Hins. rewrite n36 in Hins.
    unfold cost, enqueue, after_send. cbn [set_pc t_work]. rewrite n36.
    destruct (is_encode w); cbn [with_call e_calls e_enc e_dec e_busy e_alive e_crashed]; rewrite app_length; cbn [length];
      case_decide; lia.
  - specialize (Hcrash Hcr). lia.
  - pose proof (cost_insert _ _ _ (set_pc x (PDone (stopped_answer (ec_job x)))) Hk) as Hins.
    unfold call_cost in Hins. rewrite Hpc in Hins. cbn [set_pc ec_pc ec_chan] in Hins.
    unfold cost. cbn [with_call e_calls e_enc e_dec e_busy e_alive e_crashed]. unfold set_pc in *. lia.
  - unfold cost. cbn [e_calls e_enc e_dec e_busy e_alive e_crashed]. rewrite Hq, app_length. cbn [length]. lia.
  - unfold cost. cbn [e_calls e_enc e_dec e_busy e_alive e_crashed]. rewrite Hq, app_length. cbn [length]. lia.
  - pose proof (cost_insert _ _ _ (mkECall (ec_job x) (ec_pc x) (ec_chan x ++ [(t_index t, run_work c (t_work t))])) Hk) as Hins.
    unfold call_cost in Hins. cbn [ec_pc ec_chan] in Hins. rewrite app_length in Hins. cbn [length] in Hins.
    unfold cost. cbn [e_calls e_enc e_dec e_busy e_alive e_crashed]. rewrite Hbu, !app_length. cbn [length]. lia.
  - assert (Hd : ∀ p, match p with PDone _ | PRecv _ _ => True | _ => False end →
      cost (with_call s k (mkECall (ec_job x) p rest)) + 1 ≤ cost s).
    { intros p Hp. pose proof (cost_insert _ _ _ (mkECall (ec_job x) p rest) Hk) as Hins.
      unfold call_cost in Hins. rewrite Hpc, Hch in Hins. cbn [ec_pc ec_chan length] in Hins.
      unfold cost. cbn [with_call e_calls e_enc e_dec e_busy e_alive e_crashed]. destruct p; [done|lia|lia]. }
    destruct (receive v i r) as [a|v'].
    + specialize (Hd (PDone a) I). lia.
    + rewrite n36. case_decide; [|specialize (Hd (PRecv (S n) v') I); lia].
      destruct (finish v') as [a|]; [specialize (Hd (PDone a) I); lia|specialize (Hcrash Hcr); lia].
  - pose proof (cost_insert _ _ _ (set_pc x (PDone (stopped_answer (ec_job x)))) Hk) as Hins.
    unfold call_cost in Hins. rewrite Hpc in Hins. cbn [set_pc ec_pc ec_chan] in Hins.
    unfold cost. cbn [with_call e_calls e_enc e_dec e_busy e_alive e_crashed]. unfold set_pc in *. lia.
  - unfold cost. cbn [e_calls e_enc e_dec e_busy e_alive e_crashed]. lia.
  - unfold cost. cbn [e_calls e_enc e_dec e_busy e_alive e_crashed]. lia.
Qed.
Lemma steps_cost cpus s ls s' : Inv cpus s → esteps c cpus s ls s' → cost s' + works ls ≤ cost s + 145 * news ls.
Proof.
  intros Hi Hs. induction Hs as [|s l s1 ls s2 H1 H2 IH]; [unfold works, news; cbn; lia|].
  pose proof (step_cost _ _ _ _ Hi H1) as Hc. specialize (IH (inv_step _ _ _ _ Hi H1)).
  unfold works, news in *. rewrite !filter_cons. destruct l; cbn [is_work is_new] in *; cbn [length];
    repeat (case_decide; cbn [length]); try done; lia.
Qed.

(** * Progress *)
Lemma busy_finish cpus s t : Inv cpus s → e_crashed s = false → t ∈ e_busy s →
  ∃ x b1 b2, e_busy s = b1 ++ t :: b2 ∧ e_calls s !! t_call t = Some x ∧ length (ec_chan x) < NumChunks.
Proof.
  intros [Hc _ _] Hcr (b1 & b2 & Hb)%elem_of_list_split.
  destruct (co_task _ _ _ Hc t) as (x & Hx & _).
  { unfold all_tasks. rewrite Hb, !elem_of_app. right. right. right. left. }
  exists x, b1, b2. split; [done|]. split; [done|]. rewrite n36.
  eapply (chan_room _ _ (e_enc s ++ e_dec s ++ b1 ++ b2)); [|exact Hx].
  eapply core_perm; [|exact Hc]. unfold all_tasks; cbn. rewrite Hb.
  rewrite (app_assoc (e_dec s)), (app_assoc (e_enc s)). rewrite <-Permutation_middle. by rewrite <-!app_assoc.
Qed.
Lemma stopped_progress cpus s k x : Inv cpus s → e_crashed s = false → e_stopped s = true →
  e_calls s !! k = Some x → (∀ a, ec_pc x ≠ PDone a) → ¬ bad_job (ec_job x) →
  estep c cpus s LWork (with_call s k (set_pc x (PDone (stopped_answer (ec_job x))))).
Proof.
  intros [Hc _ _] Hcr Hst Hk Hr Hbad. destruct (ec_pc x) as [i|n v|a] eqn:Hpc; [| |by destruct (Hr a)].
  - destruct (co_call _ _ _ Hc _ _ Hk) as [_ _ Hp]. rewrite Hpc in Hp. destruct Hp as [Hi _].
    eapply E_send_stop; try done.
    destruct (ec_job x) as [d|got n]; [by eexists|]. cbn [request bad_job] in *. destruct (segment _ i).
    destruct (got !! i) eqn:E; [by eexists|]. apply lookup_ge_None in E. destruct Hbad. right. lia.
  - by eapply E_recv_stop.
Qed.
Lemma progress cpus s k : Inv cpus s → 0 < cpus → e_crashed s = false → running s k → ∃ s', estep c cpus s LWork s'.
Proof.
  intros Hinv Hcpu Hcr (x & Hk & Hr). pose proof Hinv as [Hc Hb Ha].
  destruct (e_busy s) as [|t b] eqn:Hbusy.
  2: { destruct (busy_finish _ _ t Hinv Hcr) as (y & b1 & b2 & H1 & H2 & H3); [rewrite Hbusy; left|].
    eexists. by eapply (E_finish _ _ _ b1 t b2 y). }
  destruct (e_stopped s) eqn:Hst.
  { destruct (ec_pc x) as [i|n v|a] eqn:Hpc; [| |by destruct (Hr a)].
    - destruct (request (ec_job x) i) eqn:Hq; eexists; [eapply E_send_stop; try done; by eexists|by eapply E_send_panic].
    - eexists. by eapply E_recv_stop. }
  specialize (Ha eq_refl).
  destruct (e_enc s) as [|t q] eqn:He.
  2: { eexists. eapply E_take_enc; [done|exact He|]. rewrite Hbusy, Ha. cbn. lia. }
  destruct (e_dec s) as [|t q] eqn:Hd.
  2: { eexists. eapply E_take_dec; [done|exact Hd|]. rewrite Hbusy, Ha. cbn. lia. }
  destruct (ec_pc x) as [i|n v|a] eqn:Hpc; [| |by destruct (Hr a)].
  - destruct (request (ec_job x) i) as [w|] eqn:Hq; eexists; [eapply E_send; try done|by eapply E_send_panic].
    unfold queue_of, queue_cap. rewrite He, Hd, n36. destruct (is_encode w); cbn; lia.
  - destruct (co_call _ _ _ Hc _ _ Hk) as [_ _ Hp]. rewrite Hpc in Hp.
    destruct Hp as (Hn & _ & p & Hlp & _ & Hp). unfold all_tasks in Hp. rewrite He, Hd, Hbusy in Hp. cbn [app idx] in Hp.
    destruct (ec_chan x) as [|[i r] rest] eqn:Hch.
    + apply Permutation_length in Hp. rewrite seq_length, app_length in Hp. cbn in Hp. lia.
    + eexists. by eapply E_recv.
Qed.
End c.
