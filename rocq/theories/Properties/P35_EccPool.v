(** C90: the erasure coder's workers. *)
From stdpp Require Import gmap.
From Verif.Base Require Import Base.
From Verif.Model Require Import Ecc EccPool.
From Verif.Spec Require Import EccPoolSpec.
From Verif.Proofs Require Import EccPoolProofs.
From Verif.Properties Require P14_Ecc.

Section C90.
Context (c : rs_code).

(** Whatever else the encoder is doing, a call returns what it returns alone, or, if the encoder is stopped
    meanwhile, the error that says so. *)
Theorem C90_same_answers cpus ls s k j a :
  ran c cpus ls s → LNew k j ∈ ls → returned s k a →
  a = alone c j ∨ LStop ∈ ls ∧ a = stopped_answer j.
Proof.
  intros Hr Hn (x & Hx & Hpc). destruct (steps_new _ _ _ _ _ _ _ Hr Hn) as [(y & Hy & Hj)|[_ Hno]]; [|congruence].
  assert (y = x) as -> by congruence. subst j.
  destruct (co_call _ _ _ _ (iv_core _ _ _ (inv_ran _ _ _ _ Hr)) _ _ Hx) as [_ _ Hp]. rewrite Hpc in Hp.
  destruct Hp as [[Ha|[Hst Ha]] _]; [by left|]. right. split; [|done].
  destruct (steps_stopped _ _ _ _ _ Hr Hst) as [?|?]; done.
Qed.

(** Encoding and decoding through one encoder, concurrently with any other calls: what one call encoded another
    decodes, as long as enough shards of every chunk are left. *)
Theorem C90_roundtrip cpus ls s k data r :
  rs_laws c → ran c cpus ls s → LStop ∉ ls → LNew k (JEncode data) ∈ ls → returned s k r →
  ∃ shards, r = AEncode (Ok (Some <$> shards)) ∧ length shards = 36 ∧
    ∀ k' got r', LNew k' (JDecode got (Z.of_nat (length data))) ∈ ls → returned s k' r' →
      Forall2 (P14_Ecc.survives (rs_k c)) shards got → r' = ADecode (Ok data).
Proof.
  intros Hl Hr Hst Hn Hret. destruct (C90_same_answers _ _ _ _ _ _ Hr Hn Hret) as [->|[? _]]; [|done].
  assert (Hall : P14_Ecc.all_answers (Some <$> seq 0 36)) by (by exists (seq 0 36)).
  destruct (P14_Ecc.C45_roundtrip c Hl data _ Hall) as (shards & He & Hlen & _ & Hd).
  exists shards. unfold alone. rewrite He. split; [done|]. split; [done|].
  intros k' got r' Hn' Hret' Hs. destruct (C90_same_answers _ _ _ _ _ _ Hr Hn' Hret') as [->|[? _]]; [|done].
  unfold alone. by rewrite (Hd _ _ Hall Hs).
Qed.

(** ... and never a message when a chunk has too few shards left. *)
Theorem C90_too_few cpus ls s k got n r i g :
  rs_laws c → ran c cpus ls s → LNew k (JDecode got n) ∈ ls → returned s k r →
  i < 36 → got !! i = Some g → num_present g < rs_k c → ∀ m, r ≠ ADecode (Ok m).
Proof.
  intros Hl Hr Hn Hret Hi Hg Hp m. destruct (C90_same_answers _ _ _ _ _ _ Hr Hn Hret) as [->|[_ ->]]; [|done].
  unfold alone. intros [= E]. revert E. eapply P14_Ecc.C46_never_decoded; [done| |done|done|done].
  left. by exists (seq 0 36).
Qed.

(** The work is bounded: at most 145 steps for every call, and one for every worker (and a crash). *)
Theorem C90_bounded cpus ls s : ran c cpus ls s → works ls ≤ 145 * news ls + cpus + 1.
Proof.
  intros Hr. pose proof (steps_cost _ _ _ _ _ (inv_start _ cpus) Hr) as H.
  change (cost (NewRSEncoderDecoder cpus)) with (0 + 0 + 0 + 0 + cpus + 1) in H. lia.
Qed.
(** ... and it does not get stuck before every call has returned. *)
Theorem C90_no_deadlock cpus ls s k :
  ran c cpus ls s → 0 < cpus → e_crashed s = false → running s k → ∃ s', estep c cpus s LWork s'.
Proof. intros Hr. apply progress. by eapply inv_ran. Qed.

(** Hence the calls of every run can be brought to their end by the calls' and workers' own steps (and, by the two
    theorems above, every schedule that lets somebody who can move move ends there). *)
Theorem C90_completes cpus ls s :
  ran c cpus ls s → 0 < cpus →
  ∃ ls' s', Forall (eq LWork) ls' ∧ ran c cpus (ls ++ ls') s' ∧ (e_crashed s' = true ∨ ∀ k, ¬ running s' k).
Proof.
  intros Hr Hcpu. assert (Hi : Inv c cpus s) by (by eapply inv_ran). unfold ran in Hr.
  assert (Happ : ∀ s0 l1 s1 l2 s2, esteps c cpus s0 l1 s1 → esteps c cpus s1 l2 s2 → esteps c cpus s0 (l1 ++ l2) s2).
  { intros s0 l1 s1 l2 s2 H1 H2. induction H1 as [|? ? ? ? ? H1 _ IH]; [done|]. econstructor; [exact H1|by apply IH]. }
  assert (Hgo : ∀ n s, cost s ≤ n → Inv c cpus s →
    ∃ ls' s', Forall (eq LWork) ls' ∧ esteps c cpus s ls' s' ∧ (e_crashed s' = true ∨ ∀ k, ¬ running s' k)).
  { clear -Hcpu. induction n as [n IH] using lt_wf_ind. intros s Hn Hi.
    destruct (e_crashed s) eqn:Hcr; [exists [], s; split; [constructor|]; split; [constructor|by left]|].
    set (P := λ (_ : nat) (x : ecall), match ec_pc x with PDone _ => True | _ => False end).
    assert (∀ k x, Decision (P k x)) as HP by (intros k x; unfold P; destruct (ec_pc x); apply _).
    destruct (decide (map_Forall P (e_calls s))) as [Hall|Hno].
    - exists [], s. split; [constructor|]. split; [constructor|]. right. intros k (x & Hx & Hnd).
      specialize (Hall k x Hx). unfold P in Hall. destruct (ec_pc x) as [| |a]; [done|done|by apply (Hnd a)].
    - apply map_not_Forall in Hno as (k & x & Hx & Hnp); [|done].
      destruct (progress c cpus s k Hi Hcpu Hcr) as [s' Hs'].
      { exists x. split; [done|]. intros a Ha. apply Hnp. unfold P. by rewrite Ha. }
      pose proof (step_cost _ _ _ _ _ Hi Hs') as Hc. cbn [is_work is_new] in Hc.
      destruct (IH (cost s')) with (s := s') as (ls' & s2 & H1 & H2 & H3); [lia|lia|by eapply inv_step|].
      exists (LWork :: ls'), s2. split; [by constructor|]. split; [by econstructor|done]. }
  destruct (Hgo _ s (le_n _) Hi) as (ls' & s' & H1 & H2 & H3). exists ls', s'. split; [done|]. split; [|done].
  by eapply Happ.
Qed.

(** A worker never waits to hand over an answer, not even that of a call that has returned. *)
Theorem C90_workers_never_block cpus ls s t :
  ran c cpus ls s → e_crashed s = false → t ∈ e_busy s →
  ∃ x s', e_calls s !! t_call t = Some x ∧ estep c cpus s LWork s' ∧
    e_calls s' !! t_call t = Some (mkECall (ec_job x) (ec_pc x) (ec_chan x ++ [(t_index t, run_work c (t_work t))])) ∧
    S (length (e_busy s')) = length (e_busy s).
Proof.
  intros Hr Hcr Ht. destruct (busy_finish _ _ _ _ (inv_ran _ _ _ _ Hr) Hcr Ht) as (x & b1 & b2 & Hb & Hx & Hroom).
  eexists x, _. split; [done|]. split; [by eapply (E_finish _ _ _ b1 t b2 x)|]. cbn. rewrite lookup_insert. split; [done|].
  rewrite Hb, !app_length. cbn. lia.
Qed.

(** After Stop every call that is still running can return at once, with the error. *)
Theorem C90_stop_releases cpus ls s k j :
  ran c cpus ls s → LStop ∈ ls → LNew k j ∈ ls → ¬ bad_job j → e_crashed s = false → running s k →
  ∃ s', estep c cpus s LWork s' ∧ returned s' k (stopped_answer j).
Proof.
  intros Hr Hst Hn Hbad Hcr (x & Hx & Hpc).
  destruct (steps_new _ _ _ _ _ _ _ Hr Hn) as [(y & Hy & Hj)|[_ Hno]]; [|congruence].
  assert (y = x) as -> by congruence. subst j.
  assert (e_stopped s = true) as Hs.
  { revert Hst Hr. unfold ran. generalize (NewRSEncoderDecoder cpus). clear. intros s0 Hin Hr.
    assert (Hmono : ∀ s0 ls s, esteps c cpus s0 ls s → e_stopped s0 = true → e_stopped s = true).
    { clear. intros s0 ls s H. induction H as [|s0 l s1 ls s2 H1 _ IH]; [done|]. intros E. apply IH.
      destruct H1; cbn; try done.
      - unfold enqueue. by destruct (is_encode _).
      - destruct (receive _ _ _); [done|]. case_decide; [|done]. by destruct (finish _). }
    induction Hr as [|s0 l s1 ls s2 H1 H2 IH]; [by apply elem_of_nil in Hin|].
    apply elem_of_cons in Hin as [<-|Hin]; [|by apply IH].
    apply (Hmono _ _ _ H2). inversion H1. done. }
  eexists. split; [eapply stopped_progress; try done; by eapply inv_ran|].
  eexists. cbn. rewrite lookup_insert. done.
Qed.

(** Only an AuthReconstruct call with a negative size or fewer than 36 chunks brings the program down. *)
Theorem C90_crash_only cpus ls s : ran c cpus ls s → e_crashed s = true → ∃ k j, LNew k j ∈ ls ∧ bad_job j.
Proof.
  intros Hr Hcr. destruct (steps_crash _ _ _ _ _ (inv_start _ cpus) Hr eq_refl Hcr) as (k & j & Hb & [Hin|(x & Hx & _)]); [|done].
  by exists k, j.
Qed.
(** ... and it does: such a call crashes as it starts. *)
Theorem C90_crash_example cpus : ∃ s, ran c cpus [LNew 0 (JDecode [] (-37))] s ∧ e_crashed s = true.
Proof. eexists. split; [econstructor; [|constructor]; apply E_new_panic; [done|done|rewrite n36; lia]|done]. Qed.
End C90.

(** ** An instance: three calls at once, on one worker, with the exclusive or code. *)
Section example.
Definition jobs : list job := [JEncode [Byte.x01; Byte.x02]; JEncode []; JDecode (NewShards P14_Ecc.xor_code) 5].
Example C90_example :
  ∃ ls s r shards, ran P14_Ecc.xor_code 1 ls s ∧ LStop ∉ ls ∧ (∀ k j, jobs !! k = Some j → LNew k j ∈ ls) ∧
    returned s 0 (AEncode (Ok (Some <$> shards))) ∧ length shards = 36 ∧ returned s 1 r ∧
    returned s 2 (ADecode (Err EReconstruct)).
Proof.
  set (c := P14_Ecc.xor_code).
  set (ls0 := [LNew 0 (JEncode [Byte.x01; Byte.x02]); LNew 1 (JEncode []); LNew 2 (JDecode (NewShards c) 5)]).
  assert (∃ s0, ran c 1 ls0 s0) as [s0 H0].
  { unfold ran, ls0, NewRSEncoderDecoder. eexists.
    econstructor; [by apply E_new|]. econstructor; [by apply E_new|]. econstructor; [|constructor]. apply E_new; [done|done|rewrite n36; lia]. }
  destruct (C90_completes c 1 ls0 s0 H0) as (ls' & s & Hw & Hr & Hend); [lia|].
  assert (Hns : LStop ∉ ls0 ++ ls').
  { rewrite elem_of_app. intros [Hin|Hin].
    - unfold ls0 in Hin. rewrite !elem_of_cons in Hin. by destruct Hin as [?|[?|[?|?%elem_of_nil]]].
    - rewrite Forall_forall in Hw. apply Hw in Hin. done. }
  assert (Hlook : ∀ k j, jobs !! k = Some j → LNew k j ∈ ls0 ++ ls').
  { intros k j Hk. apply elem_of_app. left. destruct k as [|[|[|k]]]; cbn in Hk; [..|done]; injection Hk as <-.
    - left. - right; left. - right; right; left. }
  assert (Hback : ∀ k j, LNew k j ∈ ls0 ++ ls' → ∃ i, jobs !! i = Some j).
  { intros k j [Hin|Hin]%elem_of_app.
    - unfold ls0 in Hin. rewrite !elem_of_cons in Hin. destruct Hin as [[= _ ->]|[[= _ ->]|[[= _ ->]|?%elem_of_nil]]]; [by exists 0|by exists 1|by exists 2|done].
    - rewrite Forall_forall in Hw. apply Hw in Hin. done. }
  assert (Hcr : e_crashed s = false).
  { destruct (e_crashed s) eqn:E; [|done]. destruct (C90_crash_only _ _ _ _ Hr E) as (k & j & Hin & Hb).
    destruct (Hback _ _ Hin) as [[|[|[|i]]] Hi]; cbn in Hi; [..|done]; injection Hi as <-; [done|done|].
    destruct Hb as [Hb|Hb]; [lia|]. unfold NewShards in Hb. rewrite replicate_length, n36 in Hb. lia. }
  destruct Hend as [?|Hend]; [congruence|].
  assert (Hret : ∀ k j, LNew k j ∈ ls0 ++ ls' → returned s k (alone c j)).
  { intros k j Hin. destruct (steps_new _ _ _ _ _ _ _ Hr Hin) as [(x & Hx & Hj)|[? _]]; [|congruence].
    destruct (ec_pc x) as [i|n v|a] eqn:Hpc.
    - destruct (Hend k). exists x. split; [done|]. congruence.
    - destruct (Hend k). exists x. split; [done|]. congruence.
    - assert (returned s k a) as Ha by (by exists x).
      destruct (C90_same_answers _ _ _ _ _ _ _ Hr Hin Ha) as [->|[? _]]; done. }
  destruct (C90_roundtrip c 1 (ls0 ++ ls') s 0 [Byte.x01; Byte.x02] (alone c (JEncode [Byte.x01; Byte.x02]))) as (shards & He & Hl & _);
    [apply P14_Ecc.xor_laws|done|done|by apply Hlook|by apply Hret, Hlook|].
  exists (ls0 ++ ls'), s, (alone c (JEncode [])), shards. split; [done|]. split; [done|]. split; [exact Hlook|].
  split; [rewrite <-He; by apply Hret, Hlook|]. split; [done|]. split; [by apply Hret, Hlook|].
  assert (alone c (JDecode (NewShards c) 5) = ADecode (Err EReconstruct)) as <-; [|by apply Hret, Hlook].
  unfold alone. by f_equal.
Qed.
End example.
