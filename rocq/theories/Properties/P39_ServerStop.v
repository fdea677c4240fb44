(** C94: stopping an rrpc server. *)
From stdpp Require Import gmap pretty.
From Verif.Base Require Import Base.
From Verif.Model Require Import ServerStop.
From Verif.Spec Require Import ServerStopSpec.
From Verif.Proofs Require Import ServerStopProofs.

Section thms.
Context (n q : nat).

(** After Stop was called the server makes a bounded number of steps, whatever the schedule. *)
Theorem C94_bounded s : stopping s → ∃ N, ∀ ls s', vsteps n q s ls s' → length ls ≤ N.
Proof. intros Hst. exists (weight n s). intros ls s'. apply bounded, Hst. Qed.

(** When it makes no more, Stop has returned, or the process crashed, or the relay's goroutine waits for a client that is
    gone. *)
Theorem C94_outcome s : reachable n q s → stopping s → final n q s → returned s ∨ v_crash s = true ∨ hangs s.
Proof. intros Hr. exact (final_outcome n q s (reachable_inv n q s Hr)). Qed.

(** In the last case Stop never returns. *)
Theorem C94_hangs s ls s' : reachable n q s → stopping s → hangs s → vsteps n q s ls s' → ¬ returned s'.
Proof.
  intros Hr Hst Hh R. apply (hangs_not_returned n); [exact (inv_steps _ _ _ _ _ R (reachable_inv _ _ _ Hr))|].
  exact (hangs_steps _ _ _ _ _ Hst Hh R).
Qed.
(** Nor when the collector is handing an error to a relay whose channel is closed, or full and without goroutines. *)
Theorem C94_doomed s ls s' : reachable n q s → stopping s → doomed s → vsteps n q s ls s' → ¬ returned s'.
Proof.
  intros Hr Hst Hh R. apply (doomed_not_returned n); [exact (inv_steps _ _ _ _ _ R (reachable_inv _ _ _ Hr))|].
  exact (doomed_steps _ _ _ _ _ Hst Hh R).
Qed.
(** In every other state it can return, without a crash and without starting another call. *)
Theorem C94_can_return s : reachable n q s → stopping s → v_crash s = false → ¬ hangs s → ¬ doomed s →
  ∃ ls s', vsteps n q s ls s' ∧ returned s' ∧ (∀ l, l ∈ ls → l = LQuiet ∨ l = LReturn).
Proof.
  intros Hr Hst Hc Hh Hd.
  destruct (can_return n q s (reachable_inv _ _ _ Hr) (reachable_caps _ _ _ Hr) Hst Hc Hh Hd) as (ls & s' & R & Hl & Hret).
  exists ls, s'. split_and!; [exact R|exact Hret|]. intros l Hin. rewrite Forall_forall in Hl. specialize (Hl l Hin).
  destruct l; try contradiction; [by right|by left].
Qed.

(** If the methods of the parcels received are known and the responses that clients may still get have room, then every
    run ends with Stop returned, or with a crash. *)
Theorem C94_returns s ls s' : reachable n q s → stopping s → parcels_known s → clients_have_room s →
  vsteps n q s ls s' → final n q s' → returned s' ∨ v_crash s' = true.
Proof. apply returns. Qed.
(** If moreover no call is under way there is no crash. *)
Theorem C94_quiet s ls s' : reachable n q s → stopping s → v_crash s = false → quiet s → clients_have_room s →
  vsteps n q s ls s' → LPanic ∉ ls ∧ (final n q s' → returned s').
Proof.
  intros Hr Hst Hc Hq HR R. destruct (idle_steps n q s ls s' Hst R Hq Hc) as [H1 H2]. split; [exact H1|].
  intros Hf. destruct (returns n q s ls s' Hr Hst (idle_known _ Hq) HR R Hf) as [?|?]; [done|congruence].
Qed.

(** A call that has not yet answered relay i, whose channel is closed, crashes the process; unless an earlier relay, which
    has no goroutine left and whose channel is full, stops it. *)
Definition not_yet (i : nat) (s : srv) (k : nat) : Prop :=
  (∃ u, v_jobs s !! k = Some (JRun u)) ∨ ∃ u j, j ≤ i ∧ v_jobs s !! k = Some (JSend u j).
Definition closed (i : nat) (s : srv) : Prop := ∃ c, v_back s !! i = Some c ∧ p_closed c = true.
Lemma closed_insert s b i j c c' : closed i s → v_back s !! j = Some c → (p_closed c = true → p_closed c' = true) →
  b = <[j := c']> (v_back s) → ∃ x, b !! i = Some x ∧ p_closed x = true.
Proof.
  intros (x & Hx & Hxc) Hj Hcc ->. destruct (decide (i = j)) as [->|Hne].
  - exists c'. rewrite Hj in Hx. injection Hx as ->. split; [|by apply Hcc].
    rewrite list_lookup_insert; [done|by eapply lookup_lt_Some].
  - exists x. by rewrite list_lookup_insert_ne.
Qed.
Lemma closed_step i s l s' : vstep n q s l s' → closed i s → closed i s'.
Proof.
  intros [_ St] Hc. destruct St; try exact Hc;
    cbn [set_phase set_coll set_queue set_tasks set_jobs set_readers set_back set_inc set_table set_front set_clean set_crash v_back]; unfold closed;
    cbn [set_phase set_coll set_queue set_tasks set_jobs set_readers set_back set_inc set_table set_front set_clean set_crash v_back];
    (eapply (closed_insert s); [exact Hc|eassumption| |reflexivity]); cbn [put p_closed]; intros; done.
Qed.
Lemma not_yet_insert s J i k k' j j' : not_yet i s k → v_jobs s !! k' = Some j → J = <[k' := j']> (v_jobs s) →
  (k' = k → ((∃ u, j = JRun u) ∨ ∃ u a, a ≤ i ∧ j = JSend u a) → (∃ u, j' = JRun u) ∨ ∃ u a, a ≤ i ∧ j' = JSend u a) →
  (∃ u, J !! k = Some (JRun u)) ∨ ∃ u a, a ≤ i ∧ J !! k = Some (JSend u a).
Proof.
  intros Hn Hj -> Hk. destruct (decide (k' = k)) as [->|Hne].
  - rewrite !list_lookup_insert by by eapply lookup_lt_Some.
    destruct Hk as [[u ->]|(u & a & Ha & ->)]; [done| |left; by eexists|right; eexists _, _; done].
    destruct Hn as [[u Hu]|(u & a & Ha & Hu)]; rewrite Hj in Hu; injection Hu as ->; [left; by eexists|right; eexists _, _; done].
  - destruct Hn as [[u Hu]|(u & a & Ha & Hu)]; [left; exists u|right; exists u, a; split; [done|]]; by rewrite list_lookup_insert_ne.
Qed.
Lemma not_yet_step i k s l s' : i < n → vstep n q s l s' → closed i s → not_yet i s k → not_yet i s' k.
Proof.
  intros Hi [_ St] (x & Hx & Hxc) Hn.
  destruct St as [| | | | | |p rest E1 E2 E3 E4|p rest E1 E2 E3 E4| | |k' u Hk|k' u Hk|k' u a c Hk Ha Hb Hcl Hr| |k' u a Hk Ha| | | | | | | | | | | | | | | | | | | | | | | | | ]; try exact Hn.
  - (* another call starts *)
    destruct Hn as [[u Hu]|(u & a & Ha & Hu)]; [left; exists u|right; exists u, a; split; [done|]]; cbn;
      rewrite lookup_app_l; try done; by eapply lookup_lt_Some.
  - eapply (not_yet_insert s); [exact Hn|exact Hk|reflexivity|]. intros _ _. right. exists u, 0. split; [lia|done].
  - eapply (not_yet_insert s); [exact Hn|exact Hk|reflexivity|]. intros _ _. right. exists u, 0. split; [lia|done].
  - eapply (not_yet_insert s); [exact Hn|exact Hk|reflexivity|]. intros _ [[u' E]|(u' & a' & Ha' & [= -> ->])]; [done|].
    right. exists u', (S a'). split; [|done]. destruct (decide (a' = i)) as [->|]; [|lia]. rewrite Hx in Hb. congruence.
  - eapply (not_yet_insert s); [exact Hn|exact Hk|reflexivity|]. intros _ [[u' E]|(u' & a' & Ha' & [= -> ->])]; [done|lia].
Qed.
Theorem C94_closed_crashes s ls s' i k : reachable n q s → i < n → closed i s → not_yet i s k →
  vsteps n q s ls s' → final n q s' →
  v_crash s' = true ∨ ∃ u j c, j < i ∧ v_jobs s' !! k = Some (JSend u j) ∧ v_back s' !! j = Some c ∧
    p_closed c = false ∧ 100 ≤ p_len c ∧ p_idle c = 0 ∧ p_busy c = 0.
Proof.
  intros Hr Hi Hc Hn R Hf.
  assert (closed i s' ∧ not_yet i s' k) as [Hc' Hn'].
  { clear Hf Hr. induction R as [|s l s1 ls s2 St R IH]; [done|]. apply IH; [by eapply closed_step|by eapply not_yet_step]. }
  pose proof (inv_steps _ _ _ _ _ R (reachable_inv _ _ _ Hr)) as I. clear Hc Hn.
  destruct (v_crash s') eqn:Ecr; [by left|right].
  destruct Hn' as [[u Hu]|(u & j & Hj & Hu)].
  { exfalso. eapply Hf. split; [exact Ecr|]. exact (J_handler n q s' k u Hu). }
  destruct (lookup_lt_is_Some_2 (v_back s') j) as [c Hb]; [rewrite (inv_len _ _ I); lia|].
  destruct (p_closed c) eqn:Ecl.
  { exfalso. eapply Hf. split; [exact Ecr|]. eapply (J_send_panic n q s' k u j c); [done|lia|done|done]. }
  assert (¬ has_room c) as Hroom.
  { intros Hr'. eapply Hf. split; [exact Ecr|]. eapply (J_send n q s' k u j c); [done|lia|done|done|done]. }
  exists u, j, c. assert (j ≠ i). { intros ->. destruct Hc' as (x & Hx & Hxc). rewrite Hb in Hx. injection Hx as ->. congruence. }
  unfold has_room, pipe_cap in Hroom. destruct c as [len b idle busy]. cbn in *. subst b.
  split_and!; [lia|done|done|done|lia| |].
  - destruct idle as [|idle]; [done|]. destruct len as [|len]; [lia|]. exfalso. eapply Hf. split; [exact Ecr|].
    exact (W_take n q s' j len false idle busy Hb).
  - destruct busy as [|busy]; [done|]. exfalso. eapply Hf. split; [exact Ecr|]. exact (W_fail n q s' j len idle busy Hb).
Qed.

(** After Stop was called no response goes out, to a relay or to a client. *)
Theorem C94_nothing_delivered s ls s' i : stopping s → vsteps n q s ls s' → LToRelay i ∉ ls ∧ LToClient i ∉ ls.
Proof. apply nothing_delivered. Qed.
(** After Stop returned no call is started; the handlers that still run are those of calls started before, each at most
    once. *)
Theorem C94_after_return s ls s' : reachable n q s → returned s → vsteps n q s ls s' →
  (∀ u, LTask u ∉ ls) ∧ handled ls ⊆+ waiting s.
Proof.
  intros Hr Hret. apply ended_steps. destruct (inv_returned _ _ (reachable_inv _ _ _ Hr) Hret) as [H _]. exact H.
Qed.
(** And they can run: each call that was started has its handler run in some continuation, though Stop returned. *)
Theorem C94_handler_after_return s u : v_crash s = false → u ∈ waiting s →
  ∃ s', vsteps n q s [LHandler u] s'.
Proof.
  intros Hc Hu. unfold waiting in Hu. apply elem_of_list_omap in Hu as (j & Hj & E).
  destruct j as [u'| |]; try discriminate E. injection E as ->. apply elem_of_list_lookup in Hj as [k Hk].
  eexists. econstructor; [split; [exact Hc|exact (J_handler n q s k u Hk)]|constructor].
Qed.
End thms.

(** * Examples: four servers, two parcels make a call. *)
Inductive choice :=
| ch_stop | ch_cancel | ch_return | ch_cdone | ch_part | ch_full | ch_handler (k : nat) | ch_send (k : nat)
| ch_connect (i : nat) | ch_take (i : nat) | ch_fail (i : nat) | ch_recv (r : nat) (p : parcel) | ch_queue (r : nat)
| ch_idone | ch_itake (u : string) | ch_fwd | ch_open | ch_request (u : string) (p : nat) | ch_ftake (p : nat) | ch_ffail (p : nat)
| ch_kdone.
Definition b2 {A} (b : bool) (x : A) : option A := if b then Some x else None.
Definition is_none (x : phase) : bool := match x with SNone => true | _ => false end.
Definition exec (n q : nat) (s : srv) (c : choice) : option (label * srv) :=
  match c with
  | ch_stop => b2 (is_none (v_phase s)) (LStop, set_phase s SGrpc)
  | ch_cancel => match v_phase s with SGrpc => Some (LQuiet, set_phase s SWait) | _ => None end
  | ch_return => match v_phase s, v_coll s, v_inc s, v_clean s with
      | SWait, CEnd, IEnd, false => Some (LReturn, set_phase s SReturned) | _, _, _, _ => None end
  | ch_cdone => match v_coll s, cancelled s with CSelect, true => Some (LQuiet, set_coll s CEnd) | _, _ => None end
  | ch_part => match v_coll s, v_queue s with
      | CSelect, p :: rest => if pa_known p then
          if decide (S (default 0 (v_tasks s !! pa_call p)) < q) then
            Some (LQuiet, set_tasks (set_queue s rest) (<[pa_call p := S (default 0 (v_tasks s !! pa_call p))]> (v_tasks s)))
          else None else None
      | _, _ => None end
  | ch_full => match v_coll s, v_queue s with
      | CSelect, p :: rest => if pa_known p then
          if decide (q ≤ S (default 0 (v_tasks s !! pa_call p))) then
            Some (LTask (pa_call p), set_jobs (set_tasks (set_queue s rest) (delete (pa_call p) (v_tasks s))) (v_jobs s ++ [JRun (pa_call p)]))
          else None else None
      | _, _ => None end
  | ch_handler k => match v_jobs s !! k with
      | Some (JRun u) => Some (LHandler u, set_jobs s (<[k := JSend u 0]> (v_jobs s))) | _ => None end
  | ch_send k => match v_jobs s !! k with
      | Some (JSend u i) => if decide (i < n) then
          match v_back s !! i with
          | Some c => if p_closed c then Some (LPanic, set_crash s)
                      else if decide (has_room c) then Some (LQuiet, set_jobs (set_back s i (put c)) (<[k := JSend u (S i)]> (v_jobs s))) else None
          | None => None end else None
      | _ => None end
  | ch_connect i => match v_back s !! i with
      | Some c => b2 (is_none (v_phase s)) (LQuiet, set_readers (set_back s i (mkPipe (p_len c) (p_closed c) (S (p_idle c)) (p_busy c))) (v_readers s ++ [mkReader i RdRecv]))
      | None => None end
  | ch_take i => match v_back s !! i with
      | Some (mkPipe (S len) cl (S id) bu) => Some (LQuiet, set_back s i (mkPipe len cl id (S bu))) | _ => None end
  | ch_fail i => match v_back s !! i with
      | Some (mkPipe len false id (S bu)) => Some (LQuiet, set_back s i (mkPipe len true id bu)) | _ => None end
  | ch_recv r p => match v_readers s !! r with
      | Some (mkReader i RdRecv) => if decide (pa_index p = i) then b2 (is_none (v_phase s)) (LQuiet, set_readers s (<[r := mkReader i (RdParcel p)]> (v_readers s))) else None
      | _ => None end
  | ch_queue r => match v_readers s !! r with
      | Some (mkReader i (RdParcel p)) => if decide (length (v_queue s) < 1000) then
          Some (LQuiet, set_readers (set_queue s (v_queue s ++ [p])) (<[r := mkReader i RdRecv]> (v_readers s))) else None
      | _ => None end
  | ch_idone => match v_inc s, cancelled s with ISelect, true => Some (LQuiet, set_inc s IEnd) | _, _ => None end
  | ch_itake u => match v_inc s, v_table s !! u with
      | ISelect, Some p => Some (LQuiet, set_inc (set_table s (delete u (v_table s))) (IFwd p)) | _, _ => None end
  | ch_fwd => match v_inc s with
      | IFwd p => match v_front s !! p with
          | Some c => if decide (has_room c) then Some (LQuiet, set_inc (set_front s (<[p := put c]> (v_front s))) ISelect) else None
          | None => None end
      | _ => None end
  | ch_open => b2 (is_none (v_phase s)) (LQuiet, set_front s (v_front s ++ [mkPipe 0 false 1 0]))
  | ch_request u p => match v_front s !! p with
      | Some c => b2 (is_none (v_phase s)) (LQuiet, set_table s (<[u := p]> (v_table s))) | None => None end
  | ch_ftake p => match v_front s !! p with
      | Some (mkPipe (S len) cl (S id) bu) => Some (LQuiet, set_front s (<[p := mkPipe len cl id (S bu)]> (v_front s))) | _ => None end
  | ch_ffail p => match v_front s !! p with
      | Some (mkPipe len cl id (S bu)) => Some (LQuiet, set_front s (<[p := mkPipe len cl id bu]> (v_front s))) | _ => None end
  | ch_kdone => if v_clean s then if cancelled s then Some (LQuiet, set_clean s false) else None else None
  end.
Lemma is_none_true x : is_none x = true → x = SNone.
Proof. by destruct x. Qed.
Lemma exec_sound n q s c l s' : v_crash s = false → exec n q s c = Some (l, s') → vstep n q s l s'.
Proof.
  intros Hc E. split; [exact Hc|]. destruct c; cbn [exec] in E; unfold b2 in E;
    repeat match type of E with
    | context [match ?x with _ => _ end] => destruct x eqn:?; try discriminate E
    end; injection E as <- <-; subst;
    try (match goal with H : is_none _ = true |- _ => apply is_none_true in H end);
    solve [econstructor; eauto].
Qed.
Fixpoint run (n q : nat) (s : srv) (cs : list choice) : option (list label * srv) :=
  match cs with
  | [] => Some ([], s)
  | c :: cs =>
      if v_crash s then None else
      match exec n q s c with
      | None => None
      | Some (l, s1) => match run n q s1 cs with Some (ls, s2) => Some (l :: ls, s2) | None => None end
      end
  end.
Lemma run_sound n q s cs ls s' : run n q s cs = Some (ls, s') → vsteps n q s ls s'.
Proof.
  revert s ls. induction cs as [|c cs IH]; intros s ls E; cbn [run] in E; [injection E as <- <-; constructor|].
  destruct (v_crash s) eqn:Hc; [discriminate|]. destruct (exec n q s c) as [[l s1]|] eqn:He; [|discriminate].
  destruct (run n q s1 cs) as [[ls1 s2]|] eqn:Hr; [|discriminate]. injection E as <- <-.
  econstructor; [exact (exec_sound _ _ _ _ _ _ Hc He)|exact (IH _ _ Hr)].
Qed.

(** Two parcels of call [u] come in, from relays 0 and 1, and the call is started. *)
Definition one_call (u : string) : list choice :=
  [ch_recv 0 (mkParcel u 0 true); ch_queue 0; ch_recv 1 (mkParcel u 1 true); ch_queue 1; ch_part; ch_full].
Definition stop_all : list choice := [ch_stop; ch_cancel; ch_cdone; ch_idone; ch_kdone; ch_return].
(** Stop returns, and then the handler of a call runs. *)
Theorem C94_late_handler_example : ∃ ls s,
  vsteps 4 2 (srv_init 4) (ls ++ [LReturn; LHandler "u"]) s ∧ LTask "u" ∈ ls.
Proof.
  destruct (run 4 2 (srv_init 4) ([ch_connect 0; ch_connect 1] ++ one_call "u" ++ stop_all ++ [ch_handler 0])) as [[ls s]|] eqn:E; [|vm_compute in E; discriminate].
  pose proof (run_sound _ _ _ _ _ _ E) as R. vm_compute in E. injection E as <- <-.
  eexists (replicate 7 LQuiet ++ [LTask "u"; LStop; LQuiet; LQuiet; LQuiet; LQuiet]), _. split; [exact R|].
  apply elem_of_app. right. left.
Qed.
(** With two calls under way: Stop returns, and then the process crashes. *)
Theorem C94_late_crash_example : ∃ ls ls' s,
  vsteps 4 2 (srv_init 4) (ls ++ LReturn :: ls') s ∧ v_crash s = true ∧ LStop ∈ ls.
Proof.
  destruct (run 4 2 (srv_init 4) ([ch_connect 0; ch_connect 1] ++ one_call "u" ++ one_call "w" ++ stop_all ++
    [ch_handler 0; ch_send 0; ch_take 0; ch_fail 0; ch_handler 1; ch_send 1])) as [[ls s]|] eqn:E; [|vm_compute in E; discriminate].
  pose proof (run_sound _ _ _ _ _ _ E) as R. vm_compute in E. injection E as <- <-.
  eexists (replicate 7 LQuiet ++ [LTask "u"] ++ replicate 5 LQuiet ++ [LTask "w"; LStop; LQuiet; LQuiet; LQuiet; LQuiet]), _, _.
  split_and!; [exact R|reflexivity|].
  apply elem_of_app; right. apply elem_of_app; right. apply elem_of_app; right. right. left.
Qed.

(** A client opens a stream, makes 102 requests and leaves; when 101 of them have been answered Stop is called: it hangs. *)
Definition leaver : list choice :=
  [ch_open] ++ map (λ k, ch_request (pretty k) 0) (seq 0 102) ++
  [ch_itake (pretty 0); ch_fwd; ch_ftake 0; ch_ffail 0] ++ mjoin (map (λ k, [ch_itake (pretty k); ch_fwd]) (seq 1 100)) ++
  [ch_itake (pretty 101); ch_stop].
Definition hangsb (s : srv) : bool :=
  match v_inc s with
  | IFwd p => match v_front s !! p with Some c => (pipe_cap <=? p_len c) && (p_idle c =? 0) | None => false end
  | _ => false
  end.
Lemma hangsb_true s : hangsb s = true → hangs s.
Proof.
  unfold hangsb. destruct (v_inc s) as [|p|] eqn:Hi; try discriminate. destruct (v_front s !! p) as [c|] eqn:Hp; [|discriminate].
  intros E. apply andb_true_iff in E as [E1 E2]. apply Nat.leb_le in E1. apply Nat.eqb_eq in E2. exists p, c. done.
Qed.
Lemma witness (cs : list choice) (P : srv → bool) :
  match run 4 2 (srv_init 4) cs with Some (_, s) => P s | None => false end = true →
  ∃ s, reachable 4 2 s ∧ P s = true.
Proof.
  intros E. destruct (run 4 2 (srv_init 4) cs) as [[ls s]|] eqn:Hr; [|discriminate].
  exists s. split; [exists ls; exact (run_sound _ _ _ _ _ _ Hr)|exact E].
Qed.
Theorem C94_hang_example : ∃ s, reachable 4 2 s ∧ stopping s ∧ v_crash s = false ∧ hangs s.
Proof.
  destruct (witness leaver (λ s, negb (is_none (v_phase s)) && negb (v_crash s) && hangsb s)) as (s & Hr & E).
  { vm_compute. reflexivity. }
  exists s. apply andb_true_iff in E as [E E3]. apply andb_true_iff in E as [E1 E2]. split_and!.
  - exact Hr.
  - intros Hp. rewrite Hp in E1. discriminate.
  - destruct (v_crash s); [discriminate|done].
  - exact (hangsb_true _ E3).
Qed.
(** The collector has an error for a relay whose stream failed: such a server crashes, Stop does not return. *)
Theorem C94_doomed_example : ∃ s, reachable 4 2 s ∧ stopping s ∧ v_crash s = false ∧ doomed s.
Proof.
  destruct (run 4 2 (srv_init 4) ([ch_connect 0; ch_connect 1] ++ one_call "u" ++
    [ch_handler 0; ch_send 0; ch_take 0; ch_fail 0; ch_recv 0 (mkParcel "z" 0 false); ch_queue 0])) as [[ls s]|] eqn:E; [|vm_compute in E; discriminate].
  pose proof (run_sound _ _ _ _ _ _ E) as R. vm_compute in E. injection E as <- <-.
  eexists. split; [eexists; eapply vsteps_app; [exact R|]; eapply vs_cons; [split; [reflexivity|eapply (C_bad 4 2); reflexivity]|];
    eapply vs_cons; [split; [reflexivity|eapply (T_stop 4 2); reflexivity]|constructor]|].
  split_and!; [discriminate|reflexivity|]. exists 0, (mkPipe 0 true 0 0). split_and!; [reflexivity|reflexivity|by left].
Qed.
(** Hypotheses of C94_returns: a server with a call under way and a client with a request; of C94_quiet: one whose call is
    over. *)
Theorem C94_returns_example : ∃ s, reachable 4 2 s ∧ stopping s ∧ parcels_known s ∧ clients_have_room s ∧ waiting s = ["u"] ∧ v_table s ≠ ∅.
Proof.
  destruct (run 4 2 (srv_init 4) ([ch_connect 0; ch_connect 1; ch_open; ch_request "r" 0] ++ one_call "u" ++ [ch_stop])) as [[ls s]|] eqn:E; [|vm_compute in E; discriminate].
  pose proof (run_sound _ _ _ _ _ _ E) as R. vm_compute in E. injection E as <- <-.
  eexists. split; [eexists; exact R|]. split_and!.
  - discriminate.
  - split_and!; cbn; [intros p Hp; inversion Hp| |discriminate].
    intros r p Hr Hp. apply elem_of_cons in Hr as [->|Hr]; [discriminate Hp|]. apply elem_of_list_singleton in Hr as ->. discriminate Hp.
  - intros p c Hc. cbn in Hc. destruct p as [|p]; [|discriminate Hc]. injection Hc as <-. vm_compute. lia.
  - reflexivity.
  - cbn. intros E. apply (f_equal (λ m, m !! "r")) in E. vm_compute in E. discriminate.
Qed.
Theorem C94_quiet_example : ∃ s, reachable 4 2 s ∧ stopping s ∧ v_crash s = false ∧ quiet s ∧ clients_have_room s ∧ v_back s !! 0 = Some (mkPipe 0 false 1 0).
Proof.
  destruct (run 4 2 (srv_init 4) [ch_connect 0; ch_open; ch_request "r" 0; ch_stop]) as [[ls s]|] eqn:E; [|vm_compute in E; discriminate].
  pose proof (run_sound _ _ _ _ _ _ E) as R. vm_compute in E. injection E as <- <-.
  eexists. split; [eexists; exact R|]. split_and!.
  - discriminate.
  - reflexivity.
  - unfold quiet. cbn. split_and!; [done|intros j Hj; inversion Hj| |discriminate|].
    + intros r Hr. apply elem_of_list_singleton in Hr as ->. by left.
    + intros c Hc. repeat (apply elem_of_cons in Hc as [->|Hc]; [done|]). inversion Hc.
  - intros p c Hc. cbn in Hc. destruct p as [|p]; [|discriminate Hc]. injection Hc as <-. vm_compute. lia.
  - reflexivity.
Qed.
(** Hypotheses of C94_closed_crashes: relay 0's stream failed while call "w" has answered nobody. *)
Theorem C94_closed_example : ∃ s, reachable 4 2 s ∧ stopping s ∧ v_crash s = false ∧ closed 0 s ∧ not_yet 0 s 1.
Proof.
  destruct (run 4 2 (srv_init 4) ([ch_connect 0; ch_connect 1] ++ one_call "u" ++ one_call "w" ++
    [ch_handler 0; ch_send 0; ch_take 0; ch_fail 0; ch_stop])) as [[ls s]|] eqn:E; [|vm_compute in E; discriminate].
  pose proof (run_sound _ _ _ _ _ _ E) as R. vm_compute in E. injection E as <- <-.
  eexists. split; [eexists; exact R|]. split_and!.
  - discriminate.
  - reflexivity.
  - eexists. split; reflexivity.
  - left. eexists. reflexivity.
Qed.
