(** C77-C79: dialling, closing, and servers that go away. *)
From stdpp Require Import gmap.
From Verif.Base Require Import Base.
From Verif.Model Require Import Network Coordinator.

(** ** C77 *)
Section dial.
Implicit Types (l : list (string * (rdial * sdial))) (n : coord).

(** Both connections of an entry were made. *)
Definition made (x : string * (rdial * sdial)) : Prop :=
  match x with (_, (RConn _, SConn _)) => True | _ => False end.
(** One of them was not, and Dial noticed. *)
Definition failed (x : string * (rdial * sdial)) : Prop :=
  match x with (_, (RFail _, _)) | (_, (RConn _, SFail _)) => True | _ => False end.
(** Closing what was made reports no error. *)
Definition closes_cleanly (x : string * (rdial * sdial)) : Prop :=
  match x.2.1 with RConn c => c = None | _ => True end ∧ match x.2.2 with SConn c => c = None | _ => True end.

Lemma dial_made l1 l2 cl n : Forall made l1 →
  ∃ n', dial_loop cl (l1 ++ l2) n = dial_loop cl l2 n' ∧ chanClosed n' = chanClosed n ∧
    (∀ s, is_Some (relayConns n' !! s) ↔ is_Some (relayConns n !! s) ∨ s ∈ l1.*1) ∧
    (∀ s, is_Some (serverConns n' !! s) ↔ is_Some (serverConns n !! s) ∨ s ∈ l1.*1) ∧
    ((∀ s x, serverConns n !! s = Some x → x ≠ None) → ∀ s x, serverConns n' !! s = Some x → x ≠ None) ∧
    (Forall closes_cleanly l1 → (∀ s c, relayConns n !! s = Some c → c = None) → (∀ s c, serverConns n !! s = Some (Some c) → c = None) →
     (∀ s c, relayConns n' !! s = Some c → c = None) ∧ (∀ s c, serverConns n' !! s = Some (Some c) → c = None)).
Proof.
  intros HF. revert n. induction HF as [|[s [[c|e] [c'| |e']]] l1 Hm HF IH]; intros n; try done.
  - exists n. cbn. split; [done|]. split; [done|]. split; [intros; set_solver|]. split; [intros; set_solver|]. done.
  - destruct (IH (mkCoord (<[s := c]> (relayConns n)) (<[s := Some c']> (serverConns n)) (chanClosed n))) as (n' & E & Hc & H1 & H2 & H3 & H4).
    exists n'. split; [exact E|]. split; [done|]. cbn in *. split; [|split; [|split]].
    + intros t. rewrite H1, elem_of_cons, lookup_insert_is_Some'. naive_solver.
    + intros t. rewrite H2, elem_of_cons, lookup_insert_is_Some'. naive_solver.
    + intros Hn. apply H3. intros t x [[<- <-]|[_ Ht]]%lookup_insert_Some; [done|by eapply Hn].
    + intros HC Hr Hs. apply Forall_cons in HC as [[C1 C2] HC]. cbn in *. subst. apply H4; [done| |].
      * intros t x [[<- <-]|[_ Ht]]%lookup_insert_Some; [done|by eapply Hr].
      * intros t x [[<- [= <-]]|[_ Ht]]%lookup_insert_Some; [done|by eapply Hs].
Qed.

Lemma close_relays_ok m order err : (∀ s c, m !! s = Some c → c = None) → err = None → close_relays m order err = None.
Proof.
  intros Hm. revert err. induction order as [|s order IH]; intros err He; [done|]. cbn. apply IH.
  destruct (m !! s) eqn:E; [|done]. by apply Hm in E.
Qed.
Lemma close_servers_ok (m : gmap string (option conn)) order : (∀ s c, m !! s = Some (Some c) → c = None) →
  (∀ s x, m !! s = Some x → x ≠ None) → close_servers m order None = Ok None.
Proof.
  intros Hm Hn. induction order as [|s order IH]; [done|]. cbn. destruct (m !! s) as [[c|]|] eqn:E; [|by destruct (Hn _ _ E)|done].
  by rewrite (Hm _ _ E).
Qed.

(** Everything connects: Dial returns nil, with the connections of all servers. *)
Theorem C77_connected nt cl results : length results = length (Servers nt) →
  Forall made (zip (Servers nt) results) →
  ∃ n, DialAll nt cl results new_coord = (Ok tt, n) ∧ chanClosed n = false ∧
    (∀ s, is_Some (relayConns n !! s) ↔ s ∈ Servers nt) ∧
    (∀ s, (∃ c, serverConns n !! s = Some (Some c)) ↔ s ∈ Servers nt).
Proof.
  intros Hl HF. destruct (dial_made (zip (Servers nt) results) [] cl new_coord HF) as (n & E & Hc & H1 & H2 & H3 & _).
  rewrite app_nil_r in E. cbn in E. exists n. split; [exact E|]. split; [done|].
  assert ((zip (Servers nt) results).*1 = Servers nt) as Hz by (apply fst_zip; lia). rewrite Hz in *.
  split; intros s.
  - rewrite H1. cbn. rewrite lookup_empty, is_Some_alt. naive_solver.
  - rewrite <- (or_False_r (s ∈ Servers nt)) at 1 || idtac.
    assert (is_Some (serverConns n !! s) ↔ s ∈ Servers nt) as <-.
    { rewrite H2. cbn. rewrite lookup_empty, is_Some_alt. naive_solver. }
    split; [intros [c Hs]; eauto|]. intros [[c|] Hs]; [eauto|].
    exfalso. eapply H3; [|exact Hs|done]. intros t x Ht. cbn in Ht. by rewrite lookup_empty in Ht.
Qed.

(** A server that cannot be reached: if the connections made before close without an error, Dial returns
    nil too - with the coordinator closed, and the servers after it not tried. *)
Theorem C77_failure_looks_like_success ro so l1 x l2 : Forall made l1 → Forall closes_cleanly l1 → closes_cleanly x → failed x →
  NoDup (l1 ++ x :: l2).*1 →
  ∃ n, dial_loop (Close ro so) (l1 ++ x :: l2) new_coord = (Ok tt, n) ∧ chanClosed n = true ∧
    ∀ s, s ∈ x.1 :: l2.*1 → serverConns n !! s = None.
Proof.
  intros HF HC HCx Hx Hnd. destruct (dial_made l1 (x :: l2) (Close ro so) new_coord HF) as (n & E & Hc & H1 & H2 & H3 & H4).
  rewrite E. cbn in Hc. destruct (H4 HC) as [H5 H6]; [intros ? ?; cbn; by rewrite lookup_empty..|].
  assert (∀ s y, serverConns n !! s = Some y → y ≠ None) as Hnn.
  { apply H3. intros t y Ht. cbn in Ht. by rewrite lookup_empty in Ht. }
  assert (∀ s, s ∈ x.1 :: l2.*1 → serverConns n !! s = None) as Hout.
  { intros s Hs. apply eq_None_not_Some. intros Hsome. apply H2 in Hsome as [Hs'|Hs'].
    - cbn in Hs'. rewrite lookup_empty in Hs'. by apply is_Some_None in Hs'.
    - rewrite fmap_app, fmap_cons in Hnd. apply NoDup_app in Hnd as (_ & Hnd & _). by apply (Hnd s). }
  clear H1 H2 H3 H4 E.
  destruct x as [s [[c|e] sv]]; cbn [dial_loop].
  - destruct sv as [c'| |e']; [done|done|]. unfold Close; cbn. rewrite Hc.
    rewrite close_relays_ok; [|intros t y [[<- <-]|[_ Ht]]%lookup_insert_Some; [apply HCx|by eapply H5]|done].
    rewrite close_servers_ok by done.
    eexists. split; [done|]. split; [done|]. exact Hout.
  - unfold Close. rewrite Hc. rewrite close_relays_ok, close_servers_ok; [|done..].
    eexists. split; [done|]. split; [done|]. exact Hout.
Qed.

(** An error that Dial returns is never the reason why a connection was not made; it is what closing one
    returned. *)
Theorem C77_error ro so l e n : dial_loop (Close ro so) l new_coord = (Err e, n) →
  ∃ x, x ∈ l ∧ (x.2.1 = RConn (Some e) ∨ x.2.2 = SConn (Some e)).
Proof.
  set (from := λ n', (∀ s c, relayConns n' !! s = Some (Some c) → ∃ x, x ∈ l ∧ x.2.1 = RConn (Some c)) ∧
                    (∀ s c, serverConns n' !! s = Some (Some (Some c)) → ∃ x, x ∈ l ∧ x.2.2 = SConn (Some c))).
  assert (from new_coord) as Hf by (split; intros s c; cbn; by rewrite lookup_empty).
  assert (∀ n' n'' e', from n' → Close ro so n' = (Err e', n'') → ∃ x, x ∈ l ∧ (x.2.1 = RConn (Some e') ∨ x.2.2 = SConn (Some e'))) as Hclose.
  { intros n' n'' e' [F1 F2] Hcl. unfold Close in Hcl. destruct (chanClosed n'); [done|].
    assert (∀ order err, (∀ c, err = Some c → ∃ x, x ∈ l ∧ (x.2.1 = RConn (Some c) ∨ x.2.2 = SConn (Some c))) →
      ∀ c, close_relays (relayConns n') order err = Some c → ∃ x, x ∈ l ∧ (x.2.1 = RConn (Some c) ∨ x.2.2 = SConn (Some c))) as R.
    { induction order as [|s order IH]; intros err He c; cbn; [apply He|]. apply IH. intros c' Hc'.
      destruct (relayConns n' !! s) eqn:Es; [|done]. cbn in Hc'. subst. destruct (F1 _ _ Es) as (x & Hx & Hx'). exists x. by split; [|left]. }
    assert (∀ order err, (∀ c, err = Some c → ∃ x, x ∈ l ∧ (x.2.1 = RConn (Some c) ∨ x.2.2 = SConn (Some c))) →
      (∀ c, close_servers (serverConns n') order err = Ok (Some c) → ∃ x, x ∈ l ∧ (x.2.1 = RConn (Some c) ∨ x.2.2 = SConn (Some c))) ∧
      (∀ c, close_servers (serverConns n') order err ≠ Err c)) as S.
    { induction order as [|s order IH]; intros err He; cbn; [split; [intros c [= ->]; by apply He|done]|].
      destruct (serverConns n' !! s) as [[c'|]|] eqn:Es; [|done|by apply IH].
      apply IH. intros c ->. destruct (F2 _ _ Es) as (x & Hx & Hx'). exists x. by split; [|right]. }
    destruct (S so (close_relays (relayConns n') ro None)) as [S1 S2]; [by apply R|].
    destruct (close_servers _ _ _) as [[c|]| |] eqn:Es; try done; [injection Hcl as <- _; by apply S1|by destruct (S2 e0)]. }
  revert Hf. generalize new_coord. assert (l ⊆ l) as Hsub by done. revert Hsub. generalize l at 1 3.
  induction l0 as [|[s [r sv]] l' IH]; intros Hsub n0 Hf; cbn; [done|].
  destruct r as [c|?]; [|by apply Hclose].
  assert (from (mkCoord (<[s := c]> (relayConns n0)) (serverConns n0) (chanClosed n0))) as Hf1.
  { destruct Hf as [F1 F2]. split; [|done]. intros t c0 Ht. cbn in Ht. apply lookup_insert_Some in Ht as [[<- ->]|[_ Ht]]; [|by eapply F1].
    exists (s, (RConn (Some c0), sv)). split; [apply Hsub; by left|done]. }
  destruct sv as [c'| |e']; [| |by apply Hclose].
  - apply IH; [intros y Hy; apply Hsub; by right|]. destruct Hf1 as [F1 F2]. split; [done|].
    intros t c0 Ht. cbn in Ht. apply lookup_insert_Some in Ht as [[<- [= ->]]|[_ Ht]]; [|by eapply F2].
    exists (s, (RConn c, SConn (Some c0))). split; [apply Hsub; by left|done].
  - apply IH; [intros y Hy; apply Hsub; by right|]. destruct Hf1 as [F1 F2]. split; [done|].
    intros t c0 Ht. cbn in Ht. apply lookup_insert_Some in Ht as [[<- Ht]|[_ Ht]]; [done|by eapply F2].
Qed.

(** Closing twice crashes; so does closing after a Dial that did not get through. *)
Theorem C77_close_twice ro so ro' so' n : (Close ro' so' (Close ro so n).2).1 = Panic.
Proof. unfold Close. destruct (chanClosed n) eqn:E; cbn; [by rewrite E|done]. Qed.
Theorem C77_close_after ro so ro' so' l1 x l2 : Forall made l1 → failed x →
  (Close ro' so' (dial_loop (Close ro so) (l1 ++ x :: l2) new_coord).2).1 = Panic.
Proof.
  intros HF Hx. destruct (dial_made l1 (x :: l2) (Close ro so) new_coord HF) as (n & -> & _).
  destruct x as [s [[c|e] [c'| |e']]]; try done; cbn [dial_loop]; apply C77_close_twice.
Qed.

(** A server whose call stream cannot be opened: Dial goes on and returns nil; sending to that server then
    crashes, and so does Close. *)
Theorem C77_nil_connection ro so cl l1 s c l2 nt pk : Forall made l1 → Forall made l2 → s ∉ l2.*1 →
  GetHostname nt pk = s → s ≠ "" → s ∈ so →
  ∃ n, dial_loop cl (l1 ++ (s, (RConn c, SNil)) :: l2) new_coord = (Ok tt, n) ∧
    AsyncSend nt n pk = Panic ∧ (Close ro so n).1 = Panic.
Proof.
  intros HF1 HF2 Hs Hpk Hne Hso.
  destruct (dial_made l1 ((s, (RConn c, SNil)) :: l2) cl new_coord HF1) as (n1 & -> & _). cbn [dial_loop].
  set (n2 := mkCoord _ _ _). assert (serverConns n2 !! s = Some None) as E2 by (cbn; apply lookup_insert).
  clearbody n2. revert n2 E2. induction HF2 as [|[t [[d|] [d'| |]]] l2 Hm HF2 IH]; intros n2 E2; try done.
  - exists n2. split; [done|]. split.
    + unfold AsyncSend. rewrite Hpk. destruct (String.eqb_spec s ""); [done|]. by rewrite E2.
    + unfold Close. destruct (chanClosed n2); [done|]. cbn.
      assert (∀ err, close_servers (serverConns n2) so err = Panic) as ->; [|done].
      clear -Hso E2. induction so as [|t so IH]; [by apply elem_of_nil in Hso|]. intros err. cbn [close_servers].
      destruct (decide (s = t)) as [->|]; [by rewrite E2|]. apply elem_of_cons in Hso as [|Hso]; [done|].
      destruct (serverConns n2 !! t) as [[?|]|]; eauto.
  - cbn in Hs. apply not_elem_of_cons in Hs as [Hts Hs]. cbn [dial_loop]. apply IH; [done|]. cbn.
    by rewrite lookup_insert_ne.
Qed.
End dial.

(** ** C78: closing while responses come in *)
Section closing.
Context {M : Type}.
Implicit Types (ls : list (ilabel M)) (s : ist M).

Lemma isteps_app ls ls' s1 s2 s3 : isteps ls s1 s2 → isteps ls' s2 s3 → isteps (ls ++ ls') s1 s3.
Proof. induction 1; cbn; [done|]. intros. econstructor; eauto. Qed.

(** What the servers sent, what went into the channel and what was read from it. *)
Definition pushed : list (ilabel M) → list M := omap (λ l, match l with IPush _ m => Some m | _ => None end).
Definition read : list (ilabel M) → list M := omap (λ l, match l with ITake m => Some m | _ => None end).
Definition received (i : nat) : list (ilabel M) → list M :=
  omap (λ l, match l with IRecv j m => if decide (i = j) then Some m else None | _ => None end).
Definition pushed_by (i : nat) : list (ilabel M) → list M :=
  omap (λ l, match l with IPush j m => if decide (i = j) then Some m else None | _ => None end).

(** The message that the goroutine of connection i is about to push. *)
Definition held (i : nat) s : list M := match gos s !! i with Some (GSend m) => [m] | _ => [] end.

(** As long as the coordinator is not closed: no crash, what is read is what was pushed, in order, and what
    a connection pushed is what it received but for the message it holds. *)
Theorem C78_open ls s s' : isteps ls s s' → icrash s = false → iclosed s = false → IClose ∉ ls →
  icrash s' = false ∧ ichan s ++ pushed ls = read ls ++ ichan s' ∧
  ∀ i, held i s ++ received i ls = pushed_by i ls ++ held i s'.
Proof.
  intros Hs. induction Hs as [s|l ls s1 s2 s3 Hl Hs IH]; intros Hc Ho Hn.
  { split; [done|]. split; [cbn; by rewrite app_nil_r|]. intros i. cbn. by rewrite app_nil_r. }
  apply not_elem_of_cons in Hn as [Hn1 Hn].
  assert (icrash s2 = false ∧ iclosed s2 = false) as [Hc2 Ho2] by (destruct Hl; cbn; try done; congruence).
  destruct (IH Hc2 Ho2 Hn) as (H1 & H2 & H3). split; [done|]. split.
  - destruct Hl as [s j m _ Hj|s j _ Hj|s j m _ Hj Hcl Hlen|s j m _ Hj Hcl|s m b _ Hb|s _ Hcl]; cbn in *; try done.
    + rewrite <- H2. by rewrite <- app_assoc.
    + rewrite Hb. cbn. by rewrite H2.
  - intros i. specialize (H3 i).
    destruct Hl as [s j m _ Hj|s j _ Hj|s j m _ Hj Hcl Hlen|s j m _ Hj Hcl|s m b _ Hb|s _ Hcl]; cbn [received pushed_by omap list_omap] in *; try done.
    + fold (received i ls) (pushed_by i ls). unfold held in *. cbn [gos] in H3. destruct (decide (i = j)) as [->|].
      * rewrite lookup_insert in H3. rewrite Hj. exact H3.
      * by rewrite lookup_insert_ne in H3.
    + fold (received i ls) (pushed_by i ls). unfold held in *. cbn [gos] in H3. destruct (decide (i = j)) as [->|].
      * rewrite lookup_insert in H3. rewrite Hj. exact H3.
      * by rewrite lookup_insert_ne in H3.
    + fold (received i ls) (pushed_by i ls). unfold held in *. cbn [gos] in H3. destruct (decide (i = j)) as [->|].
      * rewrite lookup_insert in H3. rewrite Hj. cbn. f_equal. exact H3.
      * by rewrite lookup_insert_ne in H3.
Qed.

(** A connection that holds a response, waiting for room in the channel or about to push it, when the
    coordinator is closed: whatever happens next, it pushes nothing, and the process has crashed or that
    goroutine is still there and will crash it with its next step. *)
Theorem C78_crash ls s s' i m : isteps ls s s' → iclosed s = true → gos s !! i = Some (GSend m) →
  (∀ m', IPush i m' ∉ ls) ∧
  (icrash s' = true ∨ (gos s' !! i = Some (GSend m) ∧ iclosed s' = true ∧
     ∀ l s'', istep l s' s'' → match l with
       | IPanic _ => icrash s'' = true
       | IRecv j _ | IEof j | IPush j _ => j ≠ i
       | _ => True end)).
Proof.
  intros Hs. induction Hs as [s|l ls s1 s2 s3 Hl Hs IH]; intros Hc Hi.
  - split; [intros m'; by apply not_elem_of_nil|]. destruct (icrash s) eqn:E; [by left|]. right. split; [done|]. split; [done|].
    intros l s'' Hl. destruct Hl; try done; intros ->; congruence.
  - assert (iclosed s2 = true ∧ gos s2 !! i = Some (GSend m) ∧ ∀ m', l ≠ IPush i m') as (Hc2 & Hi2 & Hl2).
    { destruct Hl as [s j m' _ Hj|s j _ Hj|s j m' _ Hj Hcl Hlen|s j m' _ Hj Hcl|s m' b _ Hb|s _ Hcl]; cbn; try congruence; try done.
      - assert (i ≠ j) by congruence. by rewrite lookup_insert_ne.
      - assert (i ≠ j) by congruence. by rewrite lookup_insert_ne. }
    destruct (IH Hc2 Hi2) as [H1 H2]. split; [|done]. intros m' [Heq|Hin]%elem_of_cons; [by apply (Hl2 m')|by eapply H1].
Qed.

(** After a close, only a coordinator whose connections receive nothing any more is safe. *)
Theorem C78_safe ls s s' : isteps ls s s' → icrash s = false → (∀ i, held i s = []) →
  (∀ i m, IRecv i m ∉ ls) → icrash s' = false.
Proof.
  intros Hs. induction Hs as [s|l ls s1 s2 s3 Hl Hs IH]; intros Hc Hh Hn; [done|].
  apply IH.
  - destruct Hl as [s j m' _ Hj|s j _ Hj|s j m' _ Hj Hcl Hlen|s j m' _ Hj Hcl|s m' b _ Hb|s _ Hcl]; cbn; try done.
    specialize (Hh j). unfold held in Hh. by rewrite Hj in Hh.
  - intros i. specialize (Hh i). unfold held in *.
    destruct Hl as [s j m' _ Hj|s j _ Hj|s j m' _ Hj Hcl Hlen|s j m' _ Hj Hcl|s m' b _ Hb|s _ Hcl]; cbn; try done.
    + destruct (Hn j m'). by left.
    + destruct (decide (i = j)) as [->|]; [by rewrite lookup_insert|by rewrite lookup_insert_ne].
    + destruct (decide (i = j)) as [->|]; [by rewrite lookup_insert|by rewrite lookup_insert_ne].
  - intros i m Hin. eapply Hn. by right.
Qed.
End closing.

Example C78_example : ∃ s, isteps [IRecv 1 7; IPush 1 7; IRecv 1 8; IClose; ITake 7; IPanic 1] (iinit 3) s ∧ icrash s = true.
Proof.
  unfold iinit. replace (set_to_map _ _ : gmap nat (rgo nat)) with (<[0 := GRecv]> (<[1 := GRecv]> (<[2 := GRecv]> (∅ : gmap nat (rgo nat))))) by done.
  eexists. split.
  - eapply is_cons; [eapply is_recv; done|cbn [gos ichan iclosed]].
    eapply is_cons; [eapply is_push; [done|apply lookup_insert|done|cbn; unfold icap; lia]|cbn [gos ichan iclosed app]].
    eapply is_cons; [eapply is_recv; [done|apply lookup_insert]|cbn [gos ichan iclosed]].
    eapply is_cons; [eapply is_close; done|cbn [gos ichan iclosed]].
    eapply is_cons; [eapply is_take; done|cbn [gos ichan iclosed]].
    eapply is_cons; [eapply is_panic; [done|apply lookup_insert|done]|constructor].
  - done.
Qed.

(** ** C79: a server that goes away *)
Section outgoing.
Context {M : Type}.
Implicit Types (ls : list (olabel M)) (s : ost M).

Definition queued_for (j : nat) : list (olabel M) → list M :=
  omap (λ l, match l with OQueue _ j' m => if decide (j = j') then Some m else None | _ => None end).
Definition handled (j : nat) : list (olabel M) → list M :=
  omap (λ l, match l with OWire j' m | OLost j' m | OEof j' m => if decide (j = j') then Some m else None | _ => None end).
Definition wired (j : nat) : list (olabel M) → list M :=
  omap (λ l, match l with OWire j' m => if decide (j = j') then Some m else None | _ => None end).
Definition oqueue s j : list M := match oconns s !! j with Some x => oq x | None => [] end.

Lemma queued_cons j l ls : queued_for j (l :: ls) = queued_for j [l] ++ queued_for j ls.
Proof. apply (omap_app _ [l]). Qed.
Lemma handled_cons j l ls : handled j (l :: ls) = handled j [l] ++ handled j ls.
Proof. apply (omap_app _ [l]). Qed.
(** What is sent to a server is, in order, part of what was queued for it; nothing is sent twice. *)
Theorem C79_fifo ls s s' j : osteps ls s s' → 
  oqueue s j ++ queued_for j ls = handled j ls ++ oqueue s' j ∧ wired j ls `sublist_of` handled j ls.
Proof.
  intros Hs. split.
  - induction Hs as [s|l ls s1 s2 s3 Hl Hs IH]; [cbn; by rewrite app_nil_r|].
    destruct Hl as [s i k m Hi Hk|s i k m x Hi Hk Hlen|s k m b x Hk Ha Hb|s k m b x Hk Ha Hb|s k m b x Hk Ha Hb];
      rewrite (queued_cons j), (handled_cons j); unfold oqueue in *; cbn [oconns] in IH;
      cbn [queued_for handled omap list_omap]; try done.
    all: destruct (decide (j = k)) as [->|]; [rewrite lookup_insert in IH; rewrite Hk|rewrite lookup_insert_ne in IH by done; exact IH]; cbn [oq] in IH.
    + rewrite <- app_assoc in IH. exact IH.
    + rewrite Hb. cbn [app]. rewrite <- IH. done.
    + rewrite Hb. cbn [app]. by rewrite <- IH.
    + rewrite Hb. cbn [app]. by rewrite <- IH.
  - clear Hs. induction ls as [|[] ls IH]; cbn; try done; case_decide; first [done|by constructor].
Qed.

(** Once the connection to server j has ended nothing is sent to it, and at most 100 requests to it are
    taken. *)
Definition ended (s : ost M) (j : nat) : Prop := ∃ x, oconns s !! j = Some x ∧ oalive x = false.
Lemma ended_step l s s' j : ostep l s s' → ended s j → ended s' j ∧ handled j [l] = [] ∧
  length (oqueue s' j) = length (oqueue s j) + length (queued_for j [l]) ∧ (length (oqueue s j) ≤ ocap → length (oqueue s' j) ≤ ocap).
Proof.
  intros Hl (x & Hx & Ha). unfold oqueue.
  destruct Hl as [s i k m Hi Hk|s i k m y Hi Hk Hlen|s k m b y Hk Hy Hb|s k m b y Hk Hy Hb|s k m b y Hk Hy Hb];
    cbn [queued_for handled omap list_omap oconns].
  - split; [by exists x|]. rewrite Hx. cbn. split; [done|lia].
  - destruct (decide (j = k)) as [->|].
    + rewrite Hx in Hk. injection Hk as <-. rewrite lookup_insert, Hx. split; [eexists; split; [apply lookup_insert|done]|].
      cbn. rewrite app_length. cbn. split; [done|lia].
    + rewrite lookup_insert_ne by done. rewrite Hx. split; [exists x; split; [|done]; cbn; by rewrite lookup_insert_ne|]. split; [done|cbn; lia].
  - assert (j ≠ k) by congruence. rewrite lookup_insert_ne by done. rewrite Hx, decide_False by done.
    split; [exists x; split; [|done]; cbn; by rewrite lookup_insert_ne|]. split; [done|cbn; lia].
  - assert (j ≠ k) by congruence. rewrite lookup_insert_ne by done. rewrite Hx, decide_False by done.
    split; [exists x; split; [|done]; cbn; by rewrite lookup_insert_ne|]. split; [done|cbn; lia].
  - assert (j ≠ k) by congruence. rewrite lookup_insert_ne by done. rewrite Hx, decide_False by done.
    split; [exists x; split; [|done]; cbn; by rewrite lookup_insert_ne|]. split; [done|cbn; lia].
Qed.
Theorem C79_ended ls s s' j : osteps ls s s' → ended s j → length (oqueue s j) ≤ 100 →
  wired j ls = [] ∧ length (oqueue s j) + length (queued_for j ls) ≤ 100.
Proof.
  intros Hs He Hq. cut (handled j ls = [] ∧ length (oqueue s j) + length (queued_for j ls) ≤ 100).
  { intros [H1 H2]. split; [|done]. destruct (C79_fifo _ _ _ j Hs) as [_ Hsub]. rewrite H1 in Hsub. by apply sublist_nil_r in Hsub. }
  revert He Hq. induction Hs as [s|l ls s1 s2 s3 Hl Hs IH]; intros He Hq; [cbn; split; [done|lia]|].
  destruct (ended_step _ _ _ j Hl He) as (He2 & Hh & Hlen & Hle). unfold ocap in Hle.
  destruct (IH He2 (Hle Hq)) as [H1 H2].
  change (l :: ls) with ([l] ++ ls). unfold handled, queued_for in *. rewrite !omap_app, app_length, Hh, H1. split; [done|]. lia.
Qed.

(** A client whose stream is at a request to such a server with a full queue gets nothing sent on any
    more, to any server. *)
Theorem C79_client_stops ls s s' i j m : osteps ls s s' → ended s j → length (oqueue s j) = 100 →
  ocli s !! i = Some (j, m) →
  ocli s' !! i = Some (j, m) ∧ ∀ l, l ∈ ls → match l with OReq i' _ _ | OQueue i' _ _ => i' ≠ i | _ => True end.
Proof.
  intros Hs. induction Hs as [s|l ls s1 s2 s3 Hl Hs IH]; intros He Hq Hi.
  { split; [done|]. intros l Hl. by apply elem_of_nil in Hl. }
  assert (ocli s2 !! i = Some (j, m) ∧ match l with OReq i' _ _ | OQueue i' _ _ => i' ≠ i | _ => True end) as [Hi2 Hn].
  { destruct Hl as [s i' k m' Hi' Hk|s i' k m' y Hi' Hk Hlen|s k m' b y Hk Hy Hb|s k m' b y Hk Hy Hb|s k m' b y Hk Hy Hb]; cbn; try done.
    - assert (i' ≠ i) by congruence. by rewrite lookup_insert_ne.
    - assert (i' ≠ i); [|by rewrite lookup_delete_ne]. intros ->. rewrite Hi in Hi'. injection Hi' as <- <-.
      unfold oqueue in Hq. rewrite Hk in Hq. unfold ocap in Hlen. lia. }
  destruct (ended_step _ _ _ j Hl He) as (He2 & Hh & Hlen & Hle). unfold ocap in Hle.
  destruct IH as [H1 H2]; [done|lia|done|]. split; [done|].
  intros l' [->|Hin]%elem_of_cons; [done|by apply H2].
Qed.

(** And it comes to that: client i's 101st request to server j after its connection ended. *)
Lemma osteps_app ls ls' s1 s2 s3 : osteps ls s1 s2 → osteps ls' s2 s3 → osteps (ls ++ ls') s1 s3.
Proof. induction 1; cbn; [done|]. intros. econstructor; eauto. Qed.
Definition ask_for (i j : nat) (ms : list M) : list (olabel M) := mjoin ((λ m, [OReq i j m; OQueue i j m]) <$> ms).
Lemma fill ms : ∀ s i j x, oconns s !! j = Some x → ocli s !! i = None → length (oq x) + length ms ≤ 100 →
  osteps (ask_for i j ms) s (mkOst (<[j := mkOconn (oq x ++ ms) (oalive x)]> (oconns s)) (ocli s)).
Proof.
  induction ms as [|m ms IH]; intros s i j x Hx Hi Hk.
  - cbn. rewrite app_nil_r. rewrite insert_id; [destruct s; constructor|]. rewrite Hx. by destruct x.
  - change (ask_for i j (m :: ms)) with (OReq i j m :: OQueue i j m :: ask_for i j ms). cbn in Hk.
    eapply os_cons; [apply os_req; [done|eauto]|].
    pose proof (os_queue (mkOst (oconns s) (<[i:=(j, m)]> (ocli s))) i j m x) as Q. cbn in Q.
    rewrite delete_insert in Q by done.
    eapply os_cons; [apply Q; [apply lookup_insert|done|unfold ocap; lia]|].
    pose proof (IH (mkOst (<[j:=mkOconn (oq x ++ [m]) (oalive x)]> (oconns s)) (ocli s)) i j (mkOconn (oq x ++ [m]) (oalive x))) as R.
    cbn in R. rewrite insert_insert, <- app_assoc in R. apply R; [apply lookup_insert|done|rewrite app_length; cbn; lia].
Qed.

Theorem C79_reached s i j x m0 ms m : oconns s !! j = Some x → oalive x = true → oq x = [] → ocli s !! i = None →
  length ms = 100 →
  ∃ s', osteps (ask_for i j [m0] ++ OEof j m0 :: ask_for i j ms ++ [OReq i j m]) s s' ∧
    ended s' j ∧ length (oqueue s' j) = 100 ∧ ocli s' !! i = Some (j, m).
Proof.
  intros Hx Ha Hq Hi Hl.
  set (s1 := mkOst (<[j := mkOconn [m0] true]> (oconns s)) (ocli s)).
  set (s2 := mkOst (<[j := mkOconn [] false]> (oconns s)) (ocli s)).
  set (s3 := mkOst (<[j := mkOconn ms false]> (oconns s)) (ocli s)).
  set (s4 := mkOst (oconns s3) (<[i := (j, m)]> (ocli s))).
  exists s4. split.
  - eapply osteps_app; [eapply (fill [m0] s i j x); [done|done|rewrite Hq; cbn; lia]|]. rewrite Hq, Ha. cbn [app]. fold s1.
    eapply os_cons.
    { pose proof (os_eof s1 j m0 [] (mkOconn [m0] true)) as Q. cbn in Q. rewrite insert_insert in Q.
      apply Q; [apply lookup_insert|done|done]. }
    fold s2. eapply osteps_app.
    { pose proof (fill ms s2 i j (mkOconn [] false)) as Q. cbn in Q. rewrite insert_insert in Q.
      apply Q; [apply lookup_insert|done|lia]. }
    fold s3. eapply os_cons; [|constructor]. apply (os_req s3); [done|]. cbn. rewrite lookup_insert. eauto.
  - split; [|split].
    + eexists. split; [cbn; apply lookup_insert|done].
    + unfold oqueue. cbn. by rewrite lookup_insert.
    + cbn. apply lookup_insert.
Qed.
End outgoing.

(** Such a state, with two servers, and what C79_client_stops says of it: server 1 is there, client 0 gets
    nothing to it any more. *)
Example C79_example : ∃ (ls : list (olabel nat)) s, osteps ls (oinit 2) s ∧ ended s 0 ∧ length (oqueue s 0) = 100 ∧
  ocli s !! 0 = Some (0, 9) ∧ oconns s !! 1 = Some (mkOconn [] true).
Proof.
  assert (oconns (oinit (M:=nat) 2) = <[0 := mkOconn [] true]> (<[1 := mkOconn [] true]> ∅)) as E by done.
  destruct (C79_reached (oinit (M:=nat) 2) 0 0 (mkOconn [] true) 7 (replicate 100 8) 9) as (s & Hs & H1 & H2 & H3);
    [by rewrite E|done|done|done|by rewrite replicate_length|].
  exists (ask_for 0 0 [7] ++ OEof 0 7 :: ask_for 0 0 (replicate 100 8) ++ [OReq 0 0 9]), s. split; [exact Hs|]. split; [done|]. split; [done|]. split; [done|].
  assert (∀ ls s0 s1 j y, osteps (M:=nat) ls s0 s1 → oconns s0 !! j = Some y → 
    (∀ l, l ∈ ls → match l with OQueue _ k _ | OWire k _ | OLost k _ | OEof k _ => k ≠ j | _ => True end) → oconns s1 !! j = Some y) as Hkeep.
  { clear. intros ls s0 s1 j y Hs. induction Hs as [|l ls s1 s2 s3 Hl Hs IH]; intros Hy Hn; [done|].
    apply IH; [|intros l' Hl'; apply Hn; by right]. assert (l ∈ l :: ls) as Hin by (by left). apply Hn in Hin.
    destruct Hl; cbn; try done; by rewrite lookup_insert_ne. }
  eapply Hkeep; [exact Hs|by rewrite E|].
  assert (Forall (λ l, match l with OQueue _ k _ | OWire k _ | OLost k _ | OEof k _ => k ≠ 1 | _ => True end)
    (ask_for 0 0 [7] ++ OEof 0 7 :: ask_for 0 0 (replicate 100 8) ++ [OReq 0 0 9])) as HF; [|by rewrite Forall_forall in HF].
  clear. apply Forall_app. split; [cbn; repeat constructor; lia|]. apply Forall_cons. split; [lia|]. apply Forall_app. split.
  - generalize 100. intros k. induction k as [|k IH]; [constructor|]. cbn. constructor; [done|]. constructor; [lia|exact IH].
  - by repeat constructor.
Qed.

Definition C77_dial : list (string * (rdial * sdial)) :=
  [("h1:1", (RConn None, SConn None)); ("h2:1", (RFail Unknown, SConn None)); ("h3:1", (RConn None, SConn None))].
Example C77_example :
  (dial_loop (Close ["h1:1"] ["h1:1"]) C77_dial new_coord).1 = Ok tt ∧
  Forall made (take 1 C77_dial) ∧ Forall closes_cleanly (take 1 C77_dial) ∧ NoDup C77_dial.*1 ∧
  from_option failed False (C77_dial !! 1).
Proof. split; [reflexivity|]. split; [by repeat constructor|]. split; [by repeat constructor|]. split; [|done]. by apply (bool_decide_eq_true_1 _). Qed.
