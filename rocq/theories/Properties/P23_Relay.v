(** C73-C75: what a relay does with the messages it carries. *)
From Coq Require Import Ascii.
From stdpp Require Import gmap.
From Verif.Base Require Import Base.
From Verif.Model Require Import Relay.

(** ** Specification: what is read off a history, the list of the relay's events. *)
Section spec.
Context {B : Type}.
Implicit Types (l : rlabel B) (ls : list (rlabel B)).

(** Responses for call u written to client p. *)
Definition answers (p : nat) (u : string) : list (rlabel B) → nat :=
  foldr (λ l n, match l with
                | LSend q (RResp m) => if decide (q = p ∧ sm_uuid m = u) then S n else n
                | _ => n end) 0.
(** Requests with call id u that client p made and that the relay sent on. *)
Definition requests (p : nat) (u : string) : list (rlabel B) → nat :=
  foldr (λ l n, match l with
                | LReq q v true => if decide (q = p ∧ v = u) then S n else n
                | _ => n end) 0.
(** Requests of p that the relay could not send on, and the errors p was written for them. *)
Definition refused (p : nat) (u : string) : list (rlabel B) → nat :=
  foldr (λ l n, match l with
                | LReq q v false => if decide (q = p ∧ v = u) then S n else n
                | _ => n end) 0.
Definition errors (p : nat) (u : string) : list (rlabel B) → nat :=
  foldr (λ l n, match l with
                | LSend q (RError v) => if decide (q = p ∧ v = u) then S n else n
                | _ => n end) 0.
(** The messages taken from servers, and those written to any client. *)
Definition taken : list (rlabel B) → list (smsg B) :=
  foldr (λ l n, match l with LIn m => m :: n | _ => n end) [].
Definition written (p : nat) : list (rlabel B) → list (smsg B) :=
  foldr (λ l n, match l with
                | LSend q (RResp m) => if decide (q = p) then m :: n else n
                | _ => n end) [].
Definition passed : list (rlabel B) → list (smsg B) :=
  foldr (λ l n, match l with LFwd _ m => m :: n | _ => n end) [].
Definition queued (p : nat) : list (rlabel B) → list (smsg B) :=
  foldr (λ l n, match l with
                | LFwd q m => if decide (q = p) then m :: n else n
                | _ => n end) [].
End spec.

Global Instance reader_eqdec : EqDecision reader.
Proof. solve_decision. Defined.

Section lemmas.
Context {B : Type}.
Implicit Types (l : rlabel B) (ls : list (rlabel B)) (s : rst B).

Lemma answers_app p u ls ls' : answers p u (ls ++ ls') = answers p u ls + answers p u ls'.
Proof.
  induction ls as [|l ls IH]; [done|].
  destruct l as [| | | | | | |q [m|v]| |]; cbn [answers foldr app] in *; fold (answers (B:=B) p u) in *; try done.
  case_decide; rewrite IH; lia.
Qed.
Lemma requests_app p u ls ls' : requests p u (ls ++ ls') = requests p u ls + requests p u ls'.
Proof.
  induction ls as [|l ls IH]; [done|].
  destruct l as [|q v []| | | | | | | |]; cbn [requests foldr app] in *; fold (requests (B:=B) p u) in *; try done.
  case_decide; rewrite IH; lia.
Qed.
Lemma refused_app p u ls ls' : refused p u (ls ++ ls') = refused p u ls + refused p u ls'.
Proof.
  induction ls as [|l ls IH]; [done|].
  destruct l as [|q v []| | | | | | | |]; cbn [refused foldr app] in *; fold (refused (B:=B) p u) in *; try done.
  case_decide; rewrite IH; lia.
Qed.
Lemma errors_app p u ls ls' : errors p u (ls ++ ls') = errors p u ls + errors p u ls'.
Proof.
  induction ls as [|l ls IH]; [done|].
  destruct l as [| | | | | | |q [m|v]| |]; cbn [errors foldr app] in *; fold (errors (B:=B) p u) in *; try done.
  case_decide; rewrite IH; lia.
Qed.
Lemma taken_app ls ls' : taken (ls ++ ls') = taken ls ++ taken ls'.
Proof. induction ls as [|[] ls IH]; cbn in *; congruence. Qed.
Lemma passed_app ls ls' : passed (ls ++ ls') = passed ls ++ passed ls'.
Proof. induction ls as [|[] ls IH]; cbn in *; congruence. Qed.
Lemma written_app p ls ls' : written p (ls ++ ls') = written p ls ++ written p ls'.
Proof.
  induction ls as [|l ls IH]; [done|].
  destruct l as [| | | | | | |q [m|v]| |]; cbn [written foldr app] in *; fold (written (B:=B) p) in *; try done.
  case_decide; rewrite IH; done.
Qed.
Lemma queued_app p ls ls' : queued p (ls ++ ls') = queued p ls ++ queued p ls'.
Proof.
  induction ls as [|l ls IH]; [done|].
  destruct l as [| | | | | |q m| | |]; cbn [queued foldr app] in *; fold (queued (B:=B) p) in *; try done.
  case_decide; rewrite IH; done.
Qed.

(** Responses for u waiting in a channel. *)
Definition waiting (u : string) (b : list (rmsg B)) : nat :=
  foldr (λ r n, match r with RResp m => if decide (sm_uuid m = u) then S n else n | _ => n end) 0 b.
Definition ewaiting (u : string) (b : list (rmsg B)) : nat :=
  foldr (λ r n, match r with RError v => if decide (v = u) then S n else n | _ => n end) 0 b.
Definition resps_of (b : list (rmsg B)) : list (smsg B) :=
  foldr (λ r n, match r with RResp m => m :: n | _ => n end) [] b.
Lemma waiting_app u b b' : waiting u (b ++ b') = waiting u b + waiting u b'.
Proof.
  induction b as [|[m|v] b IH]; [done| |done].
  cbn [waiting foldr app]. fold (waiting u (b ++ b')) (waiting u b). case_decide; rewrite IH; lia.
Qed.
Lemma ewaiting_app u b b' : ewaiting u (b ++ b') = ewaiting u b + ewaiting u b'.
Proof.
  induction b as [|[m|v] b IH]; [done|done|].
  cbn [ewaiting foldr app]. fold (ewaiting u (b ++ b')) (ewaiting u b). case_decide; rewrite IH; lia.
Qed.
Lemma resps_of_app b b' : resps_of (b ++ b') = resps_of b ++ resps_of b'.
Proof. induction b as [|[m|v] b IH]; cbn; [done|by f_equal|done]. Qed.

(** What client p has for call u: in its channel, on the way, in the table, at its reader. *)
Definition chan (s : rst B) (p : nat) : list (rmsg B) :=
  match strms s !! p with Some x => st_resps x | None => [] end.
Definition rdr (s : rst B) (p : nat) : reader :=
  match strms s !! p with Some x => st_reader x | None => RdEnd end.
Definition onway (s : rst B) (p : nat) (u : string) : nat :=
  match inc s with Some (q, m) => if decide (q = p ∧ sm_uuid m = u) then 1 else 0 | None => 0 end.
Definition intable (s : rst B) (p : nat) (u : string) : nat :=
  if decide (table s !! u = Some p) then 1 else 0.
Definition atstore (s : rst B) (p : nat) (u : string) : nat :=
  if decide (rdr s p = RdStore u) then 1 else 0.
Definition aterr (s : rst B) (p : nat) (u : string) : nat :=
  if decide (rdr s p = RdError u) then 1 else 0.
Definition credit s p u := waiting u (chan s p) + onway s p u + intable s p u + atstore s p u.

Lemma chan_ins s p q x t i : chan (mkRst (<[q := x]> (strms s)) t i) p = if decide (q = p) then st_resps x else chan s p.
Proof. unfold chan; cbn. case_decide; [subst; by rewrite lookup_insert|by rewrite lookup_insert_ne]. Qed.
Lemma rdr_ins s p q x t i : rdr (mkRst (<[q := x]> (strms s)) t i) p = if decide (q = p) then st_reader x else rdr s p.
Proof. unfold rdr; cbn. case_decide; [subst; by rewrite lookup_insert|by rewrite lookup_insert_ne]. Qed.

Ltac ds := repeat first [progress case_decide | progress cbn in *]; try lia; first [lia|naive_solver].

Lemma credit_step l s s' p u : rstep l s s' →
  answers p u [l] + credit s' p u ≤ credit s p u + requests p u [l].
Proof.
  intros HS. unfold credit, atstore, intable, onway.
  destruct HS as [s q Hq|s q v ok x Hq Hr|s q v x Hq Hr Hl|s q v x Hq Hr|s q x Hq Hr|s m Hi Ht|s m q Hi Ht
                 |s q m x Hi Hq Hl|s q r b x Hq Hw Hb|s q r b x Hq Hw Hb|s v];
    rewrite ?chan_ins, ?rdr_ins; cbn [inc table answers requests foldr st_resps st_reader strms].
  - destruct (decide (q = p)) as [->|]; [|lia].
    unfold chan, rdr. rewrite Hq. cbn. repeat case_decide; (congruence || lia).
  - destruct (decide (q = p)) as [->|]; [|destruct ok; rewrite ?decide_False by naive_solver; lia].
    assert (rdr s p = RdRecv) as -> by (unfold rdr; by rewrite Hq).
    unfold chan; rewrite Hq. destruct ok; repeat case_decide; first [lia|naive_solver].
  - destruct (decide (q = p)) as [->|]; [|lia].
    assert (rdr s p = RdError v) as -> by (unfold rdr; by rewrite Hq).
    unfold chan; rewrite Hq, waiting_app. cbn. repeat case_decide; first [lia|naive_solver].
  - destruct (decide (q = p)) as [->|].
    + assert (rdr s p = RdStore v) as -> by (unfold rdr; by rewrite Hq).
      unfold chan; rewrite Hq.
      destruct (decide (v = u)) as [->|].
      * rewrite lookup_insert. rewrite !(decide_True (P:=RdStore u = RdStore u)) by done.
        repeat case_decide; first [lia|naive_solver].
      * rewrite lookup_insert_ne by done. rewrite (decide_False (P:=RdStore v = RdStore u)) by congruence.
        rewrite (decide_False (P:=RdRecv = RdStore u)) by congruence. lia.
    + destruct (decide (v = u)) as [->|].
      * rewrite lookup_insert, (decide_False (P:=Some q = Some p)) by congruence. lia.
      * rewrite lookup_insert_ne by done. lia.
  - destruct (decide (q = p)) as [->|]; [|lia].
    assert (rdr s p = RdRecv) as -> by (unfold rdr; by rewrite Hq).
    unfold chan; rewrite Hq. repeat case_decide; first [lia|naive_solver].
  - lia.
  - rewrite Hi. change (chan _ p) with (chan s p). change (rdr _ p) with (rdr s p).
    destruct (decide (sm_uuid m = u)) as [<-|].
    + rewrite lookup_delete, Ht. repeat case_decide; first [lia|naive_solver].
    + rewrite lookup_delete_ne by done. rewrite (decide_False (P:=q = p ∧ _)) by naive_solver. lia.
  - rewrite Hi. destruct (decide (q = p)) as [->|].
    + unfold chan, rdr; rewrite Hq, waiting_app. cbn. repeat case_decide; first [lia|naive_solver].
    + rewrite (decide_False (P:=q = p ∧ _)) by naive_solver. lia.
  - destruct (decide (q = p)) as [->|].
    + unfold chan, rdr; rewrite Hq, Hb. destruct r; cbn [waiting ewaiting foldr answers errors]; fold (waiting u b) (ewaiting u b); repeat case_decide; first [lia|naive_solver].
    + destruct r; [rewrite decide_False by naive_solver|]; lia.
  - destruct (decide (q = p)) as [->|]; [|lia].
    unfold chan, rdr; rewrite Hq, Hb. destruct r; cbn [waiting ewaiting foldr answers errors]; fold (waiting u b) (ewaiting u b); repeat case_decide; first [lia|naive_solver].
  - change (chan _ p) with (chan s p). change (rdr _ p) with (rdr s p).
    destruct (decide (v = u)) as [<-|].
    + rewrite lookup_delete, (decide_False (P:=None = Some p)) by done. lia.
    + rewrite lookup_delete_ne by done. lia.
Qed.

Lemma credit_steps ls s s' p u : rsteps ls s s' →
  answers p u ls + credit s' p u ≤ credit s p u + requests p u ls.
Proof.
  induction 1 as [|ls l s1 s2 s3 Hs IH Hl]; [cbn; lia|].
  rewrite answers_app, requests_app. pose proof (credit_step _ _ _ p u Hl). lia.
Qed.

Lemma ecredit_step l s s' p u : rstep l s s' →
  errors p u [l] + ewaiting u (chan s' p) + aterr s' p u ≤ ewaiting u (chan s p) + aterr s p u + refused p u [l].
Proof.
  intros HS. unfold aterr.
  destruct HS as [s q Hq|s q v ok x Hq Hr|s q v x Hq Hr Hl|s q v x Hq Hr|s q x Hq Hr|s m Hi Ht|s m q Hi Ht
                 |s q m x Hi Hq Hl|s q r b x Hq Hw Hb|s q r b x Hq Hw Hb|s v];
    rewrite ?chan_ins, ?rdr_ins; cbn [inc table errors refused foldr st_resps st_reader strms].
  - destruct (decide (q = p)) as [->|]; [|lia].
    unfold chan, rdr. rewrite Hq. cbn. repeat case_decide; (congruence || lia).
  - destruct (decide (q = p)) as [->|]; [|destruct ok; rewrite ?decide_False by naive_solver; lia].
    assert (rdr s p = RdRecv) as -> by (unfold rdr; by rewrite Hq).
    unfold chan; rewrite Hq. destruct ok; repeat case_decide; first [lia|naive_solver].
  - destruct (decide (q = p)) as [->|]; [|lia].
    assert (rdr s p = RdError v) as -> by (unfold rdr; by rewrite Hq).
    unfold chan; rewrite Hq, ewaiting_app. cbn. repeat case_decide; first [lia|naive_solver].
  - destruct (decide (q = p)) as [->|]; [|lia].
    assert (rdr s p = RdStore v) as -> by (unfold rdr; by rewrite Hq).
    unfold chan; rewrite Hq. repeat case_decide; first [lia|naive_solver].
  - destruct (decide (q = p)) as [->|]; [|lia].
    assert (rdr s p = RdRecv) as -> by (unfold rdr; by rewrite Hq).
    unfold chan; rewrite Hq. repeat case_decide; first [lia|naive_solver].
  - lia.
  - change (chan _ p) with (chan s p). change (rdr _ p) with (rdr s p). lia.
  - destruct (decide (q = p)) as [->|]; [|lia].
    unfold chan, rdr; rewrite Hq, ewaiting_app. cbn. lia.
  - destruct (decide (q = p)) as [->|].
    + unfold chan, rdr; rewrite Hq, Hb. destruct r; cbn [waiting ewaiting foldr answers errors]; fold (waiting u b) (ewaiting u b); repeat case_decide; first [lia|naive_solver].
    + destruct r; [|rewrite decide_False by naive_solver]; lia.
  - destruct (decide (q = p)) as [->|]; [|lia].
    unfold chan, rdr; rewrite Hq, Hb. destruct r; cbn [waiting ewaiting foldr answers errors]; fold (waiting u b) (ewaiting u b); repeat case_decide; first [lia|naive_solver].
  - change (chan _ p) with (chan s p). change (rdr _ p) with (rdr s p). lia.
Qed.
Lemma ecredit_steps ls s s' p u : rsteps ls s s' →
  errors p u ls + ewaiting u (chan s' p) + aterr s' p u ≤ ewaiting u (chan s p) + aterr s p u + refused p u ls.
Proof.
  induction 1 as [|ls l s1 s2 s3 Hs IH Hl]; [cbn; lia|].
  rewrite errors_app, refused_app. pose proof (ecredit_step _ _ _ p u Hl). lia.
Qed.

(** Order: what p was written, with what waits while its writer is there, is what was queued for it. *)
Lemma order_inv ls s p : rsteps ls rinit s →
  ∃ rest, queued p ls = written p ls ++ rest ∧
    match strms s !! p with
    | Some x => st_writer x = true → rest = resps_of (st_resps x)
    | None => rest = [] end.
Proof.
  remember rinit as s0. induction 1 as [|ls l s1 s2 s3 Hs IH Hl]; subst.
  { exists []. unfold rinit; cbn [strms]; by rewrite lookup_empty. }
  destruct (IH eq_refl) as (rest & Hq & Hr). clear IH. rewrite queued_app, written_app, Hq.
  destruct Hl as [s q Hp|s q v ok x Hp Hrd|s q v x Hp Hrd Hl|s q v x Hp Hrd|s q x Hp Hrd|s m Hi Ht|s m q Hi Ht
                 |s q m x Hi Hp Hl|s q r b x Hp Hw Hb|s q r b x Hp Hw Hb|s v];
    cbn [queued written foldr strms]; rewrite ?app_nil_r.
  all: try (exists rest; split; [done|]; exact Hr).
  1-5: exists rest; split; [done|]; destruct (decide (q = p)) as [->|]; [rewrite lookup_insert|by rewrite lookup_insert_ne];
    rewrite Hp in Hr; cbn; try (intros; by apply Hr).
  { intros ?. rewrite resps_of_app. cbn. rewrite app_nil_r. by apply Hr. }
  - destruct (decide (q = p)) as [->|].
    + rewrite lookup_insert. rewrite Hp in Hr. exists (rest ++ [m]). split; [by rewrite <- app_assoc|].
      cbn. intros ?. rewrite resps_of_app. cbn. by rewrite Hr.
    + rewrite lookup_insert_ne by done. exists rest. split; [by rewrite app_nil_r|done].
  - destruct (decide (q = p)) as [->|].
    + rewrite lookup_insert. rewrite Hp in Hr. specialize (Hr Hw). rewrite Hb in Hr.
      destruct r as [m|v]; cbn [resps_of foldr written] in *.
      * exists (resps_of b). split; [|done]. rewrite Hr, <- app_assoc. done.
      * exists rest. split; [by rewrite app_nil_r|done].
    + rewrite lookup_insert_ne by done. exists rest. split; [|done].
      destruct r; by rewrite app_nil_r.
  - exists rest. split; [done|]. destruct (decide (q = p)) as [->|]; [rewrite lookup_insert; done|by rewrite lookup_insert_ne].
Qed.

Lemma passed_inv ls s : rsteps ls rinit s →
  passed ls ++ match inc s with Some (_, m) => [m] | None => [] end `sublist_of` taken ls.
Proof.
  remember rinit as s0. induction 1 as [|ls l s1 s2 s3 Hs IH Hl]; subst; [done|].
  specialize (IH eq_refl). rewrite passed_app, taken_app.
  destruct Hl as [s q Hp|s q v ok x Hp Hrd|s q v x Hp Hrd Hl|s q v x Hp Hrd|s q x Hp Hrd|s m Hi Ht|s m q Hi Ht
                 |s q m x Hi Hp Hl|s q r b x Hp Hw Hb|s q r b x Hp Hw Hb|s v];
    cbn [passed taken foldr inc]; rewrite ?app_nil_r; try done.
  - rewrite Hi in *. rewrite app_nil_r in *. by apply sublist_inserts_r.
  - rewrite Hi in IH. rewrite app_nil_r in IH. by apply sublist_app.
  - rewrite Hi in IH. done.
Qed.
End lemmas.

(** ** C73 *)
Section c73.
Context {B : Type}.
Implicit Types (ls : list (rlabel B)) (s : rst B).

(** In every history a client is written at most as many responses for a call id as it made requests with
    that id that were sent on, and at most as many errors as requests that were refused. *)
Theorem C73_answers ls s p u : rsteps ls rinit s →
  answers p u ls ≤ requests p u ls ∧ errors p u ls ≤ refused p u ls.
Proof.
  intros Hs. pose proof (credit_steps _ _ _ p u Hs) as Hc. pose proof (ecredit_steps _ _ _ p u Hs) as He.
  assert (credit (B:=B) rinit p u = 0) as E.
  { unfold credit, onway, intable, atstore, chan, rdr, rinit; cbn [strms inc table]. rewrite !lookup_empty.
    cbn. rewrite decide_False by done. done. }
  assert (aterr (B:=B) rinit p u = 0) as E1.
  { unfold aterr, rdr, rinit; cbn [strms]. by rewrite lookup_empty. }
  assert (chan (B:=B) rinit p = []) as E2.
  { unfold chan, rinit; cbn [strms]. by rewrite lookup_empty. }
  rewrite E2, E1 in He. cbn in He. rewrite E in Hc. split; lia.
Qed.

(** A message taken from a server is passed on at most once and to one client, in the order of arrival;
    what a client is written comes in that order, nothing left out before it. *)
Theorem C73_order ls s p : rsteps ls rinit s →
  written p ls `prefix_of` queued p ls ∧ queued p ls `sublist_of` passed ls ∧ passed ls `sublist_of` taken ls.
Proof.
  intros Hs. split; [|split].
  - destruct (order_inv _ _ p Hs) as (rest & -> & _). by exists rest.
  - clear. induction ls as [|[] ls IH]; cbn in *; try done. case_decide; by constructor.
  - pose proof (passed_inv _ _ Hs) as Hp. etrans; [|exact Hp]. by apply sublist_inserts_r.
Qed.

Lemma rsteps_trans ls ls' s1 s2 s3 : rsteps ls s1 s2 → rsteps ls' s2 s3 → rsteps (ls ++ ls') s1 s3.
Proof.
  intros H1 H2. revert ls s1 H1. induction H2 as [|ls' l s2 s3 s4 Hs IH Hl]; intros ls s1 H1; [by rewrite app_nil_r|].
  rewrite app_assoc. eapply rs_snoc; [by apply IH|done].
Qed.

Lemma rsteps_one l s s' : rstep l s s' → rsteps [l] s s'.
Proof. intros ?. change [l] with ([] ++ [l]). eapply rs_snoc; [constructor|done]. Qed.

Lemma flush b : ∀ s p x, strms s !! p = Some x → st_writer x = true → st_resps x = b →
  ∃ ls, Forall (λ l, ∃ r, l = LSend p r) ls ∧
    rsteps ls s (mkRst (<[p := mkStrm [] (st_reader x) true]> (strms s)) (table s) (inc s)).
Proof.
  induction b as [|r b IH]; intros s p x Hp Hw Hb.
  - exists []. split; [done|].
    replace (mkRst _ _ _) with s; [constructor|].
    rewrite insert_id; [by destruct s|]. rewrite Hp. destruct x; cbn in *; congruence.
  - destruct (IH (mkRst (<[p := mkStrm b (st_reader x) true]> (strms s)) (table s) (inc s)) p
      (mkStrm b (st_reader x) true)) as (ls & Hf & Hs); try done.
    { cbn. by rewrite lookup_insert. }
    exists ([LSend p r] ++ ls). split; [apply Forall_app; split; [|done]; constructor; [eauto|done]|].
    eapply rsteps_trans; [eapply rsteps_one, rs_send; done|].
    cbn in Hs. by rewrite insert_insert in Hs.
Qed.

(** And it does arrive: when the entry of a call is p's and p's stream is there, the relay, on its own, can
    take the next message for that call to p. *)
Theorem C73_arrives s p m x : inc s = None → table s !! sm_uuid m = Some p →
  strms s !! p = Some x → st_writer x = true →
  ∃ ls s', rsteps (LIn m :: ls) s s' ∧ Forall (λ l, l = LFwd p m ∨ ∃ r, l = LSend p r) ls ∧
    ∃ ls0, ls = ls0 ++ [LSend p (RResp m)].
Proof.
  intros Hi Ht Hp Hw.
  set (s1 := mkRst (strms s) (delete (sm_uuid m) (table s)) (Some (p, m))).
  assert (rsteps [LIn m] s s1) as H1 by (apply rsteps_one; by apply rs_in).
  destruct (flush (st_resps x) s1 p x Hp Hw eq_refl) as (l1 & Hf & H2).
  set (s2 := mkRst _ _ _) in H2.
  assert (rsteps [LFwd p m] s2 (mkRst (<[p := mkStrm [RResp m] (st_reader x) true]> (strms s)) (table s1) None)) as H3.
  { apply rsteps_one.
    pose proof (rs_fwd s2 p m (mkStrm [] (st_reader x) true)) as H3. cbn in H3.
    rewrite insert_insert in H3. apply H3; [done|by rewrite lookup_insert|unfold rcap; lia]. }
  set (s3 := mkRst _ _ _) in H3.
  assert (rsteps [LSend p (RResp m)] s3 (mkRst (<[p := mkStrm [] (st_reader x) true]> (strms s)) (table s1) None)) as H4.
  { apply rsteps_one.
    pose proof (rs_send s3 p (RResp m) [] (mkStrm [RResp m] (st_reader x) true)) as H4. cbn in H4.
    rewrite insert_insert in H4. apply H4; [by rewrite lookup_insert|done..]. }
  exists ((l1 ++ [LFwd p m]) ++ [LSend p (RResp m)]), (mkRst (<[p := mkStrm [] (st_reader x) true]> (strms s)) (table s1) None).
  split; [|split; [|by eexists]].
  - change (LIn m :: ?l) with ([LIn m] ++ l). eapply rsteps_trans; [exact H1|].
    eapply rsteps_trans; [|exact H4]. by eapply rsteps_trans.
  - rewrite !Forall_app. split; [split|]; [|by repeat constructor|constructor; [right; by eexists|done]].
    eapply Forall_impl; [exact Hf|]. cbn. intros l [r ->]. right. by exists r.
Qed.

(** Whatever the schedule: when neither a hand-over to client p nor a write to it is possible any more, and no write to
    it failed, everything passed on for it has been written to it, in order, and nothing for it is held up. *)
Lemma writer_there ls s p x : rsteps ls rinit s → LFail p ∉ ls → strms s !! p = Some x → st_writer x = true.
Proof.
  intros Hs. revert x. remember rinit as s0 eqn:E0. induction Hs as [|ls l s1 s2 s3 Hs IH Hl]; intros x Hn Hx.
  { subst. unfold rinit in Hx. cbn in Hx. by rewrite lookup_empty in Hx. }
  rewrite not_elem_of_app, elem_of_list_singleton in Hn. destruct Hn as [Hn Hnl]. specialize (IH E0).
  destruct Hl; cbn [strms] in Hx; try (by eapply IH); apply lookup_insert_Some in Hx as [[-> <-]|[_ Hx]]; cbn; try (by eapply IH); done.
Qed.
Theorem C73_settles ls s p : rsteps ls rinit s → LFail p ∉ ls →
  (∀ l s', rstep l s s' → (∀ r, l ≠ LSend p r) ∧ (∀ m, l ≠ LFwd p m)) → is_Some (strms s !! p) →
  written p ls = queued p ls ∧ ∀ m, inc s ≠ Some (p, m).
Proof.
  intros Hs Hn Hset [x Hx]. pose proof (writer_there _ _ _ _ Hs Hn Hx) as Hw.
  assert (st_resps x = []) as Eb.
  { destruct (st_resps x) as [|r b] eqn:Eb; [done|]. exfalso.
    destruct (Hset _ _ (rs_send s p r b x Hx Hw Eb)) as [Hx1 _]. by destruct (Hx1 r). }
  split.
  - destruct (order_inv _ _ p Hs) as (rest & -> & Hr). rewrite Hx in Hr. rewrite (Hr Hw), Eb. cbn. by rewrite app_nil_r.
  - intros m Hi. destruct (Hset _ _ (rs_fwd s p m x Hi Hx ltac:(rewrite Eb; unfold rcap; simpl; lia))) as [_ Hx1]. by destruct (Hx1 m).
Qed.
End c73.

(** ** C74 *)
Section c74.
Context {B : Type}.
Implicit Types (ls : list (rlabel B)) (s : rst B).

(** The effect of a request that was sent on comes when its entry is stored, not before. *)
Definition waits s p u := waiting u (chan s p) + onway s p u + intable s p u.
Lemma waits_step l s s' p u : rstep l s s' → l ≠ LStore p u →
  answers p u [l] + waits s' p u ≤ waits s p u.
Proof.
  intros HS Hne. unfold waits, intable, onway.
  destruct HS as [s q Hq|s q v ok x Hq Hr|s q v x Hq Hr Hl|s q v x Hq Hr|s q x Hq Hr|s m Hi Ht|s m q Hi Ht
                 |s q m x Hi Hq Hl|s q r b x Hq Hw Hb|s q r b x Hq Hw Hb|s v];
    rewrite ?chan_ins; cbn [inc table answers foldr st_resps st_reader strms].
  - destruct (decide (q = p)) as [->|]; [|lia]. unfold chan. rewrite Hq. cbn. lia.
  - destruct (decide (q = p)) as [->|]; [|lia]. unfold chan. rewrite Hq. lia.
  - destruct (decide (q = p)) as [->|]; [|lia]. unfold chan; rewrite Hq, waiting_app. cbn. lia.
  - assert ((if decide (q = p) then st_resps x else chan s p) = chan s p) as ->.
    { case_decide; [subst; unfold chan; by rewrite Hq|done]. }
    destruct (decide (v = u)) as [->|].
    + rewrite lookup_insert, (decide_False (P:=Some q = Some p)) by congruence. lia.
    + rewrite lookup_insert_ne by done. lia.
  - destruct (decide (q = p)) as [->|]; [|lia]. unfold chan; rewrite Hq. lia.
  - lia.
  - rewrite Hi. change (chan _ p) with (chan s p).
    destruct (decide (sm_uuid m = u)) as [<-|].
    + rewrite lookup_delete, Ht. repeat case_decide; first [lia|naive_solver].
    + rewrite lookup_delete_ne by done. rewrite (decide_False (P:=q = p ∧ _)) by naive_solver. lia.
  - rewrite Hi. destruct (decide (q = p)) as [->|].
    + unfold chan; rewrite Hq, waiting_app. cbn [waiting foldr]. repeat case_decide; first [lia|naive_solver].
    + rewrite (decide_False (P:=q = p ∧ _)) by naive_solver. lia.
  - destruct (decide (q = p)) as [->|].
    + unfold chan; rewrite Hq, Hb. destruct r; cbn [waiting foldr]; fold (waiting u b); repeat case_decide; first [lia|naive_solver].
    + destruct r; [rewrite decide_False by naive_solver|]; lia.
  - destruct (decide (q = p)) as [->|]; [|lia].
    unfold chan; rewrite Hq, Hb. destruct r; cbn [waiting foldr]; fold (waiting u b); repeat case_decide; first [lia|naive_solver].
  - change (chan _ p) with (chan s p).
    destruct (decide (v = u)) as [<-|].
    + rewrite lookup_delete, (decide_False (P:=None = Some p)) by done. lia.
    + rewrite lookup_delete_ne by done. lia.
Qed.
Lemma waits_steps ls s s' p u : rsteps ls s s' → LStore p u ∉ ls →
  answers p u ls + waits s' p u ≤ waits s p u.
Proof.
  induction 1 as [|ls l s1 s2 s3 Hs IH Hl]; intros Hn; [cbn; lia|].
  rewrite elem_of_app, elem_of_list_singleton in Hn.
  rewrite answers_app. pose proof (waits_step _ _ _ p u Hl ltac:(naive_solver)).
  feed specialize IH; [naive_solver|]. lia.
Qed.
Lemma waits_init p u : waits rinit p u = 0.
Proof.
  unfold waits, onway, intable, chan, rinit; cbn [strms inc table]. rewrite !lookup_empty.
  cbn. rewrite decide_False by done. done.
Qed.

(** If the server's only response to the first request with id u arrives before the relay has noted whose
    request it is, nobody ever gets it: not then, nor after the request has been noted. *)
Lemma wsum_in ls s s' p u : rsteps ls s s' → (∀ m, LIn m ∈ ls → sm_uuid m ≠ u) →
  answers p u ls + waiting u (chan s' p) + onway s' p u ≤ waiting u (chan s p) + onway s p u.
Proof.
  induction 1 as [|ls l s1 s2 s3 Hs IH Hl]; intros Hn; [cbn; lia|].
  feed specialize IH. { intros m Hm. apply Hn. apply elem_of_app; by left. }
  assert (∀ m, l = LIn m → sm_uuid m ≠ u) as Hn'.
  { intros m ->. apply Hn, elem_of_app. right. by apply elem_of_list_singleton. }
  rewrite answers_app. cut (answers p u [l] + waiting u (chan s3 p) + onway s3 p u ≤ waiting u (chan s2 p) + onway s2 p u); [lia|].
  clear -Hl Hn'. unfold onway.
  destruct Hl as [s q Hq|s q v ok x Hq Hr|s q v x Hq Hr Hl|s q v x Hq Hr|s q x Hq Hr|s m Hi Ht|s m q Hi Ht
                 |s q m x Hi Hq Hl|s q r b x Hq Hw Hb|s q r b x Hq Hw Hb|s v];
    rewrite ?chan_ins; cbn [inc table answers foldr st_resps st_reader strms].
  - destruct (decide (q = p)) as [->|]; [|lia]. unfold chan. rewrite Hq. cbn. lia.
  - destruct (decide (q = p)) as [->|]; [|lia]. unfold chan. rewrite Hq. lia.
  - destruct (decide (q = p)) as [->|]; [|lia]. unfold chan; rewrite Hq, waiting_app. cbn. lia.
  - destruct (decide (q = p)) as [->|]; [|lia]. unfold chan; rewrite Hq. lia.
  - destruct (decide (q = p)) as [->|]; [|lia]. unfold chan; rewrite Hq. lia.
  - lia.
  - change (chan _ p) with (chan s p). rewrite (decide_False (P:=q = p ∧ _)) by (intros [_ ?]; by eapply Hn'). lia.
  - rewrite Hi. destruct (decide (q = p)) as [->|].
    + unfold chan; rewrite Hq, waiting_app. cbn [waiting foldr]. repeat case_decide; first [lia|naive_solver].
    + rewrite (decide_False (P:=q = p ∧ _)) by naive_solver. lia.
  - destruct (decide (q = p)) as [->|].
    + unfold chan; rewrite Hq, Hb. destruct r; cbn [waiting foldr]; fold (waiting u b); repeat case_decide; first [lia|naive_solver].
    + destruct r; [rewrite decide_False by naive_solver|]; lia.
  - destruct (decide (q = p)) as [->|]; [|lia].
    unfold chan; rewrite Hq, Hb. destruct r; cbn [waiting foldr]; fold (waiting u b); repeat case_decide; first [lia|naive_solver].
  - change (chan _ p) with (chan s p). lia.
Qed.

Lemma table_none ls s s' u : rsteps ls s s' → (∀ q, LStore q u ∉ ls) → table s !! u = None → table s' !! u = None.
Proof.
  induction 1 as [|ls l s1 s2 s3 Hs IH Hl]; intros Hn Ht; [done|].
  specialize (IH (λ q Hq, Hn q (proj2 (elem_of_app _ _ _) (or_introl Hq))) Ht).
  destruct Hl; cbn; try done; try (rewrite lookup_delete_None; by right).
  rewrite lookup_insert_ne; [done|]. intros ->. eapply Hn, elem_of_app. right. by apply elem_of_list_singleton.
Qed.

Lemma rsteps_split ls1 a ls2 s0 s : rsteps (ls1 ++ a :: ls2) s0 s →
  ∃ s1 s2, rsteps ls1 s0 s1 ∧ rstep a s1 s2 ∧ rsteps ls2 s2 s.
Proof.
  intros Hs. remember (ls1 ++ a :: ls2) as l eqn:E. revert ls2 E.
  induction Hs as [|l c x1 x2 x3 Hl IH Ha]; intros ls2 E; [by destruct ls1|].
  destruct ls2 as [|b ls2 _] using rev_ind.
  - apply app_inj_tail in E as [-> ->]. exists x2, x3. split; [done|]. split; [done|constructor].
  - change (a :: ls2 ++ [b]) with ((a :: ls2) ++ [b]) in E. rewrite app_assoc in E.
    apply app_inj_tail in E as [-> ->]. destruct (IH ls2 eq_refl) as (y1 & y2 & ? & ? & ?).
    exists y1, y2. split; [done|]. split; [done|]. by eapply rs_snoc.
Qed.

Theorem C74_early ls1 m ls2 s u q : rsteps (ls1 ++ LIn m :: ls2) rinit s → sm_uuid m = u →
  (∀ p, LStore p u ∉ ls1) →                            (* nobody's request with id u has been noted yet *)
  (∀ m', LIn m' ∈ ls2 → sm_uuid m' ≠ u) →               (* this is the last response to it *)
  answers q u (ls1 ++ LIn m :: ls2) = 0.
Proof.
  intros Hs Hm H1 H2.
  apply rsteps_split in Hs as (s1 & s2 & Hs1 & Hst & Hs2).
  assert (table s1 !! u = None) as Ht by (eapply table_none; [done..|]; apply lookup_empty).
  assert (s2 = s1) as -> by (inversion Hst; subst; [done|congruence]).
  pose proof (waits_steps _ _ _ q u Hs1 (H1 q)) as W. rewrite waits_init in W. unfold waits in W.
  pose proof (wsum_in _ _ _ q u Hs2 H2) as W2.
  change (LIn m :: ls2) with ([LIn m] ++ ls2). rewrite !answers_app. cbn [answers foldr]. fold (answers (B:=B) q u ls2). lia.
Qed.

(** If another client's request with the same id is noted before the response to p's, p gets none for it,
    whatever the servers send, until a further request of p with that id is noted. *)
Theorem C74_overwritten ls1 ls2 s p q u : rsteps (ls1 ++ LStore q u :: ls2) rinit s →
  p ≠ q →
  (∀ m, LIn m ∈ ls1 → sm_uuid m ≠ u) →                 (* no response to it has come so far *)
  LStore p u ∉ ls2 →
  answers p u (ls1 ++ LStore q u :: ls2) = 0.
Proof.
  intros Hs Hpq Hin Hn. apply rsteps_split in Hs as (s0 & s1 & Hs0 & Hst & Hs).
  pose proof (wsum_in _ _ _ p u Hs0 Hin) as W0.
  pose proof (waits_init p u) as Z. unfold waits in Z.
  pose proof (waits_steps _ _ _ p u Hs Hn) as W.
  assert (waits s1 p u = 0).
  { inversion Hst as [| | |x0 q' u' x Hq Hr E| | | | | | |]; subst. unfold waits, intable, onway in *. rewrite chan_ins.
    cbn [table inc]. rewrite lookup_insert.
    rewrite (decide_False (P:=q = p)) by congruence.
    rewrite (decide_False (P:=Some q = Some p)) by congruence. lia. }
  change (LStore q u :: ls2) with ([LStore q u] ++ ls2). rewrite !answers_app. cbn [answers foldr].
  fold (answers (B:=B) p u ls2). lia.
Qed.
End c74.

(** ** C75 *)
Section c75.
Context {B : Type}.
Implicit Types (ls : list (rlabel B)) (s : rst B).

(** The relay is at the channel of a stream that nobody empties any more, and the channel is full. *)
Definition stuck s : Prop :=
  ∃ p m x, inc s = Some (p, m) ∧ strms s !! p = Some x ∧ st_writer x = false ∧ length (st_resps x) = rcap.

Lemma stuck_step l s s' : rstep l s s' → stuck s →
  stuck s' ∧ (∀ m, l ≠ LIn m) ∧ (∀ p m, l ≠ LFwd p m).
Proof.
  intros HS (p & m & x & Hi & Hp & Hw & Hl).
  destruct HS as [s q Hq|s q v ok y Hq Hr|s q v y Hq Hr Hly|s q v y Hq Hr|s q y Hq Hr|s m' Hi' Ht|s m' q Hi' Ht
                 |s q m' y Hi' Hq Hly|s q r b y Hq Hwy Hb|s q r b y Hq Hwy Hb|s v]; try congruence.
  all: try (split; [|split; intros; discriminate]).
  all: try (destruct (decide (q = p)) as [->|];
            [|exists p, m, x; cbn; rewrite ?lookup_insert_ne by done; done]).
  all: try (rewrite Hp in Hq; injection Hq as <-).
  all: try congruence.
  all: try (eexists p, m, _; cbn; rewrite lookup_insert; done).
  - lia.
  - rewrite Hi in Hi'. injection Hi' as <- <-. rewrite Hp in Hq. injection Hq as <-. lia.
  - exists p, m, x. done.
Qed.

(** From then on no message of any server is taken or passed on, whatever happens. *)
Theorem C75_stuck ls s s' : stuck s → rsteps ls s s' →
  stuck s' ∧ taken ls = [] ∧ passed ls = [].
Proof.
  intros Hst Hs. induction Hs as [|ls l s1 s2 s3 Hs IH Hl]; [done|].
  destruct (IH Hst) as (Hst' & Ht & Hp). destruct (stuck_step _ _ _ Hl Hst') as (H1 & H2 & H3).
  rewrite taken_app, passed_app, Ht, Hp. split; [done|]. destruct l; cbn; naive_solver.
Qed.

(** And a client gets there, from any state, by disconnecting with 102 calls under way. *)
Definition ask p us : list (rlabel B) := mjoin ((λ u, [LReq p u true; LStore p u]) <$> us).
Definition answer p (ms : list (smsg B)) : list (rlabel B) := mjoin ((λ m, [LIn m; LFwd p m]) <$> ms).

Lemma ask_run us : ∀ s p x, strms s !! p = Some x → st_reader x = RdRecv →
  rsteps (ask p us) s (mkRst (strms s) (foldl (λ t u, <[u := p]> t) (table s) us) (inc s)).
Proof.
  induction us as [|u us IH]; intros s p x Hp Hr.
  - cbn. destruct s; constructor.
  - change (ask p (u :: us)) with ([LReq p u true] ++ [LStore p u] ++ ask p us).
    pose proof (IH (mkRst (strms s) (<[u:=p]> (table s)) (inc s)) p x Hp Hr) as R. cbn [strms table inc] in R.
    eapply rsteps_trans; [by eapply rsteps_one, rs_req|].
    eapply rsteps_trans; [|exact R].
    pose proof (rs_store (mkRst (<[p := mkStrm (st_resps x) (RdStore u) (st_writer x)]> (strms s)) (table s) (inc s)) p u
      (mkStrm (st_resps x) (RdStore u) (st_writer x)) (lookup_insert _ _ _) eq_refl) as T.
    cbn in T. rewrite insert_insert in T. apply rsteps_one.
    rewrite (insert_id (strms s) p (mkStrm (st_resps x) RdRecv (st_writer x))) in T; [exact T|].
    rewrite Hp. destruct x; cbn in *; congruence.
Qed.

Lemma ask_table (us : list string) (t : gmap string nat) p u : u ∈ us → foldl (λ t u, <[u := p]> t) t us !! u = Some p.
Proof.
  revert t. induction us as [|v us IH] using rev_ind; intros t Hu; [by apply elem_of_nil in Hu|].
  rewrite foldl_app. cbn. destruct (decide (v = u)) as [->|]; [by rewrite lookup_insert|].
  rewrite lookup_insert_ne by done. apply IH. set_solver.
Qed.

Lemma answer_run (ms : list (smsg B)) : ∀ s p x, NoDup (sm_uuid <$> ms) → inc s = None →
  (∀ m, m ∈ ms → table s !! sm_uuid m = Some p) →
  strms s !! p = Some x → length (st_resps x) + length ms ≤ rcap →
  rsteps (answer p ms) s
    (mkRst (<[p := mkStrm (st_resps x ++ (RResp <$> ms)) (st_reader x) (st_writer x)]> (strms s))
           (foldl (λ t m, delete (sm_uuid m) t) (table s) ms) None).
Proof.
  induction ms as [|m ms IH]; intros s p x Hnd Hi Ht Hp Hlen.
  - cbn. rewrite app_nil_r. rewrite insert_id; [|rewrite Hp; by destruct x]. rewrite <- Hi. destruct s; constructor.
  - change (answer p (m :: ms)) with ([LIn m] ++ [LFwd p m] ++ answer p ms). cbn in Hlen.
    cbn in Hnd. apply NoDup_cons in Hnd as [Hn Hnd].
    eapply rsteps_trans; [eapply rsteps_one, rs_in; [done|apply Ht; set_solver]|].
    eapply rsteps_trans; [eapply rsteps_one, rs_fwd; [done|done|lia]|]. cbn [strms table inc foldl].
    eassert _ as R; [apply (IH (mkRst (<[p:=mkStrm (st_resps x ++ [RResp m]) (st_reader x) (st_writer x)]> (strms s)) (delete (sm_uuid m) (table s)) None) p
       (mkStrm (st_resps x ++ [RResp m]) (st_reader x) (st_writer x)))|]; cbn [strms table inc st_resps st_reader st_writer].
    + done.
    + done.
    + intros m' Hm'. rewrite lookup_delete_ne; [apply Ht; set_solver|].
      intros E. apply Hn. rewrite E. by apply elem_of_list_fmap_1.
    + apply lookup_insert.
    + rewrite app_length; cbn; lia.
    + cbn [strms table inc st_resps st_reader st_writer] in R. rewrite insert_insert, <- app_assoc in R. exact R.
Qed.

Theorem C75_reached s p m0 mid m1 : strms s !! p = None → inc s = None →
  length mid = rcap → NoDup (sm_uuid <$> m0 :: mid ++ [m1]) →
  ∃ s', stuck s' ∧ rsteps
    ([LOpen p] ++ ask p (sm_uuid <$> m0 :: mid ++ [m1]) ++ [LEnd p]    (* 102 requests; the client leaves *)
     ++ [LIn m0; LFwd p m0; LFail p] ++ answer p mid ++ [LIn m1]) s s'. (* the responses come *)
Proof.
  intros Hp Hi Hlen Hnd.
  set (us := sm_uuid <$> m0 :: mid ++ [m1]) in *.
  set (T := foldl (λ t u, <[u := p]> t) (table s) us).
  assert (∀ m, m ∈ m0 :: mid ++ [m1] → T !! sm_uuid m = Some p) as HT.
  { intros m Hm. apply ask_table. subst us. by apply elem_of_list_fmap_1. }
  set (T1 := delete (sm_uuid m0) T).
  set (T2 := foldl (λ t m, delete (sm_uuid m) t) T1 mid).
  assert (T2 !! sm_uuid m1 = Some p) as HT2.
  { cut (∀ (ms : list (smsg B)) (t : gmap string nat), sm_uuid m1 ∉ sm_uuid <$> ms → t !! sm_uuid m1 = Some p →
      foldl (λ t m, delete (sm_uuid m) t) t ms !! sm_uuid m1 = Some p).
    { intros HX. apply HX.
      - subst us. rewrite fmap_cons, fmap_app in Hnd. apply NoDup_cons in Hnd as [_ Hnd].
        apply NoDup_app in Hnd as (_ & Hnd & _). intros Hx. apply (Hnd _ Hx). cbn. by left.
      - subst T1. rewrite lookup_delete_ne; [apply HT; set_solver|]. intros E.
        subst us. rewrite fmap_cons, fmap_app, E in Hnd. apply NoDup_cons in Hnd as [Hnd _]. apply Hnd.
        apply elem_of_app. right. cbn. by left. }
    clear. induction ms as [|m ms IH]; intros t Hn Ht; [done|]. cbn in *. apply not_elem_of_cons in Hn as [Hn Hn'].
    apply IH; [done|]. by rewrite lookup_delete_ne. }
  set (sB := mkStrm (B:=B) [] RdRecv true).
  set (sE := mkStrm (B:=B) [] RdEnd true).
  set (sF := mkStrm (B:=B) [] RdEnd false).
  set (sG := mkStrm (RResp <$> mid) RdEnd false).
  exists (mkRst (<[p := sG]> (strms s)) (delete (sm_uuid m1) T2) (Some (p, m1))).
  split.
  { exists p, m1, sG. cbn. rewrite lookup_insert, fmap_length. done. }
  eapply rsteps_trans; [by eapply rsteps_one, rs_open|].
  eapply rsteps_trans; [eapply (ask_run us); [cbn; apply lookup_insert|done]|]. cbn [strms table inc].
  fold T.
  eapply rsteps_trans; [eapply rsteps_one, rs_end; [cbn; apply lookup_insert|done]|]. cbn [strms table inc].
  rewrite insert_insert. cbn [st_resps st_writer]. fold sE.
  eapply (rsteps_trans [_; _; _]).
  { change [?a; ?b; ?c] with ([a] ++ [b] ++ [c]).
    eapply rsteps_trans; [eapply rsteps_one, rs_in; [done|apply HT; by left]|]. cbn [strms table inc].
    eapply rsteps_trans; [eapply rsteps_one, rs_fwd; [done|apply lookup_insert|cbn; unfold rcap; lia]|]. cbn [strms table inc].
    rewrite insert_insert. cbn.
    eapply rsteps_one, rs_fail; [apply lookup_insert|done|done]. }
  cbn [strms table inc]. rewrite insert_insert. cbn [st_reader]. fold sF T1.
  eapply rsteps_trans.
  { eapply (answer_run mid _ p sF); cbn [strms table inc].
    - subst us. rewrite fmap_cons, fmap_app in Hnd. apply NoDup_cons in Hnd as [_ Hnd]. by apply NoDup_app in Hnd as (? & _ & _).
    - done.
    - intros m Hm. subst T1. rewrite lookup_delete_ne; [apply HT; set_solver|].
      intros E. subst us. rewrite fmap_cons, fmap_app in Hnd. apply NoDup_cons in Hnd as [Hnd _]. apply Hnd.
      apply elem_of_app. left. rewrite E. by apply elem_of_list_fmap_1.
    - apply lookup_insert.
    - cbn. lia. }
  cbn [strms table inc]. rewrite insert_insert. cbn [st_resps st_reader st_writer sF app]. fold T2. fold sG.
  pose proof (rs_in (mkRst (<[p:=sG]> (strms s)) T2 None) m1 p eq_refl HT2) as R. cbn in R.
  by apply rsteps_one.
Qed.
End c75.


(** ** Examples *)
Section examples.
Lemma rsteps_cons {B} (l : rlabel B) ls s1 s2 s3 : rstep l s1 s2 → rsteps ls s2 s3 → rsteps (l :: ls) s1 s3.
Proof. intros H1 H2. change (l :: ls) with ([l] ++ ls). eapply rsteps_trans; [by apply rsteps_one|done]. Qed.

Definition rsp (u : string) : smsg nat := mkSmsg u 7.
Ltac lk := first [reflexivity | apply lookup_insert | (rewrite lookup_insert_ne by discriminate; lk) | apply lookup_empty].
Ltac norm := cbn [strms table inc st_resps st_reader st_writer rinit app rsp sm_uuid]; rewrite ?insert_insert.
Ltac st c := eapply rsteps_cons; [eapply c; cbn [strms table inc st_resps st_reader st_writer rinit app rsp sm_uuid]; first [lk | (unfold rcap; cbn; lia) | idtac] | norm].

(** A call answered. *)
Definition run_ok : list (rlabel nat) :=
  [LOpen 0; LReq 0 "a" true; LStore 0 "a"; LIn (rsp "a"); LFwd 0 (rsp "a"); LSend 0 (RResp (rsp "a"))].
Example C73_run : (∃ s, rsteps run_ok rinit s) ∧ answers 0 "a" run_ok = 1 ∧ written 0 run_ok = [rsp "a"].
Proof.
  split; [|done]. eexists. unfold run_ok, rsp.
  st @rs_open. st @rs_req. st @rs_store. st @rs_in. st @rs_fwd. st @rs_send. constructor.
Qed.

(** The response overtakes the note of whose call it is: the client waits for ever. *)
Definition run_early : list (rlabel nat) :=
  [LOpen 0; LReq 0 "a" true] ++ LIn (rsp "a") :: [LStore 0 "a"].
Example C74_early_run : (∃ s, rsteps run_early rinit s) ∧ requests 0 "a" run_early = 1 ∧ taken run_early = [rsp "a"] ∧
  answers 0 "a" run_early = 0.
Proof.
  split; [|done]. eexists. unfold run_early, rsp. cbn [app].
  st @rs_open. st @rs_req. st @rs_in_unknown. st @rs_store. constructor.
Qed.

(** Two clients use one id: the server answers both, one is served. *)
Definition run_over : list (rlabel nat) :=
  [LOpen 0; LOpen 1; LReq 0 "a" true; LStore 0 "a"; LReq 1 "a" true] ++ LStore 1 "a" ::
  [LIn (rsp "a"); LFwd 1 (rsp "a"); LSend 1 (RResp (rsp "a")); LIn (rsp "a")].
Example C74_overwritten_run : (∃ s, rsteps run_over rinit s) ∧ requests 0 "a" run_over = 1 ∧ length (taken run_over) = 2 ∧
  answers 0 "a" run_over = 0 ∧ answers 1 "a" run_over = 1.
Proof.
  split; [|done]. eexists. unfold run_over, rsp. cbn [app].
  st @rs_open. st @rs_open. st @rs_req. st @rs_store. st @rs_req. st @rs_store. st @rs_in. st @rs_fwd. st @rs_send.
  st @rs_in_unknown. constructor.
Qed.

(** 102 call ids. *)
Definition unary (n : nat) : smsg nat := mkSmsg (Nat.iter n (String (Ascii.ascii_of_nat 120)) "") n.
Example C75_run : ∃ (ls : list (rlabel nat)) s, rsteps ls rinit s ∧ stuck s ∧ requests 0 (sm_uuid (unary 5)) ls = 1.
Proof.
  destruct (C75_reached (rinit (B:=nat)) 0 (unary 0) (unary <$> seq 1 100) (unary 101)) as (s' & Hst & Hs).
  - apply lookup_empty.
  - done.
  - vm_compute. done.
  - eapply bool_decide_eq_true_1. vm_compute. done.
  - eexists _, s'. split; [exact Hs|]. split; [exact Hst|]. vm_compute. done.
Qed.
End examples.
