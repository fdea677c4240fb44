(** C92: the life of a mix server. *)
From stdpp Require Import gmap strings.
From Verif.Base Require Import Base.
From Verif.Model Require Import Lifecycle.

(** * Lemmas *)
Lemma conn_close_same s i e s' : conn_close s i = (e, s') → l_map s' = l_map s ∧ l_nil s' = l_nil s ∧ l_kind s' = l_kind s ∧
  l_peers s' = l_peers s ∧ (∀ j, j ≠ i → l_open s' !! j = l_open s !! j) ∧ (e = None → l_open s' !! i = Some false) ∧
  (l_kind s ≠ KGrpc → e = None).
Proof.
  unfold conn_close. destruct (l_kind s) eqn:Ek; [| |]; [|destruct (l_open s !! i) as [[|]|] eqn:Eo|]; intros [= <- <-]; cbn;
    repeat split; try done; try (intros j Hj; by rewrite lookup_insert_ne); try (intros _; by rewrite lookup_insert).
Qed.
Lemma conn_close_keeps s i e s' j : conn_close s i = (e, s') → is_Some (l_open s !! j) → is_Some (l_open s' !! j).
Proof.
  unfold conn_close. intros Hc Hj.
  assert (is_Some (<[i := false]> (l_open s) !! j)).
  { destruct (decide (i = j)) as [->|Hne]; [rewrite lookup_insert; by eexists|by rewrite lookup_insert_ne]. }
  destruct (l_kind s); [|destruct (l_open s !! i) as [[|]|]|]; injection Hc as _ <-; done.
Qed.
Lemma close_same order : ∀ s e s', close_loop s order = (e, s') →
  l_map s' = l_map s ∧ l_nil s' = l_nil s ∧ l_kind s' = l_kind s ∧ l_peers s' = l_peers s ∧
  (∀ j, (∀ h, h ∈ order → l_map s !! h ≠ Some j) → l_open s' !! j = l_open s !! j) ∧
  (e = None → ∀ h i, h ∈ order → l_map s !! h = Some i → l_open s' !! i = Some false) ∧
  (l_kind s ≠ KGrpc → e = None).
Proof.
  induction order as [|h order IH]; intros s e s'; cbn [close_loop].
  { intros [= <- <-]. repeat split; try done. by intros _ h i ?%elem_of_nil. }
  destruct (l_map s !! h) as [i|] eqn:Eh.
  - destruct (conn_close s i) as [[e1|] s1] eqn:Ec; pose proof (conn_close_same _ _ _ _ Ec) as (H1 & H2 & H3 & H4 & H5 & H6 & H7).
    + intros [= <- <-]. repeat split; try done. intros j Hj. apply H5. intros ->. by apply (Hj h); [left|].
    + intros Hs. destruct (IH _ _ _ Hs) as (K1 & K2 & K3 & K4 & K5 & K6 & K7). rewrite K1, K2, K3, K4, H1, H2, H3, H4.
      split; [done|]. split; [done|]. split; [done|]. split; [done|]. split; [|split].
      * intros j Hj. rewrite K5; [apply H5; intros ->; by apply (Hj h); [left|]|].
        intros h' Hh'. rewrite H1. apply Hj. by right.
      * intros He h' i' [->|Hh']%elem_of_cons Hi'.
        -- assert (i' = i) as -> by congruence. destruct (decide (Exists (λ h2, l_map s !! h2 = Some i) order)) as [(h2 & Hh2 & Hm2)%Exists_exists|Hno].
           ++ apply (K6 He h2); [done|]. by rewrite H1.
           ++ rewrite K5; [by apply H6|]. intros h2 Hh2. rewrite H1. intros Hm2. apply Hno, Exists_exists. by exists h2.
        -- apply (K6 He h'); [done|]. by rewrite H1.
      * rewrite H3 in K7. exact K7.
  - intros Hs. destruct (IH _ _ _ Hs) as (K1 & K2 & K3 & K4 & K5 & K6 & K7).
    repeat split; try done.
    + intros j Hj. apply K5. intros h' Hh'. apply Hj. by right.
    + intros He h' i' [->|Hh']%elem_of_cons Hi'; [congruence|]. by apply (K6 He h').
Qed.

(** Different hosts have different connections, all made by the server. *)
Record ok (s : life) : Prop := {
  ok_nil : l_nil s = false;
  ok_known : ∀ h i, l_map s !! h = Some i → is_Some (l_open s !! i);
  ok_inj : ∀ h h' i, l_map s !! h = Some i → l_map s !! h' = Some i → h = h' }.
Lemma ok_new k peers : ok (NewMixServer k peers).
Proof. by constructor. Qed.
Lemma ok_close s order e s' : ok s → close_loop s order = (e, s') → ok s'.
Proof.
  intros [Hn Hk Hi] Hc. destruct (close_same _ _ _ _ Hc) as (K1 & K2 & _ & _ & _ & _ & _).
  constructor; [by rewrite K2| |by rewrite K1]. rewrite K1. intros h i Hh.
  clear -Hk Hh Hc. specialize (Hk _ _ Hh). clear Hh. revert s Hc Hk.
  induction order as [|h' order IH]; intros s; cbn [close_loop]; [by intros [= _ ->]|].
  destruct (l_map s !! h') as [i'|]; [|by apply IH]. destruct (conn_close s i') as [[e1|] s1] eqn:Ec; intros Hs Hk.
  - injection Hs as _ <-. by eapply conn_close_keeps.
  - apply (IH _ Hs). by eapply conn_close_keeps.
Qed.
Lemma ok_put s h b s1 i : ok s → NewConnection s b = Ok (i, s1) →
  let s2 := mkLife (l_kind s1) (l_peers s1) (l_nil s1) (<[h := i]> (l_map s1)) (l_open s1) in
  ok s2 ∧ l_kind s2 = l_kind s ∧ l_peers s2 = l_peers s ∧ l_map s2 = <[h := i]> (l_map s) ∧
  l_open s2 = <[i := true]> (l_open s) ∧ l_open s !! i = None.
Proof.
  intros [Hn Hk Hi]. unfold NewConnection. destruct (l_kind s) eqn:Ek; [done|..]; (destruct b; [|done]); intros [= <- <-]; cbn.
  all: assert (l_open s !! fresh (dom (l_open s)) = None) as Hf by (apply not_elem_of_dom; apply is_fresh).
  all: split; [|by rewrite ?Ek].
  all: constructor; cbn; [done|..].
  - intros h' i'. destruct (decide (h = h')) as [->|Hne].
    + rewrite lookup_insert. intros [= <-]. rewrite lookup_insert. done.
    + rewrite lookup_insert_ne by done. intros Hl. apply Hk in Hl as Hl'.
      destruct (decide (fresh (dom (l_open s)) = i')) as [->|Hne']; [by rewrite lookup_insert|by rewrite lookup_insert_ne].
  - intros h' h'' i'. destruct (decide (h = h')) as [<-|Hne], (decide (h = h'')) as [<-|Hne']; [done|..].
    + rewrite lookup_insert, lookup_insert_ne by done. intros [= <-] Hl. apply Hk in Hl. rewrite Hf in Hl. by destruct Hl.
    + rewrite lookup_insert, lookup_insert_ne by done. intros Hl [= <-]. apply Hk in Hl. rewrite Hf in Hl. by destruct Hl.
    + rewrite !lookup_insert_ne by done. apply Hi.
  - intros h' i'. destruct (decide (h = h')) as [->|Hne].
    + rewrite lookup_insert. intros [= <-]. rewrite lookup_insert. done.
    + rewrite lookup_insert_ne by done. intros Hl. apply Hk in Hl as Hl'.
      destruct (decide (fresh (dom (l_open s)) = i')) as [->|Hne']; [by rewrite lookup_insert|by rewrite lookup_insert_ne].
  - intros h' h'' i'. destruct (decide (h = h')) as [<-|Hne], (decide (h = h'')) as [<-|Hne']; [done|..].
    + rewrite lookup_insert, lookup_insert_ne by done. intros [= <-] Hl. apply Hk in Hl. rewrite Hf in Hl. by destruct Hl.
    + rewrite lookup_insert, lookup_insert_ne by done. intros Hl [= <-]. apply Hk in Hl. rewrite Hf in Hl. by destruct Hl.
    + rewrite !lookup_insert_ne by done. apply Hi.
Qed.
(** The part of Dial that succeeds. *)
Lemma dial_prefix up order a b : ∀ s, ok s → l_kind s ≠ KEmpty → (∀ h, h ∈ a → up h = true) →
  ∃ s', dial_loop up order s (a ++ b) = dial_loop up order s' b ∧ ok s' ∧ l_kind s' = l_kind s ∧ l_peers s' = l_peers s ∧
    (∀ h, h ∈ a → ∃ i, l_map s' !! h = Some i ∧ l_open s' !! i = Some true ∧ l_open s !! i = None) ∧
    (∀ h, h ∉ a → l_map s' !! h = l_map s !! h) ∧
    (∀ i, is_Some (l_open s !! i) → l_open s' !! i = l_open s !! i).
Proof.
  induction a as [|h a IH]; intros s Hok Hk Hup.
  { exists s. split_and!; try done. by intros h ?%elem_of_nil. }
  cbn [app dial_loop].
  assert (∃ i s1, NewConnection s (up h) = Ok (i, s1)) as (i & s1 & Hnc).
  { rewrite Hup by left. unfold NewConnection. destruct (l_kind s); [done|by eexists _, _..]. }
  rewrite Hnc. destruct (ok_put _ h _ _ _ Hok Hnc) as (Hok2 & E1 & E2 & E3 & E4 & E5).
  set (s2 := mkLife (l_kind s1) (l_peers s1) (l_nil s1) (<[h := i]> (l_map s1)) (l_open s1)) in *.
  destruct (IH s2) as (s' & H1 & H2 & H3 & H4 & H5 & H6 & H7); [done|by rewrite E1|intros; apply Hup; by right|].
  exists s'. split; [exact H1|]. split; [done|]. split; [congruence|]. split; [congruence|].
  assert (Hkeep : ∀ j, is_Some (l_open s !! j) → l_open s' !! j = l_open s !! j).
  { intros j [b0 Hj]. assert (l_open s2 !! j = l_open s !! j) as Hj2 by (rewrite E4, lookup_insert_ne; [done|congruence]).
    rewrite H7; [done|]. rewrite Hj2, Hj. by eexists. }
  split; [|split; [|exact Hkeep]].
  - intros x Hx. destruct (decide (x ∈ a)) as [Hin|Hnin].
    + destruct (H5 x Hin) as (j & Hj1 & Hj2 & Hj3). exists j. split; [done|]. split; [done|].
      rewrite E4 in Hj3. by apply lookup_insert_None in Hj3 as [? _].
    + apply elem_of_cons in Hx as [->|?]; [|done]. exists i. rewrite H6 by done. rewrite E3, lookup_insert. split; [done|].
      split; [|done]. rewrite H7; rewrite E4, lookup_insert; [done|by eexists].
  - intros x [Hx1 Hx2]%not_elem_of_cons. rewrite H6 by done. rewrite E3. by rewrite lookup_insert_ne.
Qed.
Lemma close_all_open order : ∀ s, ok s → NoDup order → (∀ h i, h ∈ order → l_map s !! h = Some i → l_open s !! i = Some true) →
  ∃ s', close_loop s order = (None, s').
Proof.
  induction order as [|h order IH]; intros s Hok Hnd Hopen; cbn [close_loop]; [by eexists|].
  apply NoDup_cons in Hnd as [Hn Hnd]. destruct (l_map s !! h) as [i|] eqn:Eh.
  - assert (∃ s1, conn_close s i = (None, s1)) as [s1 Ec].
    { unfold conn_close. rewrite (Hopen h i) by (done || left). destruct (l_kind s); by eexists. }
    rewrite Ec. pose proof (conn_close_same _ _ _ _ Ec) as (H1 & H2 & H3 & H4 & H5 & _ & _).
    apply IH; [|done|].
    + constructor; [by rewrite H2; apply ok_nil| |rewrite H1; apply Hok].
      intros h' i' Hh'. rewrite H1 in Hh'. eapply conn_close_keeps; [exact Ec|]. by eapply ok_known.
    + intros h' i' Hh' Hi'. rewrite H1 in Hi'. rewrite H5; [apply (Hopen h'); [by right|done]|].
      intros ->. assert (h' = h) as -> by (by eapply (ok_inj s Hok)). done.
  - apply IH; [done|done|]. intros h' i' Hh'. apply Hopen. by right.
Qed.
Lemma ok_step s o r s' : ok s → lstep s o r s' → r ≠ Panic → ok s'.
Proof.
  intros Hok Hs Hp. destruct Hs as [s up order r s' _ Hd|s order s' _ <-].
  - unfold Dial in Hd. revert Hd. generalize (l_peers s). intros peers. revert s Hok. induction peers as [|h peers IH]; intros s Hok; cbn [dial_loop]; [by intros [= _ <-]|].
    destruct (NewConnection s (up h)) as [[i s1]|e|] eqn:Hn; [|..].
    + intros Hd. eapply IH; [|exact Hd]. by eapply ok_put.
    + unfold Close. destruct (close_loop s order) as [[e'|] s1] eqn:Ec; intros [= _ <-]; by eapply ok_close.
    + by intros [= <- _].
  - unfold Close. destruct (close_loop s order) as [e s1] eqn:Ec. by eapply ok_close.
Qed.
Lemma ok_lives s h s' : ok s → lives s h s' → ok s'.
Proof. intros Hok Hl. induction Hl as [|s o r s1 h s2 H1 _ IH Hp]; [done|]. apply IH. by eapply ok_step. Qed.

Lemma lives_same s h s' : lives s h s' → l_kind s' = l_kind s ∧ l_peers s' = l_peers s.
Proof.
    intros Hl. induction Hl as [|s o r s1 h s2 H1 _ [IH1 IH2] Hp]; [done|]. rewrite IH1, IH2.
    destruct H1 as [s up order r s' _ Hd|s order s' _ <-].
    - unfold Dial in Hd. revert Hd. generalize (l_peers s) at 1 as ps. intros ps. revert s.
      induction ps as [|h' ps IH]; intros s; cbn [dial_loop]; [by intros [= _ <-]|].
      destruct (NewConnection s (up h')) as [[i s1]|e|] eqn:Hn.
      + intros Hd. apply IH in Hd as [-> ->]. cbn. unfold NewConnection in Hn.
        destruct (l_kind s); [done|..]; destruct (up h'); try done; by injection Hn as _ <-.
      + unfold Close. destruct (close_loop s order) as [[e'|] s1] eqn:Ec; intros [= _ <-];
          apply close_same in Ec as (_ & _ & ? & ? & _); done.
      + by intros [= <- <-].
    - unfold Close. destruct (close_loop s order) as [e s1] eqn:Ec. apply close_same in Ec as (_ & _ & ? & ? & _). done.
Qed.

(** * C92 *)
(** Once every peer can be reached, Dial succeeds, whatever happened before, and everything sent to a peer then goes
    out. *)
Theorem C92_dial_ok k peers hist s up order :
  k ≠ KEmpty → lives (NewMixServer k peers) hist s → (∀ h, h ∈ peers → up h = true) →
  ∃ s', Dial up order s = (Ok tt, s') ∧ ∀ h, h ∈ peers → send s' h = SGone_out.
Proof.
  intros Hk Hl Hup. assert (Hok : ok s) by (eapply ok_lives; [apply ok_new|done]).
  destruct (lives_same _ _ _ Hl) as [Ek Ep]. cbn in Ek, Ep.
  destruct (dial_prefix up order peers [] s Hok) as (s' & Hd & _ & _ & _ & Ho & _ & _); [by rewrite Ek|done|].
  rewrite app_nil_r in Hd. exists s'. split; [by unfold Dial; rewrite Ep, Hd|].
  intros h Hh. destruct (Ho h Hh) as (i & H1 & H2 & _). unfold send. by rewrite H1, H2.
Qed.

(** The check that a server has connections before it opens a round never fails. *)
Theorem C92_never_refused k peers hist s : lives (NewMixServer k peers) hist s → refused s = false.
Proof. intros Hl. unfold refused. apply ok_nil. eapply ok_lives; [apply ok_new|done]. Qed.
(** ... but before Dial every send crashes the program. *)
Theorem C92_before_dial k peers h : send (NewMixServer k peers) h = SCrash.
Proof. done. Qed.

(** A peer that cannot be reached: with the robust layer, Dial itself crashes the program. *)
Theorem C92_dial_crashes peers hist s up order h :
  lives (NewMixServer KRrpc peers) hist s → h ∈ peers → up h = false →
  (Dial up order s).1 = Panic.
Proof.
  intros Hl Hin Hup. destruct (lives_same _ _ _ Hl) as [Hk Hp]. cbn in Hk, Hp. clear Hl. unfold Dial. rewrite Hp. clear Hp. revert s Hk. induction peers as [|x peers IH]; intros s Hk; [by apply elem_of_nil in Hin|].
  cbn [dial_loop]. unfold NewConnection at 1. rewrite Hk. destruct (up x) eqn:Ex; [|done].
  apply elem_of_cons in Hin as [->|Hin]; [congruence|]. by apply IH.
Qed.
(** ... with plain grpc it returns an error; the server then still accepts rounds, loses without a word what it sends to
    the peers before that one, and crashes when it sends to that one or one after it. *)
Theorem C92_dial_error a h b up order s' :
  let peers := a ++ h :: b in
  (∀ x, x ∈ a → up x = true) → up h = false → Permutation order (elements (dom (l_map s'))) →
  (Dial up order (NewMixServer KGrpc peers)).2 = s' →
  (Dial up order (NewMixServer KGrpc peers)).1 = Err EDial ∧ refused s' = false ∧
  (∀ x, x ∈ a → send s' x = SLost) ∧ (∀ x, x ∉ a → send s' x = SCrash).
Proof.
  intros peers Hup Hh Hord. unfold Dial. cbn [l_peers NewMixServer]. unfold peers.
  destruct (dial_prefix up order a (h :: b) (NewMixServer KGrpc (a ++ h :: b)) (ok_new _ _)) as (s1 & Hd & Hok & Hk & _ & Ho & Hno & _); [done|done|].
  cbn [l_map NewMixServer] in Hno.
  rewrite Hd. cbn [dial_loop]. unfold NewConnection at 1 2. rewrite Hk. cbn [l_kind NewMixServer]. rewrite Hh. unfold Close.
  destruct (close_loop s1 order) as [e s2] eqn:Ec. pose proof (close_same _ _ _ _ Ec) as (K1 & K2 & K3 & _ & _ & K6 & _).
  intros Hs'.
  assert (s2 = s') as -> by (by destruct e). rewrite K1 in Hord.
  assert (e = None) as ->.
  { destruct (close_all_open order s1 Hok) as [s3 Hc3]; [rewrite Hord; apply NoDup_elements| |congruence].
    intros x i Hx Hi. destruct (decide (x ∈ a)) as [Hin|Hnin].
    - destruct (Ho x Hin) as (j & Hj1 & Hj2 & _). congruence.
    - rewrite Hno, lookup_empty in Hi by done. done. }
  split; [done|]. split; [by unfold refused; rewrite K2; apply ok_nil|]. split.
  - intros x Hx. destruct (Ho x Hx) as (i & Hi & _). unfold send. rewrite K1, Hi.
    rewrite (K6 eq_refl x i); [by rewrite K3, Hk| |done]. rewrite Hord. apply elem_of_elements. by apply elem_of_dom_2 in Hi.
  - intros x Hx. unfold send. rewrite K1, Hno by done. by rewrite lookup_empty.
Qed.
(** Without any configuration of the connections, Dial fails at the first peer and every send crashes. *)
Theorem C92_dial_empty peers up order :
  peers ≠ [] → Permutation order [] →
  Dial up order (NewMixServer KEmpty peers) = (Err ENoConfigs, NewMixServer KEmpty peers).
Proof. intros Hne Ho. apply Permutation_nil_r in Ho as ->. by destruct peers. Qed.

(** Close: without error, every connection the server knows is closed ... *)
Theorem C92_close k peers hist s order :
  lives (NewMixServer k peers) hist s → Permutation order (elements (dom (l_map s))) → (Close s order).1 = None →
  ∀ h, send (Close s order).2 h ≠ SGone_out.
Proof.
  intros _ Hord Hc h. unfold Close in *. destruct (close_loop s order) as [e s'] eqn:Ec. cbn in Hc |- *. subst e.
  destruct (close_same _ _ _ _ Ec) as (K1 & _ & _ & _ & _ & K6 & _). unfold send. rewrite K1.
  destruct (l_map s !! h) as [i|] eqn:Eh; [|done]. rewrite (K6 eq_refl h i); [by destruct (l_kind s')| |done].
  rewrite Hord. apply elem_of_elements. by apply elem_of_dom_2 in Eh.
Qed.
(** ... the first Close of a server that dialled once is without error ... *)
Theorem C92_close_ok k peers up order order' s :
  k ≠ KEmpty → (∀ h, h ∈ peers → up h = true) → (Dial up order (NewMixServer k peers)).2 = s →
  Permutation order' (elements (dom (l_map s))) → (Close s order').1 = None.
Proof.
  intros Hk Hup Hs Hord. unfold Dial in Hs. cbn [l_peers NewMixServer] in Hs.
  destruct (dial_prefix up order peers [] (NewMixServer k peers) (ok_new _ _)) as (s1 & Hd & Hok & _ & _ & Ho & Hno & _); [done|done|].
  rewrite app_nil_r in Hd. rewrite Hd in Hs. cbn in Hs. subst s1.
  destruct (close_all_open order' s Hok) as [s3 Hc3]; [rewrite Hord; apply NoDup_elements| |unfold Close; by rewrite Hc3].
  intros x i Hx Hi. destruct (decide (x ∈ peers)) as [Hin|Hnin].
  - destruct (Ho x Hin) as (j & Hj1 & Hj2 & _). congruence.
  - rewrite Hno in Hi by done. cbn in Hi. by rewrite lookup_empty in Hi.
Qed.
(** ... and with plain grpc the second one reports an error. *)
Theorem C92_close_twice peers hist s order order' h :
  lives (NewMixServer KGrpc peers) hist s → is_Some (l_map s !! h) →
  Permutation order (elements (dom (l_map s))) → Permutation order' (elements (dom (l_map s))) → (Close s order).1 = None →
  (Close (Close s order).2 order').1 = Some EClosing.
Proof.
  intros Hl [i Hi] Hord Hord' Hc. destruct (lives_same _ _ _ Hl) as [Hk _]. cbn in Hk. unfold Close in *. destruct (close_loop s order) as [e s'] eqn:Ec. cbn [fst snd] in *. subst e.
  destruct (close_same _ _ _ _ Ec) as (K1 & _ & K3 & _ & _ & K6 & _).
  assert (h ∈ order') as Hin by (rewrite Hord'; apply elem_of_elements; by apply elem_of_dom_2 in Hi).
  assert (∀ x, x ∈ order' → ∃ j, l_map s' !! x = Some j ∧ l_open s' !! j = Some false) as Hall.
  { intros x Hx. rewrite Hord' in Hx. apply elem_of_elements, elem_of_dom in Hx as [j Hj]. exists j. rewrite K1. split; [done|].
    apply (K6 eq_refl x); [|done]. rewrite Hord. apply elem_of_elements. by apply elem_of_dom_2 in Hj. }
  destruct order' as [|x order']; [by apply elem_of_nil in Hin|]. destruct (Hall x) as (j & Hj1 & Hj2); [left|].
  cbn [close_loop]. rewrite Hj1. unfold conn_close. by rewrite K3, Hk, Hj2.
Qed.

(** Dialling again leaves the connections of the first time open for ever: no Close reaches them. *)
Theorem C92_redial_leaks k peers up up' order order' order'' s1 s2 h :
  k ≠ KEmpty → (∀ h, h ∈ peers → up h = true) → (∀ h, h ∈ peers → up' h = true) → h ∈ peers →
  Dial up order (NewMixServer k peers) = (Ok tt, s1) → Dial up' order' s1 = (Ok tt, s2) →
  ∃ i, l_map s1 !! h = Some i ∧ l_open (Close s2 order'').2 !! i = Some true.
Proof.
  intros Hk Hup Hup' Hh Hd1 Hd2. unfold Dial in *. cbn [l_peers NewMixServer] in Hd1.
  destruct (dial_prefix up order peers [] (NewMixServer k peers) (ok_new _ _)) as (s1' & Hd & Hok & Hk1 & Hp1 & Ho & Hno & _); [done|done|].
  rewrite app_nil_r, Hd1 in Hd. cbn in Hd. injection Hd as <-. cbn [l_peers l_kind l_map NewMixServer] in *.
  rewrite Hp1 in Hd2.
  destruct (dial_prefix up' order' peers [] s1 Hok) as (s2' & Hd' & Hok2 & _ & _ & Ho2 & Hno2 & Hkeep); [by rewrite Hk1|done|].
  rewrite app_nil_r, Hd2 in Hd'. cbn in Hd'. injection Hd' as <-.
  destruct (Ho h Hh) as (i & Hi1 & Hi2 & _). exists i. split; [done|]. unfold Close.
  destruct (close_loop s2 order'') as [e s3] eqn:Ec. destruct (close_same _ _ _ _ Ec) as (_ & _ & _ & _ & K5 & _). cbn.
  rewrite K5; [rewrite Hkeep by (rewrite Hi2; by eexists); done|].
  intros x _ Hx. destruct (decide (x ∈ peers)) as [Hin|Hnin].
  - destruct (Ho2 x Hin) as (j & Hj1 & _ & Hj3). congruence.
  - rewrite Hno2, Hno, lookup_empty in Hx by done. done.
Qed.

(** A server that could not reach its third peer, and then not its second one, keeps the connection to the first: Close
    stops at the connection it closed before, if it happens to come to it first. *)
Theorem C92_close_leaks :
  let up1 := λ h : string, bool_decide (h ≠ "c"%string) in let up2 := λ h : string, bool_decide (h ≠ "b"%string) in
  ∃ s1 s2, lives (NewMixServer KGrpc ["a"; "b"; "c"]%string)
      [(ODial up1 ["a"; "b"]%string, Err EDial); (ODial up2 ["b"; "a"]%string, Err EFailedClose)] s2 ∧
    Dial up1 ["a"; "b"]%string (NewMixServer KGrpc ["a"; "b"; "c"]%string) = (Err EDial, s1) ∧
    send s1 "a" = SLost ∧ send s2 "a" = SGone_out.
Proof.
  cbv zeta. eexists _, _. split; [|split; [vm_compute; reflexivity|split; [vm_compute; reflexivity|]]].
  - eapply lv_step; [|eapply lv_step; [|apply lv_nil|done]|done].
    + eapply L_dial; [|vm_compute; reflexivity]. vm_compute. first [reflexivity|apply perm_swap].
    + eapply L_dial; [|vm_compute; reflexivity]. vm_compute. first [reflexivity|apply perm_swap].
  - vm_compute. reflexivity.
Qed.
(** The hypotheses of the theorems about a dialled server: one that dialled all its peers. *)
Example C92_example :
  ∃ s, lives (NewMixServer KRrpc ["a"; "b"]%string) [(ODial (λ _, true) ["a"; "b"]%string, Ok tt)] s ∧
    l_kind s = KRrpc ∧ l_peers s = ["a"; "b"]%string ∧ is_Some (l_map s !! "a"%string) ∧ send s "a" = SGone_out ∧
    (Close s ["a"; "b"]%string).1 = None ∧ send (Close s ["a"; "b"]%string).2 "a" = SBlocked.
Proof.
  eexists. split; [|split; [|split; [|split; [|split; [|split]]]]].
  - eapply lv_step; [|apply lv_nil|done]. eapply L_dial; [|vm_compute; reflexivity]. vm_compute. first [reflexivity|apply perm_swap].
  - reflexivity.
  - reflexivity.
  - vm_compute. by eexists.
  - vm_compute. reflexivity.
  - vm_compute. reflexivity.
  - vm_compute. reflexivity.
Qed.
