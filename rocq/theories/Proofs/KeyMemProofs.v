(** Proofs about Model/KeyMem.v: what a call can change. *)
From stdpp Require Import gmap.
From Verif.Base Require Import Base.
From Verif.Model Require Import TibeCodec KeyMem.

Section proofs.
Context {K G D : Type} `{EqDecision K} `{EqDecision G} (ops : keyops K G D).
Notation state := (@KeyMem.state K G).

(** The pointers inside an exponent polynomial, and inside a slice. *)
Definition cached (o : expobj) (l : nat) : Prop := ∃ i, e_cache o !! i = Some l.
Definition elocs (o : expobj) (l : nat) : Prop := Some l ∈ e_coefs o ∨ cached o l.

Record wf (s : state) : Prop := Wf {
  wf_sc : ∀ l, next s ≤ l → sc s !! l = None;
  wf_pt : ∀ l, next s ≤ l → pt s !! l = None;
  wf_po : ∀ l, next s ≤ l → polys s !! l = None;
  wf_ex : ∀ l, next s ≤ l → exps s !! l = None;
  wf_nd : ∀ l, next s ≤ l → nodes s !! l = None;
  wf_held : ∀ l, l ∈ held s → l < next s;
  wf_poc : ∀ p cs l, polys s !! p = Some cs → Some l ∈ cs → l < next s;
  wf_exc : ∀ e o l, exps s !! e = Some o → elocs o l → l < next s;
  wf_ndc : ∀ n o, nodes s !! n = Some o → n_P o < next s ∧ n_PK o < next s ∧ n_S o < next s }.

(** s' is s after allocations (and new cache entries). *)
Record grow (s s' : state) : Prop := Grow {
  g_next : next s ≤ next s';
  g_held : held s' = held s;
  g_sc : ∀ l, l < next s → sc s' !! l = sc s !! l;
  g_pt : ∀ l, l < next s → pt s' !! l = pt s !! l;
  g_po : ∀ l, l < next s → polys s' !! l = polys s !! l;
  g_nd : ∀ l, l < next s → nodes s' !! l = nodes s !! l;
  g_ex : ∀ l o, l < next s → exps s !! l = Some o →
           ∃ o', exps s' !! l = Some o' ∧ e_coefs o' = e_coefs o ∧ e_cache o ⊆ e_cache o';
  g_exl : ∀ l o', l < next s → exps s' !! l = Some o' →
           ∃ o, exps s !! l = Some o ∧ e_coefs o' = e_coefs o ∧
             ∀ i c, e_cache o' !! i = Some c → e_cache o !! i = Some c ∨ next s ≤ c;
  g_exn : ∀ l o' c, next s ≤ l → exps s' !! l = Some o' → elocs o' c → next s ≤ c;
  g_pon : ∀ l cs c, next s ≤ l → polys s' !! l = Some cs → Some c ∈ cs → next s ≤ c }.

Lemma grow_refl s : wf s → grow s s.
Proof.
  intros W. split; try done.
  - intros l o ??. by exists o.
  - intros l o ??. exists o. split_and!; auto.
  - intros l o c ? Ho. by rewrite (wf_ex _ W) in Ho.
  - intros l o c ? Ho. by rewrite (wf_po _ W) in Ho.
Qed.
Lemma grow_trans s1 s2 s3 : grow s1 s2 → grow s2 s3 → grow s1 s3.
Proof.
  intros A B. pose proof (g_next _ _ A) as LA. pose proof (g_next _ _ B) as LB. split.
  - lia.
  - by rewrite (g_held _ _ B), (g_held _ _ A).
  - intros l ?. rewrite (g_sc _ _ B) by lia. by apply A.
  - intros l ?. rewrite (g_pt _ _ B) by lia. by apply A.
  - intros l ?. rewrite (g_po _ _ B) by lia. by apply A.
  - intros l ?. rewrite (g_nd _ _ B) by lia. by apply A.
  - intros l o ? Ho. destruct (g_ex _ _ A l o) as (o'&?&E1&S1); [done..|].
    destruct (g_ex _ _ B l o') as (o''&?&E2&S2); [lia|done|].
    exists o''. split_and!; [done|congruence|by etrans].
  - intros l o'' ? Ho. destruct (g_exl _ _ B l o'') as (o'&?&E2&S2); [lia|done|].
    destruct (g_exl _ _ A l o') as (o&?&E1&S1); [lia|done|].
    exists o. split_and!; [done|congruence|]. intros i c Hc. destruct (S2 _ _ Hc) as [Hc'|]; [|right; lia].
    eauto.
  - intros l o'' c ? Ho Hc. destruct (decide (next s2 ≤ l)) as [|].
    + pose proof (g_exn _ _ B l o'' c ltac:(assumption) Ho Hc). lia.
    + destruct (g_exl _ _ B l o'') as (o'&?&E2&S2); [lia|done|].
      destruct Hc as [Hc|(i&Hc)].
      * apply (g_exn _ _ A l o'); [lia|done|]. left. by rewrite <-E2.
      * destruct (S2 _ _ Hc) as [Hc'|]; [|lia]. apply (g_exn _ _ A l o'); [lia|done|]. right. by exists i.
  - intros l cs c ? Ho Hc. destruct (decide (next s2 ≤ l)) as [|].
    + pose proof (g_pon _ _ B l cs c ltac:(assumption) Ho Hc). lia.
    + rewrite (g_po _ _ B) in Ho by lia. eapply (g_pon _ _ A); eauto.
Qed.
Definition allocs (s s' : state) : Prop := wf s' ∧ grow s s'.
Lemma allocs_trans s1 s2 s3 : allocs s1 s2 → allocs s2 s3 → allocs s1 s3.
Proof. intros [_ A] [W B]. split; [done|]. by eapply grow_trans. Qed.

Lemma newScalar_ok v s : wf s → allocs s (newScalar v s).1.
Proof.
  intros W. split.
  - destruct W as [w1 w2 w3 w4 w5 w6 w7 w8 w9]. split; simpl.
    + intros l Hl. rewrite lookup_insert_ne by lia. apply w1; lia.
    + intros l Hl. apply w2; lia.
    + intros l Hl. apply w3; lia.
    + intros l Hl. apply w4; lia.
    + intros l Hl. apply w5; lia.
    + intros l Hl. apply w6 in Hl. lia.
    + intros p cs0 l Ho Hi. eapply w7 in Hi; [|done]. lia.
    + intros e o l Ho Hi. eapply w8 in Hi; [|done]. lia.
    + intros n o Ho. destruct (w9 n o Ho). lia.
  - pose proof (grow_refl s W) as [? ? ? ? ? ? ? ? ? ?]. split; simpl; try done; try lia.
    intros l ?. by rewrite lookup_insert_ne by lia.
Qed.
Lemma newPoint_ok v s : wf s → allocs s (newPoint v s).1.
Proof.
  intros W. split.
  - destruct W as [w1 w2 w3 w4 w5 w6 w7 w8 w9]. split; simpl.
    + intros l Hl. apply w1; lia.
    + intros l Hl. rewrite lookup_insert_ne by lia. apply w2; lia.
    + intros l Hl. apply w3; lia.
    + intros l Hl. apply w4; lia.
    + intros l Hl. apply w5; lia.
    + intros l Hl. apply w6 in Hl. lia.
    + intros p cs0 l Ho Hi. eapply w7 in Hi; [|done]. lia.
    + intros e o l Ho Hi. eapply w8 in Hi; [|done]. lia.
    + intros n o Ho. destruct (w9 n o Ho). lia.
  - pose proof (grow_refl s W) as [? ? ? ? ? ? ? ? ? ?]. split; simpl; try done; try lia.
    intros l ?. by rewrite lookup_insert_ne by lia.
Qed.
Lemma newPolyObj_ok b cs s : wf s → b ≤ next s → Forall (λ c, ∀ l, c = Some l → b ≤ l < next s) cs →
  wf (newPolyObj cs s).1 ∧ ∀ s0, next s0 = b → grow s0 s → grow s0 (newPolyObj cs s).1.
Proof.
  intros W Hb Hc. split.
  - destruct W as [w1 w2 w3 w4 w5 w6 w7 w8 w9]. split; simpl.
    + intros l Hl. apply w1; lia.
    + intros l Hl. apply w2; lia.
    + intros l Hl. rewrite lookup_insert_ne by lia. apply w3; lia.
    + intros l Hl. apply w4; lia.
    + intros l Hl. apply w5; lia.
    + intros l Hl. apply w6 in Hl. lia.
    + intros p cs0 l Ho Hi. destruct (decide (p = next s)) as [->|].
      * rewrite lookup_insert in Ho. injection Ho as <-.
        rewrite Forall_forall in Hc. specialize (Hc _ Hi l eq_refl). lia.
      * rewrite lookup_insert_ne in Ho by done. eapply w7 in Hi; [|done]. lia.
    + intros e o l Ho Hi. eapply w8 in Hi; [|done]. lia.
    + intros n o Ho. destruct (w9 n o Ho). lia.
  - intros s0 <- [g1 g2 g3 g4 g5 g6 g7 g8 g9 g10]. split; simpl; try done; try lia.
    + intros l ?. rewrite lookup_insert_ne by lia. by apply g5.
    + intros l cs' c ? Ho Hi. destruct (decide (l = next s)) as [->|].
      * rewrite lookup_insert in Ho. injection Ho as <-.
        rewrite Forall_forall in Hc. specialize (Hc _ Hi c eq_refl). lia.
      * rewrite lookup_insert_ne in Ho by done. eapply g10; eauto.
Qed.
Lemma newExpObj_ok b cs s : wf s → b ≤ next s → Forall (λ c, ∀ l, c = Some l → b ≤ l < next s) cs →
  wf (newExpObj cs s).1 ∧ ∀ s0, next s0 = b → grow s0 s → grow s0 (newExpObj cs s).1.
Proof.
  intros W Hb Hc. split.
  - destruct W as [w1 w2 w3 w4 w5 w6 w7 w8 w9]. split; simpl.
    + intros l Hl. apply w1; lia.
    + intros l Hl. apply w2; lia.
    + intros l Hl. apply w3; lia.
    + intros l Hl. rewrite lookup_insert_ne by lia. apply w4; lia.
    + intros l Hl. apply w5; lia.
    + intros l Hl. apply w6 in Hl. lia.
    + intros p cs0 l Ho Hi. eapply w7 in Hi; [|done]. lia.
    + intros e o l Ho Hi. destruct (decide (e = next s)) as [->|].
      * rewrite lookup_insert in Ho. injection Ho as <-. destruct Hi as [Hi|(i&Hi)]; simpl in Hi.
        -- rewrite Forall_forall in Hc. specialize (Hc _ Hi l eq_refl). lia.
        -- by rewrite lookup_empty in Hi.
      * rewrite lookup_insert_ne in Ho by done. eapply w8 in Hi; [|done]. lia.
    + intros n o Ho. destruct (w9 n o Ho). lia.
  - intros s0 <- [g1 g2 g3 g4 g5 g6 g7 g8 g9 g10]. split; simpl; try done; try lia.
    + intros l o ? Ho. rewrite lookup_insert_ne by lia. by apply g7.
    + intros l o ? Ho. rewrite lookup_insert_ne in Ho by lia. by apply g8.
    + intros l o' c ? Ho Hi. destruct (decide (l = next s)) as [->|].
      * rewrite lookup_insert in Ho. injection Ho as <-. destruct Hi as [Hi|(i&Hi)]; simpl in Hi.
        -- rewrite Forall_forall in Hc. specialize (Hc _ Hi c eq_refl). lia.
        -- by rewrite lookup_empty in Hi.
      * rewrite lookup_insert_ne in Ho by done. eapply g9; eauto.
Qed.
Lemma newNodeObj_ok n s : wf s → n_P n < next s ∧ n_PK n < next s ∧ n_S n < next s → allocs s (newNodeObj n s).1.
Proof.
  intros W Hn. split.
  - destruct W as [w1 w2 w3 w4 w5 w6 w7 w8 w9]. split; simpl.
    + intros l Hl. apply w1; lia.
    + intros l Hl. apply w2; lia.
    + intros l Hl. apply w3; lia.
    + intros l Hl. apply w4; lia.
    + intros l Hl. rewrite lookup_insert_ne by lia. apply w5; lia.
    + intros l Hl. apply w6 in Hl. lia.
    + intros p cs0 l Ho Hi. eapply w7 in Hi; [|done]. lia.
    + intros e o l Ho Hi. eapply w8 in Hi; [|done]. lia.
    + intros m o Ho. destruct (decide (m = next s)) as [->|].
      * rewrite lookup_insert in Ho. injection Ho as <-. lia.
      * rewrite lookup_insert_ne in Ho by done. destruct (w9 m o Ho). lia.
  - pose proof (grow_refl s W) as [? ? ? ? ? ? ? ? ? ?]. split; simpl; try done; try lia.
    intros l ?. by rewrite lookup_insert_ne by lia.
Qed.

(** Several new elements: their addresses are new, they hold the given values. *)
Lemma newScalars_ok vs s s' ls : wf s → newScalars vs s = (s', ls) →
  allocs s s' ∧ Forall (λ l, next s ≤ l < next s') ls ∧ Forall2 (λ l v, sc s' !! l = Some v) ls vs ∧
  pt s' = pt s ∧ polys s' = polys s ∧ exps s' = exps s ∧ nodes s' = nodes s.
Proof.
  revert s s' ls; induction vs as [|v vs IH]; intros s s' ls W; simpl.
  - intros [= <- <-]. split_and!; try done; split; [done|by apply grow_refl].
  - destruct (newScalars vs _) as [s2 ls2] eqn:E. intros [= <- <-].
    pose proof (newScalar_ok v s W) as A. destruct (IH _ _ _ (proj1 A) E) as (B&F&V&?&?&?&?).
    pose proof (g_next _ _ (proj2 B)) as L. simpl in L.
    split_and!; try done.
    + by eapply allocs_trans.
    + constructor; [lia|]. eapply Forall_impl; [exact F|]. simpl. lia.
    + constructor; [|done]. rewrite (g_sc _ _ (proj2 B)) by (simpl; lia). simpl. apply lookup_insert.
Qed.
Lemma newPoints_ok vs s s' ls : wf s → newPoints vs s = (s', ls) →
  allocs s s' ∧ Forall (λ l, next s ≤ l < next s') ls ∧ Forall2 (λ l v, pt s' !! l = Some v) ls vs ∧
  sc s' = sc s ∧ polys s' = polys s ∧ exps s' = exps s ∧ nodes s' = nodes s.
Proof.
  revert s s' ls; induction vs as [|v vs IH]; intros s s' ls W; simpl.
  - intros [= <- <-]. split_and!; try done; split; [done|by apply grow_refl].
  - destruct (newPoints vs _) as [s2 ls2] eqn:E. intros [= <- <-].
    pose proof (newPoint_ok v s W) as A. destruct (IH _ _ _ (proj1 A) E) as (B&F&V&?&?&?&?).
    pose proof (g_next _ _ (proj2 B)) as L. simpl in L.
    split_and!; try done.
    + by eapply allocs_trans.
    + constructor; [lia|]. eapply Forall_impl; [exact F|]. simpl. lia.
    + constructor; [|done]. rewrite (g_pt _ _ (proj2 B)) by (simpl; lia). simpl. apply lookup_insert.
Qed.
Lemma newCells_ok junk cs s s' ls : wf s → newCells junk cs s = (s', ls) →
  allocs s s' ∧ Forall (λ c, ∀ l, c = Some l → next s ≤ l < next s') ls ∧
  (∀ vs, cs = CVal <$> vs → ∃ ls', ls = Some <$> ls' ∧ Forall2 (λ l v, pt s' !! l = Some v) ls' vs) ∧
  sc s' = sc s ∧ polys s' = polys s ∧ exps s' = exps s ∧ nodes s' = nodes s.
Proof.
  revert s s' ls; induction cs as [|c cs IH]; intros s s' ls W; simpl.
  - intros [= <- <-]. split_and!; try done.
    + split; [done|by apply grow_refl].
    + intros [|??]; [|done]. intros _. by exists [].
  - destruct c as [|v|].
    + destruct (newCells junk cs s) as [s2 ls2] eqn:E. intros [= <- <-].
      destruct (IH _ _ _ W E) as (B&F&V&?&?&?&?). split_and!; try done.
      * by constructor.
      * by intros [|??].
    + destruct (newCells junk cs _) as [s2 ls2] eqn:E. intros [= <- <-].
      pose proof (newPoint_ok v s W) as A. destruct (IH _ _ _ (proj1 A) E) as (B&F&V&?&?&?&?).
      pose proof (g_next _ _ (proj2 B)) as L. simpl in L.
      split_and!; try done.
      * by eapply allocs_trans.
      * constructor; [intros ? [= <-]; lia|]. eapply Forall_impl; [exact F|]. simpl. intros c Hc l ->.
        specialize (Hc l eq_refl). lia.
      * intros [|v' vs]; [done|]. intros [= -> ->]. destruct (V vs eq_refl) as (ls'&->&F2).
        exists (next s :: ls'). split; [done|]. constructor; [|done].
        rewrite (g_pt _ _ (proj2 B)) by (simpl; lia). simpl. apply lookup_insert.
    + destruct (newCells junk cs _) as [s2 ls2] eqn:E. intros [= <- <-].
      pose proof (newPoint_ok junk s W) as A. destruct (IH _ _ _ (proj1 A) E) as (B&F&V&?&?&?&?).
      pose proof (g_next _ _ (proj2 B)) as L. simpl in L.
      split_and!; try done.
      * by eapply allocs_trans.
      * constructor; [intros ? [= <-]; lia|]. eapply Forall_impl; [exact F|]. simpl. intros c Hc l ->.
        specialize (Hc l eq_refl). lia.
      * by intros [|??].
Qed.
Lemma Forall_Some (P : nat → Prop) ls : Forall P ls → Forall (λ c, ∀ l, c = Some l → P l) (Some <$> ls).
Proof. intros F. apply Forall_fmap. eapply Forall_impl; [exact F|]. simpl. by intros x ? l [= <-]. Qed.

Lemma deref_Some {V} (h : gmap nat V) ls vs :
  Forall2 (λ l v, h !! l = Some v) ls vs → deref h (Some <$> ls) = Some vs.
Proof.
  unfold deref. intros F. apply mapM_Some. apply Forall2_fmap_l. eapply Forall2_impl; [exact F|]. done.
Qed.
Lemma deref_ext {V} (h h' : gmap nat V) cs vs :
  deref h cs = Some vs → (∀ l, Some l ∈ cs → is_Some (h !! l) → h' !! l = h !! l) → deref h' cs = Some vs.
Proof.
  unfold deref. revert vs; induction cs as [|c cs IH]; intros vs; simpl; [done|].
  intros Hv He. destruct c as [l|]; [|done]. simpl in *. destruct (h !! l) as [v|] eqn:El; [|done]. simpl in *.
  rewrite (He l) by (first [left|by rewrite El]). rewrite El. simpl.
  destruct (mapM _ cs) as [vs'|] eqn:E; [|done]. simpl in *.
  rewrite (IH vs'); [done..|]. intros l' ?. apply He. by right.
Qed.
Lemma deref_dom {V} (h : gmap nat V) cs vs l : deref h cs = Some vs → Some l ∈ cs → is_Some (h !! l).
Proof.
  unfold deref. revert vs; induction cs as [|c cs IH]; intros vs; simpl; [by rewrite elem_of_nil|].
  destruct c as [l'|]; [|done]. simpl. destruct (h !! l') as [v|] eqn:El; [|done]. simpl.
  destruct (mapM _ cs) as [vs'|] eqn:E; [|done]. intros _ [[= ->]|Hi]%elem_of_cons; [by rewrite El|].
  by eapply IH.
Qed.

(** The calls that look up GetPublicShare. *)
Lemma getPublicShare_ok e i s s' c : wf s → getPublicShare ops e i s = Some (s', c) →
  allocs s s' ∧ (∀ l, c = Some l → next s ≤ l ∨ ∃ o, exps s !! e = Some o ∧ elocs o l) ∧
  (∀ l, c = Some l → l < next s') ∧ sc s' = sc s ∧ polys s' = polys s ∧ nodes s' = nodes s.
Proof.
  intros W. unfold getPublicShare. destruct (exps s !! e) as [o|] eqn:Eo; [simpl|done].
  destruct (decide (i = 0%N)) as [->|Hi].
  { destruct (e_coefs o !! 0) as [c'|] eqn:E0; [|done]. intros [= <- <-].
    split_and!; try done; [split; [done|by apply grow_refl]|..].
    - intros l ->. right. exists o. split; [done|]. left. by apply elem_of_list_lookup_2 in E0.
    - intros l ->. eapply (wf_exc _ W); [done|]. left. by apply elem_of_list_lookup_2 in E0. }
  destruct (e_cache o !! i) as [l|] eqn:Ec.
  { intros [= <- <-]. split_and!; try done; [split; [done|by apply grow_refl]|..].
    - intros l' [= <-]. right. exists o. split; [done|]. right. by exists i.
    - intros l' [= <-]. eapply (wf_exc _ W); [done|]. right. by exists i. }
  destruct (deref (pt s) (e_coefs o)) as [cs|] eqn:Ed; [simpl|done].
  destruct (pshare ops cs i) as [v|] eqn:Ep; [simpl|done].
  intros [= <- <-]. destruct (newPoint_ok v s W) as [W1 [g1 g2 g3 g4 g5 g6 g7 g8 g9 g10]].
  simpl in *. split_and!; try done.
  - split.
    + destruct W1 as [w1 w2 w3 w4 w5 w6 w7 w8 w9]. split; simpl in *; try done.
      * intros l Hl. assert (l ≠ e). { intros ->. rewrite (wf_ex _ W) in Eo; [done|lia]. }
        rewrite lookup_insert_ne by done. by apply w4.
      * intros e' o' l Ho' Hl. destruct (decide (e' = e)) as [->|].
        -- rewrite lookup_insert in Ho'. injection Ho' as <-. destruct Hl as [Hl|(j&Hl)]; simpl in Hl.
           ++ eapply w8; [done|by left].
           ++ destruct (decide (j = i)) as [->|].
              ** rewrite lookup_insert in Hl. injection Hl as <-. lia.
              ** rewrite lookup_insert_ne in Hl by done. eapply w8; [done|]. right. by exists j.
        -- rewrite lookup_insert_ne in Ho' by done. by eapply w8.
    + split; simpl; try done.
      * intros l o0 Hl Ho0. destruct (decide (l = e)) as [->|].
        -- rewrite lookup_insert. eexists; split; [done|]. simpl. assert (o0 = o) as -> by congruence.
           split; [done|]. by apply insert_subseteq.
        -- rewrite lookup_insert_ne by done. by apply g7.
      * intros l o' Hl Ho'. destruct (decide (l = e)) as [->|].
        -- rewrite lookup_insert in Ho'. injection Ho' as <-. exists o. split_and!; [done..|]. simpl.
           intros j c Hc. destruct (decide (j = i)) as [->|].
           ++ rewrite lookup_insert in Hc. injection Hc as <-. by right.
           ++ rewrite lookup_insert_ne in Hc by done. by left.
        -- rewrite lookup_insert_ne in Ho' by done. by apply g8.
      * intros l o' c Hl Ho' Hc.
        assert (l ≠ e). { intros ->. rewrite (wf_ex _ W) in Eo; [done|lia]. }
        rewrite lookup_insert_ne in Ho' by done. by eapply g9.
  - intros l [= <-]. left. lia.
  - intros l [= <-]. lia.
Qed.
Lemma getExponentPoly_ok p s s' e ls : wf s → getExponentPoly ops p s = Some (s', (e, ls)) →
  allocs s s' ∧ next s ≤ e < next s' ∧ Forall (λ l, next s ≤ l < next s') ls ∧
  exps s' !! e = Some (mkExp (Some <$> ls) ∅) ∧
  (∃ vs, polyValue s p = Some vs ∧ Forall2 (λ l v, pt s' !! l = Some v) ls (gexp ops <$> vs)) ∧
  sc s' = sc s ∧ polys s' = polys s ∧ nodes s' = nodes s.
Proof.
  intros W. unfold getExponentPoly. destruct (polyValue s p) as [vs|] eqn:Ev; [simpl|done].
  destruct (newPoints _ s) as [s1 ls1] eqn:E1. destruct (newPoints_ok _ _ _ _ W E1) as (A&F&V&Q1&Q2&Q3&Q4).
  intros [= <- <- <-]. pose proof (g_next _ _ (proj2 A)).
  destruct (newExpObj_ok (next s) (Some <$> ls1) s1 (proj1 A)) as [W2 G2]; [done|by apply Forall_Some|].
  split_and!; simpl; try done; try lia.
  - split; [done|]. apply G2; [done|apply A].
  - eapply Forall_impl; [exact F|]. simpl. lia.
  - apply lookup_insert.
  - exists vs. done.
Qed.
Lemma getMpk_ok o s s' l : wf s → getMpk ops o s = Some (s', l) →
  allocs s s' ∧ next s ≤ l < next s' ∧ sc s' = sc s ∧ polys s' = polys s ∧ exps s' = exps s ∧ nodes s' = nodes s ∧
  ∃ v v', pt s !! n_PK o = Some v ∧ setG (codecs ops) (encG (codecs ops) v) = Some v' ∧ pt s' !! l = Some v'.
Proof.
  intros W. unfold getMpk. destruct (pt s !! n_PK o) as [v|] eqn:Ev; [simpl|done].
  destruct (setG _ _) as [v'|] eqn:E; [simpl|done]. intros [= <- <-].
  split_and!; simpl; try done; try lia; [by apply newPoint_ok|]. exists v, v'. by rewrite lookup_insert.
Qed.
Lemma vssLoop_ok o e j ls s s' r : wf s → n_PK o < next s → vssLoop ops o e j ls s = Some (s', r) →
  allocs s s' ∧ Forall (λ v, next s ≤ v_mpk v < next s') r ∧
  sc s' = sc s ∧ polys s' = polys s ∧ exps s' = exps s ∧ nodes s' = nodes s ∧
  length r = length ls ∧
  ∀ k v, r !! k = Some v → v_exp v = e ∧ v_index v = Z.of_nat (j + k) ∧ ls !! k = Some (v_value v) ∧
    ∃ g g', pt s !! n_PK o = Some g ∧ setG (codecs ops) (encG (codecs ops) g) = Some g' ∧ pt s' !! v_mpk v = Some g'.
Proof.
  revert j s s' r; induction ls as [|l ls IH]; intros j s s' r W Hpk; simpl.
  { intros [= <- <-]. split_and!; try done. split; [done|by apply grow_refl]. }
  destruct (getMpk ops o s) as [[s1 m]|] eqn:E1; [simpl|done].
  destruct (vssLoop ops o e (S j) ls s1) as [[s2 r2]|] eqn:E2; [simpl|done]. intros [= <- <-].
  destruct (getMpk_ok _ _ _ _ W E1) as (A&Hm&Q1&Q2&Q3&Q4&g&g'&Hg&Hg'&Hl).
  pose proof (g_next _ _ (proj2 A)) as L1.
  destruct (IH _ _ _ _ (proj1 A) ltac:(lia) E2) as (B&F&R1&R2&R3&R4&Hlen&Hr).
  pose proof (g_next _ _ (proj2 B)) as L2.
  split_and!; simpl; try congruence.
  - by eapply allocs_trans.
  - constructor; simpl; [lia|]. eapply Forall_impl; [exact F|]. simpl. lia.
  - intros [|k] v; simpl.
    + intros [= <-]. simpl. split_and!; [done|f_equal; lia|done|]. exists g, g'. split_and!; [done..|].
      rewrite (g_pt _ _ (proj2 B)) by lia. done.
    + intros Hk. destruct (Hr k v Hk) as (?&?&?&g2&g2'&?&?&?). split_and!; try done.
      * etrans; [done|]. f_equal. lia.
      * exists g2, g2'. split_and!; try done. rewrite <-(g_pt _ _ (proj2 A)) by done. done.
Qed.

(** What a call may change. *)
Definition writesScalar (l : label (K:=K) (G:=G) (D:=D)) (x : nat) : Prop := ∃ v, l = LWriteScalar x v.
Definition writesPoint (l : label (K:=K) (G:=G) (D:=D)) (x : nat) : Prop := ∃ v, l = LWritePoint x v.
Definition writesPoly (l : label (K:=K) (G:=G) (D:=D)) (p : nat) : Prop :=
  (∃ b, l = LPolySetBytes p b) ∨ (∃ cs, l = LWritePolyCoefs p cs).
Definition writesExp (l : label (K:=K) (G:=G) (D:=D)) (e : nat) : Prop :=
  (∃ b j, l = LExpSetBytes e b j) ∨ (∃ cs, l = LWriteExpCoefs e cs).
Definition receives (l : label (K:=K) (G:=G) (D:=D)) (n : nat) : Prop := ∃ nm v, l = LReceive n nm v.

Record frame (l : label) (s s' : state) : Prop := Frame {
  f_wf : wf s';
  f_next : next s ≤ next s';
  f_held : held s ⊆ held s';
  f_heldn : ∀ x, x ∈ held s' → x ∈ held s ∨ next s ≤ x ∨ ∃ e o, exps s !! e = Some o ∧ elocs o x;
  f_sc : ∀ x, x < next s → ¬ writesScalar l x → sc s' !! x = sc s !! x;
  f_pt : ∀ x, x < next s → ¬ writesPoint l x → pt s' !! x = pt s !! x;
  f_po : ∀ x, x < next s → ¬ writesPoly l x → polys s' !! x = polys s !! x;
  f_ex : ∀ x o, exps s !! x = Some o →
    ∃ o', exps s' !! x = Some o' ∧ (¬ writesExp l x → e_coefs o' = e_coefs o) ∧ e_cache o ⊆ e_cache o';
  f_nd : ∀ x o, nodes s !! x = Some o →
    ∃ o', nodes s' !! x = Some o' ∧ n_P o' = n_P o ∧ n_PK o' = n_PK o ∧ n_S o' = n_S o ∧
      (¬ receives l x → n_shares o' = n_shares o);
  f_scd : ∀ x, is_Some (sc s !! x) → is_Some (sc s' !! x);
  f_ptd : ∀ x, is_Some (pt s !! x) → is_Some (pt s' !! x);
  f_exl : ∀ e o c, exps s' !! e = Some o → elocs o c →
    c ∈ held s ∨ next s ≤ c ∨ ∃ o0, exps s !! e = Some o0 ∧ elocs o0 c;
  f_pol : ∀ p cs c, polys s' !! p = Some cs → Some c ∈ cs →
    c ∈ held s ∨ next s ≤ c ∨ polys s !! p = Some cs }.

Lemma frame_grow l s s' : wf s → allocs s s' → frame l s s'.
Proof.
  intros W [W' [g1 g2 g3 g4 g5 g6 g7 g8 g9 g10]]. split; try done.
  - by rewrite g2.
  - intros x. rewrite g2. by left.
  - intros x ? _. by apply g3.
  - intros x ? _. by apply g4.
  - intros x ? _. by apply g5.
  - intros x o Ho. assert (x < next s). { destruct (decide (x < next s)); [done|]. rewrite (wf_ex _ W) in Ho; [done|lia]. }
    destruct (g7 x o) as (o'&?&?&?); [done..|]. by exists o'.
  - intros x o Ho. assert (x < next s). { destruct (decide (x < next s)); [done|]. rewrite (wf_nd _ W) in Ho; [done|lia]. }
    exists o. rewrite g6; done.
  - intros x Hx. assert (x < next s). { destruct (decide (x < next s)); [done|]. rewrite (wf_sc _ W) in Hx; [by destruct Hx|lia]. }
    by rewrite g3.
  - intros x Hx. assert (x < next s). { destruct (decide (x < next s)); [done|]. rewrite (wf_pt _ W) in Hx; [by destruct Hx|lia]. }
    by rewrite g4.
  - intros e o c Ho Hc. right. destruct (decide (e < next s)).
    + destruct (g8 e o) as (o0&?&E&S0); [done..|]. destruct Hc as [Hc|(i&Hc)].
      * right. exists o0. split; [done|]. left. by rewrite <-E.
      * destruct (S0 i c Hc); [|by left]. right. exists o0. split; [done|]. right. by exists i.
    + left. eapply g9; [|done..]. lia.
  - intros p cs c Ho Hc. right. destruct (decide (p < next s)).
    + right. by rewrite <-g5.
    + left. eapply g10; [|done..]. lia.
Qed.
Lemma frame_give l s s' ls : frame l s s' →
  Forall (λ x, x < next s' ∧ (x ∈ held s ∨ next s ≤ x ∨ ∃ e o, exps s !! e = Some o ∧ elocs o x)) ls →
  frame l s (give ls s').
Proof.
  intros [W f2 f3 f4 f5 f6 f7 f8 f9 fa fb f10 f11] F. rewrite Forall_forall in F. split; simpl; try done.
  - destruct W as [w1 w2 w3 w4 w5 w6 w7 w8 w9]. split; simpl; try done.
    intros x [Hx|Hx]%elem_of_union; [|by apply w6]. rewrite elem_of_list_to_set in Hx. by apply F.
  - etrans; [exact f3|]. apply union_subseteq_r.
  - intros x [Hx|Hx]%elem_of_union; [|by apply f4]. rewrite elem_of_list_to_set in Hx. by apply F.
Qed.

Lemma copyCoefs_ok p s s' ls : wf s → copyCoefs p s = Some (s', ls) →
  allocs s s' ∧ Forall (λ l, next s ≤ l < next s') ls ∧
  (∃ vs, polyValue s p = Some vs ∧ Forall2 (λ l v, sc s' !! l = Some v) ls vs) ∧
  pt s' = pt s ∧ polys s' = polys s ∧ exps s' = exps s ∧ nodes s' = nodes s.
Proof.
  intros W. unfold copyCoefs. destruct (polyValue s p) as [vs|] eqn:Ev; [simpl|done]. intros [= E].
  destruct (newScalars_ok _ _ _ _ W E) as (A&F&V&?&?&?&?). split_and!; try done. by exists vs.
Qed.
(** A new polynomial object over new scalars. *)
Lemma newPoly_ok s s1 ls : wf s → allocs s s1 → Forall (λ l, next s ≤ l < next s1) ls →
  allocs s (newPolyObj (Some <$> ls) s1).1.
Proof.
  intros W A F. destruct (newPolyObj_ok (next s) (Some <$> ls) s1 (proj1 A)) as [W2 G2].
  - apply (g_next _ _ (proj2 A)).
  - by apply Forall_Some.
  - split; [done|]. apply G2; [done|apply A].
Qed.
Lemma vssShares_ok o n s s' r : wf s → n_PK o < next s → vssShares ops o n s = Some (s', r) →
  ∃ s0 e cs ls vs, s' = give (cs ++ e :: ls ++ (v_mpk <$> r)) s0 ∧ allocs s s0 ∧
    next s ≤ e < next s0 ∧ Forall (λ l, next s ≤ l < next s0) cs ∧ Forall (λ l, next s ≤ l < next s0) ls ∧
    Forall (λ v, next s ≤ v_mpk v < next s0) r ∧ length r = length ls ∧
    polyValue s (n_P o) = Some vs ∧
    exps s0 !! e = Some (mkExp (Some <$> cs) ∅) ∧ Forall2 (λ l v, pt s0 !! l = Some v) cs (gexp ops <$> vs) ∧
    Forall2 (λ l v, sc s0 !! l = Some v) ls (createShares ops vs n) ∧
    ∀ k v, r !! k = Some v → v_exp v = e ∧ v_index v = Z.of_nat (1 + k) ∧ ls !! k = Some (v_value v) ∧
      ∃ g g', pt s !! n_PK o = Some g ∧ setG (codecs ops) (encG (codecs ops) g) = Some g' ∧ pt s0 !! v_mpk v = Some g'.
Proof.
  intros W Hpk. unfold vssShares.
  destruct (getExponentPoly ops (n_P o) s) as [[s1 [e cs]]|] eqn:E1; [simpl|done].
  destruct (getExponentPoly_ok _ _ _ _ _ W E1) as (A&He&Fc&Ee&(vs&Ev&Vc)&Q1&Q2&Q3).
  assert (polyValue s1 (n_P o) = Some vs) as -> by (unfold polyValue in *; by rewrite Q2, Q1). simpl.
  destruct (newScalars _ s1) as [s2 ls] eqn:E2.
  destruct (newScalars_ok _ _ _ _ (proj1 A) E2) as (B&Fl&Vl&R1&R2&R3&R4).
  pose proof (g_next _ _ (proj2 A)) as L1. pose proof (g_next _ _ (proj2 B)) as L2.
  destruct (vssLoop ops o e 1 ls s2) as [[s3 r']|] eqn:E3; [simpl|done]. intros [= <- <-].
  assert (n_PK o < next s2) as Hpk2 by lia.
  destruct (vssLoop_ok _ _ _ _ _ _ _ (proj1 B) Hpk2 E3) as (C&Fr&T1&T2&T3&T4&Hlen&Hr).
  pose proof (g_next _ _ (proj2 C)) as L3.
  exists s3, e, cs, ls, vs. split_and!; try done; try lia.
  - eapply allocs_trans; [|exact C]. by eapply allocs_trans.
  - eapply Forall_impl; [exact Fc|]. simpl. lia.
  - eapply Forall_impl; [exact Fl|]. simpl. lia.
  - eapply Forall_impl; [exact Fr|]. simpl. lia.
  - by rewrite T3, R3.
  - assert (∀ l v, l ∈ cs → pt s1 !! l = Some v → pt s3 !! l = Some v) as Hp.
    { intros l v Hl Hv. rewrite Forall_forall in Fc. specialize (Fc l Hl).
      rewrite (g_pt _ _ (proj2 C)) by lia. by rewrite R1. }
    clear -Vc Hp. induction Vc as [|l v ls' vs' Hv Vc IH]; constructor.
    + apply Hp; [left|done].
    + apply IH. intros l' v' ?. apply Hp. by right.
  - by rewrite T1.
  - intros k v Hk. destruct (Hr k v Hk) as (?&?&?&g&g'&Hg&?&?). split_and!; try done. exists g, g'.
    split_and!; try done. rewrite R1 in Hg. rewrite (g_pt _ _ (proj2 A)) in Hg by lia. done.
Qed.

(** Replacing the coefficients of an object that the caller names. *)
Lemma frame_setPoly l s s1 p cs : wf s → allocs s s1 → is_Some (polys s !! p) → writesPoly l p →
  (∀ c, Some c ∈ cs → c < next s1 ∧ (c ∈ held s ∨ next s ≤ c)) → frame l s (setPoly p cs s1).
Proof.
  intros W A [cs0 Hp] Hw Hc. destruct (frame_grow l s s1 W A) as [W1 f2 f3 f4 f5 f6 f7 f8 f9 fa fb f10 f11].
  assert (p < next s) as Lp. { destruct (decide (p < next s)); [done|]. rewrite (wf_po _ W) in Hp; [done|lia]. }
  split; simpl; try done.
  - destruct W1 as [w1 w2 w3 w4 w5 w6 w7 w8 w9]. split; simpl; try done.
    + intros x Hx. rewrite lookup_insert_ne by lia. by apply w3.
    + intros q cs' x Hq Hx. destruct (decide (q = p)) as [->|].
      * rewrite lookup_insert in Hq. injection Hq as <-. by apply Hc.
      * rewrite lookup_insert_ne in Hq by done. by eapply w7.
  - intros x Hx Hn. destruct (decide (x = p)) as [->|]; [done|]. rewrite lookup_insert_ne by done. by apply f7.
  - intros q cs' c Hq Hx. destruct (decide (q = p)) as [->|].
    + rewrite lookup_insert in Hq. injection Hq as <-. destruct (Hc c Hx) as [_ [?|?]]; auto.
    + rewrite lookup_insert_ne in Hq by done. by eapply f11.
Qed.
Lemma frame_setExp l s s1 e o cs : wf s → allocs s s1 → exps s !! e = Some o → exps s1 !! e = Some o → writesExp l e →
  (∀ c, Some c ∈ cs → c < next s1 ∧ (c ∈ held s ∨ next s ≤ c)) → frame l s (setExp e (mkExp cs (e_cache o)) s1).
Proof.
  intros W A Ho Ho1 Hw Hc. destruct (frame_grow l s s1 W A) as [W1 f2 f3 f4 f5 f6 f7 f8 f9 fa fb f10 f11].
  assert (e < next s) as Lp. { destruct (decide (e < next s)); [done|]. rewrite (wf_ex _ W) in Ho; [done|lia]. }
  split; simpl; try done.
  - destruct W1 as [w1 w2 w3 w4 w5 w6 w7 w8 w9]. split; simpl; try done.
    + intros x Hx. rewrite lookup_insert_ne by lia. by apply w4.
    + intros q o' x Hq Hx. destruct (decide (q = e)) as [->|].
      * rewrite lookup_insert in Hq. injection Hq as <-. destruct Hx as [Hx|Hx]; [by apply Hc|].
        eapply w8; [exact Ho1|]. by right.
      * rewrite lookup_insert_ne in Hq by done. by eapply w8.
  - intros x ox Hx. destruct (decide (x = e)) as [->|].
    + rewrite lookup_insert. eexists; split; [done|]. split; [done|]. simpl. by assert (ox = o) as -> by congruence.
    + rewrite lookup_insert_ne by done. by apply f8.
  - intros q o' c Hq Hx. destruct (decide (q = e)) as [->|].
    + rewrite lookup_insert in Hq. injection Hq as <-. destruct Hx as [Hx|Hx].
      * destruct (Hc c Hx) as [_ [?|?]]; auto.
      * right. right. exists o. split; [done|]. by right.
    + rewrite lookup_insert_ne in Hq by done. by eapply f10.
Qed.
Lemma newNode_ok p s s' n : wf s → newNode ops p s = Some (s', n) →
  ∃ s0 ls P g k vs v, s' = give [n] s0 ∧ allocs s s0 ∧ next s ≤ n < next s0 ∧
    nodes s0 !! n = Some (mkNode P g k ∅) ∧
    Forall (λ l, next s ≤ l < next s0) ls ∧ next s ≤ P < next s0 ∧ next s ≤ g < next s0 ∧ next s ≤ k < next s0 ∧
    n ∉ ls ∧ P ∉ ls ∧ g ∉ ls ∧ k ∉ ls ∧ n ≠ P ∧ n ≠ g ∧ n ≠ k ∧ P ≠ g ∧ P ≠ k ∧ g ≠ k ∧
    polyValue s p = Some vs ∧ vs !! 0 = Some v ∧ polys s0 !! P = Some (Some <$> ls) ∧
    Forall2 (λ l v, sc s0 !! l = Some v) ls vs ∧ sc s0 !! k = Some v ∧ pt s0 !! g = Some (gexp ops v) ∧
    exps s0 = exps s ∧ (∀ q, q ≠ P → polys s0 !! q = polys s !! q).
Proof.
  intros W. unfold newNode. destruct (copyCoefs p s) as [[s1 ls]|] eqn:E1; [simpl|done].
  destruct (copyCoefs_ok _ _ _ _ W E1) as (A&F&(vs&Ev&V)&Q1&Q2&Q3&Q4).
  destruct (ls !! 0) as [l|] eqn:El; [simpl|done].
  destruct (sc s1 !! l) as [v|] eqn:Esv; [simpl|done]. intros [= <- <-].
  pose proof (g_next _ _ (proj2 A)) as L1.
  pose proof (newPoly_ok s s1 ls W A F) as B. simpl in B.
  pose proof (newScalar_ok v _ (proj1 B)) as C. simpl in C.
  pose proof (newPoint_ok (gexp ops v) _ (proj1 C)) as E. simpl in E.
  rewrite Forall_forall in F.
  assert (∀ x, next s1 ≤ x → x ∉ ls) as Nin. { intros x Hx Hi. specialize (F x Hi). lia. }
  eexists _, ls, (next s1), (S (S (next s1))), (S (next s1)), vs, v. split; [reflexivity|]. simpl.
  split_and!; simpl; try lia; try (apply Nin; lia); try done.
  - eapply allocs_trans; [exact B|]. eapply allocs_trans; [exact C|]. eapply allocs_trans; [exact E|].
    match type of E with allocs _ ?s3 =>
      assert (allocs s3 (newNodeObj (mkNode (next s1) (S (S (next s1))) (S (next s1)) ∅) s3).1) as Q end.
    { apply newNodeObj_ok; [apply E|]. simpl. lia. }
    exact Q.
  - by rewrite lookup_insert.
  - apply Forall_forall. intros x Hx. specialize (F x Hx). lia.
  - eapply Forall2_lookup_l in V; [|exact El]. destruct V as (v'&Hv'&Hs). congruence.
  - by rewrite lookup_insert.
  - assert (∀ l v', l ∈ ls → sc s1 !! l = Some v' → <[S (next s1):=v]> (sc s1) !! l = Some v') as Hp.
    { intros l' v' Hl Hv. specialize (F _ Hl). by rewrite lookup_insert_ne by lia. }
    clear -V Hp. induction V as [|l v' ls' vs' Hv V IH]; constructor.
    + apply Hp; [left|done].
    + apply IH. intros l' v'' ?. apply Hp. by right.
  - by rewrite lookup_insert.
  - by rewrite lookup_insert.
  - intros q Hq. rewrite lookup_insert_ne by done. by rewrite Q2.
Qed.

Lemma holds_in (s : state) ls x : holds s ls = true → x ∈ ls → x ∈ held s.
Proof. unfold holds. rewrite bool_decide_eq_true. rewrite Forall_forall. auto. Qed.

Lemma step_frame l s s' r : wf s → step ops l s = Some (s', r) → frame l s s'.
Proof.
  intros W. unfold step. destruct (holds s (args l)) eqn:Hh; [|done].
  assert (∀ x, x ∈ args l → x ∈ held s) as Hin by (intros x; by apply holds_in). clear Hh.
  assert (allocs s s) as A0 by (split; [done|by apply grow_refl]).
  destruct l; simpl.
  - (* LNewPoly *)
    destruct (newScalars vs s) as [s1 ls] eqn:E. intros [= <- <-].
    destruct (newScalars_ok _ _ _ _ W E) as (A&F&_). pose proof (newPoly_ok s s1 ls W A F) as B. simpl in B.
    pose proof (g_next _ _ (proj2 A)). apply frame_give; [by apply frame_grow|]. constructor; simpl; [lia|].
    eapply Forall_impl; [exact F|]. simpl. intros x ?. split; [lia|]. right. left. lia.
  - (* LCopy *)
    destruct (copyCoefs p s) as [[s1 ls]|] eqn:E; [simpl|done]. intros [= <- <-].
    destruct (copyCoefs_ok _ _ _ _ W E) as (A&F&_). pose proof (newPoly_ok s s1 ls W A F) as B. simpl in B.
    pose proof (g_next _ _ (proj2 A)). apply frame_give; [by apply frame_grow|]. constructor; simpl; [lia|].
    eapply Forall_impl; [exact F|]. simpl. intros x ?. split; [lia|]. right. left. lia.
  - (* LCoeffs *)
    destruct (copyCoefs p s) as [[s1 ls]|] eqn:E; [simpl|done]. intros [= <- <-].
    destruct (copyCoefs_ok _ _ _ _ W E) as (A&F&_).
    apply frame_give; [by apply frame_grow|].
    eapply Forall_impl; [exact F|]. simpl. intros x ?. split; [lia|]. right. left. lia.
  - (* LSecret *)
    destruct (polys s !! p) as [cs|]; [simpl|done]. destruct (cs !! 0) as [[c|]|]; [simpl|done..].
    destruct (sc s !! c) as [v|]; [simpl|done]. intros [= <- <-].
    pose proof (newScalar_ok v s W) as B. simpl in B.
    apply frame_give; [by apply frame_grow|]. constructor; simpl; [|done]. split; [lia|]. right. left. lia.
  - (* LEval *)
    destruct (polyValue s p) as [vs|]; [simpl|done]. intros [= <- <-].
    pose proof (newScalar_ok (evalp ops vs i) s W) as B. simpl in B.
    apply frame_give; [by apply frame_grow|]. constructor; simpl; [|done]. split; [lia|]. right. left. lia.
  - (* LGetExponentPoly *)
    destruct (getExponentPoly ops p s) as [[s1 [e ls]]|] eqn:E; [simpl|done]. intros [= <- <-].
    destruct (getExponentPoly_ok _ _ _ _ _ W E) as (A&He&F&_).
    apply frame_give; [by apply frame_grow|]. constructor; simpl; [split; [lia|right; left; lia]|].
    eapply Forall_impl; [exact F|]. simpl. intros x ?. split; [lia|]. right. left. lia.
  - (* LPolySetBytes *)
    unfold polySetBytes. destruct (polys s !! p) as [cs|] eqn:Ep; [simpl|done].
    assert (is_Some (polys s !! p)) as Hp by (by rewrite Ep).
    assert (∀ b, writesPoly (LPolySetBytes p b) p) as Hwp by (intros b; left; by exists b).
    destruct (decide (length bts < 4)); simpl; [intros [= <- <-]; by apply frame_grow|].
    destruct (decide _); simpl.
    { intros [= <- <-]. apply frame_setPoly; try done. intros c Hc. apply elem_of_replicate in Hc. by destruct Hc. }
    destruct (newScalars _ s) as [s1 ls] eqn:E. intros [= <- <-].
    destruct (newScalars_ok _ _ _ _ W E) as (A&F&_).
    apply frame_give.
    + apply frame_setPoly; try done. intros c Hc. apply elem_of_list_fmap in Hc. destruct Hc as (x&[= ->]&Hx).
      rewrite Forall_forall in F. specialize (F x Hx). lia.
    + eapply Forall_impl; [exact F|]. simpl. intros x ?. split; [lia|]. right. left. lia.
  - (* LPolyEqual *)
    destruct (polys s !! p); [simpl|done]. destruct (polys s !! q); [simpl|done].
    destruct (equalCoefs _ _ _); [simpl|done]. intros [= <- <-]. by apply frame_grow.
  - (* LGetPublicShare *)
    destruct (getPublicShare ops e i s) as [[s1 c]|] eqn:E; [simpl|done]. intros [= <- <-].
    destruct (getPublicShare_ok _ _ _ _ _ W E) as (A&Hc&Hc2&_).
    apply frame_give; [by apply frame_grow|]. destruct c as [l|]; [|constructor]. constructor; [|constructor].
    split; [by apply Hc2|]. destruct (Hc l eq_refl) as [?|(o&?&?)]; [by auto|]. right. right. by exists e, o.
  - (* LVerifyShare *)
    destruct (sc s !! x); [simpl|done]. destruct (getPublicShare ops e i s) as [[s1 [c|]]|] eqn:E; [simpl|done..].
    destruct (pt s1 !! c); [simpl|done]. intros [= <- <-].
    destruct (getPublicShare_ok _ _ _ _ _ W E) as (A&_). by apply frame_grow.
  - (* LExpSetBytes *)
    unfold expSetBytes. destruct (exps s !! e) as [o|] eqn:Ep; [simpl|done].
    assert (∀ b j, writesExp (LExpSetBytes e b j) e) as Hwp by (intros b j; left; by exists b, j).
    destruct (decide (length bts < 4)); simpl; [intros [= <- <-]; by apply frame_grow|].
    destruct (decide _); simpl; [intros [= <- <-]; by apply frame_grow|].
    destruct (exp_loop _ _ _ _) as [ok cells] eqn:El.
    destruct (newCells _ cells s) as [s1 ls] eqn:E. intros [= <- <-].
    destruct (newCells_ok _ _ _ _ _ W E) as (A&F&_&_&_&Q&_).
    rewrite Forall_forall in F.
    apply frame_give.
    + apply frame_setExp; try done; [by rewrite Q|]. intros c Hc. specialize (F _ Hc c eq_refl). lia.
    + apply Forall_forall. intros x Hx. apply elem_of_list_omap in Hx. destruct Hx as (c&Hc&Hx). simpl in Hx.
      specialize (F _ Hc x Hx). simpl. split; [lia|]. right. left. lia.
  - (* LExpEqual *)
    destruct (exps s !! e); [simpl|done]. destruct (exps s !! f); [simpl|done].
    destruct (equalCoefs _ _ _); [simpl|done]. intros [= <- <-]. by apply frame_grow.
  - (* LNewNode *)
    destruct (newNode ops p s) as [[s1 n]|] eqn:E; [simpl|done]. intros [= <- <-].
    destruct (newNode_ok _ _ _ _ W E) as (s0&ls&P&g&k&vs&v&->&A&Hn&_).
    apply frame_give; [by apply frame_grow|]. constructor; [|constructor]. split; [lia|]. right. left. lia.
  - (* LMpk *)
    destruct (nodes s !! n) as [o|] eqn:Eo; [simpl|done].
    destruct (getMpk ops o s) as [[s1 m]|] eqn:E; [simpl|done]. intros [= <- <-].
    destruct (getMpk_ok _ _ _ _ W E) as (A&Hm&_).
    apply frame_give; [by apply frame_grow|]. constructor; [|constructor]. split; [lia|]. right. left. lia.
  - (* LVssShares *)
    destruct (nodes s !! n) as [o|] eqn:Eo; [simpl|done].
    destruct (vssShares ops o k s) as [[s1 rr]|] eqn:E; [simpl|done]. intros [= <- <-].
    pose proof (wf_ndc _ W _ _ Eo) as (_&Hpk&_).
    destruct (vssShares_ok _ _ _ _ _ W Hpk E) as (s0&e&cs&ls&vs&->&A&He&Fc&Fl&Fr&_).
    apply frame_give; [by apply frame_grow|]. apply Forall_app. split.
    { eapply Forall_impl; [exact Fc|]. simpl. intros x ?. split; [lia|]. right. left. lia. }
    constructor; [split; [lia|right; left; lia]|]. apply Forall_app. split.
    { eapply Forall_impl; [exact Fl|]. simpl. intros x ?. split; [lia|]. right. left. lia. }
    apply Forall_fmap. eapply Forall_impl; [exact Fr|]. simpl. intros x ?. split; [lia|]. right. left. lia.
  - (* LDecrypter *)
    destruct (nodes s !! n) as [o|] eqn:Eo; [simpl|done]. destruct (sc s !! n_S o); [simpl|done].
    intros [= <- <-]. by apply frame_grow.
  - (* LReceive *)
    destruct (nodes s !! n) as [o|] eqn:Eo; [simpl|done]. intros [= <- <-].
    assert (n < next s) as Ln. { destruct (decide (n < next s)); [done|]. rewrite (wf_nd _ W) in Eo; [done|lia]. }
    destruct (frame_grow (LReceive n name v) s s W A0) as [W1 f2 f3 f4 f5 f6 f7 f8 f9 fa fb f10 f11].
    split; simpl; try done.
    + destruct W1 as [w1 w2 w3 w4 w5 w6 w7 w8 w9]. split; simpl; try done.
      * intros x Hx. rewrite lookup_insert_ne by lia. by apply w5.
      * intros m o' Ho'. destruct (decide (m = n)) as [->|].
        -- rewrite lookup_insert in Ho'. injection Ho' as <-. simpl. by apply w9 in Eo.
        -- rewrite lookup_insert_ne in Ho' by done. by eapply w9.
    + intros x ox Hx. destruct (decide (x = n)) as [->|].
      * rewrite lookup_insert. eexists; split; [done|]. simpl. assert (ox = o) as -> by congruence.
        split_and!; try done. intros []. by exists name, v.
      * rewrite lookup_insert_ne by done. by apply f9.
  - (* LVote *)
    destruct (nodes s !! n) as [o|] eqn:Eo; [simpl|done].
    destruct (n_shares o !! name) as [v|]; [|intros [= <- <-]; by apply frame_grow].
    destruct (sc s !! v_value v); [simpl|done]. intros [= <- <-]. by apply frame_grow.
  - (* LValidate *)
    destruct (nodes s !! n) as [o|] eqn:Eo; [simpl|done].
    destruct (n_shares o !! name) as [v|]; [|intros [= <- <-]; by apply frame_grow].
    destruct (getPublicShare _ _ _ s) as [[s1 [c|]]|] eqn:E; [simpl|done..].
    destruct (pt s1 !! c); [simpl|done]. intros [= <- <-].
    destruct (getPublicShare_ok _ _ _ _ _ W E) as (A&_). by apply frame_grow.
  - (* LEncryptFor *)
    destruct (nodes s !! n) as [o|] eqn:Eo; [simpl|done].
    destruct (n_shares o !! name) as [v|]; [|intros [= <- <-]; by apply frame_grow].
    destruct (pt s !! v_mpk v); [simpl|done]. intros [= <- <-]. by apply frame_grow.
  - (* LWriteScalar *)
    destruct (sc s !! l) as [v0|] eqn:E; [simpl|done]. intros [= <- <-].
    assert (l < next s) as Ll. { destruct (decide (l < next s)); [done|]. rewrite (wf_sc _ W) in E; [done|lia]. }
    destruct (frame_grow (LWriteScalar l v) s s W A0) as [W1 f2 f3 f4 f5 f6 f7 f8 f9 fa fb f10 f11].
    split; simpl; try done.
    + destruct W1 as [w1 w2 w3 w4 w5 w6 w7 w8 w9]. split; simpl; try done.
      intros x Hx. rewrite lookup_insert_ne by lia. by apply w1.
    + intros x Hx Hn. destruct (decide (x = l)) as [->|]; [destruct Hn; by exists v|]. by rewrite lookup_insert_ne.
    + intros x Hx. destruct (decide (x = l)) as [->|]; [by rewrite lookup_insert|]. by rewrite lookup_insert_ne.
  - (* LWritePoint *)
    destruct (pt s !! l) as [v0|] eqn:E; [simpl|done]. intros [= <- <-].
    assert (l < next s) as Ll. { destruct (decide (l < next s)); [done|]. rewrite (wf_pt _ W) in E; [done|lia]. }
    destruct (frame_grow (LWritePoint l v) s s W A0) as [W1 f2 f3 f4 f5 f6 f7 f8 f9 fa fb f10 f11].
    split; simpl; try done.
    + destruct W1 as [w1 w2 w3 w4 w5 w6 w7 w8 w9]. split; simpl; try done.
      intros x Hx. rewrite lookup_insert_ne by lia. by apply w2.
    + intros x Hx Hn. destruct (decide (x = l)) as [->|]; [destruct Hn; by exists v|]. by rewrite lookup_insert_ne.
    + intros x Hx. destruct (decide (x = l)) as [->|]; [by rewrite lookup_insert|]. by rewrite lookup_insert_ne.
  - (* LWritePolyCoefs *)
    destruct (polys s !! p) as [cs|] eqn:E; [simpl|done]. destruct (decide _); [|done]. intros [= <- <-].
    apply frame_setPoly; try done; [by right; exists ls|]. intros c Hc.
    assert (c ∈ held s) as Hch. { apply Hin. simpl. right. apply elem_of_list_omap. by exists (Some c). }
    split; [by apply (wf_held _ W)|by left].
  - (* LWriteExpCoefs *)
    destruct (exps s !! e) as [o|] eqn:E; [simpl|done]. destruct (decide _); [|done]. intros [= <- <-].
    apply frame_setExp; try done; [by right; exists ls|]. intros c Hc.
    assert (c ∈ held s) as Hch. { apply Hin. simpl. right. apply elem_of_list_omap. by exists (Some c). }
    split; [by apply (wf_held _ W)|by left].
Qed.
Lemma wf_init : wf init.
Proof. split; simpl; intros; rewrite ?lookup_empty in *; try done; set_solver. Qed.
Lemma run_wf ls s s' rs : wf s → run ops ls s = Some (s', rs) → wf s'.
Proof.
  revert s rs; induction ls as [|l ls IH]; intros s rs W; simpl; [by intros [= <- <-]|].
  destruct (step ops l s) as [[s1 r]|] eqn:E; [simpl|done].
  destruct (run ops ls s1) as [[s2 rs2]|] eqn:E2; [simpl|done]. intros [= <- <-].
  eapply IH; [|exact E2]. by eapply f_wf, step_frame.
Qed.
Lemma step_args l s s' r x : step ops l s = Some (s', r) → x ∈ args l → x ∈ held s.
Proof. unfold step. destruct (holds s (args l)) eqn:Hh; [|done]. intros _. by apply holds_in. Qed.
End proofs.
