(** C54: method names. *)
From Coq Require Import Ascii.
From Verif.Base Require Import Base Strs.
From Verif.Model Require Import Services.
From stdpp Require Import gmap.

Local Open Scope string_scope.

(** Specification vocabulary. *)
Definition no_slash (s : string) : Prop := str_all (λ x, negb (Ascii.eqb x "/"%char)) s = true.
Definition starts_with_slash (s : string) : Prop := ∃ r, s = String "/" r.
(** [parts name svc m]: name is svc/m or /svc/m, where m has no slash and at most one leading slash
    is dropped. *)
Definition parts (name svc m : string) : Prop :=
  no_slash m ∧ (name = "/" +:+ svc +:+ "/" +:+ m ∨
                (name = svc +:+ "/" +:+ m ∧ svc ≠ "" ∧ ¬ starts_with_slash svc)).

Lemma last_none s : LastIndex s = None ↔ no_slash s.
Proof.
  unfold no_slash. induction s as [|x s IH]; simpl; [done|]. unfold slash.
  destruct (LastIndex s); destruct (Ascii.eqb x "/"); simpl; try (split; [done|]).
  - done.
  - intros H. apply IH in H. done.
  - done.
  - rewrite <-IH. done.
Qed.
Lemma last_app svc m : no_slash m → LastIndex (svc +:+ "/" +:+ m) = Some (String.length svc).
Proof.
  intros Hm. apply last_none in Hm. induction svc as [|x s IH]; strs; simpl.
  - by rewrite Hm.
  - by rewrite IH.
Qed.
Lemma last_some s i : LastIndex s = Some i → ∃ svc m, s = svc +:+ "/" +:+ m ∧ no_slash m.
Proof.
  revert i. induction s as [|x s IH]; intros i Hi; simpl in Hi; [done|].
  destruct (LastIndex s) as [j|] eqn:E.
  - destruct (IH j eq_refl) as (svc & m & -> & Hm). exists (String x svc), m. by strs.
  - destruct (Ascii.eqb_spec x slash) as [->|]; [|done]. apply last_none in E. exists "", s. done.
Qed.
Lemma str_take_app a b : str_take (String.length a) (a +:+ b) = a.
Proof. induction a as [|x a IH]; strs; simpl; [by destruct b|]. by rewrite IH. Qed.
Lemma str_drop_app a b : str_drop (String.length a + 1) (a +:+ "/" +:+ b) = b.
Proof. induction a as [|x a IH]; strs; simpl; [by destruct b|]. exact IH. Qed.

(** A name resolves to (svc, m) exactly if it is that service and method. *)
Theorem C54_resolves name svc m : extractMethodInfo name = Ok (svc, m) ↔ parts name svc m.
Proof.
  unfold extractMethodInfo. split.
  - destruct (LastIndex (drop_slash name)) as [pos|] eqn:E; [|done].
    intros H. destruct (last_some _ _ E) as (svc' & m' & Hn & Hm'). rewrite Hn in E, H.
    rewrite last_app in E by done. injection E as <-.
    rewrite str_take_app, str_drop_app in H. injection H as -> ->. split; [done|].
    destruct name as [|x name]; [by destruct svc|]. unfold drop_slash in Hn.
    destruct (Ascii.eqb_spec x slash) as [->|Hx].
    + left. strs. by rewrite Hn.
    + right. split; [done|]. split.
      * intros ->. strs. injection Hn as -> _. done.
      * intros [r ->]. strs. injection Hn as -> _. done.
  - intros [Hm [->|[-> [Hne Hs]]]].
    + assert (drop_slash ("/" +:+ svc +:+ "/" +:+ m) = svc +:+ "/" +:+ m) as -> by done.
      rewrite last_app by done. rewrite str_take_app, str_drop_app. done.
    + assert (drop_slash (svc +:+ "/" +:+ m) = svc +:+ "/" +:+ m) as ->.
      { destruct svc as [|x svc]; [done|]. strs. unfold drop_slash.
        destruct (Ascii.eqb_spec x slash) as [->|]; [|done]. destruct Hs. by exists svc. }
      rewrite last_app by done. rewrite str_take_app, str_drop_app. done.
Qed.

(** ... and to nothing else. *)
Theorem C54_unparsable name :
  (¬ ∃ svc m, parts name svc m) ↔ extractMethodInfo name = Err InvalidArgument.
Proof.
  split.
  - intros H. destruct (extractMethodInfo name) as [[svc m]|e|] eqn:E.
    + destruct H. exists svc, m. by apply C54_resolves.
    + unfold extractMethodInfo in E. destruct (LastIndex _); simplify_eq; done.
    + unfold extractMethodInfo in E. by destruct (LastIndex _).
  - intros H (svc & m & Hp). apply C54_resolves in Hp. congruence.
Qed.

(** In particular: it resolves iff after dropping one leading slash it still contains a slash. *)
Theorem C54_resolves_iff name :
  (∃ svc m, extractMethodInfo name = Ok (svc, m)) ↔
  (∃ r, name = "/" +:+ r ∧ ¬ no_slash r) ∨ (¬ starts_with_slash name ∧ ¬ no_slash name).
Proof.
  unfold extractMethodInfo.
  assert ((∃ svc m, match LastIndex (drop_slash name) with
    None => Err InvalidArgument | Some pos => Ok (str_take pos (drop_slash name), str_drop (pos + 1) (drop_slash name))
    end = Ok (svc, m)) ↔ ¬ no_slash (drop_slash name)) as ->.
  { rewrite <-last_none. destruct (LastIndex _); split; [done|intros _; by eexists _, _|by intros (? & ? & ?)|done]. }
  destruct name as [|x name].
  - simpl. split; [intros H; by destruct H|intros [(r & Hr & _)|[_ H]]; [done|by destruct H]].
  - unfold drop_slash. destruct (Ascii.eqb_spec x slash) as [->|Hx].
    + split.
      * intros H. left. by exists name.
      * intros [(r & Hr & Hs)|[Hs _]]; [strs; by injection Hr as ->|]. destruct Hs. by exists name.
    + split.
      * intros H. right. split; [|done]. intros [r Hr]. by injection Hr as -> _.
      * intros [(r & Hr & _)|[_ H]]; [|done]. strs. by injection Hr as -> _.
Qed.

Section lookup.
Context {srv hnd : Type}.

(** Lookup finds a method exactly if service and method are registered; otherwise the error is
    InvalidArgument; it never panics. *)
Theorem C54_lookup (s : gmap string (ServiceDesc srv hnd)) name d md :
  getServiceAndMethodDesc s name = Ok (d, md) ↔
  ∃ svc m, parts name svc m ∧ s !! svc = Some d ∧ sd_methods d !! m = Some md.
Proof.
  unfold getServiceAndMethodDesc. split.
  - destruct (extractMethodInfo name) as [[svc m]|e|] eqn:E; simpl; [|done|done].
    apply C54_resolves in E. destruct (s !! svc) as [d'|] eqn:E1; [|done].
    destruct (sd_methods d' !! m) as [md'|] eqn:E2; [|done]. intros [= -> ->].
    by exists svc, m.
  - intros (svc & m & Hp & H1 & H2). apply C54_resolves in Hp. rewrite Hp. simpl. by rewrite H1, H2.
Qed.
Theorem C54_lookup_fails (s : gmap string (ServiceDesc srv hnd)) name :
  (¬ ∃ d md, getServiceAndMethodDesc s name = Ok (d, md)) →
  getServiceAndMethodDesc s name = Err InvalidArgument.
Proof.
  unfold getServiceAndMethodDesc. destruct (extractMethodInfo name) as [[svc m]|e|] eqn:E; simpl.
  - destruct (s !! svc) as [d'|]; [|done]. destruct (sd_methods d' !! m) as [md'|]; [|done].
    intros H. destruct H. by eexists _, _.
  - intros _. unfold extractMethodInfo in E. destruct (LastIndex _); simplify_eq; done.
  - unfold extractMethodInfo in E. by destruct (LastIndex _).
Qed.

(** A service made from a gRPC description: its k-th method (the last one of that name) is found under
    both spellings, with its own handler and the given server; nothing else is. *)
Theorem C54_single_service svcname methods (h : srv) name d md :
  getServiceAndMethodDesc (hnd:=hnd) (SingleServiceFromGRPCServiceDesc svcname methods h) name = Ok (d, md) ↔
  ∃ m i, parts name svcname m ∧ methods !! i = Some (m, md_handler md) ∧
    (∀ j h', i < j → methods !! j ≠ Some (m, h')) ∧ md_name md = m ∧
    d = {| sd_server := h; sd_methods := sd_methods d |} ∧
    SingleServiceFromGRPCServiceDesc svcname methods h !! svcname = Some d.
Proof.
  assert (∀ ms m md', foldl (λ acc '(n, h0), <[n := {| md_name := n; md_handler := h0 |}]> acc)
            (∅ : gmap string (MethodDesc hnd)) ms !! m = Some md' ↔
          ∃ i, ms !! i = Some (m, md_handler md') ∧ (∀ j h', i < j → ms !! j ≠ Some (m, h')) ∧
          md_name md' = m) as Hfold.
  { intros ms m md'. induction ms as [|[n h0] ms IH] using rev_ind.
    - simpl. rewrite lookup_empty. split; [done|]. by intros (i & Hi & _).
    - rewrite foldl_app. simpl. destruct (decide (n = m)) as [->|Hn].
      + rewrite lookup_insert. split.
        * intros [= <-]. exists (length ms). simpl. rewrite lookup_app_r, Nat.sub_diag by lia. split; [done|].
          split; [|done]. intros j h' Hj. rewrite lookup_ge_None_2; [done|]. rewrite app_length. simpl. lia.
        * intros (i & Hi & Hlast & Hname). destruct (decide (i = length ms)) as [->|].
          { rewrite lookup_app_r, Nat.sub_diag in Hi by lia. injection Hi as ->. destruct md'. simpl in *. by subst. }
          assert (i < length ms) as Hlt.
          { apply lookup_lt_Some in Hi. rewrite app_length in Hi. simpl in Hi. lia. }
          destruct (Hlast (length ms) h0 Hlt). by rewrite lookup_app_r, Nat.sub_diag by lia.
      + rewrite lookup_insert_ne by done. rewrite IH. split.
        * intros (i & Hi & Hlast & Hname). exists i. split; [by apply lookup_app_l_Some|]. split; [|done].
          intros j h' Hj Hj'. destruct (decide (j < length ms)).
          { rewrite lookup_app_l in Hj' by lia. by apply (Hlast j h'). }
          rewrite lookup_app_r in Hj' by lia. apply elem_of_list_lookup_2, elem_of_list_singleton in Hj'. congruence.
        * intros (i & Hi & Hlast & Hname). exists i.
          destruct (decide (i < length ms)).
          { rewrite lookup_app_l in Hi by lia. split; [done|]. split; [|done].
            intros j h' Hj Hj'. apply (Hlast j h' Hj). by apply lookup_app_l_Some. }
          rewrite lookup_app_r in Hi by lia. apply elem_of_list_lookup_2, elem_of_list_singleton in Hi. congruence. }
  rewrite C54_lookup. unfold SingleServiceFromGRPCServiceDesc. split.
  - intros (svc & m & Hp & Hs & Hm). apply lookup_singleton_Some in Hs as [<- <-]. simpl in Hm.
    apply Hfold in Hm as (i & Hi & Hl & Hn). exists m, i. simpl. rewrite lookup_singleton. done.
  - intros (m & i & Hp & Hi & Hl & Hn & Hd & Hs). exists svcname, m. split; [done|].
    pose proof Hs as Hs'. apply lookup_singleton_Some in Hs' as [_ <-]. split; [done|]. simpl.
    apply Hfold. by exists i.
Qed.
End lookup.

(** Non-trivial instances. *)
Example C54_example :
  extractMethodInfo "/a.b/Svc/Do" = Ok ("a.b/Svc", "Do") ∧
  extractMethodInfo "a.b.Svc/Do" = Ok ("a.b.Svc", "Do") ∧
  extractMethodInfo "/Do" = Err InvalidArgument ∧
  extractMethodInfo "//Do" = Ok ("", "Do") ∧
  parts "/a.b.Svc/Do" "a.b.Svc" "Do" ∧
  ∃ d, getServiceAndMethodDesc (SingleServiceFromGRPCServiceDesc "S" [("A", 1); ("B", 2); ("A", 3)] tt) "/S/A"
         = Ok (d, {| md_name := "A"; md_handler := 3 |}).
Proof.
  repeat split; try (by vm_compute).
  - left. done.
  - eexists. vm_compute. reflexivity.
Qed.
