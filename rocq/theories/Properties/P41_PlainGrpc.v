(** C96: the plain gRPC transport. *)
From stdpp Require Import gmap.
From Verif.Base Require Import Base Strs.
From Verif.Model Require Import Services PlainGrpc.
From Verif.Properties Require Import P15_Services.

(** Specification vocabulary. *)
(** The handler that a list of methods gives to a name: the last one. *)
Definition last_method {raw} (methods : list (string * raw)) (m : string) (h : raw) : Prop :=
  ∃ i, methods !! i = Some (m, h) ∧ ∀ j h', i < j → methods !! j ≠ Some (m, h').
(** The loops over the maps of a server's services, in some order: [l] and the method lists are the maps' entries. *)
Definition iterates {srv hnd} (services : gmap string (ServiceDesc srv hnd))
    (ranges : list (string * srv * list (string * MethodDesc hnd))) : Prop :=
  ∃ l, l ≡ₚ map_to_list services ∧
    Forall2 (λ x y, y.1.1 = x.1 ∧ y.1.2 = sd_server x.2 ∧ y.2 ≡ₚ map_to_list (sd_methods x.2)) l ranges.

(** ** The loops *)
Section single.
Context {srv raw : Type}.
Lemma single_store (ms : list (string * raw)) :
  ∃ z mdscs, foldl single_step ([None], ∅) ms = (z :: (Some <$> ms), mdscs) ∧
    ∀ m d, mdscs !! m = Some d ↔
      ∃ i h, ms !! i = Some (m, h) ∧ (∀ j h', i < j → ms !! j ≠ Some (m, h')) ∧ d = {| md_name := m; md_handler := S i |}.
Proof.
  induction ms as [|[n h] ms IH] using rev_ind.
  - exists None, ∅. split; [done|]. intros m d. rewrite lookup_empty. split; [done|]. intros (i & h & Hi & _). done.
  - destruct IH as (z & mdscs & E & Hm). exists (Some (n, h)), (<[n := {| md_name := n; md_handler := S (length ms) |}]> mdscs).
    rewrite foldl_app, E. split.
    { assert (((Some (n, h) :: (Some <$> ms)) ++ [Some (n, h)]) !! S (length ms) = Some (Some (n, h))) as El.
      { rewrite lookup_app_r; cbn [length]; rewrite fmap_length; [|lia]. by rewrite Nat.sub_diag. }
      cbn [foldl]. unfold single_step, alloc. change (<[0:=Some (n, h)]> (z :: (Some <$> ms))) with (Some (n, h) :: (Some <$> ms)).
      replace (length (Some (n, h) :: (Some <$> ms))) with (S (length ms)) by (cbn [length]; by rewrite fmap_length).
      change (default None ((Some (n, h) :: (Some <$> ms)) !! 0)) with (Some (n, h)). rewrite El. by rewrite fmap_app. }
    intros m d. destruct (decide (m = n)) as [->|Hne].
    + rewrite lookup_insert. split.
      * intros [= <-]. exists (length ms), h. split; [|split; [|done]].
        -- rewrite lookup_app_r, Nat.sub_diag by lia. done.
        -- intros j h' Hj. rewrite lookup_ge_None_2; [done|]. rewrite app_length. simpl. lia.
      * intros (i & h' & Hi & Hl & ->). f_equal. f_equal. f_equal.
        assert (i < length ms + 1) by (apply lookup_lt_Some in Hi; rewrite app_length in Hi; done).
        destruct (decide (i = length ms)) as [->|]; [done|]. exfalso. apply (Hl (length ms) h); [lia|].
        rewrite lookup_app_r, Nat.sub_diag by lia. done.
    + rewrite lookup_insert_ne by done. rewrite Hm. split.
      * intros (i & h' & Hi & Hl & ->). exists i, h'. split; [by apply lookup_app_l_Some|]. split; [|done].
        intros j h2 Hj. destruct (decide (j < length ms)); [rewrite lookup_app_l by done; by apply Hl|].
        rewrite lookup_app_r by lia. destruct (j - length ms); [|done]. simpl. intros [= <- <-]. done.
      * intros (i & h' & Hi & Hl & ->). assert (i < length ms) as Hlt.
        { destruct (decide (i < length ms)); [done|]. rewrite lookup_app_r in Hi by lia. destruct (i - length ms); [|done].
          simpl in Hi. injection Hi as <- <-. done. }
        rewrite lookup_app_l in Hi by done. exists i, h'. split; [done|]. split; [|done].
        intros j h2 Hj Hx. apply (Hl j h2 Hj). by apply lookup_app_l_Some.
Qed.
End single.

Section grpc.
Context {srv req res icpt hnd : Type} (call : hnd → srv → req → answer res).
Notation vars2 := (list (option (MethodDesc hnd))) (only parsing).

Definition entries (v : nat) (L : list (string * MethodDesc hnd)) : list (option (string * nat)) := imap (λ i x, Some (x.1, S (v + i))) L.
Lemma method_loop (st : vars2) L1 L2 : ∃ z,
  foldl (method_step (length st)) (Some (st ++ [None], 0, replicate (length (L1 ++ L2)) None)) L1 =
  Some (st ++ z :: (Some <$> L1.*2), length L1, entries (length st) L1 ++ replicate (length L2) None).
Proof.
  revert L2. induction L1 as [|[nm d] L1 IH] using rev_ind; intros L2; [by exists None|].
  destruct (IH ((nm, d) :: L2)) as [z E]. exists (Some d).
  rewrite foldl_app. replace (length ((L1 ++ [(nm, d)]) ++ L2)) with (length (L1 ++ (nm, d) :: L2)) by (rewrite !app_length; simpl; lia).
  rewrite E. cbn [foldl method_step alloc].
  assert (<[length st := Some d]> (st ++ z :: (Some <$> L1.*2)) = st ++ Some d :: (Some <$> L1.*2)) as ->.
  { rewrite insert_app_r_alt by lia. by rewrite Nat.sub_diag. }
  assert ((st ++ Some d :: (Some <$> L1.*2)) !! length st = Some (Some d)) as ->.
  { rewrite lookup_app_r by lia. by rewrite Nat.sub_diag. }
  cbn [default].
  assert (length (entries (length st) L1) = length L1) as El by apply imap_length.
  rewrite decide_True by (rewrite app_length, El, replicate_length; simpl; lia).
  f_equal. f_equal; [f_equal|].
  - rewrite <-app_assoc. f_equal. simpl. f_equal. by rewrite !fmap_app.
  - rewrite app_length. done.
  - rewrite insert_app_r_alt by (rewrite El; lia). rewrite El, Nat.sub_diag. cbn [length replicate insert list_insert].
    unfold entries. rewrite imap_app, <-app_assoc. f_equal. simpl. f_equal.
    rewrite !app_length. cbn [length]. rewrite fmap_length, fmap_length. f_equal. f_equal. lia.
Qed.
Lemma entries_lookup v L m o :
  NoDup L.*1 →
  foldl (λ acc e, match e with Some (n, c) => <[n := Some c]> acc | None => <[""%string := None]> acc end) (∅ : gmap string (option nat)) (entries v L) !! m = Some o ↔
  ∃ i d, L !! i = Some (m, d) ∧ o = Some (S (v + i)).
Proof.
  revert o. induction L as [|[n d] L IH] using rev_ind; intros o Hnd.
  - simpl. rewrite lookup_empty. split; [done|]. intros (i & d & Hi & _). done.
  - unfold entries. rewrite imap_app, foldl_app. cbn [imap foldl fst].
    change (imap (λ i x, Some (x.1, S (v + i))) L) with (entries v L).
    rewrite fmap_app in Hnd. apply NoDup_app in Hnd as (Hnd & Hni & _).
    rewrite Nat.add_0_r.
    destruct (decide (m = n)) as [->|Hne].
    + rewrite lookup_insert. split.
      * intros [= <-]. exists (length L), d. split; [by rewrite lookup_app_r, Nat.sub_diag by lia|done].
      * intros (i & d' & Hi & ->). f_equal. f_equal. f_equal. f_equal.
        destruct (decide (i < length L)) as [Hlt|].
        { rewrite lookup_app_l in Hi by done. exfalso. apply (Hni n); [|by left].
          apply elem_of_list_fmap. exists (n, d'). split; [done|by eapply elem_of_list_lookup_2]. }
        apply lookup_lt_Some in Hi. rewrite app_length in Hi. simpl in Hi. lia.
    + rewrite lookup_insert_ne by done. rewrite IH by done. split.
      * intros (i & d' & Hi & ->). exists i, d'. split; [by apply lookup_app_l_Some|done].
      * intros (i & d' & Hi & ->). exists i, d'. split; [|done].
        destruct (decide (i < length L)) as [Hlt|]; [by rewrite lookup_app_l in Hi|].
        rewrite lookup_app_r in Hi by lia. destruct (i - length L); [|done]. simpl in Hi. injection Hi as <- <-. done.
Qed.
(** What has been registered of the services met so far. *)
Definition holds_service (st : vars2) (g : gmap string (srv * gmap string (option nat))) (y : string * srv * list (string * MethodDesc hnd)) : Prop :=
  ∃ mm, g !! y.1.1 = Some (y.1.2, mm) ∧
    ∀ m, match mm !! m with
         | Some (Some c) => ∃ d, (m, d) ∈ y.2 ∧ st !! c = Some (Some d)
         | Some None => False
         | None => m ∉ y.2.*1
         end.
Lemma service_loop rs : NoDup (rs.*1).*1 → Forall (λ y, NoDup y.2.*1) rs →
  ∃ st g, newGrpcServer (srv:=srv) (hnd:=hnd) rs = Some (st, g) ∧ Forall (holds_service st g) rs ∧ ∀ n, is_Some (g !! n) → n ∈ (rs.*1).*1.
Proof.
  unfold newGrpcServer. induction rs as [|[[name s] L] rs IH] using rev_ind; intros Hnd Hms.
  - exists [], ∅. split; [done|]. split; [constructor|]. intros n [? H]. by rewrite lookup_empty in H.
  - rewrite !fmap_app in Hnd. apply NoDup_app in Hnd as (Hnd & Hni & _). apply Forall_app in Hms as [Hms HL].
    apply Forall_inv in HL. cbn [snd] in HL.
    destruct (IH Hnd Hms) as (st & g & E & Hh & Hg). rewrite foldl_app, E. cbn [foldl service_step alloc].
    destruct (method_loop st L []) as [z El]. rewrite app_nil_r in El. rewrite El. rewrite app_nil_r.
    assert (g !! name = None) as Hgn.
    { destruct (g !! name) eqn:Eg; [|done]. exfalso. eapply Hni; [apply Hg; eauto|]. left. }
    unfold register. rewrite Hgn. cbn [mbind option_bind]. eexists _, _. split; [done|]. split.
    + apply Forall_app. split.
      * rewrite Forall_forall in Hh |- *. intros y Hy. destruct (Hh y Hy) as (mm & Ey & Hmm). exists mm.
        rewrite lookup_insert_ne; [|intros Ex; rewrite <-Ex in Ey; congruence]. split; [done|]. intros m. specialize (Hmm m).
        destruct (mm !! m) as [[c|]|]; [|done|done]. destruct Hmm as (d & Hd & Hc). exists d. split; [done|].
        by apply lookup_app_l_Some.
      * apply Forall_singleton. eexists. cbn [fst snd]. rewrite lookup_insert. split; [done|]. intros m.
        destruct (foldl _ _ (entries (length st) L) !! m) as [o|] eqn:Eo.
        -- pose proof Eo as Eo'. apply entries_lookup in Eo' as (i & d & Hi & ->); [|done]. exists d.
           split; [by eapply elem_of_list_lookup_2|]. rewrite lookup_app_r by lia.
           replace (S (length st + i) - length st) with (S i) by lia.
           assert ((Some <$> L.*2) !! i = Some (Some d)) as Hx by by rewrite !list_lookup_fmap, Hi. exact Hx.
        -- intros Hm. apply elem_of_list_fmap in Hm as ([m' d] & -> & Hm). apply elem_of_list_lookup in Hm as [i Hi].
           cbn [fst] in Eo. assert (∃ i' d', L !! i' = Some (m', d') ∧ Some (S (length st + i)) = Some (S (length st + i'))) as Hx by eauto.
           apply (entries_lookup (length st) L m' (Some (S (length st + i))) HL) in Hx. congruence.
    + intros n Hn. rewrite !fmap_app. apply elem_of_app. destruct (decide (n = name)) as [->|Hne]; [right; left|].
      left. apply Hg. by rewrite lookup_insert_ne in Hn.
Qed.

(** ** C96 *)
(** A plain server starts whatever the services are, and answers every call, whatever its method name is, exactly as
    the other transport would: the same handler on the same implementation, or an error. *)
Theorem C96_same_dispatch (services : gmap string (ServiceDesc srv hnd)) ranges : iterates services ranges →
  ∃ st g, newGrpcServer ranges = Some (st, g) ∧
    ∀ (i : option icpt) name r, handleStream call st g i name r = rrpc_dispatch call services name r.
Proof.
  intros (l & Hl & Hr).
  assert ((ranges.*1).*1 = l.*1) as Hnames.
  { clear Hl. induction Hr as [|x y l rs (E & _ & _) _ IH]; [done|]. rewrite !fmap_cons, E. by f_equal. }
  destruct (service_loop ranges) as (st & g & E & Hh & Hg).
  - rewrite Hnames, Hl. apply NoDup_fst_map_to_list.
  - clear Hl Hnames. induction Hr as [|x y l rs (_ & _ & E) _ IH]; [constructor|]. constructor; [|done].
    rewrite E. apply NoDup_fst_map_to_list.
  - exists st, g. split; [done|]. intros i name r. unfold handleStream, rrpc_dispatch, getServiceAndMethodDesc.
    destruct (extractMethodInfo name) as [[sn m]|e|]; cbn [obind]; [|done|done].
    destruct (services !! sn) as [sd|] eqn:Es.
    + assert ((sn, sd) ∈ l) as Hin by (rewrite Hl; by apply elem_of_map_to_list).
      apply elem_of_list_lookup in Hin as [k Hk].
      destruct (Forall2_lookup_l _ _ _ _ _ Hr Hk) as (y & Hy & E1 & E2 & E3). cbn [fst snd] in E1, E2, E3.
      rewrite Forall_forall in Hh. destruct (Hh y) as (mm & Eg & Hmm); [by eapply elem_of_list_lookup_2|].
      rewrite E1, E2 in Eg. rewrite Eg. specialize (Hmm m). destruct (mm !! m) as [[c|]|].
      * destruct Hmm as (d & Hd & Hc). rewrite Hc. rewrite E3 in Hd. apply elem_of_map_to_list in Hd. by rewrite Hd.
      * done.
      * destruct (sd_methods sd !! m) as [d|] eqn:Ed; [|done]. exfalso. apply Hmm. apply elem_of_list_fmap.
        exists (m, d). split; [done|]. rewrite E3. by apply elem_of_map_to_list.
    + destruct (g !! sn) as [[s mm]|] eqn:Eg; [|done]. exfalso.
      assert (sn ∈ (ranges.*1).*1) as Hin by (apply Hg; eauto). rewrite Hnames in Hin.
      apply elem_of_list_fmap in Hin as ([sn' sd] & -> & Hin). rewrite Hl in Hin. apply elem_of_map_to_list in Hin. cbn in Es. congruence.
Qed.
End grpc.

Section generated.
Context {srv req res icpt raw : Type} (run : raw → srv → req → option icpt → res).
(** With a generated service: a call is answered iff its name is that of the service and one of its methods; the last such
    method's generated handler runs, on the implementation given, without an interceptor, whatever interceptor the server
    was configured with.  Both transports. *)
Theorem C96_generated svcname (methods : list (string * raw)) (impl : srv) ranges st1 services : SingleService svcname methods impl = (st1, services) →
  iterates services ranges →
  ∃ st g, newGrpcServer ranges = Some (st, g) ∧
    ∀ (i : option icpt) name r,
      handleStream (call_single run st1) st g i name r = rrpc_dispatch (call_single run st1) services name r ∧
      (∀ x, handleStream (call_single run st1) st g i name r = Answer x ↔
        ∃ m h, parts name svcname m ∧ last_method methods m h ∧ x = run h impl r None) ∧
      handleStream (call_single run st1) st g i name r ≠ Crash.
Proof.
  intros Es Hit. destruct (C96_same_dispatch (icpt:=icpt) (call_single run st1) services ranges Hit) as (st & g & E & Hd).
  exists st, g. split; [done|]. intros i name r. rewrite Hd. split; [done|].
  unfold SingleService in Es. destruct (single_store methods) as (z & mdscs & Ef & Hm). rewrite Ef in Es. injection Es as <- <-.
  assert (∀ m d, mdscs !! m = Some d → ∃ h, last_method methods m h ∧ call_single run (z :: (Some <$> methods)) (md_handler d) impl r = Answer (run h impl r None)) as Hcall.
  { intros m d Hmd. apply Hm in Hmd as (k & h & Hk & Hlast & ->). exists h. split; [by exists k|].
    unfold call_single. cbn [md_handler].
    assert ((z :: (Some <$> methods)) !! S k = Some (Some (m, h))) as -> by (change ((Some <$> methods) !! k = Some (Some (m, h))); by rewrite list_lookup_fmap, Hk). done. }
  unfold rrpc_dispatch. split.
  - intros x. split.
    + destruct (getServiceAndMethodDesc _ name) as [[s d]|e|] eqn:Eg; [|done|done].
      apply C54_lookup in Eg as (sn & m & Hp & Hs & Hmd). apply lookup_singleton_Some in Hs as [<- <-]. cbn [sd_methods sd_server] in *.
      destruct (Hcall m d Hmd) as (h & Hlast & ->). intros [= <-]. by exists m, h.
    + intros (m & h & Hp & (k & Hk & Hlast) & ->).
      assert (mdscs !! m = Some {| md_name := m; md_handler := S k |}) as Hmd by (apply Hm; by exists k, h).
      assert (getServiceAndMethodDesc {[svcname := {| sd_server := impl; sd_methods := mdscs |}]} name =
        Ok ({| sd_server := impl; sd_methods := mdscs |}, {| md_name := m; md_handler := S k |})) as ->.
      { apply C54_lookup. exists svcname, m. split; [done|]. rewrite lookup_singleton. done. }
      unfold call_single. cbn [md_handler sd_server].
      assert ((z :: (Some <$> methods)) !! S k = Some (Some (m, h))) as -> by (change ((Some <$> methods) !! k = Some (Some (m, h))); by rewrite list_lookup_fmap, Hk). done.
  - destruct (getServiceAndMethodDesc _ name) as [[s d]|e|] eqn:Eg; [|done|done].
    apply C54_lookup in Eg as (sn & m & Hp & Hs & Hmd). apply lookup_singleton_Some in Hs as [<- <-]. cbn [sd_methods sd_server] in *.
    destruct (Hcall m d Hmd) as (h & Hlast & ->). done.
Qed.
(** The services built with variables are those of C54. *)
Theorem C96_services svcname (methods : list (string * raw)) (impl : srv) st1 services : SingleService svcname methods impl = (st1, services) →
  ∀ name, match getServiceAndMethodDesc services name, getServiceAndMethodDesc (SingleServiceFromGRPCServiceDesc svcname methods impl) name with
          | Ok (s, d), Ok (s', d') => sd_server s = sd_server s' ∧ md_name d = md_name d' ∧
                                       ∃ n, st1 !! md_handler d = Some (Some (n, md_handler d'))
          | Err e, Err e' => e = e'
          | _, _ => False
          end.
Proof.
  intros Es name. unfold SingleService in Es. destruct (single_store methods) as (z & mdscs & Ef & Hm). rewrite Ef in Es. injection Es as <- <-.
  destruct (getServiceAndMethodDesc (SingleServiceFromGRPCServiceDesc _ _ _) name) as [[s' d']|e'|] eqn:E'.
  - apply C54_single_service in E' as (m & i & Hp & Hi & Hlast & Hn & Hs' & _).
    assert (mdscs !! m = Some {| md_name := m; md_handler := S i |}) as Hmd.
    { apply Hm. exists i, (md_handler d'). done. }
    assert (getServiceAndMethodDesc {[svcname := {| sd_server := impl; sd_methods := mdscs |}]} name =
        Ok ({| sd_server := impl; sd_methods := mdscs |}, {| md_name := m; md_handler := S i |})) as ->.
    { apply C54_lookup. exists svcname, m. split; [done|]. by rewrite lookup_singleton. }
    cbn [sd_server md_name md_handler]. rewrite Hs'. split; [done|]. split; [done|]. exists m.
    change ((Some <$> methods) !! i = Some (Some (m, md_handler d'))). by rewrite list_lookup_fmap, Hi.
  - destruct (getServiceAndMethodDesc {[svcname := _]} name) as [[s d]|e|] eqn:E.
    + exfalso. apply C54_lookup in E as (sn & m & Hp & Hs & Hmd). apply lookup_singleton_Some in Hs as [<- <-]. cbn [sd_methods] in Hmd.
      apply Hm in Hmd as (i & h & Hi & Hlast & ->).
      assert (∃ d md, getServiceAndMethodDesc (SingleServiceFromGRPCServiceDesc svcname methods impl) name = Ok (d, md)) as (? & ? & ?); [|congruence].
      eexists _, {| md_name := m; md_handler := h |}. apply C54_single_service. exists m, i. split_and!; [done|done|done|done| |].
      2: { unfold SingleServiceFromGRPCServiceDesc. by rewrite lookup_singleton. }
      done.
    + unfold getServiceAndMethodDesc, extractMethodInfo in E, E'. destruct (LastIndex _); cbn [obind] in E, E'; [|congruence].
      repeat case_match; congruence.
    + unfold getServiceAndMethodDesc, extractMethodInfo in E. destruct (LastIndex _); cbn [obind] in E; repeat case_match; congruence.
  - exfalso. unfold getServiceAndMethodDesc, extractMethodInfo in E'. destruct (LastIndex _); cbn [obind] in E'; repeat case_match; congruence.
Qed.
End generated.

Section async.
Context {E : Type} (e : E).
(** The result channel of a plain asynchronous call: readers get DirectCall's result once, then that it is closed, for
    ever; *)
Theorem C96_async_reads l s : asteps e l async_init s → ∃ k, l = [] ∨ l = GotValue e :: replicate k GotClosed.
Proof.
  intros Hs.
  assert ((l = [] ∧ (s = mkAsync [] false ASend ∨ s = mkAsync [e] false AClose ∨ s = mkAsync [e] true AEnd)) ∨
    (∃ k, l = GotValue e :: replicate k GotClosed ∧ (k = 0 ∧ s = mkAsync [] false AClose ∨ s = mkAsync [] true AEnd))) as [[-> _]|(k & -> & _)].
  { remember async_init as s0 eqn:E0. induction Hs as [s|l s1 s2 s3 Hs IH Ht|l s1 s2 r s3 Hs IH Ht].
    - left. subst. auto.
    - specialize (IH E0). destruct IH as [[-> H]|(k & -> & H)].
      + left. split; [done|]. destruct H as [ ->|[ ->| ->]]; inversion Ht; subst; auto.
      + right. destruct H as [[-> ->]| ->]; inversion Ht; subst. exists 0. auto.
    - specialize (IH E0). right. destruct IH as [[-> H]|(k & -> & H)].
      + exists 0. destruct H as [ ->|[ ->| ->]]; inversion Ht; subst; auto.
      + destruct H as [[-> ->]| ->]; inversion Ht; subst. exists (S k). split; [|by right].
        cbn [app]. f_equal. by rewrite replicate_S_end. }
  - exists 0. by left.
  - exists k. by right.
Qed.
(** and its goroutine ends even if nobody reads: it can always make its next step. *)
Theorem C96_async_ends l s : asteps e l async_init s → a_pc s ≠ AEnd → ∃ s', astep e None s s'.
Proof.
  intros Hs Hp.
  assert (a_pc s = ASend → a_buf s = []) as Hb.
  { remember async_init as s0 eqn:E0. clear Hp. induction Hs as [s|l s1 s2 s3 Hs IH Ht|l s1 s2 r s3 Hs IH Ht]; [by subst| |].
    - specialize (IH E0). inversion Ht; subst; done.
    - specialize (IH E0). inversion Ht; subst; cbn in *; [|done]. intros E1. by apply IH in E1. }
  destruct s as [b c []]; cbn in *; [|eexists; constructor|done]. rewrite Hb by done. eexists. apply as_send. unfold async_cap. simpl. lia.
Qed.
End async.

(** ** Example: two methods, one given twice; a handler returns itself, the implementation and whether an interceptor
    ran. *)
Definition ex_run (h : nat) (s : nat) (r : nat) (i : option unit) : nat * nat * nat * bool := (h, s, r, bool_decide (is_Some i)).
Definition ex_methods : list (string * nat) := [("Do", 1); ("Get", 2); ("Do", 3)]%string.
Definition ex_services := SingleService "S" ex_methods 9.
Definition ex_ranges : list (string * nat * list (string * MethodDesc nat)) :=
  (λ x, (x.1, sd_server x.2, reverse (map_to_list (sd_methods x.2)))) <$> map_to_list ex_services.2.
Example C96_example :
  iterates ex_services.2 ex_ranges ∧
  match newGrpcServer ex_ranges with
  | Some (st, g) =>
      let go name := handleStream (call_single ex_run ex_services.1) st g (Some tt) name 5 in
      go "/S/Do"%string = Answer (3, 9, 5, false) ∧ go "S/Get"%string = Answer (2, 9, 5, false) ∧ go "/S/Put"%string = Unimplemented ∧
      go "Do"%string = Unimplemented
  | None => False
  end.
Proof.
  split.
  - exists (map_to_list ex_services.2). split; [done|]. unfold ex_ranges. apply Forall2_fmap_r. apply Forall_Forall2_diag.
    apply Forall_forall. intros x _. cbn [fst snd]. split; [done|]. split; [done|]. apply reverse_Permutation.
  - vm_compute. done.
Qed.
