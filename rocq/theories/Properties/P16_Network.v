(** C48: relay indices agree on all machines.  C47: quorum arithmetic of the robust call. *)
From Coq Require Import Ascii.
From Verif.Base Require Import Base.
From Verif.Model Require Import Network.
From stdpp Require Import gmap sorting.

Local Open Scope string_scope.
Local Open Scope list_scope.

(** ** The order on strings is a total order, so sorting has one result. *)
Lemma strle_refl s : strle s s.
Proof. unfold strle. induction s as [|a s IH]; simpl; [done|]. by rewrite N.ltb_irrefl. Qed.
Lemma strle_total s t : strle s t ∨ strle t s.
Proof.
  unfold strle. revert t. induction s as [|a s IH]; intros [|b t]; simpl; try (by left); try (by right).
  destruct (N.ltb_spec (N_of_ascii a) (N_of_ascii b)); [by left|].
  destruct (N.ltb_spec (N_of_ascii b) (N_of_ascii a)); [by right|]. apply IH.
Qed.
Lemma strle_trans s t u : strle s t → strle t u → strle s u.
Proof.
  unfold strle. revert t u. induction s as [|a s IH]; intros [|b t] [|c u]; simpl; try done.
  destruct (N.ltb_spec (N_of_ascii a) (N_of_ascii b)), (N.ltb_spec (N_of_ascii b) (N_of_ascii c)),
    (N.ltb_spec (N_of_ascii a) (N_of_ascii c)), (N.ltb_spec (N_of_ascii b) (N_of_ascii a)),
    (N.ltb_spec (N_of_ascii c) (N_of_ascii b)), (N.ltb_spec (N_of_ascii c) (N_of_ascii a));
    try done; try lia. intros. by eapply IH.
Qed.
Lemma strle_antisym s t : strle s t → strle t s → s = t.
Proof.
  unfold strle. revert t. induction s as [|a s IH]; intros [|b t]; simpl; try done.
  destruct (N.ltb_spec (N_of_ascii a) (N_of_ascii b)), (N.ltb_spec (N_of_ascii b) (N_of_ascii a));
    try done; try lia. intros Hs Ht. rewrite (IH t) by done. f_equal.
  rewrite <-(ascii_N_embedding a), <-(ascii_N_embedding b). f_equal. lia.
Qed.
Global Instance strle_po : PartialOrder strle.
Proof. split; [split|]; [exact strle_refl|exact strle_trans|exact strle_antisym]. Qed.
Global Instance strle_tot : Total strle := strle_total.

Lemma sorted_perm_unique l l' : Permutation l l' → Sorted strle l → Sorted strle l' → l = l'.
Proof.
  intros Hp H1 H2. apply (StronglySorted_unique strle); [..|done].
  - by apply Sorted_StronglySorted; [exact strle_trans|].
  - by apply Sorted_StronglySorted; [exact strle_trans|].
Qed.

(** ** C48 *)
(** The entries that count: an address and a key. *)
Definition valid_entries (c : NetworkConfig) : list (string * bytes) :=
  omap (λ s, match sd_publickey s with
             | Some pk => if decide (sd_address s = "") then None else Some (sd_address s, pk)
             | None => None end) (nc_servers c).

Lemma isvalid_spec s pk : isvalid s = true → sd_publickey s = Some pk → sd_address s ≠ "".
Proof. unfold isvalid. destruct (String.eqb_spec (sd_address s) ""); [done|done]. Qed.

Lemma fold_servers l nt :
  let es := omap (λ s, match sd_publickey s with
             | Some pk => if decide (sd_address s = "") then None else Some (sd_address s, pk)
             | None => None end) l in
  let nt' := foldl (λ nt s, if isvalid s then addServer nt s else nt) nt l in
  serverAddresses nt' = serverAddresses nt ++ es.*1 ∧
  hostToPK nt' = foldl (λ m e, <[e.1 := e.2]> m) (hostToPK nt) es ∧
  pkToHost nt' = foldl (λ m e, <[e.2 := e.1]> m) (pkToHost nt) es ∧
  Tau nt' = Tau nt.
Proof.
  revert nt. induction l as [|s l IH]; intros nt; simpl.
  - by rewrite app_nil_r.
  - destruct (isvalid s) eqn:Ev; unfold isvalid in Ev; destruct (sd_publickey s) as [pk|] eqn:Epk;
      destruct (String.eqb_spec (sd_address s) "") as [Ea|Ea]; try done; simpl.
    + rewrite decide_False by done. simpl. destruct (IH (addServer nt s)) as (H1 & H2 & H3 & H4).
      rewrite H1, H2, H3, H4. unfold addServer. simpl. rewrite Epk. simpl.
      by rewrite <-app_assoc.
    + rewrite decide_True by done. apply IH.
Qed.

Lemma new_net c :
  let nt := NewNetworkData c in
  serverAddresses nt = merge_sort strle (valid_entries c).*1 ∧
  hostToPK nt = foldl (λ m e, <[e.1 := e.2]> m) ∅ (valid_entries c) ∧
  pkToHost nt = foldl (λ m e, <[e.2 := e.1]> m) ∅ (valid_entries c) ∧
  Tau nt = nc_tau c.
Proof.
  unfold NewNetworkData. cbv zeta. simpl.
  destruct (fold_servers (nc_servers c)
    {| serverAddresses := []; pkToHost := ∅; hostToPK := ∅; Tau := nc_tau c |}) as (H1 & H2 & H3 & H4).
  rewrite H1, H2, H3, H4. done.
Qed.

Lemma foldl_insert_lookup {A B} `{Countable K} (f : A → K) (g : A → B) (es : list A) (k : K) (v : B) :
  foldl (λ m e, <[f e := g e]> m) (∅ : gmap K B) es !! k = Some v ↔
  ∃ i e, es !! i = Some e ∧ f e = k ∧ g e = v ∧ ∀ j e', i < j → es !! j = Some e' → f e' ≠ k.
Proof.
  induction es as [|e es IH] using rev_ind; simpl.
  - rewrite lookup_empty. split; [done|]. by intros (i & e & He & _).
  - rewrite foldl_app. simpl. destruct (decide (f e = k)) as [Hk|Hk].
    + rewrite <-Hk at 1. rewrite lookup_insert. split.
      * intros [= <-]. exists (length es), e. rewrite lookup_app_r, Nat.sub_diag by lia. split; [done|].
        split; [done|]. split; [done|]. intros j e' Hj He'. rewrite lookup_ge_None_2 in He'; [done|].
        rewrite app_length. simpl. lia.
      * intros (i & e' & Hi & Hfe & <- & Hl). destruct (decide (i = length es)) as [->|].
        { rewrite lookup_app_r, Nat.sub_diag in Hi by lia. by injection Hi as ->. }
        apply lookup_lt_Some in Hi as Hlt. rewrite app_length in Hlt. simpl in Hlt.
        exfalso. apply (Hl (length es) e); [lia| |done]. by rewrite lookup_app_r, Nat.sub_diag by lia.
    + rewrite lookup_insert_ne by done. rewrite IH. split.
      * intros (i & e' & Hi & Hfe & Hg & Hl). exists i, e'. split; [by apply lookup_app_l_Some|]. split; [done|].
        split; [done|]. intros j e'' Hj He''. destruct (decide (j < length es)).
        { rewrite lookup_app_l in He'' by lia. by eapply Hl. }
        rewrite lookup_app_r in He'' by lia. by apply elem_of_list_lookup_2, elem_of_list_singleton in He'' as ->.
      * intros (i & e' & Hi & Hfe & Hg & Hl). destruct (decide (i < length es)).
        { rewrite lookup_app_l in Hi by lia. exists i, e'. split; [done|]. split; [done|]. split; [done|].
          intros j e'' Hj He''. eapply Hl; [done|]. by apply lookup_app_l_Some. }
        rewrite lookup_app_r in Hi by lia. by apply elem_of_list_lookup_2, elem_of_list_singleton in Hi as ->.
Qed.

(** Servers() is the sorted list of the valid addresses. *)
Theorem C48_servers c :
  Sorted strle (Servers (NewNetworkData c)) ∧ Permutation (Servers (NewNetworkData c)) (valid_entries c).*1.
Proof.
  destruct (new_net c) as (H & _). unfold Servers. rewrite H. split.
  - apply (Sorted_merge_sort strle).
  - apply merge_sort_Permutation.
Qed.
(** Nothing depends on the order of the configuration. *)
Theorem C48_order_irrelevant c c' :
  Permutation (nc_servers c) (nc_servers c') →
  Servers (NewNetworkData c) = Servers (NewNetworkData c') ∧
  ∀ a, GetRelayIndex (NewNetworkData c) a = GetRelayIndex (NewNetworkData c') a.
Proof.
  intros Hp. assert (Servers (NewNetworkData c) = Servers (NewNetworkData c')) as Heq.
  { destruct (C48_servers c) as [H1 H2], (C48_servers c') as [H3 H4]. apply sorted_perm_unique; [|done|done].
    rewrite H2, H4. unfold valid_entries. by rewrite Hp. }
  split; [done|]. intros a. unfold GetRelayIndex. unfold Servers in Heq. by rewrite Heq.
Qed.

(** sort.Search on a monotone predicate. *)
Lemma search_spec fuel f i j :
  j - i ≤ fuel → i ≤ j → (∀ a b, a ≤ b → f a = true → f b = true) →
  (∀ a, a < i → f a = false) → (f j = true) →
  ∃ r, search fuel f i j = r ∧ i ≤ r ≤ j ∧ f r = true ∧ ∀ a, a < r → f a = false.
Proof.
  revert i j. induction fuel as [|fuel IH]; intros i j Hf Hij Hm Hlo Hhi; cbn [search].
  - assert (i = j) as -> by lia. exists j. split_and!; [done|lia|lia|done|done].
  - destruct (decide (i < j)) as [Hlt|].
    + assert (i ≤ (i + j) / 2 < j) as Hh.
      { split; [apply Nat.div_le_lower_bound; lia|apply Nat.div_lt_upper_bound; lia]. }
      set (h := (i + j) / 2) in *. destruct (f h) eqn:Efh.
      * destruct (IH i h) as (r & Hr & Hb & H1 & H2); try done; [lia|lia|].
        exists r. split; [done|]. split; [lia|done].
      * destruct (IH (h + 1) j) as (r & Hr & Hb & H1 & H2); try done; [lia|lia| |].
        { intros a Ha. destruct (f a) eqn:E; [|done]. rewrite (Hm a h) in Efh; [done|lia|done]. }
        exists r. split; [done|]. split; [lia|done].
    + assert (i = j) as -> by lia. exists j. split_and!; [done|lia|lia|done|done].
Qed.
Lemma sorted_lookup l i j a b : StronglySorted strle l → i ≤ j → l !! i = Some a → l !! j = Some b → strle a b.
Proof.
  intros Hs. revert i j. induction Hs as [|x l Hs IH Hall]; intros i j Hij Hi Hj; [done|].
  destruct i as [|i], j as [|j]; simpl in *.
  - injection Hi as ->. injection Hj as ->. apply strle_refl.
  - injection Hi as ->. rewrite Forall_lookup in Hall. by eapply Hall.
  - lia.
  - apply (IH i j); [lia|done|done].
Qed.
Lemma search_strings l x : Sorted strle l →
  let r := SearchStrings l x in
  r ≤ length l ∧ (∀ i y, l !! i = Some y → i < r → ¬ strle x y) ∧ (∀ i y, l !! i = Some y → r ≤ i → strle x y).
Proof.
  intros Hs. apply Sorted_StronglySorted in Hs; [|exact strle_trans]. unfold SearchStrings.
  set (f := λ i, match l !! i with Some y => str_le x y | None => true end).
  assert (∀ a b, a ≤ b → f a = true → f b = true) as Hm.
  { intros a b Hab Ha. unfold f in *. destruct (l !! b) as [y|] eqn:Eb; [|done].
    destruct (l !! a) as [z|] eqn:Ea.
    - eapply strle_trans; [exact Ha|]. by eapply (sorted_lookup l a b).
    - exfalso. apply lookup_ge_None in Ea. apply lookup_lt_Some in Eb. lia. }
  destruct (search_spec (length l) f 0 (length l)) as (r & Hr & Hb & H1 & H2); [lia|lia|done|lia| |].
  { unfold f. by rewrite lookup_ge_None_2. }
  cbv zeta. rewrite Hr. split; [lia|]. split.
  - intros i y Hi Hlt Hle. apply H2 in Hlt. unfold f in Hlt. rewrite Hi in Hlt. unfold strle in Hle. congruence.
  - intros i y Hi Hle. apply (Hm r i) in Hle; [|done]. unfold f in Hle. by rewrite Hi in Hle.
Qed.

Lemma filter_all {A} (P : A → Prop) `{∀ x, Decision (P x)} l : Forall P l → filter P l = l.
Proof. induction 1 as [|x l Hx _ IH]; [done|]. rewrite filter_cons_True by done. by rewrite IH. Qed.

(** The index of any address is the number of configured addresses before it in the order; for a
    configured address it is the first position where it stands, the only one if addresses are distinct. *)
Theorem C48_index c a :
  let s := Servers (NewNetworkData c) in let i := GetRelayIndex (NewNetworkData c) a in
  i = length (filter (λ b, ¬ strle a b) (valid_entries c).*1) ∧
  (a ∈ (valid_entries c).*1 → s !! i = Some a ∧ (∀ j, s !! j = Some a → i ≤ j) ∧
     (NoDup (valid_entries c).*1 → ∀ j, s !! j = Some a → j = i)).
Proof.
  destruct (C48_servers c) as [Hs Hp]. cbv zeta.
  destruct (search_strings _ a Hs) as (H1 & H2 & H3). unfold GetRelayIndex, Servers in *.
  set (s := serverAddresses (NewNetworkData c)) in *. set (i := SearchStrings s a) in *. split.
  - rewrite <-Hp. rewrite <-(take_drop i s), filter_app, app_length.
    assert (filter (λ b, ¬ strle a b) (take i s) = take i s) as ->.
    { apply filter_all, Forall_lookup. intros j y Hj. apply lookup_take_Some in Hj as [Hj Hlt]. by apply (H2 j). }
    assert (filter (λ b, ¬ strle a b) (drop i s) = []) as ->.
    { destruct (filter _ (drop i s)) as [|y l] eqn:E; [done|].
      assert (y ∈ filter (λ b, ¬ strle a b) (drop i s)) as Hy by (rewrite E; left).
      apply elem_of_list_filter in Hy as [Hn Hy]. apply elem_of_list_lookup in Hy as [j Hj].
      rewrite lookup_drop in Hj. destruct Hn. apply (H3 (i + j)); [done|lia]. }
    rewrite take_length. simpl. lia.
  - intros Ha. rewrite <-Hp in Ha. apply elem_of_list_lookup in Ha as [k Hk].
    assert (i ≤ k) as Hik.
    { destruct (decide (i ≤ k)); [done|]. exfalso. apply (H2 k a); [done|lia|apply strle_refl]. }
    assert (s !! i = Some a) as Hi.
    { destruct (s !! i) as [y|] eqn:E.
      - f_equal. apply strle_antisym; [|by apply (H3 i)].
        apply (sorted_lookup s i k); try done. apply Sorted_StronglySorted; [exact strle_trans|done].
      - apply lookup_ge_None in E. apply lookup_lt_Some in Hk. lia. }
    split; [done|]. split.
    + intros j Hj. destruct (decide (i ≤ j)); [done|]. exfalso. apply (H2 j a); [done|lia|apply strle_refl].
    + intros Hnd j Hj. assert (NoDup s) as Hnd' by by rewrite Hp. by apply (NoDup_lookup s j i a).
Qed.

(** Lookups: the last valid entry for a host (a key) counts; unknown hosts are NotFound, unknown keys
    have no host. *)
Theorem C48_public_key c h k :
  GetPublicKey (NewNetworkData c) h = Ok k ↔
  ∃ i, valid_entries c !! i = Some (h, k) ∧ ∀ j k', i < j → valid_entries c !! j ≠ Some (h, k').
Proof.
  destruct (new_net c) as (_ & H & _). unfold GetPublicKey. rewrite H.
  pose proof (foldl_insert_lookup fst snd (valid_entries c) h k) as Hf.
  transitivity (foldl (λ m e, <[e.1:=e.2]> m) (∅ : gmap string bytes) (valid_entries c) !! h = Some k).
  { destruct (foldl _ _ _ !! h); split; congruence. }
  rewrite Hf. split.
  - intros (i & [h' k'] & Hi & <- & <- & Hl). exists i. split; [done|].
    intros j k'' Hj Hj'. by apply (Hl j _ Hj Hj').
  - intros (i & Hi & Hl). exists i, (h, k). split; [done|]. split; [done|]. split; [done|].
    intros j [h' k'] Hj Hj' Heq. simpl in Heq. subst. by apply (Hl j k').
Qed.
Theorem C48_public_key_unknown c h :
  h ∉ (valid_entries c).*1 ↔ GetPublicKey (NewNetworkData c) h = Err NotFound.
Proof.
  destruct (new_net c) as (_ & H & _). unfold GetPublicKey. rewrite H. split.
  - intros Hn. destruct (foldl _ _ _ !! h) as [k|] eqn:E; [|done]. exfalso.
    apply (foldl_insert_lookup fst snd) in E as (i & e & Hi & <- & _).
    apply Hn, elem_of_list_fmap. exists e. split; [done|]. by eapply elem_of_list_lookup_2.
  - intros Hn Hin. destruct (foldl _ _ _ !! h) as [k|] eqn:E; [done|].
    assert (∀ es : list (string * bytes), h ∈ es.*1 →
      is_Some (foldl (λ m e, <[e.1 := e.2]> m) (∅ : gmap string bytes) es !! h)) as Hd.
    { intros es. induction es as [|e es IH] using rev_ind; intros Hh.
      - by apply elem_of_nil in Hh.
      - rewrite foldl_app. simpl. destruct (decide (e.1 = h)) as [<-|]; [rewrite lookup_insert; by eexists|].
        rewrite lookup_insert_ne by done. apply IH. rewrite fmap_app in Hh. apply elem_of_app in Hh as [|Hh]; [done|].
        apply elem_of_list_singleton in Hh. done. }
    destruct (Hd _ Hin) as [? Hx]. congruence.
Qed.
Theorem C48_hostname c h k : h ≠ "" →
  (GetHostname (NewNetworkData c) k = h ↔
   ∃ i, valid_entries c !! i = Some (h, k) ∧ ∀ j h', i < j → valid_entries c !! j ≠ Some (h', k)).
Proof.
  intros Hh. destruct (new_net c) as (_ & _ & H & _). unfold GetHostname. rewrite H.
  pose proof (foldl_insert_lookup snd fst (valid_entries c) k h) as Hf.
  transitivity (foldl (λ m e, <[e.2:=e.1]> m) (∅ : gmap (list byte) string) (valid_entries c) !! k = Some h).
  { destruct (foldl _ _ _ !! k); simpl; split; congruence. }
  rewrite Hf. split.
  - intros (i & [h' k'] & Hi & <- & <- & Hl). exists i. split; [done|].
    intros j k'' Hj Hj'. by apply (Hl j _ Hj Hj').
  - intros (i & Hi & Hl). exists i, (h, k). split; [done|]. split; [done|]. split; [done|].
    intros j [h' k'] Hj Hj' Heq. simpl in Heq. subst. by apply (Hl j h').
Qed.
Lemma valid_entry_nonempty c i h k : valid_entries c !! i = Some (h, k) → h ≠ "".
Proof.
  intros Hi. apply elem_of_list_lookup_2, elem_of_list_omap in Hi as (s & _ & Hs).
  destruct (sd_publickey s); [|done]. destruct (decide (sd_address s = "")); [done|]. by simplify_eq.
Qed.
Theorem C48_contain_key c k :
  (ContainKey (NewNetworkData c) k = true ↔ k ∈ (valid_entries c).*2) ∧
  (ContainKey (NewNetworkData c) k = true ↔ GetHostname (NewNetworkData c) k ≠ "").
Proof.
  destruct (new_net c) as (_ & _ & H & _). unfold ContainKey, GetHostname. rewrite H.
  destruct (foldl _ _ _ !! k) as [h|] eqn:E.
  - apply (foldl_insert_lookup snd fst) in E as (i & [h' k'] & Hi & <- & <- & _).
    split; (split; [intros _|done]).
    + apply elem_of_list_fmap. exists (h', k'). split; [done|]. by eapply elem_of_list_lookup_2.
    + by eapply valid_entry_nonempty.
  - split; (split; [done|]); [|done]. intros Hk. exfalso.
    revert Hk E. generalize (valid_entries c). intros es. induction es as [|e es IH] using rev_ind; intros Hk.
    + by apply elem_of_nil in Hk.
    + rewrite foldl_app. simpl. destruct (decide (e.2 = k)) as [<-|]; [by rewrite lookup_insert|].
      rewrite lookup_insert_ne by done. apply IH. rewrite fmap_app in Hk. apply elem_of_app in Hk as [|Hk]; [done|].
      by apply elem_of_list_singleton in Hk.
Qed.
(** With distinct hosts and distinct keys the two lookups are inverse to each other. *)
Theorem C48_inverse c h k : NoDup (valid_entries c).*1 → NoDup (valid_entries c).*2 →
  (GetPublicKey (NewNetworkData c) h = Ok k ↔ (h, k) ∈ valid_entries c) ∧
  (GetHostname (NewNetworkData c) k = h ∧ h ≠ "" ↔ (h, k) ∈ valid_entries c).
Proof.
  intros Hn1 Hn2. split.
  - rewrite C48_public_key. split.
    + intros (i & Hi & _). by eapply elem_of_list_lookup_2.
    + intros Hin. apply elem_of_list_lookup in Hin as [i Hi]. exists i. split; [done|].
      intros j k' Hj Hj'. assert (i = j); [|lia].
      apply (NoDup_lookup _ i j h Hn1); rewrite list_lookup_fmap; [by rewrite Hi|by rewrite Hj'].
  - split.
    + intros [Hg Hh]. apply C48_hostname in Hg as (i & Hi & _); [|done]. by eapply elem_of_list_lookup_2.
    + intros Hin. apply elem_of_list_lookup in Hin as [i Hi]. assert (h ≠ "") as Hh by by eapply valid_entry_nonempty.
      split; [|done]. apply C48_hostname; [done|]. exists i. split; [done|].
      intros j k' Hj Hj'. assert (i = j); [|lia].
      apply (NoDup_lookup _ i j k Hn2); rewrite list_lookup_fmap; [by rewrite Hi|by rewrite Hj'].
Qed.

Definition C48_cfg : NetworkConfig :=
  {| nc_tau := 2; nc_servers := [ {| sd_address := "host-b:1"; sd_publickey := Some [Byte.x02] |};
       {| sd_address := ""; sd_publickey := Some [Byte.x09] |};
       {| sd_address := "host-a:7"; sd_publickey := Some [Byte.x01] |};
       {| sd_address := "host-x"; sd_publickey := None |};
       {| sd_address := "host-b:0"; sd_publickey := Some [Byte.x03] |} ] |}.
Example C48_example :
  Servers (NewNetworkData C48_cfg) = ["host-a:7"; "host-b:0"; "host-b:1"] ∧
  GetRelayIndex (NewNetworkData C48_cfg) "host-b:1" = 2 ∧
  GetRelayIndex (NewNetworkData C48_cfg) "zzz" = 3 ∧
  NoDup (valid_entries C48_cfg).*1 ∧ NoDup (valid_entries C48_cfg).*2 ∧
  GetHostname (NewNetworkData C48_cfg) [Byte.x03] = "host-b:0".
Proof.
  split_and!; try (by vm_compute).
  - apply (bool_decide_unpack _). by vm_compute.
  - apply (bool_decide_unpack _). by vm_compute.
Qed.

(** ** C47 *)
Section C47.
Context {R E : Type}.

(** The accepted responses and the errors of a list of (response, verdict). *)
Definition oks (l : list (R * option E)) : list R :=
  omap (λ p, match p.2 with None => Some p.1 | Some _ => None end) l.
Definition errs (l : list (R * option E)) : list E := omap snd l.

Lemma oks_err r e l : oks ((r, Some e) :: l) = oks l. Proof. done. Qed.
Lemma oks_ok r l : oks ((r, None) :: l) = r :: oks l. Proof. done. Qed.
Lemma errs_err r e l : errs ((r, Some e) :: l) = e :: errs l. Proof. done. Qed.
Lemma errs_ok r l : errs ((r, None) :: l) = errs l. Proof. done. Qed.
Ltac cnt := rewrite ?oks_err, ?oks_ok, ?errs_err, ?errs_ok in *; simpl length in *.

(** Network with distinct addresses, threshold tau of n. *)
Definition quorum_net (nt : Network) (n tau : nat) : Prop :=
  NoDup (Servers nt) ∧ length (Servers nt) = n ∧ Tau nt = Z.of_nat tau ∧ 1 ≤ tau ≤ n.
(** A robust call: one request per relay over dialled connections; [l] are the responses in order of
    arrival. *)
Definition robust_call (nt : Network) (l : list (R * option E)) : rr_result R E :=
  RobustRequest nt (Dial nt) (seqZ 0 (Z.of_nat (length (Servers nt)))) ((λ p, EvResp p.1 p.2) <$> l).

Lemma robust_call_loop nt n tau l : quorum_net nt n tau →
  robust_call nt l = rr_loop nt ((λ p, EvResp p.1 p.2) <$> l) [] 0.
Proof.
  intros (Hnd & Hn & Ht & Hb). unfold robust_call, RobustRequest, Dial.
  rewrite decide_False.
  2: { intros H. apply H. rewrite size_list_to_set by done. rewrite seqZ_length. by rewrite Nat2Z.id. }
  rewrite decide_False.
  2: { intros H. apply (f_equal length) in H. rewrite seqZ_length in H. simpl in H. lia. }
  assert (forallb (λ i, (0 <=? i)%Z && match Servers nt !! Z.to_nat i with
     | Some a => bool_decide (a ∈ (list_to_set (Servers nt) : gset string)) | None => false end)
     (seqZ 0 (Z.of_nat (length (Servers nt)))) = true) as ->; [|done].
  apply forallb_forall. intros i Hi. apply elem_of_list_In, elem_of_seqZ in Hi.
  apply andb_true_iff. split; [lia|].
  destruct (lookup_lt_is_Some_2 (Servers nt) (Z.to_nat i)) as [a Ha]; [lia|]. rewrite Ha.
  apply bool_decide_eq_true_2, elem_of_list_to_set. by eapply elem_of_list_lookup_2.
Qed.

Definition quorum (n tau : nat) : nat := n - (tau - 1).

Lemma rr_loop_run nt n tau l acc ne : quorum_net nt n tau → length acc < quorum n tau → ne < tau →
  match rr_loop nt ((λ p, EvResp p.1 p.2) <$> l) acc (Z.of_nat ne) with
  | RWaiting => length acc + length (oks l) < quorum n tau ∧ ne + length (errs l) < tau
  | RDone out => ∃ pre r rest, l = pre ++ (r, None) :: rest ∧ out = acc ++ oks pre ++ [r] ∧
      S (length acc + length (oks pre)) = quorum n tau ∧ ne + length (errs pre) < tau
  | RErr e => ∃ pre r rest, l = pre ++ (r, Some e) :: rest ∧
      length acc + length (oks pre) < quorum n tau ∧ S (ne + length (errs pre)) = tau
  | RCancelled | RBadRequest | RPanic => False
  end.
Proof.
  intros Hq. destruct Hq as (Hnd & Hn & Ht & Hb). revert acc ne.
  induction l as [|[r [e|]] l IH]; intros acc ne Ha He.
  - simpl. lia.
  - cbn [fmap list_fmap rr_loop fst snd]. unfold MaxErrors. rewrite Ht. destruct (decide _) as [Hlt|Hlt].
    + exists [], r, l. split; [done|]. simpl. lia.
    + replace (Z.of_nat ne + 1)%Z with (Z.of_nat (S ne)) by lia.
      specialize (IH acc (S ne) Ha). specialize (IH ltac:(lia)).
      destruct (rr_loop nt _ acc _) as [|out|e'| | |]; try done.
      * cnt. lia.
      * destruct IH as (pre & r' & rest & -> & -> & H1 & H2). exists ((r, Some e) :: pre), r', rest.
        split; [done|]. split; [done|]. cnt. lia.
      * destruct IH as (pre & r' & rest & -> & H1 & H2). exists ((r, Some e) :: pre), r', rest.
        split; [done|]. cnt. lia.
  - cbn [fmap list_fmap rr_loop fst snd]. unfold MinimalRelayedParcels, NumServers, MaxErrors. rewrite Ht.
    unfold Servers in Hn. rewrite Hn, app_length. unfold quorum in *. simpl length. destruct (decide _) as [Hlt|Hlt].
    + exists [], r, l. split; [done|]. split; [done|]. simpl. lia.
    + specialize (IH (acc ++ [r]) ne). rewrite app_length in IH. simpl in IH.
      specialize (IH ltac:(lia) He).
      destruct (rr_loop nt _ (acc ++ [r]) _) as [|out|e'| | |]; try done.
      * cnt. lia.
      * destruct IH as (pre & r' & rest & -> & -> & H1 & H2). exists ((r, None) :: pre), r', rest.
        split; [done|]. split; [by rewrite <-(app_assoc acc)|]. cnt. lia.
      * destruct IH as (pre & r' & rest & -> & H1 & H2). exists ((r, None) :: pre), r', rest.
        split; [done|]. cnt. lia.
Qed.

Lemma app_split {A} (l1 l2 t1 t2 : list A) a b : l1 ++ a :: t1 = l2 ++ b :: t2 → length l2 < length l1 →
  ∃ u, l1 = l2 ++ b :: u.
Proof.
  revert l1. induction l2 as [|x l2 IH]; intros [|y l1] Heq Hl; simpl in *; try lia.
  - injection Heq as -> _. by exists l1.
  - injection Heq as -> Heq. destruct (IH l1 Heq) as [u ->]; [lia|]. by exists u.
Qed.
Lemma oks_app l l' : oks (l ++ l') = oks l ++ oks l'.
Proof. apply omap_app. Qed.
Lemma errs_app l l' : errs (l ++ l') = errs l ++ errs l'.
Proof. apply omap_app. Qed.
Lemma oks_errs l : length (oks l) + length (errs l) = length l.
Proof. induction l as [|[r [e|]] l IH]; cnt; lia. Qed.

Lemma robust_call_cases nt n tau l : quorum_net nt n tau →
  match robust_call nt l with
  | RWaiting => length (oks l) < quorum n tau ∧ length (errs l) < tau
  | RDone out => ∃ pre r rest, l = pre ++ (r, None) :: rest ∧ out = oks pre ++ [r] ∧
      S (length (oks pre)) = quorum n tau ∧ length (errs pre) < tau
  | RErr e => ∃ pre r rest, l = pre ++ (r, Some e) :: rest ∧
      length (oks pre) < quorum n tau ∧ S (length (errs pre)) = tau
  | RCancelled | RBadRequest | RPanic => False
  end.
Proof.
  intros Hq. rewrite (robust_call_loop nt n tau l Hq).
  apply (rr_loop_run nt n tau l [] 0 Hq); destruct Hq as (_ & _ & _ & ?); unfold quorum; simpl; lia.
Qed.

(** It succeeds at the moment the (n - (tau-1))-th accepted response arrives, if fewer than tau errors came
    before, and returns exactly the accepted responses so far. *)
Theorem C47_succeeds nt n tau l out : quorum_net nt n tau →
  (robust_call nt l = RDone out ↔
   ∃ pre r rest, l = pre ++ (r, None) :: rest ∧ out = oks pre ++ [r] ∧
     length out = n - (tau - 1) ∧ length (errs pre) < tau).
Proof.
  intros Hq. pose proof (robust_call_cases nt n tau l Hq) as H. unfold quorum in H. split.
  - intros E1. rewrite E1 in H. destruct H as (pre & r & rest & H1 & H2 & H3 & H4).
    exists pre, r, rest. split; [done|]. split; [done|]. split; [|done].
    rewrite H2, app_length. simpl. lia.
  - intros (pre & r & rest & -> & Hout & Hlen & He). rewrite Hout, app_length in Hlen. simpl in Hlen.
    rewrite (robust_call_loop nt n tau _ Hq).
    assert (∀ acc ne, length acc + length (oks pre) + 1 = quorum n tau → ne + length (errs pre) < tau →
      rr_loop nt ((λ p, EvResp p.1 p.2) <$> (pre ++ (r, None) :: rest)) acc (Z.of_nat ne)
        = RDone (acc ++ oks pre ++ [r])) as Hgen.
    { destruct Hq as (_ & Hn & Ht & Hb). unfold Servers in Hn. clear H Hout Hlen He.
      induction pre as [|[r' [e|]] pre IH]; intros acc ne Ha He; cbn [app fmap list_fmap rr_loop fst snd];
        unfold MinimalRelayedParcels, NumServers, MaxErrors, quorum in *; rewrite ?Hn, ?Ht; cnt.
      - simpl in Ha. rewrite decide_True; [done|]. rewrite app_length. simpl. lia.
      - rewrite decide_False by lia. replace (Z.of_nat ne + 1)%Z with (Z.of_nat (S ne)) by lia.
        apply IH; lia.
      - rewrite decide_False by (rewrite app_length; simpl; lia). rewrite IH.
        + by rewrite <-(app_assoc acc).
        + rewrite app_length. simpl. lia.
        + lia. }
    change 0%Z with (Z.of_nat 0); rewrite (Hgen [] 0); [by rewrite Hout|unfold quorum; simpl; lia|simpl; lia].
Qed.

(** It fails with the tau-th error, if fewer than n - (tau-1) responses were accepted before. *)
Theorem C47_fails nt n tau l e : quorum_net nt n tau →
  (robust_call nt l = RErr e ↔
   ∃ pre r rest, l = pre ++ (r, Some e) :: rest ∧ length (oks pre) < n - (tau - 1) ∧ length (errs pre) = tau - 1).
Proof.
  intros Hq. pose proof (robust_call_cases nt n tau l Hq) as H. unfold quorum in H. split.
  - intros E1. rewrite E1 in H. destruct H as (pre & r & rest & H1 & H2 & H3).
    exists pre, r, rest. split; [done|]. split; [done|]. lia.
  - intros (pre & r & rest & -> & Hlen & He). destruct (robust_call nt _) as [|out|e'| | |] eqn:E1; try done.
    + rewrite oks_app, errs_app in H. destruct Hq as (_ & _ & _ & ?). cnt.
      rewrite !app_length in H. simpl in H. lia.
    + destruct H as (pre' & r' & rest' & Heq & _ & H1 & H2). exfalso.
      destruct (decide (length pre' < length pre)) as [Hlt|].
      * destruct (app_split _ _ _ _ _ _ Heq ltac:(lia)) as [u Hp].
        rewrite Hp, oks_app, app_length in Hlen. cnt. lia.
      * assert (length pre ≠ length pre') as Hne.
        { intros Hl. apply (app_inj_1 _ _ _ _ Hl) in Heq as [_ Heq]. by simplify_eq. }
        destruct (app_split _ _ _ _ _ _ (eq_sym Heq) ltac:(lia)) as [u Hp].
        rewrite Hp, errs_app, app_length in H2. cnt.
        destruct Hq as (_ & _ & _ & ?). lia.
    + destruct H as (pre' & r' & rest' & Heq & H1 & H2).
      destruct (Nat.lt_trichotomy (length pre') (length pre)) as [Hlt|[Hl|Hlt]].
      * exfalso. destruct (app_split _ _ _ _ _ _ Heq ltac:(lia)) as [u Hp].
        rewrite Hp, errs_app, app_length in He. cnt. lia.
      * symmetry in Hl. apply (app_inj_1 _ _ _ _ Hl) in Heq as [_ Heq]. by simplify_eq.
      * exfalso. destruct (app_split _ _ _ _ _ _ (eq_sym Heq) ltac:(lia)) as [u Hp].
        rewrite Hp, errs_app, app_length in H2. cnt. lia.
Qed.

(** It decides after at most n responses: with n of them it returns the responses iff at most tau-1 of
    the n are errors, and otherwise an error; in no case does it panic or refuse the request. *)
Theorem C47_decides nt n tau l : quorum_net nt n tau → length l = n →
  (length (errs l) ≤ tau - 1 ∧ ∃ out, robust_call nt l = RDone out) ∨
  (tau ≤ length (errs l) ∧ ∃ e, robust_call nt l = RErr e).
Proof.
  intros Hq Hl. pose proof (robust_call_cases nt n tau l Hq) as H. unfold quorum in H.
  pose proof (oks_errs l) as Hc. assert (1 ≤ tau ≤ n) as Hb by apply Hq.
  destruct (robust_call nt l) as [|out|e| | |]; try done.
  - lia.
  - left. split; [|by eexists]. destruct H as (pre & r & rest & -> & _ & H1 & H2).
    rewrite oks_app, errs_app, !app_length in Hc. rewrite errs_app, app_length. cnt.
    rewrite app_length in Hl. simpl in Hl. lia.
  - right. split; [|by eexists]. destruct H as (pre & r & rest & -> & H1 & H2).
    rewrite errs_app, app_length. cnt. lia.
Qed.
(** Whatever comes later cannot change it. *)
Theorem C47_stable nt n tau l l' res : quorum_net nt n tau → robust_call nt l = res → res ≠ RWaiting →
  robust_call nt (l ++ l') = res.
Proof.
  intros Hq Hr Hne. pose proof (robust_call_cases nt n tau l Hq) as H. rewrite Hr in H.
  destruct res as [|out|e| | |]; try done.
  - apply (C47_succeeds nt n tau) in Hr; [|done]. destruct Hr as (pre & r & rest & -> & Hrest).
    apply (C47_succeeds nt n tau); [done|]. exists pre, r, (rest ++ l'). by rewrite <-app_assoc.
  - apply (C47_fails nt n tau) in Hr; [|done]. destruct Hr as (pre & r & rest & -> & Hrest).
    apply (C47_fails nt n tau); [done|]. exists pre, r, (rest ++ l'). by rewrite <-app_assoc.
Qed.

(** The number of responses returned is the number of data shards of the coordinator's code. *)
Theorem C47_matches_code nt n tau l out : quorum_net nt n tau → n ≤ Z.to_nat 65536 → robust_call nt l = RDone out →
  NewCoordinator nt = Ok (Z.of_nat (length out), Z.of_nat tau - 1)%Z.
Proof.
  intros Hq Hmax Hr. apply (C47_succeeds nt n tau) in Hr; [|done].
  destruct Hr as (pre & r & rest & _ & _ & Hlen & _). destruct Hq as (_ & Hn & Ht & Hb).
  unfold NewCoordinator, MaxErrors. rewrite Hn, Ht, Hlen.
  assert (rs_new (Z.of_nat n - (Z.of_nat tau - 1)) (Z.of_nat tau - 1) = true) as ->.
  { unfold rs_new. apply negb_true_iff. rewrite !orb_false_iff, Z.leb_gt, !Z.ltb_ge. split_and!; lia. }
  f_equal. f_equal. lia.
Qed.

(** Two servers with one address: every robust call is refused. *)
Theorem C47_duplicate_address nt l : ¬ NoDup (Servers nt) → robust_call nt l = RBadRequest.
Proof.
  intros Hd. unfold robust_call, RobustRequest, Dial. rewrite decide_True; [done|].
  rewrite seqZ_length, Nat2Z.id. intros Heq. apply Hd.
  assert (∀ s : list string, length s = size (list_to_set s : gset string) → NoDup s) as Hgen; [|by apply Hgen].
  clear. induction s as [|a s IH]; intros Hs; [constructor|]. simpl in Hs.
  destruct (decide (a ∈ s)) as [Hin|Hin].
  - exfalso. assert ({[a]} ∪ list_to_set s = (list_to_set s : gset string)) as Hu.
    { apply subseteq_union_1_L. by apply singleton_subseteq_l, elem_of_list_to_set. }
    rewrite Hu in Hs. assert (size (list_to_set s : gset string) ≤ length s); [|lia].
    clear. induction s as [|a s IH]; cbn [list_to_set length]; [by rewrite size_empty|].
    rewrite size_union_alt, size_singleton. 
    pose proof (subseteq_size (list_to_set s ∖ {[a]}) (list_to_set s : gset string)) as Hx.
    specialize (Hx ltac:(set_solver)). lia.
  - rewrite size_union, size_singleton in Hs by (apply disjoint_singleton_l; by rewrite elem_of_list_to_set).
    constructor; [done|]. apply IH. lia.
Qed.
End C47.

(** NewCoordinator refuses (panics) exactly the thresholds outside 1..n and more than 65536 servers. *)
Theorem C47_coordinator_panics nt :
  NewCoordinator nt = Panic ↔
  ¬ (1 ≤ Tau nt ≤ Z.of_nat (length (Servers nt)) ≤ 65536)%Z.
Proof.
  unfold NewCoordinator, MaxErrors. 
  destruct (rs_new _ _) eqn:Er; unfold rs_new in Er.
  - apply negb_true_iff in Er. rewrite !orb_false_iff, Z.leb_gt, !Z.ltb_ge in Er. split; [done|]. lia.
  - apply negb_false_iff in Er. rewrite !orb_true_iff, Z.leb_le, !Z.ltb_lt in Er. split; [|done]. lia.
Qed.
(** With the configured threshold (half the peers): a system of one server cannot start; two or more
    (all with key and address) can, and more than half of the relays make a quorum. *)
Theorem C47_configured peers : Forall (λ p, p.1 ≠ "" ∧ p.2 ≠ None) peers → length peers ≤ Z.to_nat 65536 →
  let nt := NewNetworkData (coordinator_config peers) in
  length (Servers nt) = length peers ∧
  (NewCoordinator nt = Panic ↔ length peers < 2) ∧
  (2 ≤ length peers → Tau nt = Z.of_nat (length peers / 2) ∧ (1 ≤ Tau nt)%Z ∧
     (Z.of_nat (length peers) < 2 * MinimalRelayedParcels nt)%Z).
Proof.
  intros Hv Hmax nt. destruct (C48_servers (coordinator_config peers)) as [_ Hp].
  assert (length (Servers nt) = length peers) as Hlen.
  { apply Permutation_length in Hp. unfold nt. rewrite Hp, fmap_length. clear Hp Hmax nt.
    unfold valid_entries, coordinator_config. simpl.
    induction Hv as [|[a k] l [Ha Hk] _ IH]; [done|]. simpl. destruct k as [k|]; [|done].
    rewrite decide_False by done. simpl. f_equal. exact IH. }
  destruct (new_net (coordinator_config peers)) as (_ & _ & _ & Ht). fold nt in Ht. simpl in Ht.
  split; [done|].
  pose proof (Nat.div_mod (length peers) 2 ltac:(lia)) as Hd.
  pose proof (Nat.mod_upper_bound (length peers) 2 ltac:(lia)) as Hm.
  set (h := length peers / 2) in *.
  assert (Tau nt = Z.of_nat h) as Ht' by exact Ht. clear Ht. split.
  - rewrite C47_coordinator_panics, Hlen, Ht'. lia.
  - intros H2. split; [done|]. unfold MinimalRelayedParcels, NumServers, MaxErrors. unfold Servers in Hlen.
    rewrite Ht', Hlen. lia.
Qed.

(** A concrete call: 3 servers, tau = 2; one error is tolerated, two are not. *)
Example C47_example :
  quorum_net (NewNetworkData C48_cfg) 3 2 ∧
  robust_call (NewNetworkData C48_cfg) [(10, None); (11, Some "bad"); (12, None)] = RDone [10; 12] ∧
  robust_call (NewNetworkData C48_cfg) [(10, Some "late"); (11, Some "bad"); (12, None)] = RErr "bad" ∧
  NewCoordinator (NewNetworkData C48_cfg) = Ok (2, 1)%Z.
Proof.
  split_and!; try (by vm_compute).
  split_and!; try (by vm_compute); try lia. apply (bool_decide_unpack _). by vm_compute.
Qed.
