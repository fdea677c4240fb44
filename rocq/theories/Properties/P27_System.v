(** C61, C82: one round of the whole mix network. *)
From stdpp Require Import gmap.
From Verif.Base Require Import Base.
From Verif.Model Require Import Topology Shuffle Onion Mixer Rounds Messages System.
From Verif.Spec Require Import MixerSpec MessagesSpec SystemSpec.
From Verif.Proofs Require Import MixerInv MixerLive MixerExec SystemProofs.
From Verif.Properties Require Import P04_Mixer P08_Messages.

Lemma delivers_fun t peel ms o a b : delivers t peel ms o a → delivers t peel ms o b → a = b.
Proof.
  revert o. induction ms as [|m ms IH]; intros o; simpl; [congruence|].
  intros (_ & o1 & E1 & H1) (_ & o2 & E2 & H2). rewrite E1 in E2. injection E2 as <-. by eapply IH.
Qed.
Lemma Forall2_fun {A B} (R : A → B → Prop) xs ys zs :
  (∀ x y z, x ∈ xs → R x y → R x z → y = z) → Forall2 R xs ys → Forall2 R xs zs → ys = zs.
Proof.
  intros HR H. revert zs. induction H as [|x y xs ys Hxy H IH]; intros zs Hz.
  - by apply Forall2_nil_inv_l in Hz.
  - apply Forall2_cons_inv_l in Hz as (z & zs' & Hxz & Hz & ->). f_equal; [eapply HR; [left|done|done]|].
    apply IH; [|done]. intros ? ? ? ?. apply HR. by right.
Qed.

(** C61.  The round was opened at every server with the workload map computed from the request; clients
    send well-formed batches of onions, at most as many as announced; [tr] is any history: any batching,
    any interleaving of handlers, workers, shuffles, senders and deliveries, any loss.  If GetMessages
    returns for the last mix of chain i, it returns the messages of the onions sent into that chain, each
    exactly once, and nothing else. *)
Theorem C61_delivers_exactly servers L t req fuel w round peel workers taskCap outCap s0 tr s i x v :
  CreateCascadeTopology servers (Z.of_nat L) = Some t → 0 < L → (Z.of_nat L ≤ 2 ^ 31)%Z →
  round_workload fuel t req = Some (Ok w) → round_opened t servers w s0 →
  yrun t round peel workers taskCap outCap s0 tr s →
  honest_clients t peel tr → within_announced t w tr →
  deref t (L - 1, i) = Some x → GetMessages s (mx_host x) (mx_name x) v →
  ∃ msgs, Forall2 (delivers t (opens peel) (chain_mixes t i)) (sent_into t i tr) msgs ∧ v ≡ₚ Some <$> msgs.
Proof.
  intros Ht HL HL31 Hw Hop Hr Hh Hwi Hx (m & Hm & Hv).
  destruct (delivered true t round peel workers taskCap outCap servers L w fuel req Ht HL HL31 Hw s0 Hop
    tr s (L - 1) i x m v Hr Hh Hwi Hx Hm Hv) as (outs & HF & Hp).
  replace (S (L - 1)) with L in HF by lia.
  rewrite take_ge in HF; [by exists outs|].
  destruct (deref_bound t servers L Ht _ _ _ Hx) as [_ Hi]. rewrite (chain_len t servers L Ht HL i Hi). lia.
Qed.
Print Assumptions C61_delivers_exactly.

(** Somebody looking at an earlier mix of the chain sees the same messages, still wrapped for the rest
    of the chain. *)
Theorem C61_every_layer servers L t req fuel w round peel workers taskCap outCap s0 tr s l i x v :
  CreateCascadeTopology servers (Z.of_nat L) = Some t → 0 < L → (Z.of_nat L ≤ 2 ^ 31)%Z →
  round_workload fuel t req = Some (Ok w) → round_opened t servers w s0 →
  yrun t round peel workers taskCap outCap s0 tr s →
  honest_clients t peel tr → within_announced t w tr →
  deref t (l, i) = Some x → GetMessages s (mx_host x) (mx_name x) v →
  ∃ outs, Forall2 (delivers t (opens peel) (take (S l) (chain_mixes t i))) (sent_into t i tr) outs ∧ v ≡ₚ Some <$> outs.
Proof.
  intros Ht HL HL31 Hw Hop Hr Hh Hwi Hx (m & Hm & Hv).
  exact (delivered true t round peel workers taskCap outCap servers L w fuel req Ht HL HL31 Hw s0 Hop
    tr s l i x m v Hr Hh Hwi Hx Hm Hv).
Qed.
Print Assumptions C61_every_layer.

(** No server crashes. *)
Theorem C61_no_crash servers L t req fuel w round peel workers taskCap outCap s0 tr s :
  CreateCascadeTopology servers (Z.of_nat L) = Some t → 0 < L → (Z.of_nat L ≤ 2 ^ 31)%Z →
  round_workload fuel t req = Some (Ok w) → round_opened t servers w s0 →
  yrun t round peel workers taskCap outCap s0 tr s →
  honest_clients t peel tr → within_announced t w tr → (∀ h, YHost h LClose ∉ tr) →
  (∀ h o, YCrash h o ∉ tr) ∧ (∀ h, YHost h LPanic ∉ tr) ∧
  sy_down s = ∅ ∧ (∀ h m, sy_srv s !! h = Some m → mm_panic m = false).
Proof.
  intros Ht HL HL31 Hw Hop Hr Hh Hwi Hcl.
  destruct (no_crash true t round peel workers taskCap outCap servers L w fuel req Ht HL HL31 Hw s0 Hop
    tr s Hr Hh Hwi Hcl) as (H1 & H2 & H3 & H4). done.
Qed.
Print Assumptions C61_no_crash.

(** C61 for onions made by generateOnion (C18), whatever encryption scheme is used, if decrypting with
    the round key of a host undoes encrypting to it: GetMessages returns exactly the messages. *)
Theorem C61_generated {MPK D R} (sha3id : string → D)
    (Encrypt : MPK → D → bytes → R → outcome code bytes) (mpks : gmap string MPK)
    (decrypt : string → D → bytes → option bytes)
    servers L t req fuel w round peel workers taskCap outCap s0 tr s i x v msgs :
  let generated i o msg := ∃ rnd, wrapLayers sha3id Encrypt t mpks round i rnd L msg = Ok o in
  (∀ h mpk id m r c, mpks !! h = Some mpk → Encrypt mpk id m r = Ok c → decrypt h id c = Some m) →
  (∀ h o, opens peel h o = c ← cipher_part o; decrypt h (computeId sha3id h round) c) →
  CreateCascadeTopology servers (Z.of_nat L) = Some t → 0 < L → (Z.of_nat L ≤ 2 ^ 31)%Z →
  (N.of_nat (length servers) ≤ 2 ^ 32)%N →
  round_workload fuel t req = Some (Ok w) → round_opened t servers w s0 →
  yrun t round peel workers taskCap outCap s0 tr s →
  (∀ h rq m, (h, rq) ∈ client_calls tr → m ∈ rq_msgs rq →
     msg_phys m = GenesisName ∧ msg_lsender m = GenesisName ∧ msg_onions m ≠ [] ∧
     ∃ i first, deref t (0, i) = Some first ∧ mx_name first = msg_recv m ∧ mx_host first = h ∧
       ∀ o, o ∈ msg_onions m → ∃ msg, generated i o msg) →
  within_announced t w tr →
  deref t (L - 1, i) = Some x → GetMessages s (mx_host x) (mx_name x) v →
  Forall2 (generated i) (sent_into t i tr) msgs → v ≡ₚ Some <$> msgs.
Proof.
  cbv zeta. intros Hdec Hpeel Ht HL HL31 Hs32 Hw Hop Hr Hcl Hwi Hx Hg HF.
  pose proof (tp_len t servers L Ht) as HtL.
  assert (Hdel : ∀ i o msg rnd, i < length servers → wrapLayers sha3id Encrypt t mpks round i rnd L msg = Ok o →
    delivers t (opens peel) (chain_mixes t i) o msg).
  { intros i' o msg rnd Hi' Hwr. rewrite <-HtL in Hwr.
    destruct (C18_onion_peels sha3id Encrypt t mpks decrypt Hdec ltac:(lia) round i' rnd msg o ltac:(lia) Hwr) as [_ Hd].
    clear -Hd Hpeel. revert o Hd. induction (chain_mixes t i') as [|m ms IH]; intros o; simpl; [done|].
    intros (H1 & o' & H2 & H3). split; [done|]. exists o'. rewrite Hpeel. split; [done|by apply IH]. }
  assert (Hh : honest_clients t peel tr).
  { intros h rq m Hin Hm. destruct (Hcl _ _ _ Hin Hm) as (H1 & H2 & H3 & i' & first & H4 & H5 & H6 & H7).
    do 3 (split; [done|]). exists i', first. do 3 (split; [done|]). intros o Ho. destruct (H7 _ Ho) as (msg & rnd & Hwr).
    exists msg. eapply Hdel; [|done]. by destruct (deref_bound t servers L Ht _ _ _ H4). }
  destruct (C61_delivers_exactly _ _ _ _ _ _ _ _ _ _ _ _ _ _ _ _ _ Ht HL HL31 Hw Hop Hr Hh Hwi Hx Hg) as (msgs' & HF' & Hp).
  assert (msgs = msgs') as ->; [|done].
  eapply Forall2_fun; [|  |exact HF'].
  - intros o a b _. apply delivers_fun.
  - eapply Forall2_impl; [exact HF|]. intros o msg [rnd Hwr]. eapply Hdel; [|done].
    by destruct (deref_bound t servers L Ht _ _ _ Hx).
Qed.
Print Assumptions C61_generated.

(** C82.  The servers do only finitely many steps for given client calls, ... *)
Theorem C82_bounded servers L t req fuel w round peel workers taskCap outCap s0 :
  CreateCascadeTopology servers (Z.of_nat L) = Some t → 0 < L → (Z.of_nat L ≤ 2 ^ 31)%Z →
  round_workload fuel t req = Some (Ok w) → round_opened t servers w s0 →
  ∀ calls, ∃ N, ∀ tr s, yrun t round peel workers taskCap outCap s0 tr s → honest_clients t peel tr →
    client_calls tr = calls → length (filter (λ l, own_step l = true) tr) ≤ N.
Proof.
  intros Ht HL HL31 Hw Hop.
  exact (bounded true t round peel workers taskCap outCap servers L w fuel req Ht HL HL31 Hw s0 Hop).
Qed.
Print Assumptions C82_bounded.

(** ... can always go on until nothing is left to do, ... *)
Theorem C82_settles servers L t req fuel w round peel workers taskCap outCap s0 tr s :
  CreateCascadeTopology servers (Z.of_nat L) = Some t → 0 < L → (Z.of_nat L ≤ 2 ^ 31)%Z →
  round_workload fuel t req = Some (Ok w) → round_opened t servers w s0 →
  (∀ h, h ∈ servers → 0 < workers h ∧ 0 < taskCap h ∧ 0 < outCap h) →
  yrun t round peel workers taskCap outCap s0 tr s →
  honest_clients t peel tr → within_announced t w tr → (∀ h, YHost h LClose ∉ tr) →
  ∃ tr' s', yrun t round peel workers taskCap outCap s0 (tr ++ tr') s' ∧
    Forall (λ l, own_step l = true) tr' ∧ settled t round peel workers taskCap outCap s'.
Proof.
  intros Ht HL HL31 Hw Hop Hcap Hr Hh Hwi Hcl.
  exact (settles true t round peel workers taskCap outCap servers L w fuel req Ht HL HL31 Hw s0 Hop tr s Hr Hh Hwi Hcl Hcap).
Qed.
Print Assumptions C82_settles.

(** ... and then the messages of every chain into which all announced messages were sent can be read, if
    no call was lost. *)
Theorem C82_completes servers L t req fuel w round peel workers taskCap outCap s0 tr s i x :
  CreateCascadeTopology servers (Z.of_nat L) = Some t → 0 < L → (Z.of_nat L ≤ 2 ^ 31)%Z →
  round_workload fuel t req = Some (Ok w) → round_opened t servers w s0 →
  (∀ h, h ∈ servers → 0 < workers h ∧ 0 < taskCap h ∧ 0 < outCap h) →
  yrun t round peel workers taskCap outCap s0 tr s →
  honest_clients t peel tr → within_announced t w tr →
  (∀ h, YHost h LClose ∉ tr) → (∀ c, YLose c ∉ tr) →
  settled t round peel workers taskCap outCap s →
  sent_into t i tr ≠ [] → Z.of_nat (length (sent_into t i tr)) = announced t w i →
  deref t (L - 1, i) = Some x →
  ∃ v msgs, GetMessages s (mx_host x) (mx_name x) v ∧
    Forall2 (delivers t (opens peel) (chain_mixes t i)) (sent_into t i tr) msgs ∧ v ≡ₚ Some <$> msgs.
Proof.
  intros Ht HL HL31 Hw Hop Hcap Hr Hh Hwi Hcl Hlo Hset Hne Hlen Hx.
  destruct (completes true t round peel workers taskCap outCap servers L w fuel req Ht HL HL31 Hw s0 Hop
    tr s Hr Hh Hwi Hcl Hlo Hcap Hset i Hne Hlen _ _ Hx) as (m & v & Hm & Hv).
  assert (GetMessages s (mx_host x) (mx_name x) v) as Hg by (by exists m).
  destruct (C61_delivers_exactly _ _ _ _ _ _ _ _ _ _ _ _ _ _ _ _ _ Ht HL HL31 Hw Hop Hr Hh Hwi Hx Hg) as (msgs & HF & Hp).
  by exists v, msgs.
Qed.
Print Assumptions C82_completes.

(** ** A concrete round, executed: two servers, two layers, three clients' messages. *)
Inductive ychoice :=
| KClient (h : string) (rq : AddRequest) | KDeliver (k : nat) | KHost (h : string) (c : choice)
| KTake (h : string) | KSend (k : nat).

(** The calls of an iteration, with the groups in the order of map_to_list. *)
Definition sender_request (round : Z) (t : topology) (h ls : string) (e : string * list onion) : option AddRequest :=
  mp ← GroupOnionsByMixName e.2 t;
  Some (mkAddRequest (Z.to_N (round mod 2 ^ 32)) ((λ e, mkMessages e.2 h ls e.1) <$> map_to_list mp) (request_uuid h e.1 ls)).
Definition sender_calls (round : Z) (t : topology) (h : string) (out : list onion) (ls : string)
    : option (list (string * AddRequest)) :=
  g ← GroupOnionsByHostname out t;
  rs ← mapM id (sender_request round t h ls <$> map_to_list g);
  Some (zip (map_to_list g).*1 rs).
Lemma sender_calls_sound round t h out ls cs :
  sender_calls round t h out ls = Some cs → sender_iteration round t h out ls (Some cs).
Proof.
  unfold sender_calls, sender_iteration. destruct (GroupOnionsByHostname out t) as [g|]; [|done]. simpl. intros H.
  exists (map_to_list g), (sender_request round t h ls <$> map_to_list g). split; [done|]. split; [|by rewrite <-H].
  clear H. induction (map_to_list g) as [|e l IH]; constructor; [|done]. unfold createRRPCRequest, sender_request.
  destruct (GroupOnionsByMixName e.2 t) as [mp|]; [|done]. simpl. by exists (map_to_list mp).
Qed.

Section exec.
Context (t : topology) (round : Z) (peel : string → onion → option (option onion))
        (workers taskCap outCap : string → nat).
Notation ystep := (ystepg true t round peel workers taskCap outCap).
Notation yrun := (yrung true t round peel workers taskCap outCap).

Definition busy (h : string) (cs : list call) : bool :=
  existsb (λ c, match cl_from c with Some h' => bool_decide (h' = h) | None => false end) cs.
Lemma busy_false h cs : busy h cs = false → ∀ c, c ∈ cs → cl_from c ≠ Some h.
Proof.
  intros Hb c Hc Hf. apply not_true_iff_false in Hb. apply Hb. apply existsb_exists. exists c.
  split; [by apply elem_of_list_In|]. rewrite Hf. by apply bool_decide_true.
Qed.
Definition addr (l : label) : bool := match l with LAdd _ | LRecv _ => true | _ => false end.

(** Only states without a crashed sender are executed. *)
Definition yexec_step (c : ychoice) (srv : gmap string mixers) (q n : list call)
    : option (ylabel * (gmap string mixers * list call * list call)) :=
  match c with
  | KClient h rq => Some (YClient h rq, (srv, q, n ++ [mkCall None h rq]))
  | KDeliver k =>
      c ← n !! k; m ← srv !! cl_to c;
      '(l, m') ← exec_step (peel (cl_to c)) (workers (cl_to c)) (taskCap (cl_to c)) (outCap (cl_to c))
                   (CAdd (rq_msgs (cl_rq c))) m;
      Some (YDeliver c, (<[cl_to c := m']> srv, q, take k n ++ drop (S k) n))
  | KHost h c =>
      m ← srv !! h;
      '(l, m') ← exec_step (peel h) (workers h) (taskCap h) (outCap h) c m;
      if addr l then None else Some (YHost h l, (<[h := m']> srv, q, n))
  | KTake h =>
      m ← srv !! h;
      if busy h (q ++ n) then None else
      '(l, m') ← exec_step (peel h) (workers h) (taskCap h) (outCap h) CRecv m;
      match l with
      | LRecv o =>
          cs ← sender_calls round t h (sender_input o) (mo_sender o);
          Some (YTake h o (calls_of h cs), (<[h := m']> srv, q ++ calls_of h cs, n))
      | _ => None
      end
  | KSend k =>
      c ← q !! k;
      match cl_from c with
      | Some h => m ← srv !! h;
          if mm_panic m then None else if busy h (take k q ++ n) then None
          else Some (YSend c, (srv, take k q ++ drop (S k) q, n ++ [c]))
      | None => None
      end
  end.

Lemma exec_not_panicked pl wk tc oc c m l m' : exec_step pl wk tc oc c m = Some (l, m') → mm_panic m = false.
Proof. unfold exec_step. by destruct (mm_panic m). Qed.

Lemma yexec_step_sound c srv q n l srv' q' n' :
  yexec_step c srv q n = Some (l, (srv', q', n')) →
  ystep (mkSystem srv q n ∅) l (mkSystem srv' q' n' ∅).
Proof.
  destruct c as [h rq|k|h c|h|k]; simpl; intros H.
  - injection H as <- <- <- <-. apply (y_client _ _ _ _ _ _ _ (mkSystem srv q n ∅)).
  - destruct (n !! k) as [c|] eqn:Ec; [|done]. simpl in H. destruct (srv !! cl_to c) as [m|] eqn:Em; [|done]. simpl in H.
    destruct (exec_step _ _ _ _ _ m) as [[l0 m']|] eqn:Ex; [|done]. simpl in H. injection H as <- <- <- <-.
    pose proof (exec_not_panicked _ _ _ _ _ _ _ _ Ex) as Hp. pose proof (exec_step_sound _ _ _ _ _ _ _ _ Ex) as Hs.
    pose proof (take_drop_middle _ _ _ Ec) as Hn. symmetry in Hn.
    assert (l0 = LAdd (rq_msgs (cl_rq c))) as ->.
    { unfold exec_step in Ex. rewrite Hp in Ex. destruct (mm_holder m); [done|]. congruence. }
    eapply (y_deliver _ _ _ _ _ _ _ (mkSystem srv q n ∅)); [exact Hn|split; [done|]; split; [set_solver|done]|exact Hs].
  - destruct (srv !! h) as [m|] eqn:Em; [|done]. simpl in H.
    destruct (exec_step _ _ _ _ _ m) as [[l0 m']|] eqn:Ex; [|done]. simpl in H. destruct (addr l0) eqn:Ea; [done|]. injection H as <- <- <- <-.
    pose proof (exec_not_panicked _ _ _ _ _ _ _ _ Ex) as Hp. pose proof (exec_step_sound _ _ _ _ _ _ _ _ Ex) as Hs.
    assert (own_label l0) as Ho by (destruct l0; simpl in Ea |- *; done).
    refine (y_host _ _ _ _ _ _ _ (mkSystem srv q n ∅) h l0 m m' _ Ho Hs). split; [done|]; split; [set_solver|done].
  - destruct (srv !! h) as [m|] eqn:Em; [|done]. simpl in H. destruct (busy h (q ++ n)) eqn:Eb; [done|]. unfold exec_step in H.
    destruct (mm_panic m) eqn:Hp; [done|]. destruct (mm_out m) as [|o os] eqn:Eo; [done|]. simpl in H.
    destruct (sender_calls _ _ _ _ _) as [cs|] eqn:Es; [|done]. simpl in H. injection H as <- <- <- <-.
    eapply (y_take _ _ _ _ _ _ _ (mkSystem srv q n ∅)).
    + split; [done|]. split; [set_solver|done].
    + intros _. exact (busy_false _ _ Eb).
    + by apply step_recv.
    + by apply sender_calls_sound.
  - destruct (q !! k) as [c|] eqn:Ec; [|done]. simpl in H. destruct (cl_from c) as [h|] eqn:Ef; [|done].
    destruct (srv !! h) as [m|] eqn:Em; [|done]. simpl in H. destruct (mm_panic m) eqn:Hp; [done|].
    destruct (busy h (take k q ++ n)) eqn:Eb; [done|]. injection H as <- <- <- <-.
    pose proof (take_drop_middle _ _ _ Ec) as Hn. symmetry in Hn.
    eapply (y_send _ _ _ _ _ _ _ (mkSystem srv q n ∅)); [exact Hn|exact Ef|split; [done|]; split; [set_solver|done]|].
    intros _. exact (busy_false _ _ Eb).
Qed.

(** Take the first choice that is possible, as long as there is one. *)
Fixpoint pick (cs : list ychoice) srv q n :=
  match cs with
  | [] => None
  | c :: cs => match yexec_step c srv q n with Some r => Some r | None => pick cs srv q n end
  end.
Lemma pick_sound cs srv q n l srv' q' n' : pick cs srv q n = Some (l, (srv', q', n')) →
  ystep (mkSystem srv q n ∅) l (mkSystem srv' q' n' ∅).
Proof.
  induction cs as [|c cs IH]; simpl; [done|]. destruct (yexec_step c srv q n) as [[? [[??]?]]|] eqn:E; [|done].
  intros [= <- <- <- <-]. by eapply yexec_step_sound.
Qed.
Fixpoint auto (fuel : nat) (cs : list ychoice) srv q n : list ylabel * (gmap string mixers * list call * list call) :=
  match fuel with
  | 0 => ([], (srv, q, n))
  | S fuel => match pick cs srv q n with
              | None => ([], (srv, q, n))
              | Some (l, (srv', q', n')) => let r := auto fuel cs srv' q' n' in (l :: r.1, r.2)
              end
  end.
Definition sys_of (x : gmap string mixers * list call * list call) : system := mkSystem x.1.1 x.1.2 x.2 ∅.
Lemma yrun_cons s0 l s1 tr s : ystep s0 l s1 → yrun s1 tr s → yrun s0 (l :: tr) s.
Proof.
  intros Hs Hr. induction Hr as [|tr l' s2 s3 Hr IH Hs'].
  - eapply (yrun_snoc _ _ _ _ _ _ _ _ []); [constructor|done].
  - rewrite app_comm_cons. by eapply yrun_snoc.
Qed.
Lemma auto_sound fuel cs srv q n :
  yrun (mkSystem srv q n ∅) (auto fuel cs srv q n).1 (sys_of (auto fuel cs srv q n).2).
Proof.
  revert srv q n. induction fuel as [|fuel IH]; intros srv q n; simpl; [constructor|].
  destruct (pick cs srv q n) as [[l [[srv' q'] n']]|] eqn:E; [|constructor]. simpl.
  eapply yrun_cons; [by eapply pick_sound|apply IH].
Qed.
End exec.

(** Toy encryption: append the key byte of the host; decrypting checks and removes it. *)
Definition toy_mpks : gmap string byte := <["a" := Byte.x0a]> (<["b" := Byte.x0b]> ∅).
Definition toy_encrypt (mpk : byte) (id : string) (m : bytes) (r : unit) : outcome code bytes := Ok (m ++ [mpk]).
Definition toy_decrypt (h id : string) (c : bytes) : option bytes :=
  match reverse c with
  | k :: m => if bool_decide (toy_mpks !! h = Some k) then Some (reverse m) else None
  | [] => None
  end.
Definition toy_peel (h : string) (o : onion) : option (option onion) :=
  match cipher_part o with None => None | Some c => Some (toy_decrypt h (computeId id h 7) c) end.

Definition ex27_req : gmap string N := <["m(0,0)" := 2%N]> (<["m(0,1)" := 1%N]> ∅).
Definition ex27_topo : topology := default (mkTopo [] ∅) (CreateCascadeTopology ["a"; "b"] 2).
Definition ex27_w : gmap string Z := match round_workload 2 ex27_topo ex27_req with Some (Ok w) => w | _ => ∅ end.
Definition ex27_ms (h : string) : list LogicalMix :=
  filter (λ m, mx_host m = h) (omap (λ e, deref ex27_topo e.2) (map_to_list (tp_mixes ex27_topo))).
Definition ex27_m (h : string) : mixers :=
  default (mkMixers ∅ [] true [] None [] [] true) (NewMixers ex27_topo (ex27_ms h) ex27_w).
Definition ex27_srv : gmap string mixers := <["a" := ex27_m "a"]> (<["b" := ex27_m "b"]> ∅).
Definition ex27_onion (i : nat) (msg : bytes) : onion :=
  match wrapLayers id toy_encrypt ex27_topo toy_mpks 7 i (λ _, ()) 2 msg with Ok o => o | _ => [] end.
Definition ex27_batch (name : string) (os : list onion) : AddRequest :=
  mkAddRequest 7 [mkMessages os GenesisName GenesisName name] "client".
Definition msg1 : bytes := [Byte.x01]. Definition msg2 : bytes := [Byte.x02]. Definition msg3 : bytes := [Byte.x03].
(** Two messages into chain 0, in two calls; one into chain 1. *)
Definition ex27_clients : list (string * AddRequest) :=
  [("a", ex27_batch "m(0,0)" [ex27_onion 0 msg1]); ("b", ex27_batch "m(0,1)" [ex27_onion 1 msg3]);
   ("a", ex27_batch "m(0,0)" [ex27_onion 0 msg2])].
Definition ex27_net : list call := (λ e, mkCall None e.1 e.2) <$> ex27_clients.
Definition ex27_choices : list ychoice :=
  [KDeliver 0; KDeliver 1; KHost "b" CHold; KHost "a" CHold; KHost "a" CTake; KHost "b" CTake; KHost "a" (CDecrypt 0); KHost "b" (CDecrypt 0);
   KHost "a" (CPend 0); KHost "b" (CPend 0); KHost "a" (CPend 1); KHost "b" (CPend 1); KTake "b"; KTake "a"; KSend 0; KSend 1].
Definition ex27_auto := auto ex27_topo 7 toy_peel (λ _, 2) (λ _, 1) (λ _, 4) 200 ex27_choices ex27_srv [] ex27_net.
Definition ex27_s0 : system := mkSystem ex27_srv [] [] ∅.
Definition ex27_tr : list ylabel := ((λ e, YClient e.1 e.2) <$> ex27_clients) ++ ex27_auto.1.
Definition ex27_fin : system := sys_of ex27_auto.2.
Notation ex27_yrun := (yrun ex27_topo 7 toy_peel (λ _, 2) (λ _, 1) (λ _, 4)).

Fixpoint follow (t : topology) (peel : string → onion → option bytes) (ms : list LogicalMix) (o : onion) : option bytes :=
  match ms with
  | [] => Some o
  | m :: ms => if bool_decide (ExtractMixConfig t o = Some m)
               then match peel (mx_host m) o with Some o' => follow t peel ms o' | None => None end else None
  end.
Lemma follow_sound t peel ms o msg : follow t peel ms o = Some msg → delivers t peel ms o msg.
Proof.
  revert o. induction ms as [|m ms IH]; intros o; simpl; [by intros [= ->]|].
  case_bool_decide; [|done]. destruct (peel (mx_host m) o) as [o'|]; [|done]. intros Hf. split; [done|]. exists o'. auto.
Qed.

Lemma ex27_topo_ok : CreateCascadeTopology ["a"; "b"] (Z.of_nat 2) = Some ex27_topo.
Proof. unfold ex27_topo. apply someb_default. vm_compute. reflexivity. Qed.
Lemma ex27_w_ok : round_workload 2 ex27_topo ex27_req = Some (Ok ex27_w).
Proof.
  assert (match round_workload 2 ex27_topo ex27_req with Some (Ok _) => true | _ => false end = true) as H by (vm_compute; reflexivity).
  unfold ex27_w. revert H. generalize (round_workload 2 ex27_topo ex27_req) as r. by intros [[| |]|].
Qed.
Lemma ex27_opened : round_opened ex27_topo ["a"; "b"] ex27_w ex27_s0.
Proof.
  split; [|split; [|done]].
  - intros h Hh. exists (ex27_ms h), (ex27_m h). split; [unfold hosted, ex27_ms; reflexivity|].
    assert (h = "a" ∨ h = "b") as [->| ->] by set_solver.
    + split; [unfold ex27_m; apply someb_default; vm_compute; reflexivity|]. cbn [ex27_s0 sy_srv]. unfold ex27_srv. by rewrite lookup_insert.
    + split; [unfold ex27_m; apply someb_default; vm_compute; reflexivity|]. cbn [ex27_s0 sy_srv]. unfold ex27_srv.
      rewrite lookup_insert_ne by done. by rewrite lookup_insert.
  - intros h Hh. cbn [ex27_s0 sy_srv]. unfold ex27_srv. rewrite !lookup_insert_ne by set_solver. apply lookup_empty.
Qed.
Lemma ex27_run : ex27_yrun ex27_s0 ex27_tr ex27_fin.
Proof.
  unfold ex27_tr, ex27_clients. cbn [fmap list_fmap app fst snd].
  do 3 (eapply yrun_cons; [apply y_client|]). cbn [ex27_s0 sy_srv sy_queue sy_net sy_down app]. apply auto_sound.
Qed.
Lemma ex27_calls : client_calls ex27_tr = ex27_clients.
Proof.
  unfold ex27_tr. rewrite client_calls_app.
  assert (length (client_calls ex27_auto.1) = 0) as H by (vm_compute; reflexivity).
  apply nil_length_inv in H. rewrite H, app_nil_r. done.
Qed.
Lemma ex27_honest : honest_clients ex27_topo toy_peel ex27_tr.
Proof.
  assert (∀ (i : nat) (o : onion) msg, follow ex27_topo (opens toy_peel) (chain_mixes ex27_topo i) o = Some msg →
    ∃ msg, delivers ex27_topo (opens toy_peel) (chain_mixes ex27_topo i) o msg) as Hd
    by (intros i o msg Hf; exists msg; by apply follow_sound).
  assert (∀ l i, someb (deref ex27_topo (l, i)) = true → ∃ x, deref ex27_topo (l, i) = Some x) as Hx
    by (intros l i; destruct (deref ex27_topo (l, i)); [eauto|done]).
  intros h rq m. rewrite ex27_calls. intros Hin Hm.
  assert (∀ i name (msg : bytes), (h, rq) = (if decide (i = 0) then "a" else "b", ex27_batch name [ex27_onion i msg]) →
    mx_name <$> deref ex27_topo (0, i) = Some name → mx_host <$> deref ex27_topo (0, i) = Some (if decide (i = 0) then "a" else "b") →
    follow ex27_topo (opens toy_peel) (chain_mixes ex27_topo i) (ex27_onion i msg) = Some msg →
    msg_phys m = GenesisName ∧ msg_lsender m = GenesisName ∧ msg_onions m ≠ [] ∧
    ∃ i first, deref ex27_topo (0, i) = Some first ∧ mx_name first = msg_recv m ∧ mx_host first = h ∧
      ∀ o, o ∈ msg_onions m → ∃ msg, delivers ex27_topo (opens toy_peel) (chain_mixes ex27_topo i) o msg) as Hone.
  { intros i name msg [= -> ->] Hn Hh Hf. apply elem_of_list_singleton in Hm. subst m.
    destruct (deref ex27_topo (0, i)) as [first|] eqn:E; [|done]. injection Hn as Hn. injection Hh as Hh.
    split; [done|]. split; [done|]. split; [done|]. exists i, first. split; [done|]. split; [done|]. split; [done|].
    intros o Ho. apply elem_of_list_singleton in Ho as ->. by eapply Hd. }
  unfold ex27_clients in Hin. rewrite !elem_of_cons, elem_of_nil in Hin.
  destruct Hin as [E|[E|[E|[]]]].
  - eapply (Hone 0 "m(0,0)" msg1); [exact E|vm_compute; reflexivity..].
  - eapply (Hone 1 "m(0,1)" msg3); [exact E|vm_compute; reflexivity..].
  - eapply (Hone 0 "m(0,0)" msg2); [exact E|vm_compute; reflexivity..].
Qed.
Lemma ex27_settled : settled ex27_topo 7 toy_peel (λ _, 2) (λ _, 1) (λ _, 4) ex27_fin.
Proof.
  eapply (quiet_settled true _ _ _ _ _ _ ["a"; "b"] _ _ ex27_opened _ _ ex27_run).
  assert (∀ h, h ∈ ["a"; "b"] → match sy_srv ex27_fin !! h with
    | Some m => match mm_holder m, mm_tasks m, mm_inflight m, mm_out m, mm_pend m with None, [], [], [], [] => true | _, _, _, _, _ => false end
    | None => false end = true) as Hi.
  { intros h Hh. assert (h = "a" ∨ h = "b") as [->| ->] by set_solver; vm_compute; reflexivity. }
  assert (length (sy_queue ex27_fin) = 0) as Hq by (vm_compute; reflexivity).
  assert (length (sy_net ex27_fin) = 0) as Hn by (vm_compute; reflexivity).
  apply nil_length_inv in Hq, Hn. revert Hi Hq Hn. generalize ex27_fin as s. intros s Hi Hq Hn.
  split; [exact Hq|]. split; [intros c Hc; rewrite Hn in Hc; by apply elem_of_nil in Hc|].
  intros h Hh. specialize (Hi h Hh). destruct (sy_srv s !! h) as [m|]; [|done]. exists m. split; [done|]. unfold idle.
  destruct (mm_holder m), (mm_tasks m), (mm_inflight m), (mm_out m), (mm_pend m); try done.
  repeat (split; [done|]). by intros ? ? ?%elem_of_nil.
Qed.

(** The hypotheses of C61 and C82 hold together: after this round, the last mixes answer. *)
Example C82_example :
  ex27_yrun ex27_s0 ex27_tr ex27_fin ∧ round_opened ex27_topo ["a"; "b"] ex27_w ex27_s0 ∧
  honest_clients ex27_topo toy_peel ex27_tr ∧ within_announced ex27_topo ex27_w ex27_tr ∧
  (∀ h, YHost h LClose ∉ ex27_tr) ∧ (∀ c, YLose c ∉ ex27_tr) ∧
  settled ex27_topo 7 toy_peel (λ _, 2) (λ _, 1) (λ _, 4) ex27_fin ∧
  sent_into ex27_topo 0 ex27_tr = [ex27_onion 0 msg1; ex27_onion 0 msg2] ∧ announced ex27_topo ex27_w 0 = 2%Z ∧
  (mx_host <$> deref ex27_topo (1, 0)) = Some "b" ∧ (mx_name <$> deref ex27_topo (1, 0)) = Some "m(1,1)" ∧
  GetMessages ex27_fin "b" "m(1,1)" [Some msg1; Some msg2] ∧ GetMessages ex27_fin "a" "m(1,0)" [Some msg3].
Proof.
  split; [exact ex27_run|]. split; [exact ex27_opened|]. split; [exact ex27_honest|]. split.
  { intros i m Hm. assert (i < 2) as Hi by (by destruct (deref_bound ex27_topo ["a"; "b"] 2 ex27_topo_ok _ _ _ Hm)).
    clear Hm. unfold sent_into. rewrite ex27_calls. destruct i as [|[|i]]; [vm_compute; discriminate|vm_compute; discriminate|lia]. }
  split; [|split].
  { intros h Hin. assert (existsb (λ l, match l with YHost _ LClose => true | _ => false end) ex27_tr = false) as H by (vm_compute; reflexivity).
    apply not_true_iff_false in H. apply H, existsb_exists. exists (YHost h LClose). split; [by apply elem_of_list_In|done]. }
  { intros c Hin. assert (existsb (λ l, match l with YLose _ => true | _ => false end) ex27_tr = false) as H by (vm_compute; reflexivity).
    apply not_true_iff_false in H. apply H, existsb_exists. exists (YLose c). split; [by apply elem_of_list_In|done]. }
  split; [exact ex27_settled|]. split; [unfold sent_into; rewrite ex27_calls; vm_compute; reflexivity|]. split; [vm_compute; reflexivity|].
  assert (∀ h n v, match sy_srv ex27_fin !! h with Some m => can_return_b m n v | None => false end = true → GetMessages ex27_fin h n v) as Hg.
  { intros h n v. unfold GetMessages. generalize ex27_fin as s. intros s. destruct (sy_srv s !! h) as [m|]; [|done]. intros Hc%can_return_b_ok. by exists m. }
  split; [vm_compute; reflexivity|]. split; [vm_compute; reflexivity|].
  split; apply Hg; vm_compute; reflexivity.
Qed.
Print Assumptions C82_example.
