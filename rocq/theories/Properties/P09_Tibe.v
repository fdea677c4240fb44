(** C23, C24, C26-C34: secret sharing and threshold identity based encryption.

    Every theorem is stated for an arbitrary pairing setting [S] (fields, groups, hashes, block cipher)
    satisfying [pairing_laws]; [toy] at the end of the first part is one such setting. *)
From Coq Require Import ZArith Lia List String.
From mathcomp Require Import all_ssreflect all_algebra.
From Verif.Model Require Import Tibe.
From Verif.Model Require Cfb.
From Verif.Spec Require Import TibeSpec.
From Verif.Proofs Require Import TibeProofs.
From Verif.Proofs Require CfbProofs.
From stdpp Require list.
Set Implicit Arguments.
Unset Strict Implicit.
Unset Printing Implicit Defensive.
Import GRing.Theory Num.Theory.
Local Open Scope ring_scope.

(** ** A setting that satisfies the laws (used in the examples) *)
Definition bt (n : nat) : Byte.byte := Verif.Base.Base.N2b (N.of_nat n).
Definition toy : setting :=
  @Setting rat_fieldType (GRing.regular_lmodType rat_Ring) (GRing.regular_lmodType rat_Ring)
    (GRing.regular_lmodType rat_Ring) (1 : rat)
    (fun a b : rat => a * b) (fun id => (List.length id).+1%:R : rat)
    (fun x : rat => if x == 1 then [:: bt 1] else if x == 0 then [:: bt 0] else [:: bt 2])
    (fun x : rat => if x == 0 then [::] else [:: bt 7])
    (fun data key => app key data)
    (fun k b => List.repeat (List.hd (bt 9) k) 16%N).

Lemma rat_big_char : big_char rat_fieldType.
Proof. by move=> n _ /eqP; rewrite pnatr_eq0 => /eqP. Qed.
Lemma toy_laws : pairing_laws toy.
Proof.
split.
- exact: rat_big_char.
- by [].
- by move=> a b y; exact: mulrDl.
- by move=> c a y; rewrite /pair /= /GRing.scale /= mulrA.
- by move=> a b y; exact: mulrDr.
- by move=> c a y; rewrite /pair /= /GRing.scale /= mulrCA.
- by move=> y; rewrite /pair /= mul1r.
- by move=> k b; rewrite List.repeat_length.
Qed.

(** * Secret sharing *)

(** C23 *)
Theorem C23_eval (F : fieldType) (cs : seq F) (i : Z) :
  int64 i -> Eval cs i = poly_at cs (point F i).
Proof. exact: Eval_poly_at. Qed.
Print Assumptions C23_eval.

Theorem C23_secret (F : fieldType) (cs : seq F) :
  cs <> [::] -> Secret cs = Some (poly_at cs 0) /\ Secret cs = Some (Eval cs 0).
Proof.
by case: cs => // c cs _; rewrite poly_at_0 Eval_0.
Qed.
Print Assumptions C23_secret.

Theorem C23_shares (F : fieldType) (cs : seq F) (n : nat) : (Z.of_nat n < 2 ^ 63)%BZ ->
  CreateShares cs n = [seq PolyShare (Z.of_nat j) (poly_at cs j%:R) | j <- iota 1 n].
Proof.
move=> hn; apply/eq_in_map => j; rewrite mem_iota => /andP[h1 h2].
have hj : (Z.of_nat j < 2 ^ 63)%BZ.
  have/leP : (j <= n)%N by rewrite add1n ltnS in h2.
  by lia.
rewrite Eval_sum scal_of_nat //; lia.
Qed.
Print Assumptions C23_shares.

Example C23_example : Eval [:: 3; 2; 1 : rat] 2 = 11 /\ Eval [:: 3; 2; 1 : rat] 0 = 3.
Proof. by split; vm_compute. Qed.

(** C24: every set of at least size cs = degree+1 points, every iteration order of both loops. *)
Theorem C24_reconstruct (F : fieldType) (cs : seq F) (xy : seq (Z * F)) (inner : Z -> seq Z) :
  big_char F ->
  uniq (map fst xy) ->
  {in xy, forall p, int64 p.1 /\ p.2 = poly_at cs (point F p.1)} ->
  (size cs <= size xy)%N ->
  (forall x, perm_eq (inner x) (map fst xy)) ->
  reconstructSecret xy inner = poly_at cs 0.
Proof.
move=> hc u hxy sz hin; rewrite reconstructSecretE //.
have inj : {in map fst xy &, injective (scal F)}.
  move=> _ _ /mapP[p pin ->] /mapP[q qin ->]; apply: scal_inj => //.
  by case: (hxy _ pin). by case: (hxy _ qin).
have := @lagrange F (Poly cs) (map fst xy) inj u.
rewrite size_map => /(_ (leq_trans (size_Poly _) sz)).
have -> : (Poly cs).[0] = poly_at cs 0.
  have := Eval_horner cs 0; rewrite /scal /= => <-; by rewrite Eval_poly_at.
move=> ->; rewrite big_map !big_seq; apply: eq_bigr => p pin.
case: (hxy _ pin) => hi hv; by rewrite -Eval_horner hv Eval_poly_at.
Qed.
Print Assumptions C24_reconstruct.

Example C24_example :
  reconstructSecret [:: (5%BZ, poly_at [:: 3; 2; 1] (point rat_fieldType 5));
                        (7%BZ, poly_at [:: 3; 2; 1] (point rat_fieldType 7));
                        (2%BZ, poly_at [:: 3; 2; 1] (point rat_fieldType 2))]
    (fun _ => [:: 2; 5; 7]%BZ) = 3.
Proof.
rewrite (@C24_reconstruct _ [:: 3; 2; 1]) ?poly_at_0 //.
- exact: rat_big_char.
- move=> p; rewrite !inE => /or3P[] /eqP -> /=; split=> //; rewrite /int64; lia.
Qed.

(** * Identity based encryption *)

(** C26: a node decrypts what was encrypted under its master public key. *)
Theorem C26_roundtrip (S : setting) (cs : seq (sF S)) (n : node S) id msg (r : sF S) iv :
  pairing_laws S -> NewNode cs = Some n -> List.length iv = 16%N ->
  (Decrypt (MasterDecrypter n id) (Encrypt (n_pk n) id msg r iv)).1 = Some msg.
Proof.
move=> laws; rewrite /NewNode; case: cs => //= c cs [<-] hiv.
by rewrite /MasterDecrypter /= Decrypt_Encrypt.
Qed.
Print Assumptions C26_roundtrip.

(** NewNode succeeds on every polynomial with a coefficient. *)
Theorem C26_NewNode (S : setting) (cs : seq (sF S)) : cs <> [::] ->
  exists n, NewNode cs = Some n /\ n_pk n = poly_at cs 0 *: gen1 S /\ n_poly n = cs /\
    forall id, MasterDecrypter n id = poly_at cs 0 *: g2Hash S id.
Proof.
by case: cs => // c cs _; eexists; split; [reflexivity|]; rewrite poly_at_0.
Qed.
Print Assumptions C26_NewNode.

(** C26, negative side: when the key differs, the MAC is compared under a different key. The MAC is
    checked before anything is decrypted: a decryption that succeeds had a valid MAC. *)
Theorem C26_authenticated (S : setting) (sk : sG2 S) (c : cipher S) m c' :
  Decrypt sk c = (Some m, c') ->
  c_Mac c = hmac S (app (g1Bytes (c_Gr c)) (c_Encrypted c)) (hashGt (pair (c_Gr c) sk)).
Proof. by rewrite /Decrypt; case: ifP => // /CfbProofs.bytes_eqb_eq. Qed.
Print Assumptions C26_authenticated.

(** C83: altered ciphers.  A cipher whose MAC alone was changed is rejected, whatever the key. *)
Theorem C83_mac_changed (S : setting) (sk : sG2 S) (c c' : cipher S) m :
  (Decrypt sk c).1 = Some m -> c_Gr c' = c_Gr c -> c_Encrypted c' = c_Encrypted c -> c_Mac c' <> c_Mac c ->
  Decrypt sk c' = (None, c').
Proof.
case hd: (Decrypt sk c) => [[d|] c1] //= _ eG eE ne.
rewrite /Decrypt eG eE; case: ifP => // /CfbProofs.bytes_eqb_eq eM; case: ne.
by rewrite eM (C26_authenticated hd).
Qed.
Print Assumptions C83_mac_changed.

(** Two different pairs of key and data have the same MAC. *)
Definition mac_collision (S : setting) (k d k' d' : bytes) : Prop :=
  (k, d) <> (k', d') /\ hmac S d k = hmac S d' k'.

(** If group elements have encodings of one length that determine them: two ciphers with the same MAC that are
    both accepted, each under some key, are the same cipher, and the keys give the same pairing hash, unless the
    two MACs computed by these two calls are a collision.  So changing the group element or any encrypted byte,
    or both, of an accepted cipher makes it rejected under every key. *)
Theorem C83_same_mac (S : setting) (sk sk' : sG2 S) (c c' : cipher S) m m' :
  (forall x y : sG1 S, List.length (g1Bytes x) = List.length (g1Bytes y)) ->
  (forall x y : sG1 S, g1Bytes x = g1Bytes y -> x = y) ->
  c_Mac c' = c_Mac c -> (Decrypt sk c).1 = Some m -> (Decrypt sk' c').1 = Some m' ->
  (c' = c /\ m' = m /\ hashGt (pair (c_Gr c) sk') = hashGt (pair (c_Gr c) sk)) \/
  mac_collision S (hashGt (pair (c_Gr c) sk)) (app (g1Bytes (c_Gr c)) (c_Encrypted c))
                  (hashGt (pair (c_Gr c') sk')) (app (g1Bytes (c_Gr c')) (c_Encrypted c')).
Proof.
move=> len ginj eM.
case hd: (Decrypt sk c) => [[d|] c1] //= [ed].
case hd': (Decrypt sk' c') => [[d'|] c1'] //= [ed'].
have h := C26_authenticated hd; have h' := C26_authenticated hd'.
case: (@stdpp.base.decide ((hashGt (pair (c_Gr c) sk), app (g1Bytes (c_Gr c)) (c_Encrypted c)) =
       (hashGt (pair (c_Gr c') sk'), app (g1Bytes (c_Gr c')) (c_Encrypted c'))) _) => [[e2 e1]|ne]; last first.
  by right; split=> //; rewrite -h -h' eM.
left; symmetry in e1; symmetry in e2.
have [eG eE] := stdpp.list.app_inj_1 _ _ _ _ (len _ _) e1.
have ecc : c' = c by move: (ginj _ _ eG) eE eM; case: (c') => a b d0; case: (c) => a' b' d1 /= -> -> ->.
split=> //; split; last by move: e2; rewrite ecc => ->.
move: hd' hd; rewrite -ed -ed' ecc /Decrypt; rewrite ecc in e2; rewrite e2.
by case: ifP => // _; case: (Cfb.aesDecrypt _ _ _) => x y [-> _] [->].
Qed.
Print Assumptions C83_same_mac.

(** C27: what a successful Decrypt leaves in the cipher. *)
Theorem C27_in_place (S : setting) (sk : sG2 S) (c c' : cipher S) m :
  Decrypt sk c = (Some m, c') ->
  c_Gr c' = c_Gr c /\ c_Mac c' = c_Mac c /\
  c_Encrypted c' = app (List.firstn 16%N (c_Encrypted c)) m.
Proof.
rewrite /Decrypt; case: ifP => // _.
rewrite /Cfb.aesDecrypt; case: stdpp.base.decide => // _ /=.
by case=> <- <-.
Qed.
Print Assumptions C27_in_place.

(** ... and nothing else is changed by a failing one. *)
Theorem C27_failure_keeps (S : setting) (sk : sG2 S) (c c' : cipher S) :
  Decrypt sk c = (None, c') -> c' = c.
Proof.
rewrite /Decrypt; case: ifP => _; last by case.
rewrite /Cfb.aesDecrypt; case: stdpp.base.decide => // _ [] <-.
by case: c.
Qed.
Print Assumptions C27_failure_keeps.

(** The same Cipher value cannot be decrypted twice with the same key: the second attempt fails (unless the
    plaintext happens to equal the ciphertext, or the two MACs computed are a collision). *)
Theorem C27_second_decrypt_fails (S : setting) (sk : sG2 S) (c c' : cipher S) m :
  Decrypt sk c = (Some m, c') ->
  m <> List.skipn 16%N (c_Encrypted c) ->
  Decrypt sk c' = (None, c') \/
  mac_collision S (hashGt (pair (c_Gr c) sk)) (app (g1Bytes (c_Gr c)) (c_Encrypted c))
                  (hashGt (pair (c_Gr c') sk)) (app (g1Bytes (c_Gr c')) (c_Encrypted c')).
Proof.
move=> hd ne; have := C26_authenticated hd; have [eG [eM eE]] := C27_in_place hd.
rewrite /Decrypt eG eM => hm; case: ifP => [|_]; last by left.
move=> /CfbProofs.bytes_eqb_eq hc; right; split; last by rewrite -hm.
move=> [] /List.app_inv_head.
rewrite eE => h; case: ne; rewrite -(List.firstn_skipn 16%N (c_Encrypted c)) in h.
have len : (16 <= List.length (c_Encrypted c))%coq_nat.
  move: hd; rewrite /Decrypt; case: ifP => // _; rewrite /Cfb.aesDecrypt.
  by case: stdpp.base.decide => // hl _; rewrite /Cfb.blockSize in hl; lia.
move: h; rewrite !List.firstn_skipn => h.
rewrite h List.skipn_app List.firstn_length_le // minusE subnn /=.
by rewrite List.skipn_all2 // List.firstn_length_le.
Qed.
Print Assumptions C27_second_decrypt_fails.

Definition toy_iv : bytes := List.repeat (bt 5) 16%N.
Definition toy_c : cipher toy := @Encrypt toy (1 : rat) [::] [:: bt 65; bt 66] (1 : rat) toy_iv.
Example C27_example :
  let: (m, c') := Decrypt (1 : sG2 toy) toy_c in
  m = Some [:: bt 65; bt 66] /\ (Decrypt (1 : sG2 toy) c').1 = None.
Proof. by vm_compute. Qed.

(** * Votes *)

(** The node [n] holds, under [name], a share whose public polynomial is that of [cs]. *)
Definition holds_expoly (S : setting) (n : node S) (name : string) (cs : seq (sF S)) : Prop :=
  exists shr, n_shares n name = Some shr /\ vs_expoly shr = GetExponentPoly cs.

Lemma checkVote_correct (S : setting) (laws : pairing_laws S) (cs : seq (sF S)) v :
  cs <> [::] -> int64 (v_index v) ->
  exists b, checkVote (@GetExponentPoly S cs) v = Some b /\ (b <-> correct_vote cs v).
Proof.
move=> /eqP ne hi; eexists; split; first exact: checkVoteE.
by rewrite /correct_vote -Eval_poly_at //; split => /eqP.
Qed.

(** C28 *)
Theorem C28_reconstruct (S : setting) (cs : seq (sF S)) (owner n : node S) name id (votes : seq (vote S)) :
  pairing_laws S -> NewNode cs = Some owner -> holds_expoly n name cs ->
  (forall v, List.In v votes -> v_id v = id /\ int64 (v_index v) /\ correct_vote cs v) ->
  (Threshold cs <= size votes)%N ->
  uniq (map (@v_index S) (take (Threshold cs) votes)) ->
  ReconstructDecrypter n name votes = RKey (MasterDecrypter owner id).
Proof.
move=> laws; case: cs => // c0 cs0; set cs := c0 :: cs0 => hn [shr [hs he]] hv sz u.
have ne : cs <> [::] by [].
have hall v : List.In v votes -> checkVote (vs_expoly shr) v = Some true.
  move=> /hv [_ [hi hc]]; rewrite he.
  by have [b [-> hb]] := checkVote_correct laws ne hi; move/hb: hc => ->.
rewrite /ReconstructDecrypter; case E: votes sz => [//|v0 vs0] sz; rewrite -E hs.
rewrite -E in sz.
have -> : has (fun v => checkVote (vs_expoly shr) v == None) votes = false.
  elim: (votes) hall => //= v vs IH h; rewrite h /=; last by left.
  by apply: IH => w hw; apply: h; right.
have -> : all (fun v => checkVote (vs_expoly shr) v == Some true) votes.
  elim: (votes) hall => //= v vs IH h; rewrite h ?eqxx /=; last by left.
  by apply: IH => w hw; apply: h; right.
rewrite he /ExpThreshold size_map reconstructE // sz u /=.
congr RKey; rewrite /MasterDecrypter; case: hn => <- /=.
set ts := take _ votes.
have hts v : List.In v ts -> v_id v = id /\ int64 (v_index v) /\ correct_vote cs v.
  move=> h; apply: hv; rewrite -(cat_take_drop (size cs0).+2 votes); apply: List.in_or_app; by left.
have : \sum_(v <- ts) lag (sF S) (map (@v_index S) ts) (v_index v) *: v_sig v =
       \sum_(x <- map (@v_index S) ts) lag (sF S) (map (@v_index S) ts) x *: (Eval cs x *: g2Hash S id).
  rewrite big_map; move: (map _ _) => xs; elim: ts hts => [|v vs IH] h; first by rewrite !big_nil.
  rewrite !big_cons IH; last by move=> w hw; apply: h; right.
  by case: (h v) => [|<- [hi ->]]; [left|rewrite Eval_poly_at].
move=> ->; rewrite lagrange_scale ?Eval_0 //.
  move=> x; elim: ts hts {u} => [//|v vs IH] h /=.
  rewrite inE => /orP[/eqP ->|hw]; first by case: (h v) => [|_ []]; [left|].
  by apply: IH => // z hz; apply: h; right.
rewrite size_map size_takel //; exact: ltnW.
Qed.
Print Assumptions C28_reconstruct.

Definition toy_cs : seq (sF toy) := [:: (1 : rat); (1 : rat)].

Example C28_example : exists owner n : node toy,
  NewNode toy_cs = Some owner /\ holds_expoly n "b" toy_cs /\
  ReconstructDecrypter n "b"
    [seq Vote_ i [::] (poly_at toy_cs (point rat_fieldType i) *: g2Hash toy [::] : sG2 toy) | i <- [:: 4; 2; 9]%BZ]
  = RKey (MasterDecrypter owner [::]).
Proof.
case: (@C26_NewNode toy toy_cs) => // owner [ho _].
set shr := @VssShare toy (GetExponentPoly toy_cs) (PolyShare 4 (5 : rat)) (n_pk owner).
exists owner, (ReceiveShare owner "b" shr); split=> //.
have hh : holds_expoly (ReceiveShare owner "b" shr) "b" toy_cs by exists shr.
split=> //; apply: (C28_reconstruct toy_laws ho hh) => //.
by move=> v /= [<-|[<-|[<-|//]]] /=; split=> //; split=> //; rewrite /int64; lia.
Qed.

(** C29 *)
Theorem C29_too_few (S : setting) (cs : seq (sF S)) (n : node S) name (votes : seq (vote S)) :
  pairing_laws S -> cs <> [::] -> holds_expoly n name cs -> (size votes <= size cs)%N ->
  ReconstructDecrypter n name votes = RError S.
Proof.
move=> laws /eqP ne [shr [hs he]] sz; rewrite /ReconstructDecrypter hs he.
case: votes sz => // v vs sz.
have -> : has (fun v => checkVote (GetExponentPoly cs) v == None) (v :: vs) = false.
  by apply/negbTE; elim: (v :: vs) => //= w ws IH; rewrite checkVoteE.
case: ifP => // _; rewrite reconstructE // /ExpThreshold size_map.
by rewrite ltnNge sz.
Qed.
Print Assumptions C29_too_few.

(** ... although size cs = degree+1 votes determine the key: interpolating them gives it. *)
Theorem C29_determined (S : setting) (cs : seq (sF S)) (owner : node S) id (votes : seq (vote S)) :
  pairing_laws S -> NewNode cs = Some owner ->
  (forall v, List.In v votes -> v_id v = id /\ int64 (v_index v) /\ correct_vote cs v) ->
  size votes = size cs -> uniq (map (@v_index S) votes) ->
  MasterDecrypter owner id =
    \sum_(v <- votes) lagrange_coef (sF S) (map (@v_index S) votes) (v_index v) *: v_sig v.
Proof.
move=> laws hn hv sz u.
have hxs : {in map (@v_index S) votes, forall x, int64 x}.
  move=> x; elim: (votes) hv => [//|v vs IH] h /=.
  rewrite inE => /orP[/eqP ->|hw]; first by case: (h v) => [|_ []]; [left|].
  by apply: IH => // z hz; apply: h; right.
have := @lagrange_scale S laws (sG2 S) cs (map (@v_index S) votes) (g2Hash S id) hxs u.
rewrite size_map sz leqnn => /(_ isT).
have -> : Eval cs 0 *: g2Hash S id = MasterDecrypter owner id.
  by case: cs hn {hv sz} => // c cs [<-]; rewrite Eval_0.
move=> <-; rewrite big_map; move: hxs; set xs := map _ _ => hxs.
have hl x : int64 x -> lagrange_coef (sF S) xs x = lag (sF S) xs x.
  move=> hx; rewrite /lagrange_coef /lag big_seq_cond [RHS]big_seq_cond; apply: eq_bigr => y /andP[yin _].
  by rewrite !scal_point //; exact: hxs.
elim: (votes) hv => [|v vs IH] h; first by rewrite !big_nil.
rewrite !big_cons IH; last by move=> w hw; apply: h; right.
case: (h v) => [|<- [hi hc]]; first by left.
by rewrite hl // hc Eval_poly_at.
Qed.
Print Assumptions C29_determined.

Example C29_example : exists owner n : node toy,
  NewNode toy_cs = Some owner /\ holds_expoly n "b" toy_cs /\
  let votes := [seq Vote_ i [::] (poly_at toy_cs (point rat_fieldType i) *: g2Hash toy [::] : sG2 toy)
                 | i <- [:: 4; 2]%BZ] in
  ReconstructDecrypter n "b" votes = RError toy /\
  MasterDecrypter owner [::] =
    \sum_(v <- votes) lagrange_coef rat_fieldType (map (@v_index toy) votes) (v_index v) *: v_sig v.
Proof.
case: (@C26_NewNode toy toy_cs) => // owner [ho _].
set shr := @VssShare toy (GetExponentPoly toy_cs) (PolyShare 4 (5 : rat)) (n_pk owner).
exists owner, (ReceiveShare owner "b" shr); split=> //.
have hh : holds_expoly (ReceiveShare owner "b" shr) "b" toy_cs by exists shr.
split=> //; split; first by apply: (C29_too_few toy_laws _ hh).
apply: (C29_determined toy_laws ho) => //.
by move=> v /= [<-|[<-|//]] /=; split=> //; split=> //; rewrite /int64; lia.
Qed.

(** C30: success exactly when all the votes are correct, there are enough of them and the first
    Threshold of them have distinct indices; otherwise an error, never a crash. *)
Theorem C30_accept_iff (S : setting) (cs : seq (sF S)) (n : node S) name (votes : seq (vote S)) :
  pairing_laws S -> cs <> [::] -> holds_expoly n name cs ->
  (forall v, List.In v votes -> int64 (v_index v)) ->
  ReconstructDecrypter n name votes <> RPanic S /\
  ((exists sk, ReconstructDecrypter n name votes = RKey sk) <->
   (forall v, List.In v votes -> correct_vote cs v) /\
   (Threshold cs <= size votes)%N /\
   uniq (map (@v_index S) (take (Threshold cs) votes))).
Proof.
move=> laws /eqP ne [shr [hs he]] hi; rewrite /ReconstructDecrypter.
case E: votes => [|v0 vs0]; first by split=> //; split=> [[? //]|[_ []]].
rewrite -E hs he.
have -> : has (fun v => checkVote (GetExponentPoly cs) v == None) votes = false.
  by apply/negbTE; elim: (votes) => //= v vs IH; rewrite checkVoteE.
have hall : all (fun v => checkVote (GetExponentPoly cs) v == Some true) votes <->
            (forall v, List.In v votes -> correct_vote cs v).
  elim: (votes) hi => [|v vs IH] h /=; first by split.
  have {IH} := IH (fun w hw => h w (or_intror hw)).
  rewrite checkVoteE // /correct_vote => IH; split.
    move=> /andP[/eqP[/eqP hv] /IH hvs] w [<-|]; last exact: hvs.
    by rewrite -Eval_poly_at //; apply: h; left.
  move=> hw; apply/andP; split; last by apply/IH => w hin; apply: hw; right.
  by apply/eqP; congr Some; rewrite hw ?Eval_poly_at ?eqxx //; [apply: h|]; left.
case: ifP => ha; last first.
  split=> //; split=> [[? //]|[/hall]]; by rewrite ha.
rewrite reconstructE // /ExpThreshold size_map.
split; first by case: ifP.
split.
- case: ifP => [/andP[h1 h2] _|_ [? //]]; by split; [apply/hall|].
- by move=> [_ [h1 h2]]; rewrite h1 h2 /=; eexists.
Qed.
Print Assumptions C30_accept_iff.

Theorem C30_unknown_node (S : setting) (n : node S) name (votes : seq (vote S)) v :
  n_shares n name = None ->
  ReconstructDecrypter n name votes = RError S /\ ValidateVote n name v = Some false.
Proof. by move=> h; rewrite /ReconstructDecrypter /ValidateVote h; case: votes. Qed.
Print Assumptions C30_unknown_node.

Theorem C30_validate (S : setting) (cs : seq (sF S)) (n : node S) name v :
  pairing_laws S -> cs <> [::] -> holds_expoly n name cs -> int64 (v_index v) ->
  exists b : bool, ValidateVote n name v = Some b /\ (b = true <-> correct_vote cs v).
Proof.
move=> laws ne [shr [hs he]] hi; rewrite /ValidateVote hs he.
by have [b [h1 h2]] := checkVote_correct laws ne hi; exists b.
Qed.
Print Assumptions C30_validate.

(** Boundary: a share with an empty public polynomial makes the first vote crash a worker. *)
Theorem C30_empty_polynomial_panics (S : setting) (n : node S) name shr v votes :
  n_shares n name = Some shr -> vs_expoly shr = [::] ->
  ReconstructDecrypter n name (v :: votes) = RPanic S /\ ValidateVote n name v = None.
Proof. by move=> hs he; rewrite /ReconstructDecrypter /ValidateVote hs he. Qed.
Print Assumptions C30_empty_polynomial_panics.

(** C31: the exact key returned when the ids differ. *)
Theorem C31_value (S : setting) (cs : seq (sF S)) (n : node S) name (votes : seq (vote S)) sk :
  pairing_laws S -> cs <> [::] -> holds_expoly n name cs ->
  (forall v, List.In v votes -> int64 (v_index v)) ->
  ReconstructDecrypter n name votes = RKey sk ->
  let used := take (Threshold cs) votes in
  sk = \sum_(v <- used) (lagrange_coef (sF S) (map (@v_index S) used) (v_index v) *
                         poly_at cs (point (sF S) (v_index v))) *: g2Hash S (v_id v).
Proof.
move=> laws ne hh hi hr used.
have [_ [/(_ (ex_intro _ sk hr)) [hc [h1 h2]] _]] := C30_accept_iff laws ne hh hi.
move: hr hh => + [shr [hs he]]; rewrite /ReconstructDecrypter hs he.
case E: votes => [//|v0 vs0]; rewrite -E.
case: ifP => // _; case: ifP => // _.
rewrite reconstructE // /ExpThreshold size_map h1 h2 /= => -[<-]; rewrite -/used.
have hu v : List.In v used -> correct_vote cs v /\ int64 (v_index v).
  move=> h; have hin : List.In v votes.
    by rewrite -(cat_take_drop (Threshold cs) votes); apply: List.in_or_app; left.
  by split; [exact: hc|exact: hi].
set xs := map _ used.
have hxs : {in xs, forall x, int64 x}.
  rewrite /xs => x; elim: (used) hu => [//|v vs IH] h /=.
  rewrite inE => /orP[/eqP ->|hw]; first by case: (h v) => //; left.
  by apply: IH => // z hz; apply: h; right.
have hl x : int64 x -> lagrange_coef (sF S) xs x = lag (sF S) xs x.
  move=> hx; rewrite /lagrange_coef /lag big_seq_cond [RHS]big_seq_cond; apply: eq_bigr => y /andP[yin _].
  by rewrite !scal_point //; exact: hxs.
elim: (used) hu => [|v vs IH] h; first by rewrite !big_nil.
rewrite !big_cons IH; last by move=> w hw; apply: h; right.
by case: (h v) => [|-> hx]; [left|rewrite hl // scalerA].
Qed.
Print Assumptions C31_value.

(** ... so a "successful" key can belong to none of the identities voted for. *)
Theorem C31_mixed_ids_refuted : exists (S : setting) (cs : seq (sF S)) (owner n : node S) name votes sk,
  pairing_laws S /\ NewNode cs = Some owner /\ holds_expoly n name cs /\
  (forall v, List.In v votes -> int64 (v_index v) /\ correct_vote cs v) /\
  ReconstructDecrypter n name votes = RKey sk /\
  forall v, List.In v votes -> sk <> MasterDecrypter owner (v_id v).
Proof.
case: (@C26_NewNode toy toy_cs) => // owner [ho _].
set shr := @VssShare toy (GetExponentPoly toy_cs) (PolyShare 4 (5 : rat)) (n_pk owner).
set votes := [:: @Vote_ toy 1 [::] (2 : rat); @Vote_ toy 2 [::] (3 : rat); @Vote_ toy 3 [:: bt 1] (8 : rat)].
have hh : holds_expoly (ReceiveShare owner "b" shr) "b" toy_cs by exists shr.
have hi v : List.In v votes -> int64 (v_index v).
  by move=> /= [<-|[<-|[<-|//]]]; rewrite /int64 /=; lia.
have hc v : List.In v votes -> correct_vote toy_cs v.
  move=> hv; rewrite /correct_vote -Eval_poly_at; last exact: hi.
  by case: hv => [<-|[<-|[<-|//]]]; apply/eqP; vm_compute.
have ne : toy_cs <> [::] by [].
have [_ [_ hk]] := C30_accept_iff toy_laws ne hh hi.
case: hk => [|sk hsk]; first by split.
exists toy, toy_cs, owner, (ReceiveShare owner "b" shr), "b"%string, votes, sk.
split; first exact: toy_laws.
split; first exact: ho.
split; first exact: hh.
split; first by move=> v hv; split; [exact: hi|exact: hc].
split; first exact: hsk.
have := C31_value toy_laws ne hh hi hsk; rewrite /= !big_cons big_nil /lagrange_coef !big_cons !big_nil /=.
have p1 : poly_at toy_cs (point rat_fieldType 1) = 2 by rewrite -Eval_poly_at; [apply/eqP; vm_compute|rewrite /int64; lia].
have p2 : poly_at toy_cs (point rat_fieldType 2) = 3 by rewrite -Eval_poly_at; [apply/eqP; vm_compute|rewrite /int64; lia].
have p3 : poly_at toy_cs (point rat_fieldType 3) = 4 by rewrite -Eval_poly_at; [apply/eqP; vm_compute|rewrite /int64; lia].
rewrite p1 p2 p3 => ->.
have [n' [hn' [_ [_ hd]]]] := @C26_NewNode toy toy_cs ne.
have en : n' = owner by move: hn'; rewrite ho => -[].
rewrite en in hd.
have -> : point rat_fieldType 1 = 1 by [].
have -> : point rat_fieldType 2 = 2 by [].
have -> : point rat_fieldType 3 = 3 by [].
move=> v hv; rewrite hd poly_at_0.
case: hv => [<-|[<-|[<-|hv]]]; [apply/eqP|apply/eqP|apply/eqP|case: hv].
all: by vm_compute.
Qed.
Print Assumptions C31_mixed_ids_refuted.

(** * The publisher *)

Lemma xys_perm (S : setting) (pks acc : seq (public_key S)) :
  uniq (map fst (pks ++ acc)) -> perm_eq (foldl (@xys_insert S) acc pks) (pks ++ acc).
Proof.
elim: pks acc => [|k pks IH] acc //= /andP[kn u]; rewrite /xys_insert.
have -> : [seq p <- acc | p.1 != k.1] = acc.
  apply/all_filterP/allP => p pin; apply: contra kn => /eqP <-.
  by rewrite map_cat mem_cat (map_f fst pin) orbT.
have E : perm_eq (pks ++ k :: acc) (k :: pks ++ acc).
  by rewrite -[k :: acc]cat1s -[k :: _ ++ _]cat1s perm_catCA.
have u' : uniq (map fst (pks ++ k :: acc)) by rewrite (perm_uniq (perm_map fst E)) /= kn u.
exact: perm_trans (IH _ u') E.
Qed.

Lemma shared_ok (S : setting) (t : nat) (xys : seq (public_key S)) (indices : seq Z) :
  size indices = t -> uniq indices ->
  computeSharedPubkey t xys indices = Some (\sum_(p <- xys) lag (sF S) indices p.1 *: p.2).
Proof.
move=> st u; rewrite /computeSharedPubkey.
suff E acc : foldl (add_key t indices) (Some acc) xys = Some (acc + \sum_(p <- xys) lag (sF S) indices p.1 *: p.2).
  by rewrite E add0r.
elim: xys acc => [|p xys IH] acc /=; first by rewrite big_nil addr0.
by rewrite newLagrangeE // u IH big_cons addrA.
Qed.
Lemma shared_err (S : setting) (t : nat) (xys : seq (public_key S)) (indices : seq Z) :
  (size (undup indices) < t)%N -> xys <> [::] -> computeSharedPubkey t xys indices = None.
Proof.
move=> st; case: xys => // p xys _; rewrite /computeSharedPubkey /= /newLagrangeIndexMultiplier st.
by elim: xys.
Qed.

(** The public keys that the shares 1..n of [cs] give. *)
Definition public_keys (S : setting) (cs : seq (sF S)) (n : nat) : seq (public_key S) :=
  [seq (Z.of_nat j, poly_at cs j%:R *: gen1 S) | j <- iota 1 n].

Lemma go_nth_public (S : setting) (cs : seq (sF S)) n i :
  go_nth (public_keys cs n) (i - 1)%BZ =
  if (Z.leb 1 i && Z.leb i (Z.of_nat n)) then Some (i, poly_at cs (Z.to_nat i)%:R *: gen1 S) else None.
Proof.
rewrite /go_nth; case: (Z.ltb_spec (i - 1) 0) => h1; case: (Z.leb_spec 1 i) => h2; try lia; rewrite ?andFb ?andTb; first by [].  
rewrite /public_keys.
have En (T : Type) (f : nat -> T) a m k : List.nth_error [seq f j | j <- iota a m] k =
    if (k < m)%N then Some (f (a + k)%N) else None.
  elim: m a k => [|m IH] a [|k] //=; first by rewrite addn0.
  by rewrite IH ltnS addSnnS.
rewrite En; case: (Z.leb_spec i (Z.of_nat n)) => h3.
  have -> : (Z.to_nat (i - 1) < n)%N by apply/ltP; lia.
  have -> : (1 + Z.to_nat (i - 1))%N = Z.to_nat i by rewrite -plusE; lia.
  by rewrite Z2Nat.id //; lia.
by case: ltP => // ?; lia.
Qed.

(** C32: with at least t keys every player gets the same shared key, whatever order the map is
    visited in. *)
Theorem C32_shared_key (S : setting) (cs : seq (sF S)) (t n : nat) order (priv : poly_share (sF S)) :
  pairing_laws S -> (size cs <= t)%N -> (t <= n)%N -> (Z.of_nat n < 2 ^ 63)%BZ ->
  (forall s, perm_eq (order s) s) ->
  (1 <= ps_index priv <= Z.of_nat n)%BZ ->
  exists p, NewPublisher order t priv (public_keys cs n) = POk p /\
    p_shared p = poly_at cs 0 *: gen1 S /\ p_t p = t /\ p_index p = ps_index priv /\
    p_secret p = ps_value priv /\ p_pks p = public_keys cs n.
Proof.
move=> laws sc tn hn ho [hi1 hi2]; rewrite /NewPublisher.
have hsz : size (public_keys cs n) = n by rewrite size_map size_iota.
have -> : publisher_indices t (public_keys cs n) = [seq Z.of_nat j | j <- iota 1 t].
  rewrite /publisher_indices hsz (eqP (_ : (t - n)%N == 0%N)) ?subn_eq0 //= cats0.
  by rewrite -map_take -map_comp /= take_iota (minn_idPl tn).
have u : uniq [seq Z.of_nat j | j <- iota 1 t].
  by rewrite map_inj_uniq ?iota_uniq // => a b; lia.
have tk : take t (public_keys cs n) = public_keys cs t.
  by rewrite /public_keys -map_take take_iota (minn_idPl tn).
have up : uniq (map fst (public_keys cs t)) by rewrite /public_keys -map_comp.
rewrite shared_ok ?size_map ?size_iota //.
have -> : \sum_(p <- order (publisher_xys t (public_keys cs n)))
     lag (sF S) [seq Z.of_nat j | j <- iota 1 t] p.1 *: p.2 = poly_at cs 0 *: gen1 S.
  rewrite (perm_big _ (ho _)) /= /publisher_xys tk.
  have pp := @xys_perm S (public_keys cs t) [::]; rewrite cats0 in pp.
  rewrite (perm_big _ (pp up)) /= /public_keys big_map /=.
  have := @lagrange_scale S laws (sG1 S) cs [seq Z.of_nat j | j <- iota 1 t] (gen1 S).
  rewrite size_map size_iota => /(_ _ u sc).
  have hb j : j \in iota 1 t -> (Z.of_nat j < 2 ^ 63)%BZ.
    rewrite mem_iota add1n ltnS => /andP[_ /leP h]; move/leP: tn => tn; lia.
  have -> : Eval cs 0 = poly_at cs 0 by rewrite Eval_poly_at.
  move=> <-; last by move=> _ /mapP[j /hb hj ->]; rewrite /int64; lia.
  rewrite big_map !big_seq; apply: eq_bigr => j /hb hj.
  by rewrite Eval_sum scal_of_nat //; lia.
rewrite go_nth_public (proj2 (Z.leb_le _ _) hi1) (proj2 (Z.leb_le _ _) hi2) /=.
by eexists; split; first reflexivity.
Qed.
Print Assumptions C32_shared_key.

(** The shares and public keys of a generated polynomial are of this form. *)
Theorem C32_generated_keys (S : setting) (cs : seq (sF S)) (n : nat) : (Z.of_nat n < 2 ^ 63)%BZ ->
  map (@ComputePublicKey S) (CreateShares cs n) = public_keys cs n.
Proof. by move=> hn; rewrite C23_shares // -map_comp. Qed.
Print Assumptions C32_generated_keys.

(** What any player hides, any player reveals with t correct votes of distinct indices. *)
Theorem C32_hide_reveal (S : setting) (cs : seq (sF S)) (t : nat) (p q : player S) id msg r iv votes :
  pairing_laws S -> (size cs <= t)%N ->
  p_shared p = poly_at cs 0 *: gen1 S -> p_t q = t ->
  List.length iv = 16%N ->
  (forall v, List.In v votes -> v_id v = id /\ int64 (v_index v) /\ correct_vote cs v) ->
  (t <= size votes)%N -> uniq (map (@v_index S) (take t votes)) ->
  (Reveal q votes (Hide p id msg r iv)).1 = Some msg.
Proof.
move=> laws sc hp hq hiv hv sz u; rewrite /Reveal hq reconstructE // sz u /=.
set ts := take _ votes.
have hts v : List.In v ts -> v_id v = id /\ int64 (v_index v) /\ correct_vote cs v.
  move=> h; apply: hv; rewrite -(cat_take_drop t votes); apply: List.in_or_app; by left.
have -> : \sum_(v <- ts) lag (sF S) (map (@v_index S) ts) (v_index v) *: v_sig v = poly_at cs 0 *: g2Hash S id.
  have hxs : {in map (@v_index S) ts, forall x, int64 x}.
    move=> x; elim: ts hts {u} => [//|v vs IH] h /=.
    rewrite inE => /orP[/eqP ->|hw]; first by case: (h v) => [|_ []]; [left|].
    by apply: IH => // z hz; apply: h; right.
  have -> : poly_at cs 0 = Eval cs 0 by rewrite Eval_poly_at.
  rewrite -(@lagrange_scale S laws _ cs (map (@v_index S) ts)) //; last by rewrite size_map size_takel.
  rewrite big_map; move: {hxs u} (map _ _) => xs; elim: ts hts => [|v vs IH] h; first by rewrite !big_nil.
  rewrite !big_cons IH; last by move=> w hw; apply: h; right.
  by case: (h v) => [|<- [hi ->]]; [left|rewrite Eval_poly_at].
rewrite hp.
have -> : pair (r *: gen1 S) (poly_at cs 0 *: g2Hash S id) = pair (r *: (poly_at cs 0 *: gen1 S)) (g2Hash S id).
  by rewrite (law_scaler laws) !(law_scalel laws) !scalerA mulrC.
by rewrite (CfbProofs.aesDecrypt_aesEncrypt _ (law_aes laws)).
Qed.
Print Assumptions C32_hide_reveal.

(** Votes of players are correct votes, and Verify accepts exactly the correct votes. *)
Theorem C32_vote_correct (S : setting) (cs : seq (sF S)) (p : player S) id :
  p_secret p = poly_at cs (point (sF S) (p_index p)) ->
  correct_vote cs (PlayerVote p id) /\ v_id (PlayerVote p id) = id /\ v_index (PlayerVote p id) = p_index p.
Proof. by move=> h; rewrite /correct_vote /= h. Qed.
Print Assumptions C32_vote_correct.

Theorem C32_verify (S : setting) (cs : seq (sF S)) (n : nat) (p : player S) v :
  pairing_laws S -> (Z.of_nat n < 2 ^ 63)%BZ -> p_pks p = public_keys cs n ->
  (1 <= v_index v <= Z.of_nat n)%BZ ->
  exists b : bool, PlayerVerify p v = Some b /\ (b = true <-> correct_vote cs v).
Proof.
move=> laws hn hp [h1 h2]; rewrite /PlayerVerify hp go_nth_public.
rewrite (proj2 (Z.leb_le _ _) h1) (proj2 (Z.leb_le _ _) h2) /=.
eexists; split; first reflexivity.
rewrite isValidSignatureE //; have -> : (Z.to_nat (v_index v))%:R = point (sF S) (v_index v).
  rewrite /point; case: (Z.leb_spec 0 (v_index v)) => //; lia.
by split=> /eqP.
Qed.
Print Assumptions C32_verify.

(** Boundary: Verify panics on a vote whose index is out of range, so one such vote from outside
    crashes the verifier. *)
Theorem C32_verify_panics (S : setting) (cs : seq (sF S)) (n : nat) (p : player S) v :
  p_pks p = public_keys cs n ->
  PlayerVerify p v = None <-> (v_index v < 1 \/ Z.of_nat n < v_index v)%BZ.
Proof.
move=> hp; rewrite /PlayerVerify hp go_nth_public.
case: (Z.leb_spec 1 (v_index v)); case: (Z.leb_spec (v_index v) (Z.of_nat n)) => /= *; split=> // *; lia.
Qed.
Print Assumptions C32_verify_panics.

(** Two coefficients, t = 2, three players; player 3 hides, player 1 reveals with the votes of 3 and 2. *)
Example C32_example : exists p q : player toy,
  @NewPublisher toy rev 2 (PolyShare 3 (4 : rat)) (public_keys toy_cs 3) = POk p /\
  @NewPublisher toy id 2 (PolyShare 1 (2 : rat)) (public_keys toy_cs 3) = POk q /\
  (Reveal q [:: PlayerVote p [:: bt 1]; @Vote_ toy 2 [:: bt 1] ((3 : rat) *: g2Hash toy [:: bt 1])]
     (Hide p [:: bt 1] [:: bt 70; bt 71] (1 : rat) toy_iv)).1 = Some [:: bt 70; bt 71].
Proof.
have [||p [hp [sp [tp [ip [vp _]]]]]] := @C32_shared_key toy toy_cs 2 3 rev (PolyShare 3 (4 : rat)) toy_laws isT isT erefl.
- by move=> s; rewrite perm_rev.
- by [].
have [||q [hq [sq [tq _]]]] := @C32_shared_key toy toy_cs 2 3 id (PolyShare 1 (2 : rat)) toy_laws isT isT erefl.
- by [].
- by [].
exists p, q; split=> //; split=> //.
apply: (C32_hide_reveal (cs := toy_cs) (t := 2%N)) => //; first exact: toy_laws.
  move=> v /= [<-|[<-|//]] /=; rewrite ?ip ?vp /=; split=> //.
    split; first by rewrite /int64; lia.
    rewrite /correct_vote /= ip vp -Eval_poly_at; [by apply/eqP; vm_compute|rewrite /int64 /=; lia].
  split; first by rewrite /int64; lia.
  rewrite /correct_vote -Eval_poly_at; [by apply/eqP; vm_compute|rewrite /int64 /=; lia].
by rewrite /= ip.
Qed.

(** C33: with t votes of distinct indices Reveal never reports an error, whatever the votes are. *)
Theorem C33_reveal_never_fails (S : setting) (p : player S) votes (s : secret S) :
  (p_t p <= size votes)%N -> uniq (map (@v_index S) (take (p_t p) votes)) ->
  (16 <= List.length (s_encrypted s))%coq_nat ->
  exists m, (Reveal p votes s).1 = Some m.
Proof.
move=> h1 h2 h3; rewrite /Reveal reconstructE // h1 h2 /=.
rewrite /Cfb.aesDecrypt; case: stdpp.base.decide => [hh|_]; last by eexists.
by rewrite /Cfb.blockSize in hh; lia.
Qed.
Print Assumptions C33_reveal_never_fails.

(** One wrong signature among otherwise correct votes changes the reconstructed key, and hence the
    pairing value from which the AES key is hashed. *)
Theorem C33_wrong_vote (S : setting) (cs : seq (sF S)) (t : nat) id (pre post : seq (vote S)) (bad : vote S) r :
  pairing_laws S -> (size cs <= t)%N -> (size (pre ++ bad :: post) = t)%N ->
  (forall v, List.In v (pre ++ post) -> v_id v = id /\ correct_vote cs v /\ v_index v <> 0%BZ) ->
  (forall v, List.In v (pre ++ bad :: post) -> int64 (v_index v)) ->
  uniq (map (@v_index S) (pre ++ bad :: post)) ->
  v_sig bad <> poly_at cs (point (sF S) (v_index bad)) *: g2Hash S id ->
  r <> 0 ->
  exists sk, reconstructSecretIbeKey (pre ++ bad :: post) t = Some sk /\
    pair (r *: gen1 S) sk <> pair (r *: gen1 S) (poly_at cs 0 *: g2Hash S id).
Proof.
move=> laws sc sz hv hi u hbad r0.
rewrite reconstructE // -sz take_size leqnn u /=; eexists; split; first reflexivity.
set votes := pre ++ _ in u sz hi *; set xs := map _ votes in u *.
have hxs : {in xs, forall x, int64 x}.
  rewrite /xs => x; elim: votes hi {u sz xs} => [//|v vs IH] h /=.
  rewrite inE => /orP[/eqP ->|hw]; first by apply: h; left.
  by apply: IH => // z hz; apply: h; right.
pose good := Vote_ (v_index bad) id (poly_at cs (point (sF S) (v_index bad)) *: g2Hash S id).
have gE : \sum_(v <- pre ++ good :: post) lag (sF S) xs (v_index v) *: v_sig v = poly_at cs 0 *: g2Hash S id.
  have -> : poly_at cs 0 = Eval cs 0 by rewrite Eval_poly_at.
  rewrite -(@lagrange_scale S laws _ cs xs) //; last by rewrite size_map sz.
  have -> : xs = map (@v_index S) (pre ++ good :: post) by rewrite /xs /votes !map_cat.
  rewrite big_map.
  have hg v : List.In v (pre ++ good :: post) -> v_sig v = Eval cs (v_index v) *: g2Hash S id.
    move=> h; have hiv : int64 (v_index v).
      case: (List.in_app_or _ _ _ h) => [h'|[<-|h']].
      - by apply: hi; apply: List.in_or_app; left.
      - by apply: (hi bad); apply: List.in_or_app; right; left.
      - by apply: hi; apply: List.in_or_app; right; right.
    rewrite Eval_poly_at //; case: (List.in_app_or _ _ _ h) => [h'|[<- //|h']].
    - by case: (hv v) => [|<- []]; [apply: List.in_or_app; left|].
    - by case: (hv v) => [|<- []]; [apply: List.in_or_app; right|].
  move: (map _ _) => ys; elim: (pre ++ good :: post) hg => [|v vs IH] h; first by rewrite !big_nil.
  by rewrite !big_cons h ?IH //; [move=> w hw; apply: h; right|left].
move=> /(pair_inj_r laws) E; apply: hbad.
have {}E : \sum_(v <- votes) lag (sF S) xs (v_index v) *: v_sig v = poly_at cs 0 *: g2Hash S id.
  apply: E; last by exists r.
  move/eqP; rewrite scaler_eq0 => /orP[/eqP //|/eqP]; exact: (law_gen laws).
move: E; rewrite -gE /votes !big_cat !big_cons /= => /addrI /addIr.
have l0 : lag (sF S) xs (v_index bad) != 0.
  rewrite /lag prodf_seq_neq0; apply/allP => y yin; apply/implyP => ynb.
  have hy : int64 y := hxs _ yin.
  have hb : int64 (v_index bad) by apply: (hi bad); apply: List.in_or_app; right; left.
  have y0 : y <> 0%BZ.
    move: yin; rewrite /xs /votes map_cat /= mem_cat inE (negbTE ynb) /= -mem_cat -map_cat.
    elim: (pre ++ post) hv => [//|v vs IH] h /=; rewrite inE => /orP[/eqP ->|hw].
      by case: (h v) => [|_ []]; [left|].
    by apply: IH => // z hz; apply: h; right.
  rewrite mulf_neq0 // ?invr_neq0 //.
    apply/eqP => e0; apply: y0; apply: (@scal_inj (sF S)) => //; first exact: (law_char laws).
  rewrite subr_eq0; apply: contra ynb => /eqP e0; apply/eqP.
  by apply: (@scal_inj (sF S)) => //; exact: (law_char laws).
move=> e0; have : lag (sF S) xs (v_index bad) *: (v_sig bad - v_sig good) = 0 by rewrite scalerBr e0 subrr.
by move/eqP; rewrite scaler_eq0 (negbTE l0) subr_eq0 => /eqP.
Qed.
Print Assumptions C33_wrong_vote.

(** So an invalid vote is not noticed: garbage is returned as the message. *)
Theorem C33_refuted : exists (S : setting) (cs : seq (sF S)) (p : player S) votes id msg r iv m,
  pairing_laws S /\ p_shared p = poly_at cs 0 *: gen1 S /\ p_t p = size cs /\ List.length iv = 16%N /\
  size votes = size cs /\ uniq (map (@v_index S) votes) /\
  (exists v, List.In v votes /\ ~ correct_vote cs v) /\
  (Reveal p votes (Hide p id msg r iv)).1 = Some m /\ m <> msg.
Proof.
have [||p [hp [sp [tp _]]]] := @C32_shared_key toy toy_cs 2 3 id (PolyShare 1 (2 : rat)) toy_laws isT isT erefl.
- by [].
- by [].
pose votes := [:: @Vote_ toy 1 [::] (3 : rat); @Vote_ toy 2 [::] (3 : rat)].
have [m hm] : exists m, (Reveal p votes (Hide p [::] [:: bt 70] (1 : rat) toy_iv)).1 = Some m.
  apply: C33_reveal_never_fails; rewrite ?tp //.
  by rewrite /Hide /s_encrypted /Cfb.aesEncrypt List.app_length /toy_iv List.repeat_length; lia.
exists toy, toy_cs, p, votes, [::], [:: bt 70], (1 : rat), toy_iv, m.
split; first exact: toy_laws.
split; first exact: sp.
split; first exact: tp.
split=> [//|]; split=> [//|]; split=> [//|]; split.
  exists (@Vote_ toy 1 [::] (3 : rat)); split; first by left.
  by rewrite /correct_vote -Eval_poly_at; [move/eqP; vm_compute|rewrite /int64 /=; lia].
split; first exact: hm.
have : if reconstructSecretIbeKey votes 2 is Some k then k == (3 : rat) else false by vm_compute.
move: hm; rewrite /Reveal tp; case: (reconstructSecretIbeKey _ _) => [k|//] hm /eqP hk.
move: hm; rewrite hk /Hide /s_hiding /s_encrypted sp poly_at_0.
have -> : hashGt (@pair toy ((1 : rat) *: gen1 toy) ((3 : rat) : sG2 toy)) = [:: bt 2] by vm_compute.
have -> : hashGt (@pair toy ((1 : rat) *: (toy_cs`_0 *: gen1 toy)) (g2Hash toy [::])) = [:: bt 1] by vm_compute.
by vm_compute => -[<-].
Qed.
Print Assumptions C33_refuted.

(** C34: t-1 keys with distinct non-zero indices give the identity as shared key ... *)
Theorem C34_one_short (S : setting) (t : nat) (pks : seq (public_key S)) order (priv : poly_share (sF S)) :
  (2 <= t)%N -> size pks = t.-1 -> uniq (map fst pks) ->
  {in pks, forall k, int64 k.1 /\ k.1 <> 0%BZ} ->
  (forall s, perm_eq (order s) s) ->
  (1 <= ps_index priv <= Z.of_nat (size pks))%BZ ->
  exists p, NewPublisher order t priv pks = POk p /\ p_shared p = 0.
Proof.
move=> t2 sz u hk ho [hi1 hi2]; rewrite /NewPublisher.
have st : (t - size pks)%N = 1%N by rewrite sz; case: t t2 {sz} => // t _; rewrite subSnn.
have tk : take t pks = pks by rewrite take_oversize // sz leq_pred.
have ie : publisher_indices t pks = rcons (map fst pks) 0%BZ.
  by rewrite /publisher_indices st tk cats1.
have n0 : 0%BZ \notin map fst pks.
  by apply/mapP => -[k kin k0]; case: (hk _ kin) => _; rewrite -k0.
rewrite ie shared_ok; last by rewrite rcons_uniq n0 u.
  rewrite big_seq big1; last first.
    move=> k kin; have kp : k \in pks.
      move: kin; rewrite (perm_mem (ho _)) /publisher_xys tk.
      by have := @xys_perm S pks [::]; rewrite cats0 => /(_ u) /perm_mem ->.
    rewrite /lag -cats1 big_cat /= big_cons big_nil; case: eqP => [k0|_ /=].
      by case: (hk _ kp) => _; rewrite k0.
    by rewrite /scal /= mul0r mul0r mulr0 scale0r.
  have [own ->] : exists own, go_nth pks (ps_index priv - 1)%BZ = Some own.
    rewrite /go_nth; case: Z.ltb_spec => h; first lia.
    case E: (List.nth_error _ _) => [own|]; first by exists own.
    move/List.nth_error_None: E; rewrite -[List.length pks]/(size pks); lia.
  by eexists; split; first reflexivity.
by rewrite size_rcons size_map sz prednK // ltnW.
Qed.
Print Assumptions C34_one_short.

(** ... and then everybody can read what is hidden, with no vote at all: the key is hashGt(1). *)
Theorem C34_public_decryption (S : setting) (p : player S) id msg r iv :
  pairing_laws S -> p_shared p = 0 -> List.length iv = 16%N ->
  (Cfb.aesDecrypt (@aes S) (hashGt (0 : sGT S)) (s_encrypted (Hide p id msg r iv))).1 = Some msg.
Proof.
move=> laws hp hiv; rewrite /Hide /= hp scaler0 pair0l //.
by rewrite (CfbProofs.aesDecrypt_aesEncrypt _ (law_aes laws)).
Qed.
Print Assumptions C34_public_decryption.

(** With fewer keys, repeated indices or a zero index it fails; with no key at all it panics. *)
Theorem C34_fails (S : setting) (t : nat) (pks : seq (public_key S)) order (priv : poly_share (sF S)) :
  (forall s, perm_eq (order s) s) ->
  (0 < size pks)%N -> (size pks < t)%N ->
  (size pks + 1 < t)%N \/ ~~ uniq (map fst pks) \/ 0%BZ \in map fst pks ->
  NewPublisher order t priv pks = PErr S.
Proof.
move=> ho p0 pt hh; rewrite /NewPublisher.
have tk : take t pks = pks by rewrite take_oversize // ltnW.
have ns : order (publisher_xys t pks) <> [::].
  move=> e0; have := ho (publisher_xys t pks); rewrite e0 perm_sym => /perm_nilP.
  rewrite /publisher_xys tk; elim/last_ind: pks p0 {pt hh tk e0} => // ks k _ _.
  by rewrite -cats1 foldl_cat.
rewrite shared_err // /publisher_indices tk.
have ui : size (undup (map fst pks ++ nseq (t - size pks) 0%BZ)) = size (undup (0%BZ :: map fst pks)).
  apply/perm_size/uniq_perm; rewrite ?undup_uniq // => x.
  rewrite !mem_undup mem_cat inE mem_nseq subn_gt0 pt /= orbC; by [].
rewrite ui /=; case: hh => [h|[h|h]].
- case: ifP => _ /=.
    by apply: leq_ltn_trans (size_undup _) _; rewrite size_map.
  apply: leq_ltn_trans h; rewrite addn1 ltnS -(size_map fst); exact: size_undup.
- have hs : (size (undup (map fst pks)) < size pks)%N by rewrite -(size_map fst) ltn_size_undup.
  case: ifP => _ /=; first exact: ltn_trans hs pt.
  exact: leq_ltn_trans hs pt.
- rewrite h; by apply: leq_ltn_trans (size_undup _) _; rewrite size_map.
Qed.
Print Assumptions C34_fails.

Theorem C34_no_keys (S : setting) (t : nat) order (priv : poly_share (sF S)) :
  (forall s, perm_eq (order s) s) -> @NewPublisher S order t priv [::] = PPanic S.
Proof.
move=> ho; rewrite /NewPublisher /publisher_xys /=.
have -> : order [::] = [::] by have := ho [::]; case: (order [::]) => // a s /perm_size.
rewrite /computeSharedPubkey /= /go_nth; case: Z.ltb => //.
by case: (Z.to_nat _).
Qed.
Print Assumptions C34_no_keys.

Example C34_example : exists p : player toy,
  @NewPublisher toy id 3 (PolyShare 2 (3 : rat)) (public_keys toy_cs 2) = POk p /\ p_shared p = 0 /\
  (Cfb.aesDecrypt (@aes toy) (hashGt (0 : sGT toy)) (s_encrypted (Hide p [:: bt 3] [:: bt 70] (5 : rat) toy_iv))).1
    = Some [:: bt 70].
Proof.
have [||||p [h1 h2]] := @C34_one_short toy 3 (public_keys toy_cs 2) id (PolyShare 2 (3 : rat)) isT erefl.
- by [].
- by move=> k; rewrite !inE => /orP[] /eqP ->; split=> //; rewrite /int64 /=; lia.
- by [].
- by rewrite /=; lia.
by exists p; split=> //; split=> //; exact: (C34_public_decryption _ _ _ toy_laws h2).
Qed.
