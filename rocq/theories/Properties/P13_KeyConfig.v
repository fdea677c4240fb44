(** C36: the key material in generated configurations works together. *)
From Coq Require Import ZArith NArith Lia List String Permutation.
From mathcomp Require Import all_ssreflect all_algebra.
From Verif.Model Require Import Tibe KeyConfig.
From Verif.Model Require TibeCodec Cfb.
From Verif.Spec Require Import TibeSpec.
From Verif.Proofs Require Import TibeProofs BlsOrder FpSetting.
From Verif.Properties Require Import P09_Tibe.
From Verif.Properties Require P11_TibeCodec.
Set Implicit Arguments.
Unset Strict Implicit.
Unset Printing Implicit Defensive.
Import GRing.Theory.
Local Open Scope ring_scope.
Delimit Scope N_scope with BN.

Section C36.
Variables (S : setting) (cd : TibeCodec.element_codecs (sF S) (sG1 S)).
Hypotheses (laws : pairing_laws S) (claws : TibeCodec.element_laws cd).
Notation F := (sF S).
Notation G1 := (sG1 S).

(** What server number j (counting from 0) is dealt by the owner of [poly]. *)
Definition dealt_share (poly : seq F) (j : nat) : vss_share S :=
  VssShare (GetExponentPoly poly) (PolyShare (Z.of_nat j.+1) (poly_at poly j.+1%:R)) (poly_at poly 0 *: gen1 S).

Definition dealt_bytes (poly : seq F) (j : nat) : bytes * bytes * bytes :=
  (TibeCodec.ExpMarshal cd (@GetExponentPoly S poly),
   TibeCodec.ShareMarshal cd (Z.of_nat j.+1, poly_at poly j.+1%:R),
   TibeCodec.MpkBytes cd (poly_at poly 0 *: gen1 S)).

Lemma nth_error_map (A B : Type) (f : A -> B) s i :
  List.nth_error [seq f x | x <- s] i = omap f (List.nth_error s i).
Proof. by elim: s i => [|x s IH] [|i] /=. Qed.
Lemma nth_error_iota a n j : List.nth_error (iota a n) j = if (j < n)%N then Some (a + j)%N else None.
Proof. by elim: n a j => [|n IH] a [|j] //=; rewrite ?addn0 // IH ltnS addSnnS. Qed.

Lemma vss_entryE (poly : seq F) (n j : nat) : poly <> [::] -> (Z.of_nat n < 2 ^ 63)%BZ -> (j < n)%N ->
  vss_entry cd poly n j = Some (dealt_bytes poly j).
Proof using Type.
move=> ne hn jn; rewrite /vss_entry.
have [nd [-> [hpk [hp _]]]] := C26_NewNode ne.
rewrite /VssShares hp hpk C23_shares // -map_comp.
rewrite !nth_error_map !nth_error_iota jn (leq_ltn_trans (leq0n j) jn) /=.
by rewrite /dealt_bytes /share_pair /= add1n.
Qed.

Local Arguments mset : simpl never.
Lemma mget_mset T (m : smap T) k v h : mget (mset m k v) h = if String.eqb k h then Some v else mget m h.
Proof using Type.
rewrite /mset /=; case E: (String.eqb k h) => //.
elim: m => //= p m IH; case E2: (String.eqb p.1 k) => /=.
  by move/String.eqb_eq: E2 => ->; rewrite E.
by case: String.eqb.
Qed.
Lemma In_mset T (m : smap T) k v p : List.In p (mset m k v) -> p = (k, v) \/ List.In p m.
Proof using Type.
rewrite /mset /= => -[->|h]; first by left.
right; elim: m h => //= q m IH; case: ifP => _ /=; last by move/IH; right.
by case=> [->|/IH]; [left|right].
Qed.
Lemma keys_mset T (m : smap T) k v h : List.In h (map fst m) \/ h = k -> List.In h (map fst (mset m k v)).
Proof using Type.
rewrite /mset /=; case: (String.eqb_spec k h) => [->|ne]; first by left.
case=> [hin|e]; last by case: ne.
right; elim: m hin => //= q m IH [e|hin].
  by case: (String.eqb_spec q.1 k) => [e2|_] /=; [case: ne; rewrite -e2|left].
by case: ifP => _ /=; [right|]; exact: IH.
Qed.

Lemma fill_spec addrs polys n j m :
  List.length addrs = List.length polys ->
  (forall p, List.In p polys -> p <> [::]) -> (Z.of_nat n < 2 ^ 63)%BZ -> (j < n)%N -> List.NoDup addrs ->
  exists ex sh mpk, fill_maps cd addrs polys n j m = Some (ex, sh, mpk) /\
    (forall h b, List.In (h, b) ex -> List.In (h, b) m.1.1 \/
       exists i p, List.nth_error addrs i = Some h /\ List.nth_error polys i = Some p /\ b = (dealt_bytes p j).1.1) /\
    (forall h, List.In h (map fst m.1.1) \/ List.In h addrs -> List.In h (map fst ex)) /\
    (forall h, ~ List.In h addrs -> mget sh h = mget m.1.2 h /\ mget mpk h = mget m.2 h) /\
    (forall i h p, List.nth_error addrs i = Some h -> List.nth_error polys i = Some p ->
       mget sh h = Some (dealt_bytes p j).1.2 /\ mget mpk h = Some (dealt_bytes p j).2).
Proof using Type.
elim: addrs polys m => [|a addrs IH] [|p polys] m //=.
  move=> *; exists m.1.1, m.1.2, m.2; split; first by case: m => -[].
  split; first by left.
  split; first by move=> h [].
  by split=> // -[].
case=> hl hp hn jn nd.
rewrite vss_entryE //; last by apply: hp; left.
have hp' q : List.In q polys -> q <> [::] by move=> h; apply: hp; right.
have [na nd'] : ~ List.In a addrs /\ List.NoDup addrs by apply/List.NoDup_cons_iff.
case ED: (dealt_bytes p j) => [[b1 b2] b3].
have [ex [sh [mpk [-> [h1 [h2 [h3 h4]]]]]]] := IH polys
  (mset m.1.1 a b1, mset m.1.2 a b2, mset m.2 a b3) hl hp' hn jn nd'.
exists ex, sh, mpk; split=> //; split=> [h b|].
  move=> hin; case: (h1 h b hin) => [/= hin2|[i [q [e1 [e2 e3]]]]]; last by right; exists i.+1, q.
  by case: (In_mset hin2) => [[-> ->]|]; [right; exists 0%N, p; case: ED => <-|left].
split=> [h hh|].
  apply: h2; case: hh => [hh|[<-|hh]]; [left|left|by right]; apply: keys_mset; by [left|right].
split=> [h hh|[|i] h q /=].
- have [|-> ->] := h3 h; first by move=> h5; apply: hh; right.
  cbn [fst snd]; rewrite !mget_mset; case: (String.eqb_spec a h) => // e; case: hh; by left.
- case=> <- [<-]; have [|-> ->] := h3 a; first by move=> e; case: na.
  by cbn [fst snd]; rewrite !mget_mset String.eqb_refl; case: ED => _ <- <-.
- exact: h4.
Qed.
Lemma cells_CVal A (l : seq A) : cells (map (@TibeCodec.CVal A) l) = Some l.
Proof using Type. by elim: l => //= x l ->. Qed.

Lemma dec_exp (poly : seq F) : (Z.of_nat (size poly) < 2 ^ 32)%BZ ->
  TibeCodec.ExpSetBytes cd [::] (TibeCodec.ExpMarshal cd (@GetExponentPoly S poly)) =
  (true, map (@TibeCodec.CVal G1) (@GetExponentPoly S poly)).
Proof using claws.
move=> h; apply: P11_TibeCodec.C35_exponent_poly => //.
have -> : List.length (@GetExponentPoly S poly) = size poly by rewrite -(size_map (fun c => c *: gen1 S) poly).
lia.
Qed.
Lemma dec_poly (poly : seq F) : (Z.of_nat (size poly) < 2 ^ 32)%BZ ->
  TibeCodec.PolySetBytes cd [::] (TibeCodec.PolyMarshal cd poly) = (true, map (@TibeCodec.CVal F) poly).
Proof using claws.
move=> h; apply: P11_TibeCodec.C35_poly => //.
have -> : List.length poly = size poly by [].
lia.
Qed.
Lemma dec_share (j : nat) (v : F) : (Z.of_nat j < 2 ^ 32)%BZ ->
  TibeCodec.ShareSetBytes cd (TibeCodec.ShareMarshal cd (Z.of_nat j, v)) = Some (Z.of_nat j, v).
Proof. move=> h; rewrite P11_TibeCodec.C35_share //; rewrite Z.mod_small //; lia. Qed.
Lemma dec_pub (j : nat) (v : G1) : (Z.of_nat j < 2 ^ 32)%BZ ->
  TibeCodec.PubkeySetBytes cd (TibeCodec.PubkeyMarshal cd (Z.of_nat j, v)) = Some (Z.of_nat j, v).
Proof. move=> h; rewrite P11_TibeCodec.C35_public_key //; rewrite Z.mod_small //; lia. Qed.

Variables (addrs : seq string) (d : nat) (dkg : seq F) (polys : seq (seq F)).
Let n := List.length addrs.
(** What createConfigs guarantees of its arguments and random choices: distinct host names and
    polynomials with d+1 coefficients; sizes fit the 32-bit fields. *)
Hypotheses (hosts_distinct : List.NoDup addrs) (one_poly_each : List.length polys = n)
  (poly_size : forall p, List.In p polys -> size p = d.+1) (dkg_size : size dkg = d.+1)
  (n_small : (Z.of_nat n < 2 ^ 32)%BZ) (d_small : (Z.of_nat d.+1 < 2 ^ 32)%BZ).

Lemma polys_ne p : List.In p polys -> p <> [::].
Proof. by move=> /poly_size h e; rewrite e in h. Qed.
Lemma n63 : (Z.of_nat n < 2 ^ 63)%BZ.
Proof. lia. Qed.

Lemma receive_spec j (nd : node S) L sh mpk :
  (j < n)%N ->
  (forall h b, List.In (h, b) L ->
     exists i p, List.nth_error addrs i = Some h /\ List.nth_error polys i = Some p /\ b = (dealt_bytes p j).1.1) ->
  (forall i h p, List.nth_error addrs i = Some h -> List.nth_error polys i = Some p ->
       mget sh h = Some (dealt_bytes p j).1.2 /\ mget mpk h = Some (dealt_bytes p j).2) ->
  exists nd', receive_all cd nd L sh mpk = Some nd' /\ n_poly nd' = n_poly nd /\ n_pk nd' = n_pk nd /\
    n_secret nd' = n_secret nd /\
    (forall h, ~ List.In h (map fst L) -> n_shares nd' h = n_shares nd h) /\
    (forall i h p, List.nth_error addrs i = Some h -> List.nth_error polys i = Some p ->
       List.In h (map fst L) \/ n_shares nd h = Some (dealt_share p j) -> n_shares nd' h = Some (dealt_share p j)).
Proof.
move=> jn hL hs; elim: L nd hL => [|[h b] L IH] nd hL.
  exists nd; split; first by []. do 3 (split; first by []). split; first by []. by move=> i h p _ _ [].
have [i [p [hi [pi hb]]]] := hL h b (or_introl erefl).
have hp : size p = d.+1 by apply: poly_size; apply: List.nth_error_In pi.
rewrite /= hb /= dec_exp ?hp // cells_CVal.
have [-> ->] := hs _ _ _ hi pi.
rewrite /= dec_share; last by move/ltP: jn => jn; lia.
rewrite P11_TibeCodec.C35_master_key //=.
set shr := VssShare _ _ _.
have [|nd' [-> [e1 [e2 [e3 [e4 e5]]]]]] := IH (ReceiveShare nd h shr).
  by move=> h' b' hin; apply: hL; right.
exists nd'; split; first by []. do 3 (split; first by []). split.
  move=> h' nin; rewrite e4 /=; last by move=> hin; apply: nin; right.
  by case: (String.eqb_spec h' h) => // e; case: nin; left.
move=> i' h' p' hi' pi' hin.
have [eh|neh] := string_dec h' h.
  apply: (e5 i') => //; right; rewrite /= eh String.eqb_refl.
  have ei : i' = i.
    apply: (proj1 (List.NoDup_nth_error addrs) hosts_distinct); last by rewrite hi' eh.
    by apply/List.nth_error_Some; rewrite hi'.
  by move: pi'; rewrite ei pi => -[<-].
apply: (e5 i') => //=; case: hin => [[e|hin]|hin]; first by case: neh.
  by left.
by right; case: String.eqb_spec.
Qed.

(** The configuration exists, and every server's node holds its own polynomial and, under every host
    name, what that host dealt to it. *)
Theorem C36_node j (own : seq F) host order :
  List.nth_error addrs j = Some host -> List.nth_error polys j = Some own ->
  (forall m, Permutation (order m) m) ->
  exists sc nd, server_config_of cd addrs d dkg polys j = Some sc /\ sc_hostname sc = host /\
    CreateTIBENode cd order sc = Some nd /\
    n_poly nd = own /\ n_secret nd = poly_at own 0 /\ n_pk nd = poly_at own 0 *: gen1 S /\
    (forall i h p, List.nth_error addrs i = Some h -> List.nth_error polys i = Some p ->
       n_shares nd h = Some (dealt_share p j)) /\
    (forall h, ~ List.In h addrs -> n_shares nd h = None).
Proof.
move=> hj pj ho.
have jn : (j < n)%N by apply/ltP/List.nth_error_Some; rewrite hj.
have [ex [sh [mpk [hf [h1 [h2 [_ h4]]]]]]] :=
  @fill_spec addrs polys n j ([::], [::], [::]) (esym one_poly_each) polys_ne n63 jn hosts_distinct.
have hown : List.In own polys by apply: List.nth_error_In pj.
have [nd0 [hnd0 [e1 [e2 _]]]] := C26_NewNode (polys_ne hown).
have hL h b : List.In (h, b) (order ex) ->
   exists i p, List.nth_error addrs i = Some h /\ List.nth_error polys i = Some p /\ b = (dealt_bytes p j).1.1.
  by move=> hin; case: (h1 h b) => //; apply: Permutation_in hin.
have hkeys h : List.In h (map fst (order ex)) <-> List.In h addrs.
  split=> [/List.in_map_iff[[h' b] [/= <- /hL[i [p [hi _]]]]]|hin]; first exact: List.nth_error_In hi.
  by apply: (Permutation_in _ (Permutation_sym (Permutation_map fst (ho ex)))); apply: h2; right.
have [nd [hr [r1 [r2 [r3 [r4 r5]]]]]] := @receive_spec j nd0 (order ex) sh mpk jn hL h4.
have Eshr : List.nth_error (CreateShares dkg n) j = Some (PolyShare (Z.of_nat j.+1) (poly_at dkg j.+1%:R)).
  rewrite C23_shares; last exact: n63.
  by rewrite nth_error_map nth_error_iota jn /= add1n.
have Esc : exists sc, server_config_of cd addrs d dkg polys j = Some sc /\ sc_hostname sc = host /\
   sc_poly sc = TibeCodec.PolyMarshal cd own /\ sc_expolys sc = ex /\ sc_shares sc = sh /\ sc_mpks sc = mpk.
  by rewrite /server_config_of /= -/n Eshr hj pj hf; eexists; split; first reflexivity.
have [sc [hsc [g1 [g2 [g3 [g4 g5]]]]]] := Esc.
exists sc, nd; split=> //; split=> //.
rewrite /CreateTIBENode g2 g3 g4 g5 dec_poly ?(poly_size hown) //= cells_CVal hnd0 hr.
split=> //; split; first by rewrite r1 e2.
move: hnd0; rewrite /NewNode; case Es: (Secret own) => [s|] //= [hnd0].
have es : s = poly_at own 0.
  by have := C23_secret (polys_ne hown); rewrite Es => -[[]].
split; first by rewrite r3 -hnd0 es.
split; first by rewrite r2 e1.
split.
  move=> i h p hi pi; apply: (r5 i) => //; left; apply/hkeys; exact: List.nth_error_In hi.
by move=> h nin; rewrite r4 -?hnd0 // => /hkeys.
Qed.


(** A node (a player) made from the configuration of server j; the order in which the maps are visited
    is unknown. *)
Definition generated_node (j : nat) (nd : node S) : Prop :=
  exists order sc, (forall m, Permutation (order m) m) /\
    server_config_of cd addrs d dkg polys j = Some sc /\ CreateTIBENode cd order sc = Some nd.
Definition generated_player (j : nat) (p : player S) : Prop :=
  exists order sc, (forall s, perm_eq (order s) s) /\
    server_config_of cd addrs d dkg polys j = Some sc /\ CreateTIBEPublisher cd order sc = Some (POk p).

Lemma some_poly j h : List.nth_error addrs j = Some h -> exists p, List.nth_error polys j = Some p.
Proof.
move=> hj; case E: (List.nth_error polys j) => [p|]; first by exists p.
move/List.nth_error_None: E => E; rewrite one_poly_each in E.
have : (j < List.length addrs)%coq_nat by apply/List.nth_error_Some; rewrite hj.
rewrite -/n; lia.
Qed.
Lemma config_host j sc : server_config_of cd addrs d dkg polys j = Some sc ->
  exists h p, List.nth_error addrs j = Some h /\ List.nth_error polys j = Some p.
Proof.
rewrite /server_config_of /=; case E: (List.nth_error addrs j) => [h|] // _.
by have [p hp] := some_poly E; exists h, p.
Qed.
Lemma generated_nodeE j nd : generated_node j nd ->
  exists h own, List.nth_error addrs j = Some h /\ List.nth_error polys j = Some own /\
    n_poly nd = own /\ n_secret nd = poly_at own 0 /\
    (forall i h p, List.nth_error addrs i = Some h -> List.nth_error polys i = Some p ->
       n_shares nd h = Some (dealt_share p j)).
Proof.
move=> [order [sc [ho [hsc hnd]]]].
have [h [own [hj pj]]] := config_host hsc.
have [sc' [nd' [e1 [_ [e2 [r1 [r2 [_ [r4 _]]]]]]]]] := C36_node hj pj ho.
move: e1 e2; rewrite hsc => -[<-]; rewrite hnd => -[e]; rewrite -e in r1 r2 r4.
by exists h, own.
Qed.

(** Any node encrypts for any host, and that host's node decrypts. *)
Theorem C36_encrypt j k host (owner sender : node S) id msg r iv :
  generated_node j owner -> generated_node k sender -> List.nth_error addrs j = Some host ->
  List.length iv = 16%N ->
  exists c, EncryptFor sender host id msg r iv = Some c /\ (Decrypt (MasterDecrypter owner id) c).1 = Some msg.
Proof.
move=> hj hk eh hiv.
have [h [own [a1 [a2 [a3 [a4 _]]]]]] := generated_nodeE hj.
have [_ [_ [_ [_ [_ [_ hs]]]]]] := generated_nodeE hk.
rewrite /EncryptFor (hs _ _ _ eh a2) /=; eexists; split; first reflexivity.
by rewrite /MasterDecrypter a4 Decrypt_Encrypt.
Qed.

Lemma point_nat (k : nat) : point F (Z.of_nat k) = k%:R.
Proof. by rewrite /point; case: (Z.leb_spec 0 (Z.of_nat k)) => h; [rewrite Nat2Z.id|lia]. Qed.
Lemma voted host id own (voters : seq (nat * node S)) (votes : seq (vote S)) j :
  List.nth_error addrs j = Some host -> List.nth_error polys j = Some own ->
  (forall q, List.In q voters -> generated_node q.1 q.2) ->
  List.Forall2 (fun q v => NodeVote q.2 host id = Some v) voters votes ->
  size votes = size voters /\ map (@v_index S) votes = [seq Z.of_nat q.1.+1 | q <- voters] /\
  forall v, List.In v votes -> v_id v = id /\ int64 (v_index v) /\ correct_vote own v.
Proof.
move=> hj pj; elim: voters votes => [|[k nd] voters IH] votes hq hf.
  by inversion_clear hf; split; [|split].
inversion hf as [|a v b votes' hv hf' e1 e2]; subst.
have [||sz [mp hin]] := IH votes'; [by move=> q h; apply: hq; right|by []|].
have hg : generated_node k nd by apply: (hq (k, nd)); left.
have [h [p [a1 [a2 [_ [_ hs]]]]]] := generated_nodeE hg.
move: hv; rewrite /NodeVote (hs _ _ _ hj pj) => -[hv].
have hk : (Z.of_nat k.+1 <= 2 ^ 32)%BZ.
  have : (k < List.length addrs)%coq_nat by apply/List.nth_error_Some; rewrite a1.
  by rewrite -/n; lia.
split; first by rewrite /= sz.
split; first by rewrite /= mp -hv.
move=> w [<-|/hin //]; rewrite -hv; split; first by [].
split; first by rewrite /int64 /v_index; lia.
by rewrite /correct_vote /v_sig /v_index /v_id point_nat.
Qed.

Lemma generated_holds k nd j host own :
  generated_node k nd -> List.nth_error addrs j = Some host -> List.nth_error polys j = Some own ->
  holds_expoly nd host own.
Proof.
move=> hk hj pj; have [_ [_ [_ [_ [_ [_ hs]]]]]] := generated_nodeE hk.
by exists (dealt_share own k); rewrite (hs _ _ _ hj pj).
Qed.

Lemma voters_uniq (T : Type) (voters : seq (nat * T)) : List.NoDup (map fst voters) ->
  uniq [seq Z.of_nat q.1.+1 | q <- voters].
Proof.
elim: voters => //= q voters IH nd.
have [nin nd'] : ~ List.In q.1 (map fst voters) /\ List.NoDup (map fst voters) by apply/List.NoDup_cons_iff.
rewrite IH // andbT; apply/negP; move: nin.
elim: voters {IH nd nd'} => //= p ps IH nin; rewrite inE => /orP[/eqP e|h].
  by apply: nin; left; lia.
by apply: IH => // hin; apply: nin; right.
Qed.

(** The votes of any d+2 distinct nodes, in any order, let any node rebuild host j's key. *)
Theorem C36_votes j k host (owner rebuilder : node S) id (voters : seq (nat * node S)) (votes : seq (vote S)) :
  generated_node j owner -> generated_node k rebuilder -> List.nth_error addrs j = Some host ->
  (forall q, List.In q voters -> generated_node q.1 q.2) -> List.NoDup (map fst voters) ->
  List.Forall2 (fun q v => NodeVote q.2 host id = Some v) voters votes ->
  (d + 2 <= size voters)%N ->
  ReconstructDecrypter rebuilder host votes = RKey (MasterDecrypter owner id).
Proof.
move=> hj hk eh hq nd hf sz.
have [h [own [a1 [a2 [a3 [a4 _]]]]]] := generated_nodeE hj.
have [sv [mi hv]] := voted eh a2 hq hf.
have hown : List.In own polys by apply: List.nth_error_In a2.
have [o' [e1 [_ [_ e2]]]] := C26_NewNode (polys_ne hown).
have tE : Threshold own = (d + 2)%N by rewrite /Threshold (poly_size hown) addn2.
have -> : MasterDecrypter owner id = MasterDecrypter o' id by rewrite e2 /MasterDecrypter a4.
apply: (C28_reconstruct laws e1 (generated_holds hk eh a2) hv); first by rewrite tE sv.
by rewrite map_take mi take_uniq // voters_uniq.
Qed.

(** With one vote fewer it fails (although they determine the key: C29_determined). *)
Theorem C36_one_vote_short j k host (owner rebuilder : node S) id (voters : seq (nat * node S)) (votes : seq (vote S)) :
  generated_node j owner -> generated_node k rebuilder -> List.nth_error addrs j = Some host ->
  (forall q, List.In q voters -> generated_node q.1 q.2) ->
  List.Forall2 (fun q v => NodeVote q.2 host id = Some v) voters votes ->
  (size voters <= d + 1)%N ->
  ReconstructDecrypter rebuilder host votes = RError S.
Proof.
move=> hj hk eh hq hf sz.
have [h [own [a1 [a2 _]]]] := generated_nodeE hj.
have [sv _] := voted eh a2 hq hf.
have hown : List.In own polys by apply: List.nth_error_In a2.
apply: (C29_too_few laws (polys_ne hown) (generated_holds hk eh a2)).
by rewrite sv (poly_size hown) -addn1.
Qed.

Lemma decode_keys (ks : seq (public_key S)) :
  (forall x, List.In x ks -> (0 <= x.1 < 2 ^ 32)%BZ) ->
  decode_all (TibeCodec.PubkeySetBytes cd) [seq TibeCodec.PubkeyMarshal cd x | x <- ks] = Some ks.
Proof.
elim: ks => //= [[i v]] ks IH h.
have hi : (0 <= i < 2 ^ 32)%BZ by apply: (h (i, v)); left.
by rewrite P11_TibeCodec.C35_public_key // Z.mod_small // IH // => x hx; apply: h; right.
Qed.

Lemma publisherE j order sc : server_config_of cd addrs d dkg polys j = Some sc ->
  CreateTIBEPublisher cd order sc =
  Some (NewPublisher order d.+1 (PolyShare (Z.of_nat j.+1) (poly_at dkg j.+1%:R)) (public_keys dkg n)) /\ (j < n)%N.
Proof.
move=> hsc; have [h [own [hj pj]]] := config_host hsc.
have jn : (j < n)%N by apply/ltP/List.nth_error_Some; rewrite hj.
have Eshr : List.nth_error (CreateShares dkg n) j = Some (PolyShare (Z.of_nat j.+1) (poly_at dkg j.+1%:R)).
  rewrite C23_shares; last exact: n63.
  by rewrite nth_error_map nth_error_iota jn /= add1n.
move: hsc; rewrite /server_config_of /= -/n Eshr hj pj.
case: fill_maps => // -[[ex sh] mpk] [<-]; split=> //; rewrite /CreateTIBEPublisher.
cbn [sc_dkg_keys sc_dkg_share sc_threshold].
have -> : [seq TibeCodec.PubkeyMarshal cd (ComputePublicKey s) | s <- CreateShares dkg n] =
          [seq TibeCodec.PubkeyMarshal cd x | x <- @public_keys S dkg n].
  by rewrite -(@C32_generated_keys S dkg n n63) -[RHS]map_comp.
have hi j' : (j' < n)%N -> (0 <= Z.of_nat j'.+1 < 2 ^ 32)%BZ by move/ltP; lia.
rewrite decode_keys; last first.
  move=> x /List.in_map_iff[i [<- hin]] /=; move/List.in_seq: hin => hin; lia.
rewrite /share_pair dec_share; last by case: (hi j jn).
by rewrite /threshold32 Z.mod_small ?Nat2Z.id //; lia.
Qed.

(** Publishers: with at least d+1 servers every configuration gives a player, all with one shared key. *)
Theorem C36_publisher j order :
  (d < n)%N -> (j < n)%N -> (forall s, perm_eq (order s) s) ->
  exists sc p, server_config_of cd addrs d dkg polys j = Some sc /\
    CreateTIBEPublisher cd order sc = Some (POk p) /\
    p_shared p = poly_at dkg 0 *: gen1 S /\ p_t p = d.+1 /\ p_index p = Z.of_nat j.+1.
Proof.
move=> dn jn ho.
case hj: (List.nth_error addrs j) => [h|]; last first.
  by move/List.nth_error_None: hj; rewrite -/n; move/ltP: jn; lia.
have [own pj] := some_poly hj.
have [sc [_ [hsc _]]] := C36_node (order := id) hj pj (fun m => Permutation_refl m).
have [hp _] := publisherE order hsc.
exists sc; have [|||||p [e1 [e2 [e3 [e4 _]]]]] := @C32_shared_key S dkg d.+1 n order (PolyShare (Z.of_nat j.+1) (poly_at dkg j.+1%:R)) laws.
- by rewrite dkg_size.
- by [].
- exact: n63.
- by [].
- by rewrite /=; move/ltP: jn; lia.
by exists p; rewrite hp e1 e2 e3 e4.
Qed.

Theorem C36_hide_reveal j k (hider revealer : player S) id msg r iv (voters : seq (nat * player S)) :
  (d < n)%N ->
  generated_player j hider -> generated_player k revealer ->
  (forall q, List.In q voters -> generated_player q.1 q.2) -> List.NoDup (map fst voters) ->
  List.length iv = 16%N -> (d + 1 <= size voters)%N ->
  (Reveal revealer [seq PlayerVote q.2 id | q <- voters] (Hide hider id msg r iv)).1 = Some msg.
Proof.
move=> dn hj hk hq nd hiv sz.
have gp i p : generated_player i p -> p_shared p = poly_at dkg 0 *: gen1 S /\ p_t p = d.+1 /\
    p_index p = Z.of_nat i.+1 /\ p_secret p = poly_at dkg i.+1%:R /\ (i < n)%N.
  move=> [order [sc [ho [hsc hp]]]]; have [hp2 jn] := publisherE order hsc.
  have [|||||p' [e1 [e2 [e3 [e4 [e5 _]]]]]] := @C32_shared_key S dkg d.+1 n order (PolyShare (Z.of_nat i.+1) (poly_at dkg i.+1%:R)) laws.
  - by rewrite dkg_size.
  - by [].
  - exact: n63.
  - by [].
  - by rewrite /ps_index; move/ltP: jn; lia.
  by move: hp; rewrite hp2 e1 => -[<-]; rewrite e2 e3 e4 e5.
have [h1 _] := gp _ _ hj; have [_ [h2 _]] := gp _ _ hk.
have hidx : map (@v_index S) [seq PlayerVote q.2 id | q <- voters] = [seq Z.of_nat q.1.+1 | q <- voters].
  elim: (voters) hq => // q qs IH h; rewrite /= IH; last by move=> x hx; apply: h; right.
  by have [_ [_ [-> _]]] := gp _ _ (h q (or_introl erefl)).
apply: (@C32_hide_reveal S dkg d.+1 hider revealer id msg r iv _ laws) => //; first by rewrite dkg_size.
- move=> v /List.in_map_iff[q [<- hin]].
  have [_ [_ [e1 [e2 lt]]]] := gp _ _ (hq q hin).
  split; first by [].
  split; first by rewrite /PlayerVote /v_index e1 /int64; move/ltP: lt; lia.
  by rewrite /correct_vote /PlayerVote /v_sig /v_index /v_id e1 point_nat e2.
- by rewrite size_map -addn1.
- by rewrite map_take hidx take_uniq // voters_uniq.
Qed.

(** Boundary: with exactly d servers every publisher is created without an error, and its shared key is
    the neutral element, so that what it hides is readable by anyone (C34_public_decryption). *)
Theorem C36_too_few_servers j order :
  n = d -> (1 < d.+1)%N -> (j < n)%N -> (forall s, perm_eq (order s) s) ->
  exists sc p, server_config_of cd addrs d dkg polys j = Some sc /\
    CreateTIBEPublisher cd order sc = Some (POk p) /\ p_shared p = 0.
Proof.
move=> nd d0 jn ho.
case hj: (List.nth_error addrs j) => [h|]; last first.
  by move/List.nth_error_None: hj; rewrite -/n; move/ltP: jn; lia.
have [own pj] := some_poly hj.
have [sc [_ [hsc _]]] := C36_node (order := id) hj pj (fun m => Permutation_refl m).
have [hp _] := publisherE order hsc.
exists sc; have [||||||p [e1 e2]] := @C34_one_short S d.+1 (public_keys dkg n) order (PolyShare (Z.of_nat j.+1) (poly_at dkg j.+1%:R)).
- by [].
- by rewrite /public_keys size_map size_iota nd.
- rewrite /public_keys -map_comp; rewrite map_inj_uniq ?iota_uniq // => a b /=; lia.
- move=> k /mapP[i]; rewrite mem_iota => /andP[/ltP i1 /ltP i2] ->; rewrite /= /int64.
  move: i2; rewrite -plusE => i2; split; lia.
- by [].
- by rewrite /public_keys size_map size_iota /ps_index; move/ltP: jn; lia.
by exists p; rewrite hp e1.
Qed.

End C36.

(** An instance: three servers, d = 1, over the scalar field of BLS12-381. *)
Definition ex_addrs : seq string := [:: "a"; "b"; "c"]%string.
Definition ex_polys (F : fieldType) : seq (seq F) := [:: [:: 1; 1]; [:: 2%:R; 1]; [:: 3%:R; 1]].
Definition ex_dkg (F : fieldType) : seq F := [:: 5%:R; 1].
Example C36_example : exists (S : setting) (cd : TibeCodec.element_codecs (sF S) (sG1 S)),
  pairing_laws S /\ TibeCodec.element_laws cd /\
  forall id, exists na nb nc va vb vc, let g := generated_node cd ex_addrs 1 (ex_dkg (sF S)) (ex_polys (sF S)) in
  [/\ g 0%N na, g 1%N nb & g 2%N nc] /\
  [/\ NodeVote na "b" id = Some va, NodeVote nb "b" id = Some vb & NodeVote nc "b" id = Some vc] /\
  ReconstructDecrypter na "b" [:: vc; va; vb] = RKey (MasterDecrypter nb id) /\
  ReconstructDecrypter na "b" [:: vc; va] = RError S.
Proof.
have [p [_ [_ [laws claws]]]] := setting_exists.
move: (fp_setting p) (fp_codecs p) laws claws => S cd laws claws.
exists S, cd; split; first by []; split; first by [].
move=> id.
have nd : List.NoDup ex_addrs by rewrite /ex_addrs; repeat constructor; rewrite /=; intuition discriminate.
have ps q : List.In q (ex_polys (sF S)) -> size q = 2%N by move=> [<-|[<-|[<-|//]]].
have mk j h own : List.nth_error ex_addrs j = Some h -> List.nth_error (ex_polys (sF S)) j = Some own ->
  exists n, generated_node cd ex_addrs 1 (ex_dkg (sF S)) (ex_polys (sF S)) j n /\
   exists v, NodeVote n "b" id = Some v.
  move=> hj pj.
  have [sc [n [h1 [_ [h2 [_ [_ [_ [h3 _]]]]]]]]] := @C36_node S cd claws ex_addrs 1 (ex_dkg (sF S)) (ex_polys (sF S)) nd
     erefl ps erefl erefl erefl j own h (fun m => m) hj pj (fun m => Permutation_refl m).
  exists n; split; first by exists (fun m => m), sc.
  rewrite /NodeVote (h3 1%N "b"%string [:: 2%:R; 1] erefl erefl); eexists; reflexivity.
have [na [ga [va ha]]] := mk 0%N _ _ erefl erefl.
have [nb [gb [vb hb]]] := mk 1%N _ _ erefl erefl.
have [nc [gc [vc hc]]] := mk 2%N _ _ erefl erefl.
exists na, nb, nc, va, vb, vc; split; first by []; split; first by [].
split.
  apply: (@C36_votes S cd laws claws ex_addrs 1 (ex_dkg (sF S)) (ex_polys (sF S)) nd erefl ps erefl erefl erefl
            1%N 0%N _ _ _ _ [:: (2%N, nc); (0%N, na); (1%N, nb)]) => //.
  - by move=> q [<-|[<-|[<-|//]]].
  - by rewrite /=; repeat constructor; rewrite /=; intuition discriminate.
  - by repeat constructor.
apply: (@C36_one_vote_short S cd laws claws ex_addrs 1 (ex_dkg (sF S)) (ex_polys (sF S)) nd erefl ps erefl erefl erefl
            1%N 0%N _ nb _ id [:: (2%N, nc); (0%N, na)]) => //.
- by move=> q [<-|[<-|//]].
- by repeat constructor.
Qed.
Print Assumptions C36_node.
Print Assumptions C36_encrypt.
Print Assumptions C36_votes.
Print Assumptions C36_one_vote_short.
Print Assumptions C36_publisher.
Print Assumptions C36_hide_reveal.
Print Assumptions C36_too_few_servers.

(** C83: over the scalar field of BLS12-381 its hypotheses hold, and a cipher made by Encrypt is accepted. *)
Example C83_example : exists p : nat, N.of_nat p = bls_order /\
  let S := fp_setting p in
  (forall d d' (x x' : sGT S), ~ mac_collision S (hashGt x) d (hashGt x') d') /\
  (forall x y : sG1 S, List.length (g1Bytes x) = List.length (g1Bytes y)) /\
  (forall x y : sG1 S, g1Bytes x = g1Bytes y -> x = y) /\
  forall (s r : sF S) id msg iv, List.length iv = 16%N ->
    (Decrypt (s *: g2Hash S id) (Encrypt (s *: gen1 S) id msg r iv)).1 = Some msg.
Proof.
exists (N.to_nat bls_order); split; first by rewrite N2Nat.id.
move: bls_order_prime; move: (N2Nat.id bls_order); move: (N.to_nat _) => p hp pp.
have h1 : (2 ^ 64 < N.of_nat p)%BN by rewrite hp.
have h2 : (N.of_nat p < 2 ^ 256)%BN by rewrite hp.
split; first by move=> d d' x x' [ne /fp_mac [e1 e2]]; apply: ne; rewrite e1 e2. split; first by move=> ??; exact: fp_len.
split; first by move=> ??; exact: fp_inj.
move=> s r id msg iv hiv; rewrite Decrypt_Encrypt //; exact: fp_laws.
Qed.
Print Assumptions C83_example.
