(** The scheme of a generated deployment is correct: what clients encrypt with the generator's keys, the
    servers decrypt. *)
From Coq Require Import ZArith NArith Lia List String Permutation.
From mathcomp Require Import all_ssreflect all_algebra.
From Verif.Base Require Base.
From Verif.Model Require Import Tibe KeyConfig Deployment.
From Verif.Model Require TibeCodec Cfb.
From Verif.Spec Require Import TibeSpec.
From Verif.Proofs Require Import TibeProofs.
From Verif.Properties Require Import P09_Tibe P13_KeyConfig.
From Verif.Properties Require P11_TibeCodec.
Set Implicit Arguments.
Unset Strict Implicit.
Unset Printing Implicit Defensive.
Import GRing.Theory.
Local Open Scope ring_scope.

Section deployment.
Variables (S : setting) (cd : TibeCodec.element_codecs (sF S) (sG1 S)).
Hypotheses (laws : pairing_laws S) (claws : TibeCodec.element_laws cd)
  (mac_len : forall d k, List.length (hmac S d k) = TibeCodec.macSize).
Notation F := (sF S).

Lemma fill_mpks addrs (polys : seq (seq F)) n j m ex sh mp :
  List.length addrs = List.length polys ->
  (forall p, List.In p polys -> p <> [::]) -> (Z.of_nat n < 2 ^ 63)%BZ -> (j < n)%N ->
  fill_maps cd addrs polys n j m = Some (ex, sh, mp) ->
  (forall h b, List.In (h, b) mp -> List.In (h, b) m.2 \/
     exists i p, List.nth_error addrs i = Some h /\ List.nth_error polys i = Some p /\
       b = TibeCodec.MpkBytes cd (poly_at p 0 *: gen1 S)) /\
  (forall h, List.In h (map fst m.2) \/ List.In h addrs -> List.In h (map fst mp)).
Proof using Type.
elim: addrs polys m => [|a addrs IH] [|p polys] m //=.
  by move=> _ _ _ _ [->] /=; split=> [h b|h [|[]]] //; left.
case=> hl hp hn jn; rewrite vss_entryE //; last by apply: hp; left.
have hp' q : List.In q polys -> q <> [::] by move=> h; apply: hp; right.
move/(IH _ _ hl hp' hn jn) => [h1 h2]; split=> [h b|h hh].
  case/h1=> [/= hin|[i [q [e1 [e2 e3]]]]]; last by right; exists i.+1, q.
  by case: (In_mset hin) => [[-> ->]|]; [right; exists 0%N, p|left].
apply: h2; case: hh => [hh|[<-|hh]]; [left|left|by right]; apply: keys_mset; by [left|right].
Qed.

Variables (addrs : seq string) (d : nat) (dkg : seq F) (polys : seq (seq F)).
Hypotheses (hosts_distinct : List.NoDup addrs) (one_poly_each : List.length polys = List.length addrs)
  (poly_size : forall p, List.In p polys -> size p = d.+1) (dkg_size : size dkg = d.+1)
  (n_small : (Z.of_nat (List.length addrs) < 2 ^ 32)%BZ) (d_small : (Z.of_nat d.+1 < 2 ^ 32)%BZ).

Lemma decode_mpks_spec l ks : decode_mpks cd l = Some ks ->
  forall h p, List.In (h, p) ks -> exists b, List.In (h, b) l /\ TibeCodec.MpkSetBytes cd b = Some p.
Proof using Type.
elim: l ks => [|[h b] l IH] ks /=; first by case=> <-.
case E: (TibeCodec.MpkSetBytes cd b) => [p|] //.
case E2: (decode_mpks cd l) => [ks'|] //= [<-] h' p' /= [[<- <-]|hin].
  by exists b; split=> //; left.
by have [b' [h1 h2]] := IH _ E2 _ _ hin; exists b'; split=> //; right.
Qed.
Lemma decode_mpks_ok l : (forall h b, List.In (h, b) l -> exists p, TibeCodec.MpkSetBytes cd b = Some p) ->
  exists ks, decode_mpks cd l = Some ks /\ map fst ks = map fst l.
Proof using Type.
elim: l => [|[h b] l IH] hl; first by exists [::].
have [p hp] := hl h b (or_introl erefl).
have [|ks [h1 h2]] := IH; first by move=> h' b' hin; apply: (hl h'); right.
by exists ((h, p) :: ks); rewrite /= hp h1 /= h2.
Qed.

(** The generator has a key for every host, and it is the host's master public key. *)
Lemma generator_keys_spec order sc0 : (forall m, Permutation (order m) m) ->
  server_config_of cd addrs d dkg polys 0 = Some sc0 ->
  exists ks, generator_keys cd order sc0 = Some ks /\
    (forall h, List.In h addrs -> List.In h (map fst ks)) /\
    (forall h p, List.In (h, p) ks -> exists j own, List.nth_error addrs j = Some h /\
       List.nth_error polys j = Some own /\ p = poly_at own 0 *: gen1 S).
Proof.
move=> ho hsc.
have [h0 [p0 [a0 b0]]] := config_host one_poly_each dkg_size d_small hsc.
have n0 : (0 < List.length addrs)%N by apply/ltP/List.nth_error_Some; rewrite a0.
move: hsc; cbv beta iota zeta delta [server_config_of DKGSetup].
rewrite a0 b0; case: (List.nth_error (CreateShares dkg (List.length addrs)) 0) => [shr|] //.
case E: fill_maps => [[[ex sh] mp]|] // [<-].
have hne p : List.In p polys -> p <> [::] by move/poly_size => h e; rewrite e in h.
have hn : (Z.of_nat (List.length addrs) < 2 ^ 63)%BZ by lia.
have [h1 h2] := fill_mpks (esym one_poly_each) hne hn n0 E.
have hin h b : List.In (h, b) (order mp) -> exists i p, List.nth_error addrs i = Some h /\
    List.nth_error polys i = Some p /\ b = TibeCodec.MpkBytes cd (poly_at p 0 *: gen1 S).
  by move/(Permutation_in _ (ho mp)) => /h1 [].
rewrite /generator_keys; cbn [sc_mpks].
have [|ks [k1 k2]] := @decode_mpks_ok (order mp).
  move=> h b /hin[i [p [_ [_ ->]]]]; exists (poly_at p 0 *: gen1 S).
  exact: P11_TibeCodec.C35_master_key.
exists ks; split=> //; split=> [h hh|h p hp].
  rewrite k2; apply: (Permutation_in _ (Permutation_sym (Permutation_map fst (ho mp)))).
  by apply: h2; right.
have [b [g1 g2]] := decode_mpks_spec k1 hp.
have [i [own [e1 [e2 e3]]]] := hin _ _ g1.
exists i, own; split=> //; split=> //; move: g2; rewrite e3 P11_TibeCodec.C35_master_key //.
by case.
Qed.

(** Decrypting undoes encrypting. *)
Lemma scheme_correct order sc0 ks j h p nd id m r c :
  (forall m, Permutation (order m) m) -> server_config_of cd addrs d dkg polys 0 = Some sc0 ->
  generator_keys cd order sc0 = Some ks -> List.In (h, p) ks ->
  List.nth_error addrs j = Some h -> generated_node cd addrs d dkg polys j nd ->
  EncryptBytes cd p id m r = Base.Ok c -> DecryptBytes cd nd id c = Some (Some m).
Proof.
move=> ho hsc hks hin hj hnd; rewrite /EncryptBytes; case: Nat.eqb_spec => // hiv [<-].
have [ks' [e1 [_ e2]]] := generator_keys_spec ho hsc; move: e1; rewrite hks => -[e]; rewrite -e in e2.
have [j' [own [a1 [a2 ->]]]] := e2 _ _ hin.
have ej : j' = j.
  apply: (proj1 (List.NoDup_nth_error addrs) hosts_distinct); last by rewrite hj a1.
  by apply/List.nth_error_Some; rewrite a1.
rewrite ej in a2.
have [h' [own' [b1 [b2 [b3 [b4 _]]]]]] :=
  generated_nodeE claws hosts_distinct one_poly_each poly_size dkg_size n_small d_small hnd.
have eo : own' = own by move: b2; rewrite a2 => -[].
rewrite eo in b4.
pose c0 := Encrypt (poly_at own 0 *: gen1 S : sG1 S) id m r.1 r.2.
rewrite -[TibeCodec.CipherToBuffer _ _]/(TibeCodec.CipherToBuffer cd (c_Gr c0, c_Mac c0, c_Encrypted c0)).
have [|hc _] := @P11_TibeCodec.C35_cipher _ _ cd claws (c_Gr c0) (c_Mac c0) (c_Encrypted c0); first exact: mac_len.
rewrite /DecryptBytes hc.
have -> : Cipher (c_Gr c0) (c_Mac c0) (c_Encrypted c0) = c0 by [].
by rewrite /MasterDecrypter b4 /c0 Decrypt_Encrypt.
Qed.

(** Encrypting succeeds when the random source delivers. *)
Lemma encrypt_ok (p : mpk S) id m r : List.length r.2 = Cfb.blockSize -> exists c, EncryptBytes cd p id m r = Base.Ok c.
Proof using Type. by move=> h; rewrite /EncryptBytes h Nat.eqb_refl; eexists. Qed.
End deployment.
