(** C86: where the keys of a deployment come from. *)
From Coq Require Import ZArith NArith Lia List String Permutation.
From mathcomp Require Import all_ssreflect all_algebra.
From Verif.Base Require Base.
From Verif.Model Require Import Tibe KeyConfig KeySeed Deployment.
From Verif.Model Require TibeCodec Cfb.
From Verif.Spec Require Import TibeSpec KeySeedSpec.
From Verif.Proofs Require Import TibeProofs DeploymentProofs KeySeedProofs BlsOrder FpSetting.
From Verif.Properties Require Import P09_Tibe P13_KeyConfig.
From Verif.Properties Require P11_TibeCodec.
Set Implicit Arguments.
Unset Strict Implicit.
Unset Printing Implicit Defensive.
Import GRing.Theory.
Local Open Scope ring_scope.

Section C86.
Variables (F : fieldType) (R : Type) (absorb : string -> R) (Random : R -> F * R).

(** Within a process no draw is used twice: the coefficients of all polynomials, in the order of the
    calls, are the reader's scalars number 0, 1, 2, ...; and every polynomial has d+1 of them. *)
Theorem C86_fresh_draws (h : seq key_call) :
  flatten [seq coefs_of x | x <- process_keys absorb Random h] =
  [seq draw Random (absorb seed) i | i <- iota 0 (sumn [seq call_coefs c | c <- h])].
Proof.
rewrite /process_keys /randomReader0; move: (absorb seed) => r.
elim: h r => [|c h IH] r //.
have [dkg [polys [h1 h2]]] := key_stepE Random c r.
rewrite [key_history _ _ _]/= h1 [flatten _]/= -/(flatten _) h2 IH draws_shift -map_cat.
by rewrite [sumn _]/= iotaS_app.
Qed.
Theorem C86_sizes (addrs : seq string) (d : nat) (h : seq key_call) :
  exists dkg polys rest, process_keys absorb Random (CallSystem addrs d :: h) = (dkg, polys) :: rest /\
    size dkg = d.+1 /\ List.length polys = List.length addrs /\ (forall p, List.In p polys -> size p = d.+1).
Proof.
rewrite /process_keys /=.
have [dkg [polys [-> [h1 [h2 [h3 _]]]]]] := createE Random (List.length addrs) d (randomReader0 absorb).
by exists dkg, polys; eexists.
Qed.

(** FINDING.  Processes whose calls have the same numbers of addresses and degrees get the same keys,
    whatever the addresses. *)
Theorem C86_same_keys (h h' : seq key_call) :
  List.Forall2 alike h h' -> process_keys absorb Random h = process_keys absorb Random h'.
Proof.
rewrite /process_keys; move: (randomReader0 absorb) => r H; elim: H r => [|c c' l l' hc _ IH] r //.
by rewrite /= (key_step_alike Random r hc); case: (key_step Random c' r) => -[dkg polys] r1; rewrite IH.
Qed.
End C86.

Section outsider.
Variables (S : setting) (cd : TibeCodec.element_codecs (sF S) (sG1 S)).
Hypotheses (laws : pairing_laws S) (claws : TibeCodec.element_laws cd)
  (mac_len : forall d k, List.length (hmac S d k) = TibeCodec.macSize).
Variables (R : Type) (absorb : string -> R) (Random : R -> sF S * R).

(** FINDING.  Whoever knows the number of servers and the degree can decrypt every cipher for every server
    of a system that was the first its process created: no secret is needed. *)
Theorem C86_outsider_decrypts addrs d h dkg polys rest order sc0 ks j host p id m r c :
  process_keys absorb Random (CallSystem addrs d :: h) = (dkg, polys) :: rest ->
  List.NoDup addrs -> (Z.of_nat (List.length addrs) < 2 ^ 32)%BZ -> (Z.of_nat d.+1 < 2 ^ 32)%BZ ->
  (forall m, Permutation (order m) m) -> server_config_of cd addrs d dkg polys 0 = Some sc0 ->
  generator_keys cd order sc0 = Some ks -> List.In (host, p) ks -> List.nth_error addrs j = Some host ->
  EncryptBytes cd p id m r = Base.Ok c ->
  outsider_decrypt cd absorb Random (List.length addrs) d j id c = Some m.
Proof.
move=> hp nd n32 d32 ho hsc hks hin hj henc.
move: hp; rewrite /process_keys /=.
have [dkg' [polys' [E [h1 [h2 [h3 _]]]]]] := createE Random (List.length addrs) d (randomReader0 absorb).
rewrite E => -[e1 e2 _]; rewrite e1 {dkg' e1} e2 {polys' e2} in E h1 h2 h3.
have [ks' [a1 [_ a2]]] := generator_keys_spec claws h2 h3 h1 n32 d32 ho hsc.
move: a1; rewrite hks => -[e]; rewrite -e in a2.
have [j' [own [b1 [b2 b3]]]] := a2 _ _ hin.
have ej : j' = j.
  apply: (proj1 (List.NoDup_nth_error addrs) nd); last by rewrite hj b1.
  by apply/List.nth_error_Some; rewrite b1.
rewrite ej in b2.
have hs := h3 _ (List.nth_error_In _ _ b2).
rewrite /outsider_decrypt /outsider_secret -/(randomReader0 absorb) E b2.
case: own hs b2 b3 => [|s own] // _ b2 b3.
have e0 : poly_at (s :: own) 0 = s by exact: poly_at_0.
rewrite e0 in b3.
move: henc; rewrite /EncryptBytes b3; case: Nat.eqb_spec => // hiv [<-].
pose c0 := Encrypt (s *: gen1 S : sG1 S) id m r.1 r.2.
rewrite -[TibeCodec.CipherToBuffer _ _]/(TibeCodec.CipherToBuffer cd (c_Gr c0, c_Mac c0, c_Encrypted c0)).
have [|hc _] := @P11_TibeCodec.C35_cipher _ _ cd claws (c_Gr c0) (c_Mac c0) (c_Encrypted c0); first exact: mac_len.
rewrite hc.
have -> : Cipher (c_Gr c0) (c_Mac c0) (c_Encrypted c0) = c0 by [].
by rewrite /c0 Decrypt_Encrypt.
Qed.
End outsider.

(** An instance: a counter as reader; two processes that set up systems of different hosts. *)
Example C86_example (F : fieldType) : 
  let Random := (fun k : nat => (k%:R : F, k.+1)) in
  process_keys (fun _ => 7%N) Random [:: CallDKG [:: "x"]%string 0; CallSystem [:: "a"; "b"]%string 1] =
  [:: ([:: 7%:R], [::]); ([:: 8%:R; 9%:R], [:: [:: 10%:R; 11%:R]; [:: 12%:R; 13%:R]])] /\
  process_keys (fun _ => 7%N) Random [:: CallDKG [:: "x"]%string 0; CallSystem [:: "a"; "b"]%string 1] =
  process_keys (fun _ => 7%N) Random [:: CallDKG [:: "y"]%string 0; CallSystem [:: "u"; "v"]%string 1].
Proof. by split. Qed.
Print Assumptions C86_fresh_draws.
Print Assumptions C86_sizes.
Print Assumptions C86_same_keys.
Print Assumptions C86_outsider_decrypts.
