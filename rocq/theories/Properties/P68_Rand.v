(** C127: random numbers (Model/Rand.v). *)
From Verif.Base Require Import Base.
From Verif.Model Require Import Rand.

Lemma le_dec_range bs : (le_dec bs < 256 ^ N.of_nat (length bs))%N.
Proof.
  rewrite <- (le_enc_dec bs) at 1. rewrite le_dec_enc. apply N.mod_lt. apply N.pow_nonzero. done.
Qed.
Lemma land_mod x : N.land x (N.shiftl 1 63 - 1) = (x mod 2 ^ 63)%N.
Proof. change (N.shiftl 1 63 - 1)%N with (N.ones 63). apply N.land_ones. Qed.

(** Every 64-bit number comes from exactly one answer of the random source; nothing else is returned. *)
Theorem C127_uint64 (v : N) (a : option bytes) :
  answers_read 8 a →
  (RandUint64 a = Returns v ↔ (v < 2 ^ 64)%N ∧ a = Some (le_enc 8 v)).
Proof.
  intros Ha. split.
  - destruct a as [bs|]; [|done]. intros [= <-]. simpl in Ha. pose proof (le_dec_range bs) as Hr. rewrite Ha in Hr.
    split; [exact Hr|]. rewrite <- Ha at 1. by rewrite le_enc_dec.
  - intros [Hv ->]. simpl. f_equal. change (le_dec (le_enc 8 v) = v). rewrite le_dec_enc. by apply N.mod_small.
Qed.

(** Every number below 2^63 comes from exactly two, and nothing else is returned: the number fits an int64. *)
Theorem C127_uint63 (v : N) (a : option bytes) :
  answers_read 8 a →
  (RandUint63 a = Returns v ↔ (v < 2 ^ 63)%N ∧ (a = Some (le_enc 8 v) ∨ a = Some (le_enc 8 (2 ^ 63 + v)))).
Proof.
  intros Ha. unfold RandUint63. split.
  - destruct (RandUint64 a) as [x|] eqn:E; [|done]. intros [= <-]. apply C127_uint64 in E as [Hx ->]; [|done]. rewrite land_mod.
    split; [by apply N.mod_lt|]. destruct (N.lt_ge_cases x (2 ^ 63)) as [Hlt|Hge].
    + left. by rewrite N.mod_small.
    + right. do 2 f_equal. rewrite (N.div_mod' x (2 ^ 63)) at 1. assert (x / 2 ^ 63 = 1)%N as ->; [|lia].
      apply N.le_antisymm; [|apply N.div_le_lower_bound; [done|lia]]. apply N.lt_succ_r, N.div_lt_upper_bound; [done|]. exact Hx.
  - intros [Hv Hor].
    assert (∃ x, (x < 2 ^ 64)%N ∧ a = Some (le_enc 8 x) ∧ (x mod 2 ^ 63 = v)%N) as (x & Hx & Hax & Hm).
    { destruct Hor as [->| ->].
      - exists v. split; [|split; [done|by apply N.mod_small]]. eapply N.lt_trans; [exact Hv|]. done.
      - exists (2 ^ 63 + v)%N. split; [|split; [done|]].
        + change (2 ^ 64)%N with (2 ^ 63 + 2 ^ 63)%N. lia.
        + rewrite N.add_comm. replace (v + 2 ^ 63)%N with (v + 1 * 2 ^ 63)%N by lia. rewrite N.mod_add by done. by apply N.mod_small. }
    assert (RandUint64 a = Returns x) as -> by (by apply C127_uint64). by rewrite land_mod, Hm.
Qed.
Theorem C127_two_answers (v : N) : (v < 2 ^ 63)%N → le_enc 8 v ≠ le_enc 8 (2 ^ 63 + v).
Proof.
  intros Hv Heq. assert (le_dec (le_enc 8 v) = le_dec (le_enc 8 (2 ^ 63 + v))) as E by by rewrite Heq.
  rewrite !le_dec_enc in E. change (256 ^ N.of_nat 8)%N with (2 ^ 63 + 2 ^ 63)%N in E. rewrite !N.mod_small in E; lia.
Qed.

(** The whole buffer is the source's answer, whatever it contained. *)
Theorem C127_bytes (buf bs : bytes) (a : option bytes) :
  answers_read (length buf) a → (RandBytes buf a = Returns bs ↔ a = Some bs).
Proof.
  intros Ha. destruct a as [x|]; [|done]. simpl in Ha. unfold RandBytes. rewrite take_ge by lia. split; intros [= ->]; done.
Qed.
(** When the source fails no number and no buffer is handed out. *)
Theorem C127_failure (buf : bytes) : RandUint64 None = ProcessEnds ∧ RandUint63 None = ProcessEnds ∧ RandBytes buf None = ProcessEnds.
Proof. done. Qed.

Example C127_example :
  answers_read 8 (Some (le_enc 8 (2 ^ 63 + 5))) ∧ RandUint64 (Some (le_enc 8 (2 ^ 63 + 5))) = Returns (2 ^ 63 + 5)%N ∧
  RandUint63 (Some (le_enc 8 (2 ^ 63 + 5))) = Returns 5%N ∧ RandUint63 (Some (le_enc 8 5)) = Returns 5%N.
Proof. by vm_compute. Qed.
