(** CFB decryption inverts CFB encryption for every block function. *)
From Verif.Base Require Import Base.
From Verif.Model Require Import Cfb.

Lemma lxor_byte_lt a b : (a < 256)%N → (b < 256)%N → (N.lxor a b < 256)%N.
Proof.
  intros Ha Hb. change 256%N with (2 ^ 8)%N in *.
  destruct (decide (N.lxor a b = 0)%N) as [->|Hn]; [by vm_compute|].
  assert (∀ x, (x < 2 ^ 8)%N → (N.log2 x < 8)%N) as Hl.
  { intros x Hx. destruct (decide (x = 0)%N) as [->|]; [by vm_compute|]. apply N.log2_lt_pow2; [lia|done]. }
  apply N.log2_lt_pow2; [lia|]. pose proof (N.log2_lxor a b). pose proof (Hl a Ha). pose proof (Hl b Hb). lia.
Qed.

Lemma bxor_invol a b : bxor (bxor a b) b = a.
Proof.
  apply b2N_inj. unfold bxor. rewrite !b2N_N2b.
  pose proof (b2N_lt a). pose proof (b2N_lt b).
  rewrite (N.mod_small (N.lxor (b2N a) (b2N b))) by by apply lxor_byte_lt.
  rewrite N.lxor_assoc, N.lxor_nilpotent, N.lxor_0_r. by apply N.mod_small.
Qed.

Lemma xor_bytes_invol a k : length a ≤ length k → xor_bytes (xor_bytes a k) k = a.
Proof.
  revert k. induction a as [|x a IH]; intros [|y k] Hl; simpl in *; try done; [lia|].
  rewrite bxor_invol. f_equal. apply IH. lia.
Qed.
Lemma xor_bytes_length a k : length a ≤ length k → length (xor_bytes a k) = length a.
Proof. intros. unfold xor_bytes. rewrite zip_with_length. lia. Qed.

Section cfb.
  Context (E : bytes → bytes) (HE : ∀ b, length (E b) = blockSize).

  Lemma cfb_encrypt_loop_length fuel prev p :
    length p ≤ fuel → length (cfb_encrypt_loop E fuel prev p) = length p.
  Proof using HE.
    revert prev p. induction fuel as [|fuel IH]; intros prev p Hf; simpl; [lia|].
    rewrite app_length, xor_bytes_length, IH.
    - rewrite take_length, drop_length. lia.
    - rewrite drop_length. unfold blockSize. destruct p; simpl in *; lia.
    - rewrite HE, take_length. lia.
  Qed.

  Lemma cfb_decrypt_encrypt_loop fuel fuel' prev p :
    length p ≤ fuel → length p ≤ fuel' →
    cfb_decrypt_loop E fuel' prev (cfb_encrypt_loop E fuel prev p) = p.
  Proof using HE.
    revert fuel' prev p. induction fuel as [|fuel IH]; intros [|fuel'] prev p Hf Hf'.
    - destruct p; [done|simpl in *; lia].
    - destruct p; [|simpl in *; lia]. cbn [cfb_encrypt_loop].
      clear. cbn [cfb_decrypt_loop]. rewrite take_nil, drop_nil. cbn [xor_bytes zip_with app].
      generalize (@nil byte) at 1. induction fuel' as [|k IH]; intros q; [done|].
      cbn [cfb_decrypt_loop]. rewrite take_nil, drop_nil. apply IH.
    - destruct p; [done|simpl in *; lia].
    - cbn [cfb_encrypt_loop cfb_decrypt_loop]. set (c := xor_bytes (take blockSize p) (E prev)).
      assert (length c = min blockSize (length p)) as Hc.
      { unfold c. rewrite xor_bytes_length; rewrite take_length; [done|]. rewrite HE. lia. }
      assert (length (drop blockSize p) ≤ fuel ∧ length (drop blockSize p) ≤ fuel') as [Hd1 Hd2].
      { rewrite drop_length. unfold blockSize. destruct p; simpl in *; lia. }
      destruct (decide (blockSize ≤ length p)) as [Hb|Hb].
      + rewrite take_app_alt by lia. rewrite drop_app_alt by lia.
        rewrite IH by done. unfold c. rewrite xor_bytes_invol.
        * by rewrite take_drop.
        * rewrite HE, take_length. lia.
      + assert (drop blockSize p = []) as Hdn by (apply drop_ge; lia).
        rewrite Hdn in *.
        assert (cfb_encrypt_loop E fuel c [] = []) as ->.
        { apply length_zero_iff_nil. rewrite cfb_encrypt_loop_length; simpl; lia. }
        rewrite app_nil_r. rewrite take_ge by lia. rewrite (drop_ge c) by lia.
        assert (cfb_decrypt_loop E fuel' c [] = []) as ->.
        { clear. generalize c. induction fuel' as [|k IH]; intros q; [done|].
          cbn [cfb_decrypt_loop]. rewrite take_nil, drop_nil. apply IH. }
        rewrite app_nil_r. unfold c. rewrite xor_bytes_invol; [by rewrite take_ge by lia|].
        rewrite HE, take_length. lia.
  Qed.

  Lemma cfb_decrypt_encrypt iv p : cfb_decrypt E iv (cfb_encrypt E iv p) = p.
  Proof using HE.
    unfold cfb_decrypt, cfb_encrypt. apply cfb_decrypt_encrypt_loop; [done|].
    by rewrite cfb_encrypt_loop_length.
  Qed.
  Lemma cfb_encrypt_length iv p : length (cfb_encrypt E iv p) = length p.
  Proof using HE. unfold cfb_encrypt. by rewrite cfb_encrypt_loop_length. Qed.
End cfb.

Section aes.
  Context (aes : bytes → bytes → bytes) (Haes : ∀ k b, length (aes k b) = blockSize).

  Lemma aesDecrypt_aesEncrypt k p iv :
    length iv = blockSize → aesDecrypt aes k (aesEncrypt aes k p iv) = (Some p, iv ++ p).
  Proof using Haes.
    intros Hiv. unfold aesDecrypt, aesEncrypt. rewrite decide_False by (rewrite app_length; lia).
    rewrite take_app_alt, drop_app_alt by done.
    by rewrite cfb_decrypt_encrypt by apply Haes.
  Qed.
End aes.

Lemma bytes_eqb_eq a b : bytes_eqb a b = true ↔ a = b.
Proof. apply bool_decide_eq_true. Qed.
Lemma bytes_eqb_refl a : bytes_eqb a a = true.
Proof. by apply bytes_eqb_eq. Qed.
Lemma cfb_decrypt_loop_length E (HE : ∀ b, length (E b) = blockSize) fuel prev p :
  length p ≤ fuel → length (cfb_decrypt_loop E fuel prev p) = length p.
Proof.
  revert prev p. induction fuel as [|fuel IH]; intros prev p Hf; simpl; [lia|].
  rewrite app_length, xor_bytes_length, IH.
  - rewrite take_length, drop_length. lia.
  - rewrite drop_length. unfold blockSize. destruct p; simpl in *; lia.
  - rewrite HE, take_length. lia.
Qed.
Lemma cfb_decrypt_length E (HE : ∀ b, length (E b) = blockSize) iv p : length (cfb_decrypt E iv p) = length p.
Proof. unfold cfb_decrypt. by rewrite cfb_decrypt_loop_length. Qed.
