(** Model of internal/crypto/tibe/aes.go: AES in CFB mode, for an arbitrary block function. *)
From Verif.Base Require Import Base.

(** The byte-wise exclusive or. *)
Definition bxor (a b : byte) : byte := N2b (N.lxor (b2N a) (b2N b)).
Definition xor_bytes (a b : bytes) : bytes := zip_with bxor a b.

(** aes.BlockSize *)
Definition blockSize : nat := 16.

Section cfb.
(** block.Encrypt: the forward direction of the block cipher under a fixed key. *)
Context (E : bytes → bytes).

(** cipher.NewCFBEncrypter(block, iv).XORKeyStream: the key stream of a block is the encryption of the
    previous ciphertext block.  [fuel] = the number of blocks left, at most the length. *)
Fixpoint cfb_encrypt_loop (fuel : nat) (prev p : bytes) : bytes :=
  match fuel with
  | O => []
  | S fuel =>
      let c := xor_bytes (take blockSize p) (E prev) in
      c ++ cfb_encrypt_loop fuel c (drop blockSize p)
  end.
Definition cfb_encrypt (iv p : bytes) : bytes := cfb_encrypt_loop (length p) iv p.

(** cipher.NewCFBDecrypter(block, iv).XORKeyStream *)
Fixpoint cfb_decrypt_loop (fuel : nat) (prev c : bytes) : bytes :=
  match fuel with
  | O => []
  | S fuel =>
      xor_bytes (take blockSize c) (E prev) ++ cfb_decrypt_loop fuel (take blockSize c) (drop blockSize c)
  end.
Definition cfb_decrypt (iv c : bytes) : bytes := cfb_decrypt_loop (length c) iv c.
End cfb.

Section aes.
(** aes.NewCipher(key): never fails for the 32-byte keys hashGt produces. *)
Context (aes : bytes → bytes → bytes).

(** aes.go:11-30 aesEncrypt; [iv] are the 16 random bytes. *)
Definition aesEncrypt (key plainText iv : bytes) : bytes := iv ++ cfb_encrypt (aes key) iv plainText.

(** aes.go:32-52 aesDecrypt.  The result is the decoded slice and the content of the argument's
    backing array afterwards: decryption overwrites it (line 49 decrypts in place). *)
Definition aesDecrypt (key cipherText : bytes) : option bytes * bytes :=
  if decide (length cipherText < blockSize) then (None, cipherText)
  else
    let iv := take blockSize cipherText in
    let decoded := cfb_decrypt (aes key) iv (drop blockSize cipherText) in
    (Some decoded, iv ++ decoded).
End aes.

(** hmac.Equal (vss_ibe.go:158): equality of byte strings. *)
Definition bytes_eqb (a b : bytes) : bool := bool_decide (a = b).
