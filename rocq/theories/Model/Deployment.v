(** The key set-up, the message generator and the servers' decryption put together: what
    Model/Messages.v and Model/System.v take as parameters ([Encrypt], [mpks], [peel]) made from the
    configurations of Model/KeyConfig.v and the scheme of Model/Tibe.v. *)
From Coq Require Import ZArith List String.
From mathcomp Require Import all_ssreflect all_algebra.
From Verif.Base Require Base.
From Verif.Model Require Import Tibe KeyConfig.
From Verif.Model Require TibeCodec Cfb.
Set Implicit Arguments.
Unset Strict Implicit.
Unset Printing Implicit Defensive.

Section deployment.
Variables (S : setting) (cd : TibeCodec.element_codecs (sF S) (sG1 S)).

(** A decoded *tibe.MasterPublicKey; the random choices of one Encrypt: the scalar and the bytes the
    system's random source delivers for the IV. *)
Definition mpk : Type := sG1 S.
Definition enc_rand : Type := (sF S * bytes)%type.

(** messages.go:88-94: serverMasterPublicKey.Encrypt(id, msg) (vss_ibe.go:108-136) and cipher.ToBuffer.
    A random source that does not fill the IV makes aesEncrypt fail (aes.go:19-22). *)
Definition EncryptBytes (p : mpk) (id msg : bytes) (r : enc_rand) : Base.outcome Base.code bytes :=
  if Nat.eqb (List.length r.2) Cfb.blockSize then
    let c := Encrypt p id msg r.1 r.2 in
    Base.Ok (TibeCodec.CipherToBuffer cd (c_Gr c, c_Mac c, c_Encrypted c))
  else Base.Err Base.Unknown.

(** messages.go:107-124 NewMessageGenerator: the keys of server 0's configuration, in the order the map
    is visited; None: a key that does not decode (a panic). *)
Fixpoint decode_mpks (l : smap bytes) : option (smap mpk) :=
  match l with
  | [::] => Some [::]
  | (h, b) :: l => if TibeCodec.MpkSetBytes cd b is Some p then omap (cons (h, p)) (decode_mpks l) else None
  end.
Definition generator_keys (order : smap bytes -> smap bytes) (sc0 : server_config) : option (smap mpk) :=
  decode_mpks (order (sc_mpks sc0)).

(** server.go:141-144 and mixer.go:100-108: the round's decrypter on the bytes of a cipher.  None: the
    bytes are not a cipher, and ExtractCipher panics; Some None: Decrypt fails. *)
Definition DecryptBytes (nd : node S) (id c : bytes) : option (option bytes) :=
  match TibeCodec.CipherSetBytes cd c with
  | Base.Ok (g, m, e) => Some (Decrypt (MasterDecrypter nd id) (Cipher g m e)).1
  | _ => None
  end.

(** ExtractCipher and Decrypt (vss_ibe.go:152-163) with any decrypter at hand, such as one that
    ReconstructDecrypter returned.  The code has no caller that does so yet: recovery from a failed server
    (Mixers.UpdateMixes, mixer.go:285-291) panics with "implement me". *)
Definition DecryptWith (sk : sG2 S) (c : bytes) : option (option bytes) :=
  match TibeCodec.CipherSetBytes cd c with
  | Base.Ok (g, m, e) => Some (Decrypt sk (Cipher g m e)).1
  | _ => None
  end.
End deployment.
