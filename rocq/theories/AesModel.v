(** * Model of src/aes/aes.c

    The functions AES_set_encrypt_key, AES_encrypt and AES_decrypt belong to OpenSSL, which is not part of /repo.  They
    are represented by their documented behaviour: AES_set_encrypt_key writes the eleven round keys of FIPS 197 in the
    order in which the cipher uses them; AES_encrypt applies the cipher with the round keys in the order stored;
    AES_decrypt applies the equivalent inverse cipher of FIPS 197 5.3.5, also with the round keys in the order stored
    (AES_set_decrypt_key stores them in that order, transformed; the library never calls it). *)
From Verif Require Import Base AesSpec FpeModel.
Local Open Scope nat_scope.

(** AES_KEY: the round keys *)
Definition aes_key := list (list N).
Definition AES_set_encrypt_key (key : list N) : aes_key := map (aes_round_key key) (seq 0 11).
Definition AES_set_decrypt_key (key : list N) : aes_key := map (fun r => inv_round_key (aes_round_key key) (10 - r)) (seq 0 11).
Definition AES_encrypt (k : aes_key) (b : list N) : list N := cipher (fun r => nth r k []) b.
Definition AES_decrypt (k : aes_key) (b : list N) : list N := eq_inv_cipher (fun r => nth (10 - r) k []) b.

(** src/aes/aes.c:19-25 WBCRYPTO_aes_init_key on a buffer [buf] with the length argument [keylen]; the return value is
    always 1.  Undef: the buffer is read past its end, by memcpy (:22) or by AES_set_encrypt_key (:23), which is given
    the buffer itself and reads 16 bytes whatever [keylen]. *)
Definition aes_init_key (buf : list N) (keylen : nat) : outcome aes_key :=
  let keylen := if 16 <=? keylen then 16 else keylen in
  match read_at buf 0 keylen, read_at buf 0 16 with
  | Some _, Some key => Ret (AES_set_encrypt_key key)
  | _, _ => Undef
  end.
(** src/aes/aes.c:27-30 WBCRYPTO_aes_encrypt and :32-35 WBCRYPTO_aes_decrypt (both return 1) *)
Definition wrapper_aes_encrypt (k : aes_key) (b : list N) : list N := AES_encrypt k b.
Definition wrapper_aes_decrypt (k : aes_key) (b : list N) : list N := AES_decrypt k b.
