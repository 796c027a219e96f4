(** * Properties of the AES functions (C48, C63) and of their modes (C64) *)
From Verif Require Import Base CbcModel CbcSpec CbcProofs GcmModel GcmSpec GcmProofs CipherExt AesSpec AesModel AesProofs FpeModel.
Local Open Scope nat_scope.

(** ** C48 *)
(** Encryption is AES-128 under the first sixteen bytes of the key. *)
Theorem aes_encrypt_conforms : forall buf keylen b, 16 <= length buf -> keylen <= length buf ->
  exists k, aes_init_key buf keylen = Ret k /\ wrapper_aes_encrypt k b = aes_encrypt (firstn 16 buf) b.
Proof. exact aes_encrypt_conforms_lemma. Qed.
Print Assumptions aes_encrypt_conforms.
(** the example of FIPS 197, appendix B *)
Definition fips_key := N_to_be 16 0x2b7e151628aed2a6abf7158809cf4f3c.
Definition fips_block := N_to_be 16 0x3243f6a8885a308d313198a2e0370734.
Example aes_fips_vector : exists k, aes_init_key fips_key 16 = Ret k /\ wrapper_aes_encrypt k fips_block = N_to_be 16 0x3925841d02dc09fbdc118597196a0b32.
Proof.
  destruct (aes_encrypt_conforms fips_key 16 fips_block (Nat.le_refl _) (Nat.le_refl _)) as (k & E1 & E2).
  exists k. split; [exact E1|]. rewrite E2. vm_compute. reflexivity.
Qed.
(** But the decryption function does not undo it: it is given the round keys of the encryption. *)
Theorem aes_roundtrip_refuted : exists key b k, block16 key /\ block16 b /\ aes_init_key key 16 = Ret k /\
  wrapper_aes_decrypt k (wrapper_aes_encrypt k b) <> b.
Proof. exact aes_roundtrip_refuted_lemma. Qed.
Print Assumptions aes_roundtrip_refuted.
(** What is missing is AES_set_decrypt_key: with its round keys the same function inverts the encryption, for every key and block. *)
Theorem aes_decrypt_needs_decrypt_key_partial : forall key b k, block16 key -> block16 b -> aes_init_key key 16 = Ret k ->
  wrapper_aes_decrypt (AES_set_decrypt_key key) (wrapper_aes_encrypt k b) = b.
Proof. exact aes_decrypt_needs_decrypt_key_lemma. Qed.
Print Assumptions aes_decrypt_needs_decrypt_key_partial.

(** ** C63 *)
(** A buffer of fewer than sixteen bytes is read past its end, whatever the length given. *)
Theorem aes_short_key_refuted : forall buf keylen, length buf < 16 -> aes_init_key buf keylen = Undef.
Proof. exact aes_short_key_refuted_lemma. Qed.
Print Assumptions aes_short_key_refuted.
(** The length given is without effect otherwise: the sixteen bytes found at the pointer are the key. *)
Theorem aes_keylen_ignored : forall buf keylen, 16 <= length buf -> aes_init_key buf keylen = Ret (AES_set_encrypt_key (firstn 16 buf)).
Proof. exact aes_keylen_ignored_lemma. Qed.
Print Assumptions aes_keylen_ignored.

(** ** C64 *)
Theorem aes_gcm_conforms : forall buf keylen k d iv aad p t, 16 <= length buf -> bytes buf -> aes_init_key buf keylen = Ret k ->
  bytes iv -> bytes aad -> bytes p ->
  (8 * N.of_nat (length iv) < 2 ^ 32)%N -> (8 * N.of_nat (length aad) < 2 ^ 64)%N ->
  (N.of_nat (length p) <= 2147483647)%N -> t <= 16 ->
  let E := aes_encrypt (firstn 16 buf) in
  let o := gctr E (inc32 (J0 E iv)) p in
  gcm_session d (lift (wrapper_aes_encrypt k)) iv aad [p] t = Some (o, gcm_tag E iv aad (match d with Enc => o | Dec => p end) t).
Proof. exact aes_gcm_conforms_lemma. Qed.
Print Assumptions aes_gcm_conforms.
Theorem aes_cbc_conforms : forall buf keylen k m out cap iv, 16 <= length buf -> bytes buf -> aes_init_key buf keylen = Ret k -> bytes m -> block16 iv ->
  (N.of_nat (length (lib_padded m)) <= int_max)%N -> length (lib_padded m) <= cap -> length out = cap ->
  wrapper_cbc_encrypt false (lift (wrapper_aes_encrypt k)) m out cap iv =
  Some {| cr_ret := true;
          cr_out := cbc_encrypt_bytes (aes_encrypt (firstn 16 buf)) iv (lib_padded m) ++ skipn (length (lib_padded m)) out;
          cr_use := Some (N.of_nat (length (lib_padded m)));
          cr_iv := iv |}.
Proof. exact aes_cbc_conforms_lemma. Qed.
Print Assumptions aes_cbc_conforms.
(** CBC decryption with the AES functions does not return the message. *)
Theorem aes_cbc_roundtrip_refuted : exists key m iv k r d, block16 key /\ bytes m /\ recoverable m /\ block16 iv /\ aes_init_key key 16 = Ret k /\
  wrapper_cbc_encrypt false (lift (wrapper_aes_encrypt k)) m (repeat 0%N 32) 32 iv = Some r /\ cr_ret r = true /\
  wrapper_cbc_decrypt (lift (wrapper_aes_decrypt k)) (firstn (length (lib_padded m)) (cr_out r)) (length (lib_padded m)) (repeat 0%N 32) 32 iv = Some d /\
  firstn (length m) (cr_out d) <> m.
Proof. exact aes_cbc_roundtrip_refuted_lemma. Qed.
Print Assumptions aes_cbc_roundtrip_refuted.
(** test case 2 of the GCM specification: one zero block under the zero key *)
Example aes_gcm_vector : forall k, aes_init_key (repeat 0%N 16) 16 = Ret k ->
  gcm_session Enc (lift (wrapper_aes_encrypt k)) (repeat 0%N 12) [] [repeat 0%N 16] 16 =
  Some (N_to_be 16 0x0388dace60b6a392f328c2b971b2fe78, N_to_be 16 0xab6e47d42cec13bdf53a67b21257bddf).
Proof.
  intros k K. rewrite (aes_gcm_conforms (repeat 0%N 16) 16 k Enc) by (try exact K; try apply bytes_repeat; try (repeat constructor); try reflexivity; cbn [length repeat]; lia).
  vm_compute. reflexivity.
Qed.
