(** * Properties of the SM4 block cipher (C21-C23) and of its CBC and GCM modes (C55) *)
From Verif Require Import Base Word32 CbcModel CbcSpec CbcProofs GcmModel GcmSpec GcmProofs Toy CipherExt Sm4Model Sm4Spec Sm4Proofs.
Local Open Scope nat_scope.

(** ** C21 *)
(** With a 16-byte key the encryption function is the SM4 of the standard, and so is decryption. *)
Theorem sm4_conforms : forall key b, block16 key -> block16 b ->
  let rk := sm4_init_key sm4_context_init key in
  sm4_encrypt rk b = std_encrypt key b /\ sm4_decrypt rk b = std_decrypt key b.
Proof. exact sm4_conforms_lemma. Qed.
Print Assumptions sm4_conforms.
(** The context the white-box generators ask for in decryption mode swaps the two directions, and
    the context may have been used before. *)
Theorem sm4_conforms_decmode : forall rk0 key b, length rk0 = 32 -> block16 key -> block16 b ->
  let rk := sm4_init_key_mode 0 rk0 key in
  sm4_encrypt rk b = std_decrypt key b /\ sm4_decrypt rk b = std_encrypt key b.
Proof. exact sm4_conforms_decmode_lemma. Qed.
Print Assumptions sm4_conforms_decmode.
(** the example of the standard *)
Definition gmt_key := N_to_be 16 0x0123456789abcdeffedcba9876543210.
Example sm4_standard_vector : block16 gmt_key /\
  sm4_encrypt (sm4_init_key sm4_context_init gmt_key) gmt_key = N_to_be 16 0x681edf34d206965e86b3e94f536e4246 /\
  std_encrypt gmt_key gmt_key = N_to_be 16 0x681edf34d206965e86b3e94f536e4246.
Proof.
  split; [split; [reflexivity|apply bytes_N_to_be]|]. split; [vm_compute; reflexivity|]. vm_compute. reflexivity.
Qed.

(** ** C22 *)
Theorem sm4_encrypt_decrypt : forall key b, bytes key -> block16 b ->
  let rk := sm4_init_key sm4_context_init key in
  sm4_decrypt rk (sm4_encrypt rk b) = b /\ sm4_encrypt rk (sm4_decrypt rk b) = b /\
  block16 (sm4_encrypt rk b) /\ block16 (sm4_decrypt rk b).
Proof. exact sm4_encrypt_decrypt_lemma. Qed.
Print Assumptions sm4_encrypt_decrypt.
(** even for a context whose round keys were never set by init_key *)
Theorem sm4_any_context_inverts : forall rk b, length rk = 32 -> block16 b ->
  sm4_decrypt rk (sm4_encrypt rk b) = b /\ sm4_encrypt rk (sm4_decrypt rk b) = b.
Proof. exact sm4_inverse. Qed.
Print Assumptions sm4_any_context_inverts.
Example sm4_inverse_instance : let rk := sm4_init_key sm4_context_init [1; 2; 3]%N in
  sm4_encrypt rk gmt_key <> gmt_key /\ sm4_decrypt rk (sm4_encrypt rk gmt_key) = gmt_key.
Proof. split; [vm_compute; discriminate|]. vm_compute. reflexivity. Qed.

(** ** C23 *)
(** [buf] is the memory the key pointer designates, [n] the keylen argument. *)
Theorem sm4_key_normalisation : forall rk buf n, length rk = 32 -> bytes buf -> Nat.min n 16 <= length buf ->
  length (normal_key (firstn n buf)) = 16 /\
  sm4_init_key_buf rk buf n = Some (sm4_init_key sm4_context_init (normal_key (firstn n buf))).
Proof. exact sm4_key_normalisation_lemma. Qed.
Print Assumptions sm4_key_normalisation.
(** Bytes beyond keylen, and beyond the sixteenth, have no influence; keylen larger than the buffer
    is an error only when fewer than 16 bytes are there. *)
Theorem sm4_key_reads : forall rk buf1 buf2 n, 
  firstn (Nat.min n 16) buf1 = firstn (Nat.min n 16) buf2 ->
  sm4_init_key_buf rk buf1 n = sm4_init_key_buf rk buf2 n.
Proof. exact sm4_key_reads_lemma. Qed.
Print Assumptions sm4_key_reads.
Theorem sm4_key_overread : forall rk buf n, length buf < Nat.min n 16 -> sm4_init_key_buf rk buf n = None.
Proof. exact sm4_key_overread_lemma. Qed.
Print Assumptions sm4_key_overread.
Example sm4_key_instance : sm4_init_key_buf (repeat 7%N 32) [1; 2; 3; 99; 98]%N 3 =
  Some (sm4_init_key sm4_context_init ([1; 2; 3] ++ repeat 13 13)%N).
Proof. vm_compute. reflexivity. Qed.

(** ** C55 *)
(** GCM over SM4: a session keyed with any byte string is SM4-GCM under the normalised key. *)
Theorem sm4_gcm_conforms : forall d key iv aad p t, bytes key -> bytes iv -> bytes aad -> bytes p ->
  (8 * N.of_nat (length iv) < 2 ^ 32)%N -> (8 * N.of_nat (length aad) < 2 ^ 64)%N ->
  (N.of_nat (length p) <= 2147483647)%N -> t <= 16 ->
  let E := std_encrypt (normal_key key) in
  let o := gctr E (inc32 (J0 E iv)) p in
  gcm_session d (lift (sm4_encrypt (sm4_init_key sm4_context_init key))) iv aad [p] t =
  Some (o, gcm_tag E iv aad (match d with Enc => o | Dec => p end) t).
Proof. exact sm4_gcm_conforms_lemma. Qed.
Print Assumptions sm4_gcm_conforms.
(** CBC over SM4: SP 800-38A CBC of the padded message under the normalised key; decryption of a
    recoverable message gives it back. *)
Theorem sm4_cbc_conforms : forall key m out cap iv, bytes key -> bytes m -> block16 iv ->
  (N.of_nat (length (lib_padded m)) <= int_max)%N -> length (lib_padded m) <= cap -> length out = cap ->
  wrapper_cbc_encrypt false (lift (sm4_encrypt (sm4_init_key sm4_context_init key))) m out cap iv =
  Some {| cr_ret := true;
          cr_out := cbc_encrypt_bytes (std_encrypt (normal_key key)) iv (lib_padded m)
                    ++ skipn (length (lib_padded m)) out;
          cr_use := Some (N.of_nat (length (lib_padded m)));
          cr_iv := iv |}.
Proof. exact sm4_cbc_conforms_lemma. Qed.
Print Assumptions sm4_cbc_conforms.
Theorem sm4_cbc_roundtrip : forall key m iv out1 cap1 out2 cap2, bytes key ->
  bytes m -> m <> [] -> recoverable m -> block16 iv -> (N.of_nat (length (lib_padded m)) <= int_max)%N ->
  length out1 = cap1 -> length (lib_padded m) <= cap1 -> length out2 = cap2 -> length (lib_padded m) <= cap2 ->
  let rk := sm4_init_key sm4_context_init key in
  exists r d,
    wrapper_cbc_encrypt false (lift (sm4_encrypt rk)) m out1 cap1 iv = Some r /\ cr_ret r = true /\
    wrapper_cbc_decrypt (lift (sm4_decrypt rk)) (firstn (length (lib_padded m)) (cr_out r))
      (length (lib_padded m)) out2 cap2 iv = Some d /\ cr_ret d = true /\
    cr_use d = Some (N.of_nat (length m)) /\ firstn (length m) (cr_out d) = m.
Proof. exact sm4_cbc_roundtrip_lemma. Qed.
Print Assumptions sm4_cbc_roundtrip.
(** and GCM sessions over any cut of the message, decrypted with the same cut *)
Theorem sm4_gcm_roundtrip : forall key iv aad ps cs t, bytes iv -> bytes aad -> small_pieces ps -> t <= 16 ->
  let blk := lift (sm4_encrypt (sm4_init_key sm4_context_init key)) in
  exists ct tag, gcm_session Enc blk iv aad ps t = Some (ct, tag) /\ length ct = length (concat ps) /\
  (map (@length N) cs = map (@length N) ps -> concat cs = ct ->
   gcm_session Dec blk iv aad cs t = Some (concat ps, tag)).
Proof. exact sm4_gcm_roundtrip_lemma. Qed.
Print Assumptions sm4_gcm_roundtrip.
(** SM4-GCM example of RFC 8998 appendix A.1 *)
Example sm4_gcm_rfc8998 :
  gcm_session Enc (lift (sm4_encrypt (sm4_init_key sm4_context_init gmt_key)))
    (N_to_be 12 0x00001234567800000000ABCD) (N_to_be 20 0xFEEDFACEDEADBEEFFEEDFACEDEADBEEFABADDAD2)
    [N_to_be 64 0xAAAAAAAAAAAAAAAABBBBBBBBBBBBBBBBCCCCCCCCCCCCCCCCDDDDDDDDDDDDDDDDEEEEEEEEEEEEEEEEFFFFFFFFFFFFFFFFEEEEEEEEEEEEEEEEAAAAAAAAAAAAAAAA] 16
  = Some (N_to_be 64 0x17F399F08C67D5EE19D0DC9969C4BB7D5FD46FD3756489069157B282BB200735D82710CA5C22F0CCFA7CBF93D496AC15A56834CBCF98C397B4024A2691233B8D,
          N_to_be 16 0x83DE3541E4C2B58177E065A9BF7B62EC).
Proof. vm_compute. reflexivity. Qed.
Example sm4_cbc_instance : exists r d,
  wrapper_cbc_encrypt false (lift (sm4_encrypt (sm4_init_key sm4_context_init gmt_key))) msg_ok (repeat 9%N 40) 40 toy_iv = Some r /\
  wrapper_cbc_decrypt (lift (sm4_decrypt (sm4_init_key sm4_context_init gmt_key))) (firstn 32 (cr_out r)) 32 (repeat 9%N 33) 33 toy_iv = Some d /\
  cr_use d = Some 20%N /\ firstn 20 (cr_out d) = msg_ok /\ recoverable msg_ok.
Proof.
  eexists; eexists. split; [vm_compute; reflexivity|]. split; [vm_compute; reflexivity|]. split; [reflexivity|].
  split; [reflexivity|]. left. vm_compute. discriminate.
Qed.
