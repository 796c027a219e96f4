(** * Property theorems: padding and CBC (C01 - C07, C51) *)
From Verif Require Import Base CbcModel CbcSpec CbcProofs Toy.
Local Open Scope nat_scope.

(** ** C01 *)
(** Encrypt then decrypt (the *_cbc_encrypt / *_cbc_decrypt wrappers), any buffers large enough:
    both calls succeed, the message bytes come back, and the reported plaintext length is the
    message length exactly for [recoverable] messages. *)
Theorem cbc_roundtrip_partial : forall E D m iv out1 cap1 out2 cap2,
  block_cipher E D -> bytes m -> m <> [] -> block16 iv ->
  (N.of_nat (length (lib_padded m)) <= int_max)%N ->
  length out1 = cap1 -> length (lib_padded m) <= cap1 ->
  length out2 = cap2 -> length (lib_padded m) <= cap2 ->
  exists r d u,
    wrapper_cbc_encrypt false (lift E) m out1 cap1 iv = Some r /\ cr_ret r = true /\
    cr_use r = Some (N.of_nat (length (lib_padded m))) /\
    wrapper_cbc_decrypt (lift D) (firstn (length (lib_padded m)) (cr_out r))
        (length (lib_padded m)) out2 cap2 iv = Some d /\
    cr_ret d = true /\ firstn (length m) (cr_out d) = m /\ cr_use d = Some u /\
    (u = N.of_nat (length m) <-> recoverable m).
Proof. exact cbc_roundtrip_partial_lemma. Qed.
Print Assumptions cbc_roundtrip_partial.

Example cbc_roundtrip_instance :
  bytes msg_ok /\ msg_ok <> [] /\ block16 toy_iv /\ recoverable msg_ok /\
  exists r d, wrapper_cbc_encrypt false (lift toyE) msg_ok (repeat 9%N 40) 40 toy_iv = Some r /\
    wrapper_cbc_decrypt (lift toyD) (firstn 32 (cr_out r)) 32 (repeat 9%N 33) 33 toy_iv = Some d /\
    cr_use d = Some 20%N /\ firstn 20 (cr_out d) = msg_ok.
Proof.
  split; [repeat constructor|]. split; [discriminate|].
  split; [split; [reflexivity|apply bytes_N_to_be]|]. split; [left; vm_compute; discriminate|].
  eexists; eexists. split; [vm_compute; reflexivity|]. split; [vm_compute; reflexivity|].
  split; reflexivity.
Qed.

(** The full property is false: a 16-byte message ending in 7 comes back as 9 bytes. *)
Theorem cbc_roundtrip_refuted : exists E D m iv r d, block_cipher E D /\ bytes m /\ block16 iv /\ m <> [] /\
    wrapper_cbc_encrypt false (lift E) m (repeat 0%N 32) 32 iv = Some r /\ cr_ret r = true /\
    cr_use r = Some 16%N /\
    wrapper_cbc_decrypt (lift D) (firstn 16 (cr_out r)) 16 (repeat 0%N 32) 32 iv = Some d /\
    cr_ret d = true /\ cr_use d = Some 9%N /\ length m = 16.
Proof. exact cbc_roundtrip_refuted_lemma. Qed.
Print Assumptions cbc_roundtrip_refuted.

(** ** C02 *)
(** The padding functions: merging then separating gives the message back exactly for
    [recoverable] messages (non-empty). *)
Theorem padding_roundtrip_partial : forall m, m <> [] ->
  (N.of_nat (length (lib_padded m)) <= int_max)%N ->
  padding_merge m = Some (lib_padded m) /\
  (exists r, padding_separate (lib_padded m) = Some r /\ (r = m <-> recoverable m)) /\
  (exists u, separate_length (lib_padded m) (length (lib_padded m)) = Some u /\
             (u = N.of_nat (length m) <-> recoverable m)).
Proof. exact padding_roundtrip_partial_lemma. Qed.
Print Assumptions padding_roundtrip_partial.
(** it is PKCS#7 exactly when the message is not block-aligned *)
Theorem padding_is_pkcs7_iff : forall m, (N.of_nat (length (lib_padded m)) <= int_max)%N ->
  (padding_merge m = Some (pkcs7 m) <-> length m mod 16 <> 0).
Proof. exact padding_is_pkcs7_iff_lemma. Qed.
Print Assumptions padding_is_pkcs7_iff.
Example padding_instance : padding_separate (lib_padded msg_ok) = Some msg_ok
  /\ length (lib_padded msg_ok) = 32 /\ recoverable (repeat 200%N 16).
Proof. split; [reflexivity|]. split; [reflexivity|]. right; right; reflexivity. Qed.

(** The full property is false: two messages share their padded form. *)
Theorem padding_injective_refuted : exists m1 m2, m1 <> m2 /\ bytes m1 /\ bytes m2 /\
  padding_merge m1 = padding_merge m2 /\ padding_separate (lib_padded m2) <> Some m2.
Proof. exact padding_injective_refuted_lemma. Qed.
Print Assumptions padding_injective_refuted.
(** and the empty string makes the separate functions read before the buffer *)
Theorem padding_separate_empty_refuted : padding_merge [] = Some [] /\
  padding_separate [] = None /\ separate_length [] 0 = None.
Proof. exact padding_separate_empty_refuted_lemma. Qed.
Print Assumptions padding_separate_empty_refuted.

(** ** C03 *)
(** Success: SP 800-38A CBC of the padded message, exact length, bytes beyond it untouched, ivec
    unchanged ([false]: the allocator did not move the block; see C51). *)
Theorem cbc_encrypt_conforms : forall E m out cap iv,
  block_function E -> bytes m -> block16 iv ->
  (N.of_nat (length (lib_padded m)) <= int_max)%N ->
  length (lib_padded m) <= cap -> length out = cap ->
  cbc128_encrypt false (lift E) m out cap iv =
  Some {| cr_ret := true;
          cr_out := cbc_encrypt_bytes E iv (lib_padded m) ++ skipn (length (lib_padded m)) out;
          cr_use := Some (N.of_nat (length (lib_padded m)));
          cr_iv := iv |}.
Proof. exact cbc_encrypt_conforms_lemma. Qed.
Print Assumptions cbc_encrypt_conforms.
(** Rejection: nothing is written. *)
Theorem cbc_encrypt_rejects : forall moves E m out cap iv,
  (N.of_nat (length (lib_padded m)) <= int_max)%N -> cap < length (lib_padded m) ->
  cbc128_encrypt moves (lift E) m out cap iv =
  Some {| cr_ret := false; cr_out := out; cr_use := None; cr_iv := iv |}.
Proof. exact cbc_encrypt_rejects_lemma. Qed.
Print Assumptions cbc_encrypt_rejects.
Theorem cbc_encrypt_output_length : forall E m iv, block_function E -> bytes m -> block16 iv ->
  length (cbc_encrypt_bytes E iv (lib_padded m)) = length (lib_padded m) /\
  length (lib_padded m) mod 16 = 0 /\ length m <= length (lib_padded m) < length m + 16.
Proof. exact cbc_encrypt_output_length_lemma. Qed.
Print Assumptions cbc_encrypt_output_length.
Example cbc_encrypt_boundary :
  (exists r, cbc128_encrypt false (lift toyE) msg_ok (repeat 1%N 32) 32 toy_iv = Some r /\ cr_ret r = true) /\
  (exists r, cbc128_encrypt false (lift toyE) msg_ok (repeat 1%N 31) 31 toy_iv = Some r /\ cr_ret r = false
             /\ cr_out r = repeat 1%N 31).
Proof. split; eexists; (split; [vm_compute; reflexivity|]); auto. Qed.

(** ** C51: memory safety of CBC encryption must not depend on the allocator *)
(** False: whenever realloc moves the block (which C allows), every non-empty encryption reads
    freed memory. *)
Theorem cbc_encrypt_realloc_refuted : forall E m out cap iv, m <> [] ->
  (N.of_nat (length (lib_padded m)) <= int_max)%N -> length (lib_padded m) <= cap ->
  cbc128_encrypt true (lift E) m out cap iv = None.
Proof. exact cbc_encrypt_realloc_refuted_lemma. Qed.
Print Assumptions cbc_encrypt_realloc_refuted.

(** ** C04 *)
Theorem cbc_decrypt_inplace_eq : forall D c post out cap iv,
  block_function D -> bytes c -> block16 iv -> length c mod 16 = 0 ->
  (N.of_nat (length c) <= int_max)%N -> length c <= cap -> length out = cap ->
  exists r r',
    cbc128_decrypt (lift D) (c ++ post) (length c) out cap iv = Some r /\
    cbc128_decrypt_inplace (lift D) (c ++ post) (length c) cap iv = Some r' /\
    cr_ret r = true /\ cr_ret r' = true /\
    firstn (length c) (cr_out r') = firstn (length c) (cr_out r) /\
    firstn (length c) (cr_out r) = cbc_decrypt_bytes D iv c /\
    skipn (length c) (cr_out r') = post /\ skipn (length c) (cr_out r) = skipn (length c) out /\
    cr_iv r' = cr_iv r /\ cr_iv r = last_block iv c.
Proof. exact cbc_inplace_agrees. Qed.
Print Assumptions cbc_decrypt_inplace_eq.
Example cbc_inplace_instance :
  exists r r', cbc128_decrypt (lift toyD) (repeat 3%N 48) 48 (repeat 0%N 48) 48 toy_iv = Some r /\
    cbc128_decrypt_inplace (lift toyD) (repeat 3%N 48) 48 48 toy_iv = Some r' /\
    cr_out r = cr_out r' /\ cr_out r <> repeat 0%N 48.
Proof.
  eexists; eexists. split; [vm_compute; reflexivity|]. split; [vm_compute; reflexivity|].
  split; [reflexivity|discriminate].
Qed.

(** ** C05 *)
Theorem cbc_decrypt_pieces_eq : forall D ps iv, block_function D -> block16 iv ->
  Forall (fun p => bytes p /\ length p mod 16 = 0 /\ (N.of_nat (length p) <= int_max)%N) ps ->
  decrypt_pieces (lift D) ps iv = Some (cbc_decrypt_bytes D iv (concat ps), last_block iv (concat ps)).
Proof. exact decrypt_pieces_spec. Qed.
Print Assumptions cbc_decrypt_pieces_eq.
Example cbc_decrypt_pieces_instance :
  decrypt_pieces (lift toyD) [repeat 3%N 16; []; repeat 4%N 32] toy_iv
  = Some (cbc_decrypt_bytes toyD toy_iv (repeat 3%N 16 ++ repeat 4%N 32), repeat 4%N 16).
Proof. vm_compute. reflexivity. Qed.

(** ** C06 *)
(** Every call starts again from the caller's IV: ivec is never advanced. *)
Theorem cbc_encrypt_pieces_actual : forall E ps iv, block_function E -> block16 iv ->
  Forall (fun p => bytes p /\ length p mod 16 = 0 /\ (N.of_nat (length p) <= int_max)%N) ps ->
  encrypt_pieces (lift E) ps iv = Some (concat (map (cbc_encrypt_bytes E iv) ps), iv).
Proof. exact encrypt_pieces_spec. Qed.
Print Assumptions cbc_encrypt_pieces_actual.
Theorem cbc_encrypt_pieces_refuted : exists E D a b iv, block_cipher E D /\ block16 a /\ block16 b /\ block16 iv /\
  encrypt_pieces (lift E) [a; b] iv <> encrypt_pieces (lift E) [a ++ b] iv /\
  encrypt_pieces (lift E) [a ++ b] iv <> None.
Proof. exact cbc_encrypt_pieces_refuted_lemma. Qed.
Print Assumptions cbc_encrypt_pieces_refuted.

(** ** C07 *)
(** With an input buffer [inp] and 0 <= inlen <= its size, every access is in bounds exactly when
    inlen is block-aligned or the buffer happens to extend to the next multiple of 16. *)
Theorem cbc_decrypt_bounds_partial : forall D inp inlen out cap iv,
  block_function D -> bytes inp -> block16 iv -> (N.of_nat inlen <= int_max)%N ->
  inlen <= length inp -> inlen <= cap -> length out = cap ->
  (cbc128_decrypt (lift D) inp inlen out cap iv <> None
   <-> inlen mod 16 = 0 \/ (inlen / 16 + 1) * 16 <= length inp).
Proof. exact cbc_decrypt_bounds'. Qed.
Print Assumptions cbc_decrypt_bounds_partial.
Theorem cbc_decrypt_bounds_refuted : exists inp, bytes inp /\ length inp = 20 /\
  cbc128_decrypt (lift toyD) inp 20 (repeat 0%N 32) 32 toy_iv = None /\
  wrapper_cbc_decrypt (lift toyD) [] 0 (repeat 0%N 32) 32 toy_iv = None.
Proof. exact cbc_decrypt_bounds_refuted_lemma. Qed.
Print Assumptions cbc_decrypt_bounds_refuted.
