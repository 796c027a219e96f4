(** * CBC on inputs longer than an int (C91) *)
From Verif Require Import Base CbcModel CbcSpec Toy CbcLong.
From Coq Require Import ZArith Lia.
Local Open Scope nat_scope.

(** ** C91 *)
(** False of the code: inputs of every length are processed whole.  The length is kept in an int: a length whose low 32 bits
    are below 2^31 counts as those bits only, and the rest of the input is ignored without notice. *)
Theorem cbc_decrypt_wraps_refuted : forall blk inp n out cap iv, n <= cap -> (N.of_nat (low32 n) <= int_max)%N ->
  cbc128_decrypt blk inp n out cap iv = cbc128_decrypt blk inp (low32 n) out cap iv /\
  cbc128_decrypt_inplace blk out n cap iv = cbc128_decrypt_inplace blk out (low32 n) cap iv.
Proof. exact cbc_decrypt_wraps_lemma. Qed.
Print Assumptions cbc_decrypt_wraps_refuted.
(** For the other lengths, among them all from 2^31 to 2^32 - 1, exactly one block is decrypted and 1 is returned. *)
Theorem cbc_decrypt_one_block_refuted : forall D inp n out cap iv, block_function D -> bytes inp -> n <= length inp -> n <= cap -> length out = cap -> block16 iv ->
  (int_max < N.of_nat (low32 n))%N ->
  cbc128_decrypt (lift D) inp n out cap iv =
    Some {| cr_ret := true; cr_out := xorl (D (firstn 16 inp)) iv ++ skipn 16 out; cr_use := None; cr_iv := firstn 16 inp |} /\
  (n <= length inp -> cbc128_decrypt_inplace (lift D) inp n (length inp) iv =
    Some {| cr_ret := true; cr_out := xorl (D (firstn 16 inp)) iv ++ skipn 16 inp; cr_use := None; cr_iv := firstn 16 inp |}).
Proof. exact cbc_decrypt_one_block_lemma. Qed.
Print Assumptions cbc_decrypt_one_block_refuted.
(** The functions of the ciphers then report a plaintext longer than the output buffer. *)
Theorem cbc_decrypt_reported_length_refuted : forall D inp n out iv, block_function D -> bytes inp -> n <= length inp -> n <= length out -> block16 iv ->
  (N.of_nat n < 2 ^ 64)%N -> (int_max + 16 < N.of_nat (low32 n))%N ->
  exists u, wrapper_cbc_decrypt (lift D) inp n out (length out) iv =
    Some {| cr_ret := true; cr_out := xorl (D (firstn 16 inp)) iv ++ skipn 16 out; cr_use := Some u; cr_iv := firstn 16 inp |} /\
    (N.of_nat (length out) < 2 ^ 63 -> N.of_nat (length out) < u)%N.
Proof. exact cbc_decrypt_long_lemma. Qed.
Print Assumptions cbc_decrypt_reported_length_refuted.
(** Encryption of such a message has undefined behaviour (the padded copy does not fit its allocation). *)
Theorem cbc_encrypt_long_refuted : forall mv blk m out cap iv, (int_max < N.of_nat (length (lib_padded m)))%N ->
  cbc128_encrypt mv blk m out cap iv = None.
Proof. exact cbc_encrypt_long_lemma. Qed.
Print Assumptions cbc_encrypt_long_refuted.
(** Altogether (C51): encryption of a message is undefined exactly when it is too long or when realloc moves the copy. *)
Theorem cbc_encrypt_defined_iff : forall mv E m out cap iv, block_function E -> bytes m -> block16 iv -> length out = cap ->
  cbc128_encrypt mv (lift E) m out cap iv = None <->
  ((int_max < N.of_nat (length (lib_padded m)))%N \/ (mv = true /\ m <> [] /\ length (lib_padded m) <= cap)).
Proof. exact cbc_encrypt_defined_lemma. Qed.
Print Assumptions cbc_encrypt_defined_iff.
Example cbc_encrypt_defined_case : cbc128_encrypt true (lift toyE) [1; 2]%N (repeat 0%N 16) 16 toy_iv = None /\
  cbc128_encrypt true (lift toyE) [1; 2]%N (repeat 0%N 15) 15 toy_iv <> None /\ cbc128_encrypt false (lift toyE) [1; 2]%N (repeat 0%N 16) 16 toy_iv <> None.
Proof. split; [reflexivity|]. split; vm_compute; discriminate. Qed.

(** a message of 2^31 + 16 bytes; one of 2^32 + 32 bytes counts as 32 bytes *)
Definition gib2 : nat := N.to_nat (2 ^ 31 + 16).
Example cbc_long_instance : low32 gib2 = gib2 /\ (int_max < N.of_nat (low32 gib2))%N /\
  (int_max + 16 < N.of_nat (low32 gib2))%N /\ gib2 <= length (repeat 7%N gib2) /\ bytes (repeat 7%N gib2) /\
  low32 (N.to_nat (2 ^ 32 + 32)) = 32 /\
  (int_max < N.of_nat (length (lib_padded (repeat 7%N gib2))))%N.
Proof.
  assert (E : low32 gib2 = gib2) by (unfold low32, gib2; rewrite N2Nat.id; f_equal).
  assert (L : N.of_nat gib2 = (2 ^ 31 + 16)%N) by (unfold gib2; apply N2Nat.id).
  split; [exact E|]. rewrite E, L. split; [reflexivity|]. split; [reflexivity|].
  split; [rewrite repeat_length; apply le_n|]. split; [apply bytes_repeat; reflexivity|].
  split; [unfold low32; rewrite N2Nat.id; vm_compute; reflexivity|].
  rewrite CbcProofs.length_lib_padded, repeat_length. clear E. revert L. generalize gib2. intros g L.
  pose proof (CbcProofs.merge_length_spec g). unfold int_max. lia.
Qed.
