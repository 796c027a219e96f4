(** * CBC block by block (C103 - C105) *)
From Verif Require Import Base CbcModel CbcSpec CbcProofs CbcBlocks Toy.
Local Open Scope nat_scope.

(** ** C103 *)
(** Every plaintext block depends on one ciphertext block and the block chained into it, and on nothing else. *)
Theorem cbc_decrypt_blocks : forall D c post out cap iv, block_function D -> bytes c -> block16 iv -> length c mod 16 = 0 ->
  (N.of_nat (length c) <= int_max)%N -> length c <= cap -> length out = cap ->
  exists r, cbc128_decrypt (lift D) (c ++ post) (length c) out cap iv = Some r /\ cr_ret r = true /\
    forall k, 16 * S k <= length c -> blk16 (cr_out r) k = xorl (D (blk16 c k)) (chained iv c k).
Proof. exact cbc_decrypt_blocks_lemma. Qed.
Print Assumptions cbc_decrypt_blocks.
(** One changed ciphertext block: decryption still succeeds, the plaintext block at its place changes, the next plaintext
    block changes in exactly the changed bits, all others are the same. *)
Theorem cbc_decrypt_change_block : forall D E c c' post out cap iv i, block_cipher D E -> bytes c -> bytes c' -> block16 iv -> length c mod 16 = 0 ->
  length c' = length c -> (forall k, 16 * S k <= length c -> k <> i -> blk16 c' k = blk16 c k) ->
  (N.of_nat (length c) <= int_max)%N -> length c <= cap -> length out = cap -> 16 * S i <= length c ->
  exists r r', cbc128_decrypt (lift D) (c ++ post) (length c) out cap iv = Some r /\ cr_ret r = true /\
    cbc128_decrypt (lift D) (c' ++ post) (length c') out cap iv = Some r' /\ cr_ret r' = true /\
    (forall k, 16 * S k <= length c -> k <> i -> k <> S i -> blk16 (cr_out r') k = blk16 (cr_out r) k) /\
    (16 * S (S i) <= length c -> xorl (blk16 (cr_out r') (S i)) (blk16 (cr_out r) (S i)) = xorl (blk16 c' i) (blk16 c i)) /\
    (blk16 (cr_out r') i = blk16 (cr_out r) i <-> blk16 c' i = blk16 c i).
Proof. exact cbc_change_block_lemma. Qed.
Print Assumptions cbc_decrypt_change_block.
(** Another IV: the first block changes in exactly the changed bits, the rest is the same. *)
Theorem cbc_decrypt_change_iv : forall D c post out cap iv iv', block_function D -> bytes c -> block16 iv -> block16 iv' -> length c mod 16 = 0 -> c <> [] ->
  (N.of_nat (length c) <= int_max)%N -> length c <= cap -> length out = cap ->
  exists r r', cbc128_decrypt (lift D) (c ++ post) (length c) out cap iv = Some r /\ cr_ret r = true /\
    cbc128_decrypt (lift D) (c ++ post) (length c) out cap iv' = Some r' /\ cr_ret r' = true /\
    firstn 16 (cr_out r') = xorl (firstn 16 (cr_out r)) (xorl iv iv') /\ skipn 16 (cr_out r') = skipn 16 (cr_out r).
Proof. exact cbc_change_iv_lemma. Qed.
Print Assumptions cbc_decrypt_change_iv.
(** Decryption can start at any block, with the ciphertext block before it as IV. *)
Theorem cbc_decrypt_suffix : forall D c post out cap out' cap' iv k, block_function D -> bytes c -> block16 iv -> length c mod 16 = 0 -> 16 * k <= length c ->
  (N.of_nat (length c) <= int_max)%N -> length c <= cap -> length out = cap -> length c - 16 * k <= cap' -> length out' = cap' ->
  exists r r', cbc128_decrypt (lift D) (c ++ post) (length c) out cap iv = Some r /\ cr_ret r = true /\
    cbc128_decrypt (lift D) (skipn (16 * k) c ++ post) (length c - 16 * k) out' cap' (chained iv c k) = Some r' /\ cr_ret r' = true /\
    firstn (length c - 16 * k) (cr_out r') = skipn (16 * k) (firstn (length c) (cr_out r)).
Proof. exact cbc_decrypt_suffix_lemma. Qed.
Print Assumptions cbc_decrypt_suffix.
(** False of the code: a ciphertext that was tampered with is rejected.  Whatever the message, someone who knows its first
    block makes the receiver accept any other first block, by changing the IV only. *)
Theorem cbc_tamper_refuted : forall E D m out1 cap1 out2 cap2 iv want, block_cipher E D -> bytes m -> m <> [] -> block16 iv -> block16 want ->
  (N.of_nat (length (lib_padded m)) <= int_max)%N -> length (lib_padded m) <= cap1 -> length out1 = cap1 -> length (lib_padded m) <= cap2 -> length out2 = cap2 ->
  exists r d, cbc128_encrypt false (lift E) m out1 cap1 iv = Some r /\ cr_ret r = true /\
    cbc128_decrypt (lift D) (firstn (length (lib_padded m)) (cr_out r)) (length (lib_padded m)) out2 cap2
      (xorl iv (xorl (blk16 (lib_padded m) 0) want)) = Some d /\ cr_ret d = true /\
    firstn (length (lib_padded m)) (cr_out d) = want ++ skipn 16 (lib_padded m).
Proof. exact cbc_tamper_lemma. Qed.
Print Assumptions cbc_tamper_refuted.
Example cbc_tamper_instance : exists r d, cbc128_encrypt false (lift toyE) msg_ok (repeat 9%N 32) 32 toy_iv = Some r /\
  cbc128_decrypt (lift toyD) (cr_out r) 32 (repeat 9%N 32) 32 (xorl toy_iv (xorl (firstn 16 msg_ok) (repeat 77%N 16))) = Some d /\
  firstn 20 (cr_out d) = repeat 77%N 16 ++ skipn 16 msg_ok /\ cr_ret d = true.
Proof. eexists; eexists. split; [vm_compute; reflexivity|]. split; [vm_compute; reflexivity|]. split; reflexivity. Qed.
Example cbc_change_block_instance : exists r r', cbc128_decrypt (lift toyD) (repeat 3%N 64) 64 (repeat 0%N 64) 64 toy_iv = Some r /\
  cbc128_decrypt (lift toyD) (repeat 3%N 16 ++ repeat 5%N 16 ++ repeat 3%N 32) 64 (repeat 0%N 64) 64 toy_iv = Some r' /\
  map (fun k => if list_eq_dec N.eq_dec (blk16 (cr_out r) k) (blk16 (cr_out r') k) then 1 else 0) [0; 1; 2; 3] = [1; 0; 0; 1] /\
  xorl (blk16 (cr_out r) 2) (blk16 (cr_out r') 2) = repeat 6%N 16.
Proof. eexists; eexists. split; [vm_compute; reflexivity|]. split; [vm_compute; reflexivity|]. split; vm_compute; reflexivity. Qed.

(** ** C104 *)
(** Every ciphertext block is the cipher of one block of the padded message xored with what is chained into it. *)
Theorem cbc_encrypt_blocks : forall E m out cap iv, block_function E -> bytes m -> block16 iv ->
  (N.of_nat (length (lib_padded m)) <= int_max)%N -> length (lib_padded m) <= cap -> length out = cap ->
  exists r, cbc128_encrypt false (lift E) m out cap iv = Some r /\ cr_ret r = true /\
    forall k, 16 * S k <= length (lib_padded m) ->
      block16 (blk16 (cr_out r) k) /\ blk16 (cr_out r) k = E (xorl (blk16 (lib_padded m) k) (chained iv (cr_out r) k)).
Proof. exact cbc_encrypt_blocks_lemma. Qed.
Print Assumptions cbc_encrypt_blocks.
(** Two ciphertext blocks, of one message or of two under any IVs, are equal exactly when the plaintext blocks differ in
    the bits in which the blocks chained into them differ: equal ciphertext blocks give away the difference of two plaintext
    blocks. *)
Theorem cbc_equal_blocks_iff : forall E D m1 m2 out1 out2 cap1 cap2 iv1 iv2, block_cipher E D -> bytes m1 -> bytes m2 -> block16 iv1 -> block16 iv2 ->
  (N.of_nat (length (lib_padded m1)) <= int_max)%N -> length (lib_padded m1) <= cap1 -> length out1 = cap1 ->
  (N.of_nat (length (lib_padded m2)) <= int_max)%N -> length (lib_padded m2) <= cap2 -> length out2 = cap2 ->
  exists r1 r2, cbc128_encrypt false (lift E) m1 out1 cap1 iv1 = Some r1 /\ cr_ret r1 = true /\
    cbc128_encrypt false (lift E) m2 out2 cap2 iv2 = Some r2 /\ cr_ret r2 = true /\
    forall i j, 16 * S i <= length (lib_padded m1) -> 16 * S j <= length (lib_padded m2) ->
      (blk16 (cr_out r1) i = blk16 (cr_out r2) j <->
       xorl (blk16 (lib_padded m1) i) (blk16 (lib_padded m2) j) = xorl (chained iv1 (cr_out r1) i) (chained iv2 (cr_out r2) j)).
Proof. exact cbc_equal_blocks_lemma. Qed.
Print Assumptions cbc_equal_blocks_iff.
(** Under one IV two ciphertexts have exactly as many leading blocks in common as the padded messages. *)
Theorem cbc_common_prefix_iff : forall E D m1 m2 out1 out2 cap1 cap2 iv, block_cipher E D -> bytes m1 -> bytes m2 -> block16 iv ->
  (N.of_nat (length (lib_padded m1)) <= int_max)%N -> length (lib_padded m1) <= cap1 -> length out1 = cap1 ->
  (N.of_nat (length (lib_padded m2)) <= int_max)%N -> length (lib_padded m2) <= cap2 -> length out2 = cap2 ->
  exists r1 r2, cbc128_encrypt false (lift E) m1 out1 cap1 iv = Some r1 /\ cr_ret r1 = true /\
    cbc128_encrypt false (lift E) m2 out2 cap2 iv = Some r2 /\ cr_ret r2 = true /\
    forall k, 16 * k <= length (lib_padded m1) -> 16 * k <= length (lib_padded m2) ->
      (firstn (16 * k) (cr_out r1) = firstn (16 * k) (cr_out r2) <-> firstn (16 * k) (lib_padded m1) = firstn (16 * k) (lib_padded m2)).
Proof. exact cbc_common_prefix_lemma. Qed.
Print Assumptions cbc_common_prefix_iff.
Example cbc_common_prefix_instance : exists r1 r2,
  cbc128_encrypt false (lift toyE) (repeat 1%N 32 ++ [2]%N) (repeat 9%N 48) 48 toy_iv = Some r1 /\
  cbc128_encrypt false (lift toyE) (repeat 1%N 31 ++ [3]%N) (repeat 9%N 48) 48 toy_iv = Some r2 /\
  firstn 16 (cr_out r1) = firstn 16 (cr_out r2) /\ firstn 32 (cr_out r1) <> firstn 32 (cr_out r2).
Proof. eexists; eexists. split; [vm_compute; reflexivity|]. split; [vm_compute; reflexivity|]. split; [reflexivity|discriminate]. Qed.
Example cbc_equal_blocks_instance : exists r, cbc128_encrypt false (lift (fun b => b)) (repeat 1%N 16 ++ repeat 0%N 16) (repeat 9%N 32) 32 toy_iv = Some r /\
  blk16 (cr_out r) 0 = blk16 (cr_out r) 1 /\ xorl (repeat 1%N 16) (repeat 0%N 16) = xorl toy_iv (blk16 (cr_out r) 0).
Proof. eexists. split; [vm_compute; reflexivity|]. split; reflexivity. Qed.

(** ** C105 *)
(** The reported length depends on the number of bytes and the last plaintext byte only. *)
Theorem cbc_reported_length_value : forall D c post out cap iv, block_function D -> bytes c -> block16 iv -> length c mod 16 = 0 -> c <> [] ->
  (N.of_nat (length c) <= int_max)%N -> length c <= cap -> length out = cap ->
  exists r, wrapper_cbc_decrypt (lift D) (c ++ post) (length c) out cap iv = Some r /\ cr_ret r = true /\
    cr_use r = Some (reported (length c) (get (cr_out r) (length c - 1))).
Proof. exact cbc_reported_lemma. Qed.
Print Assumptions cbc_reported_length_value.
(** False of the code: telling a sender the reported length reveals nothing about other messages.  Of any ciphertext, take
    any one block as a message of its own and let the last byte of its IV run through all values: the one value for which 15
    bytes are reported gives the last plaintext byte of that block of the original message. *)
Theorem cbc_length_reveals_refuted : forall D c post out cap iv k iv' out' cap', block_function D -> bytes c -> block16 iv -> length c mod 16 = 0 ->
  (N.of_nat (length c) <= int_max)%N -> length c <= cap -> length out = cap -> 16 * S k <= length c ->
  bytes iv' -> length iv' = 15 -> 16 <= cap' -> length out' = cap' ->
  exists r, cbc128_decrypt (lift D) (c ++ post) (length c) out cap iv = Some r /\ cr_ret r = true /\
    forall v, byte v -> exists q, wrapper_cbc_decrypt (lift D) (blk16 c k) 16 out' cap' (iv' ++ [v]) = Some q /\ cr_ret q = true /\
      (cr_use q = Some 15%N <-> get (cr_out r) (16 * k + 15) = N.lxor (N.lxor v 1) (get (chained iv c k) 15)).
Proof. exact cbc_oracle_lemma. Qed.
Print Assumptions cbc_length_reveals_refuted.
Example cbc_length_instance : exists r, cbc128_decrypt (lift toyD) (toyE (map N.of_nat (seq 7 16))) 16 (repeat 0%N 16) 16 (repeat 0%N 16) = Some r /\
  get (cr_out r) 15 = 22%N /\
  map (fun v => match wrapper_cbc_decrypt (lift toyD) (toyE (map N.of_nat (seq 7 16))) 16 (repeat 0%N 16) 16 (repeat 0%N 15 ++ [v]) with
                | Some q => cr_use q | None => None end) [20; 21; 22; 23; 24]%N = [Some 14; Some 13; Some 16; Some 15; Some 2]%N.
Proof. eexists. split; [vm_compute; reflexivity|]. split; reflexivity. Qed.
