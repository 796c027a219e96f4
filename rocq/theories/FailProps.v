(** * What the modes do when the caller's block function fails (C88) *)
From Verif Require Import Base CbcModel CbcSpec GcmModel GcmSpec FileModel Toy FailSpec FailProofs.
Local Open Scope nat_scope.

(** ** C88 *)
(** CBC encryption: the return value is 1 exactly when no call failed; before the failure the output is that of
    SP 800-38A; bytes after the failing block are untouched.  *use_olen is the full length in both cases. *)
Theorem cbc_encrypt_failure : forall blk m out cap iv, partial_block blk -> bytes m -> block16 iv ->
  (N.of_nat (length (lib_padded m)) <= int_max)%N -> length (lib_padded m) <= cap -> length out = cap ->
  let '(cs, f) := cbc_enc_until blk iv (chunks 16 (lib_padded m)) in
  let written := concat cs ++ match f with Some x => x | None => [] end in
  cbc128_encrypt false blk m out cap iv =
  Some {| cr_ret := match f with Some _ => false | None => true end;
          cr_out := written ++ skipn (length written) out;
          cr_use := Some (N.of_nat (length (lib_padded m))); cr_iv := iv |}.
Proof. exact cbc_encrypt_failure_lemma. Qed.
Print Assumptions cbc_encrypt_failure.
(** False of the code: a failed encryption leaves no plaintext in the output.  The buffer holds the plaintext block xored
    with the preceding ciphertext block (or IV), so whoever sees the buffer and the IV reads the block. *)
Theorem cbc_failure_hides_plaintext_refuted : forall blk m out cap iv r, partial_block blk -> bytes m -> block16 iv ->
  (N.of_nat (length (lib_padded m)) <= int_max)%N -> length (lib_padded m) <= cap -> length out = cap ->
  cbc128_encrypt false blk m out cap iv = Some r -> cr_ret r = false ->
  exists k, k < length (chunks 16 (lib_padded m)) /\
    let previous := if k =? 0 then iv else firstn 16 (skipn (16 * (k - 1)) (cr_out r)) in
    xorl (firstn 16 (skipn (16 * k) (cr_out r))) previous = nth k (chunks 16 (lib_padded m)) [].
Proof. exact cbc_failure_reveals_lemma. Qed.
Print Assumptions cbc_failure_hides_plaintext_refuted.
(** CBC decryption, also of a last incomplete block: same return value and output between buffers and in place.  After a
    failure ivec differs: in place it is the last block deciphered, between buffers it is still the caller's unless all
    complete blocks were deciphered. *)
Theorem cbc_decrypt_failure : forall blk c post out cap iv, partial_block blk -> bytes (c ++ post) -> block16 iv ->
  (N.of_nat (length c) <= int_max)%N -> length c <= cap -> length out = cap -> 16 * nblk (length c) <= length (c ++ post) ->
  let '(ps, w, ok) := cbc_dec_until blk iv (chunks 16 (firstn (16 * nblk (length c)) (c ++ post))) in
  let written := firstn (length c) (concat ps) in
  cbc128_decrypt blk (c ++ post) (length c) out cap iv =
    Some {| cr_ret := ok; cr_out := written ++ skipn (length written) out; cr_use := None;
            cr_iv := if length ps <? length c / 16 then iv else w |} /\
  cbc128_decrypt_inplace blk (c ++ post) (length c) cap iv =
    Some {| cr_ret := ok; cr_out := written ++ skipn (length written) (c ++ post); cr_use := None; cr_iv := w |}.
Proof. exact cbc_decrypt_failure_lemma. Qed.
Print Assumptions cbc_decrypt_failure.
(** GCM: 1 exactly when no call failed.  After a failure the context is not as before: finish still returns a tag, and
    repeating the call with a working block function encrypts under the wrong counters and counts the data twice. *)
Theorem gcm_failure : forall E blk d c inp outlen, block_function E -> reachable (lift E) c -> bytes inp ->
  (N.of_nat (length inp) <= int_max)%N -> length inp <= outlen ->
  let '(os, ok) := gctr_until blk (inc32 (g_y c)) (chunks 16 inp) in
  exists c', gcm_crypt d blk c inp outlen = (ok, c', concat os) /\
    (ok = false -> forall taglen, taglen <= 16 ->
       (exists t, gcm_finish c' taglen = Some t) /\
       exists c'', gcm_crypt d (lift E) c' inp outlen = (true, c'', gctr E (inc32_n (length os + 2) (g_y c)) inp) /\
         g_len c'' = w64 (g_len c + 2 * N.of_nat (length inp))).
Proof. exact gcm_failure_lemma. Qed.
Print Assumptions gcm_failure.
(** False of the code: the file functions report a failing block function.  They return 1 and write zeros, for every
    file and context. *)
Theorem gcmfile_reports_failure_refuted : forall wr fs c inf outf junk data,
  fs inf = Some data -> inf <> outf -> inf <> tmp_path outf -> wr outf = true -> wr (tmp_path outf) = true ->
  (exists c1 fs1 tag, gcmfile_encrypt blk_down wr fs c inf outf junk = Some (true, c1, fs1) /\
     fs1 outf = Some (tag ++ (N_to_le 4 (N.of_nat (length data) mod 2 ^ 32) ++ junk) ++ repeat 0%N (length data))) /\
  (forall tag len, length tag = 16 -> length len = 8 ->
     (exists body, data = tag ++ len ++ body /\ (N.of_nat (length body) <= int_max)%N /\
        c_int (le_to_N (firstn 4 len)) = Z.of_nat (length body)) ->
     exists c1 fs1, gcmfile_decrypt blk_down wr fs c inf outf = Some (true, c1, fs1) /\
       fs1 outf = Some (repeat 0%N (length data - 24))).
Proof. exact gcmfile_down_lemma. Qed.
Print Assumptions gcmfile_reports_failure_refuted.

(** a block function that fails on some blocks: here, those starting with byte 1; it fails on the second block of the
    message and on the third counter block *)
Definition fail_blk : list N -> option (list N) := fun b => if (get b 0 =? 1)%N then None else Some (toyE b).
Definition fail_msg : list N := repeat 5%N 16 ++ xorl (1%N :: repeat 6%N 15) (toyE (xorl (repeat 5%N 16) toy_iv)) ++ repeat 9%N 10.
Example fail_blk_partial : partial_block fail_blk.
Proof. intros b c B. unfold fail_blk. destruct (get b 0 =? 1)%N; [discriminate|]. intros [= <-]. now apply toy_is_block_cipher. Qed.
Example cbc_failure_instance : exists r, cbc128_encrypt false fail_blk fail_msg (repeat 170%N 48) 48 toy_iv = Some r /\ cr_ret r = false /\
  cr_use r = Some 48%N /\ skipn 16 (cr_out r) = (1%N :: repeat 6%N 15) ++ repeat 170%N 16 /\ bytes fail_msg.
Proof.
  eexists. split; [vm_compute; reflexivity|]. split; [reflexivity|]. split; [reflexivity|]. split; [reflexivity|].
  unfold bytes, byte. vm_compute fail_msg. repeat constructor.
Qed.
(** 20 bytes of a 32-byte buffer, the incomplete block fails: all complete blocks are there and ivec is advanced *)
Example cbc_decrypt_failure_instance :
  cbc_dec_until fail_blk toy_iv (chunks 16 (repeat 2%N 16 ++ repeat 1%N 16)) = ([xorl (toyE (repeat 2%N 16)) toy_iv], repeat 2%N 16, false).
Proof. vm_compute. reflexivity. Qed.
Example gcm_failure_instance : exists os, gctr_until fail_blk (inc32 [0; 255; 255; 255; 255; 255; 255; 255; 255; 255; 255; 255; 0; 0; 0; 0]%N) (chunks 16 (repeat 3%N 40)) = (os, true) /\
  gctr_until fail_blk (inc32 (1%N :: repeat 0%N 15)) (chunks 16 (repeat 3%N 40)) = ([], false).
Proof. eexists. split; vm_compute; reflexivity. Qed.
