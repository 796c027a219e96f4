(** * GCM on inputs longer than an int (C52) *)
From Verif Require Import Base CbcModel CbcLong GcmModel WbaesModel WbgcmModel GcmLong.
Local Open Scope nat_scope.

(** Of an input whose length has low 32 bits below 2^31, that many bytes are processed and the rest is ignored ... *)
Theorem gcm_input_wraps_refuted : forall d blk c inp outlen, length inp <= outlen -> (N.of_nat (low32 (length inp)) <= int_max)%N ->
  gcm_crypt d blk c inp outlen = gcm_crypt d blk c (firstn (low32 (length inp)) inp) outlen.
Proof. exact gcm_wraps_lemma. Qed.
Print Assumptions gcm_input_wraps_refuted.
Theorem wbgcm_input_wraps_refuted : forall d k c inp outlen, length inp <= outlen -> (N.of_nat (low32 (length inp)) <= int_max)%N ->
  wbgcm_crypt d k c inp outlen = wbgcm_crypt d k c (firstn (low32 (length inp)) inp) outlen.
Proof. exact wbgcm_wraps_lemma. Qed.
Print Assumptions wbgcm_input_wraps_refuted.
(** ... and of every other input nothing; 1 is returned all the same, and the recorded length gets smaller. *)
Theorem gcm_input_ignored_refuted : forall d blk c inp outlen, length inp <= outlen -> (int_max < N.of_nat (low32 (length inp)))%N ->
  gcm_crypt d blk c inp outlen = (true, mkgcm ((g_len c + (2 ^ 64 - 2 ^ 32) + N.of_nat (low32 (length inp))) mod 2 ^ 64)%N (g_add_len c) (g_HL c) (g_HH c) (g_base c) (g_y c) (g_buf c), []).
Proof. exact gcm_high_lemma. Qed.
Print Assumptions gcm_input_ignored_refuted.
Theorem wbgcm_input_ignored_refuted : forall d k c inp outlen, length inp <= outlen -> (int_max < N.of_nat (low32 (length inp)))%N ->
  wbgcm_crypt d k c inp outlen = (1%Z, mkgcm ((g_len c + (2 ^ 64 - 2 ^ 32) + N.of_nat (low32 (length inp))) mod 2 ^ 64)%N (g_add_len c) (g_HL c) (g_HH c) (g_base c) (g_y c) (g_buf c), []).
Proof. exact wbgcm_high_lemma. Qed.
Print Assumptions wbgcm_input_ignored_refuted.
(** inputs of both kinds: 2^32 + 5 bytes count as 5; 3 * 2^31 bytes are ignored *)
Example gcm_long_instance :
  low32 (length (repeat 7%N (N.to_nat (2 ^ 32 + 5)))) = 5 /\ (int_max < N.of_nat (low32 (length (repeat 7%N (N.to_nat (3 * 2 ^ 31))))))%N.
Proof. rewrite !repeat_length. unfold low32. rewrite !N2Nat.id. split; [vm_compute; reflexivity|vm_compute; reflexivity]. Qed.
