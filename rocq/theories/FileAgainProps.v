(** * Property theorems: file contexts used again (C126) *)
From Verif Require Import Base CbcModel CbcSpec GcmModel GcmSpec GcmProofs Toy FileModel FileProofs FileAgain.
Local Open Scope nat_scope.

(** ** C126: a file context can be used for file after file *)
(** True when the IV and the additional data are set before each file: after any sequence of calls, successful or not and
    with a block function that may fail, setiv and aad make the context encrypt and decrypt as a new one would. *)
Theorem gcmfile_again_partial : forall blk tag0 c0 c iv aad fresh, gcmfile_init blk tag0 = Some c0 -> file_use blk c0 c -> gcmfile_open blk tag0 iv aad = Some fresh ->
  exists c1 c2, gcmfile_setiv blk c iv = (true, c1) /\ gcmfile_aad c1 aad = (true, c2) /\
    (forall wr fs inf outf junk, gcmfile_encrypt blk wr fs c2 inf outf junk = gcmfile_encrypt blk wr fs fresh inf outf junk) /\
    (forall wr fs inf outf, gcmfile_decrypt blk wr fs c2 inf outf = gcmfile_decrypt blk wr fs fresh inf outf).
Proof. exact file_again_lemma. Qed.
Print Assumptions gcmfile_again_partial.
(** False otherwise: decrypting a file of at least one block with the context that has just encrypted it returns success
    and writes other data than those encrypted, for every block cipher. *)
Theorem gcmfile_again_refuted : forall E D tag0 iv aad wr fs inf encf decf junk data c c1 fs1, block_cipher E D -> bytes iv -> bytes aad -> bytes data -> fs inf = Some data ->
  inf <> encf -> inf <> tmp_path encf -> decf <> encf -> (forall p, In p [encf; tmp_path encf; decf] -> wr p = true) -> length junk = 4 -> bytes junk ->
  16 <= length data -> (N.of_nat (length data) <= 2147483647)%N -> gcmfile_open (lift E) tag0 iv aad = Some c ->
  gcmfile_encrypt (lift E) wr fs c inf encf junk = Some (true, c1, fs1) ->
  exists c2 fs2 data', gcmfile_decrypt (lift E) wr fs1 c1 encf decf = Some (true, c2, fs2) /\ fs2 decf = Some data' /\ length data' = length data /\ data' <> data.
Proof. exact file_without_setiv_lemma. Qed.
Print Assumptions gcmfile_again_refuted.
Example gcmfile_again_instance : exists c0 c c1 fs1, gcmfile_init (lift toyE) (repeat 9%N 16) = Some c0 /\
  gcmfile_open (lift toyE) (repeat 9%N 16) gcm_iv12 gcm_aad5 = Some c /\ file_use (lift toyE) c0 c1 /\ block_cipher toyE toyD /\
  gcmfile_encrypt (lift toyE) wr_all fs0 c path_in path_enc [1; 2; 3; 4]%N = Some (true, c1, fs1) /\ fs0 path_in = Some file_data /\ length file_data = 150.
Proof.
  do 4 eexists. split; [vm_compute; reflexivity|]. split; [vm_compute; reflexivity|]. split.
  - eapply used_iv with (iv := gcm_iv12); [vm_compute; reflexivity|]. eapply used_aad with (aad := gcm_aad5); [vm_compute; reflexivity|].
    eapply (used_enc _ _ wr_all fs0 path_in path_enc [1; 2; 3; 4]%N); [vm_compute; reflexivity|]. apply used_none.
  - split; [apply toy_is_block_cipher|]. split; [vm_compute; reflexivity|]. split; reflexivity.
Qed.
