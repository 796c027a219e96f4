(** * Property theorems: GCM file encryption (C18 - C20, C53, C54) *)
From Verif Require Import Base CbcModel CbcSpec Toy GcmModel GcmSpec GcmProofs FileModel FileProofs.
Local Open Scope nat_scope.

(** ** C18 *)
(** Encrypt a file, then decrypt the result with a context opened with the same IV and AAD: both
    calls return 1, the container is tag || length || ciphertext with the ciphertext having the
    length of the file, the temporary file is gone, the decrypted file is the original one, and no
    other file changes.  [junk]: the four bytes of the size field the code takes from beyond the
    variable. *)
Theorem gcmfile_roundtrip : forall E tag0 iv aad wr fs inf encf decf junk data,
  block_function E -> bytes iv -> bytes aad -> bytes data -> fs inf = Some data ->
  inf <> encf -> inf <> tmp_path encf -> decf <> encf ->
  (forall p, In p [encf; tmp_path encf; decf] -> wr p = true) -> length junk = 4 -> bytes junk ->
  (N.of_nat (length data) <= 2147483647)%N ->
  exists c tag ct c1 fs1 c2 fs2,
    gcmfile_open (lift E) tag0 iv aad = Some c /\
    gcmfile_encrypt (lift E) wr fs c inf encf junk = Some (true, c1, fs1) /\
    fs1 encf = Some (tag ++ N_to_le 4 (N.of_nat (length data)) ++ junk ++ ct) /\
    length tag = 16 /\ length ct = length data /\ fs1 (tmp_path encf) = None /\
    (forall p, p <> encf -> p <> tmp_path encf -> fs1 p = fs p) /\
    gcmfile_decrypt (lift E) wr fs1 c encf decf = Some (true, c2, fs2) /\
    fs2 decf = Some data /\ (forall p, p <> decf -> fs2 p = fs1 p).
Proof. exact gcmfile_roundtrip_lemma. Qed.
Print Assumptions gcmfile_roundtrip.

(** and tag and ciphertext in the container are those of SP 800-38D *)
Theorem gcmfile_conforms : forall E tag0 iv aad wr fs inf encf junk data c,
  block_function E -> bytes iv -> bytes aad -> bytes data -> fs inf = Some data ->
  inf <> encf -> inf <> tmp_path encf -> wr encf = true -> wr (tmp_path encf) = true ->
  (8 * N.of_nat (length iv) < 2 ^ 32)%N -> (8 * N.of_nat (length aad) < 2 ^ 64)%N ->
  (N.of_nat (length data) <= 2147483647)%N ->
  gcmfile_open (lift E) tag0 iv aad = Some c ->
  let ct := gcm_ciphertext E iv data in
  exists c1 fs1, gcmfile_encrypt (lift E) wr fs c inf encf junk = Some (true, c1, fs1) /\
    f_tag c1 = gcm_tag E iv aad ct 16 /\
    fs1 encf = Some (gcm_tag E iv aad ct 16 ++ N_to_le 4 (N.of_nat (length data)) ++ junk ++ ct).
Proof. exact gcmfile_conforms_lemma. Qed.
Print Assumptions gcmfile_conforms.

Example gcmfile_instance : exists c, gcmfile_open (lift toyE) (repeat 9%N 16) gcm_iv12 gcm_aad5 = Some c /\
  exists c1 fs1, gcmfile_encrypt (lift toyE) wr_all fs0 c path_in path_enc [1; 2; 3; 4]%N = Some (true, c1, fs1) /\
  exists c2 fs2, gcmfile_decrypt (lift toyE) wr_all fs1 c path_enc path_dec' = Some (true, c2, fs2) /\
  fs2 path_dec' = Some file_data /\ option_map (@length N) (fs2 path_enc) = Some 174 /\ fs2 (tmp_path path_enc) = None.
Proof.
  eexists. split; [vm_compute; reflexivity|]. eexists; eexists. split; [vm_compute; reflexivity|].
  eexists; eexists. split; [vm_compute; reflexivity|]. split; [vm_compute; reflexivity|].
  split; vm_compute; reflexivity.
Qed.

(** ** C19 *)
(** False of the code.  What decryption does with any container of at least 17 bytes: the tag
    field has no influence at all, every body of the recorded length is accepted, and the output is
    the GCTR transform of the body. *)
Theorem gcmfile_tamper_refuted : forall E c wr fs inf outf tag len junk ct,
  block_function E -> reachable (lift E) (f_gcm c) -> bytes ct -> bytes tag -> bytes junk ->
  length tag = 16 -> length junk = 4 -> (N.of_nat (length ct) <= 2147483647)%N ->
  len = N_to_le 4 (N.of_nat (length ct)) ->
  fs inf = Some (tag ++ len ++ junk ++ ct) -> inf <> outf -> wr outf = true ->
  exists c2, gcmfile_decrypt (lift E) wr fs c inf outf =
    Some (true, c2, upd fs outf (Some (gctr E (inc32 (g_y (f_gcm c))) ct))).
Proof. exact gcmfile_tamper_refuted_lemma. Qed.
Print Assumptions gcmfile_tamper_refuted.
(** concrete: flip one ciphertext bit of a genuine container; accepted, and the plaintext differs *)
Theorem gcmfile_tamper_witness_refuted : exists E c iv aad cont c1 fs1,
  block_function E /\ gcmfile_open (lift E) [] iv aad = Some c /\
  gcmfile_encrypt (lift E) wr_all fs0 c path_in path_enc [0; 0; 0; 0]%N = Some (true, c1, fs1) /\
  fs1 path_enc = Some cont /\
  let forged := set cont 24 (N.lxor (get cont 24) 1) in
  forged <> cont /\
  exists c2 fs2 out, gcmfile_decrypt (lift E) wr_all (upd fs1 path_enc (Some forged)) c path_enc path_dec' = Some (true, c2, fs2) /\
    fs2 path_dec' = Some out /\ out <> file_data.
Proof. exact gcmfile_tamper_witness_refuted_lemma. Qed.
Print Assumptions gcmfile_tamper_witness_refuted.

(** ** C20 *)
(** For every container of at least 17 bytes: the return value is 1 exactly when the number of
    body bytes is the recorded length (the first four bytes of the size field, little endian, as
    an int; bytes missing from a short container count as 0).  The output file is written in both
    cases. *)
Theorem gcmfile_size_check : forall E c wr fs inf outf cont,
  block_function E -> reachable (lift E) (f_gcm c) -> bytes cont -> fs inf = Some cont -> 17 <= length cont ->
  inf <> outf -> wr outf = true -> (N.of_nat (length cont) <= 2147483647 + 24)%N ->
  let body := skipn 24 cont in
  let recorded := c_int (le_to_N (firstn 4 (skipn 16 cont ++ repeat 0%N 4))) in
  exists ret c2, gcmfile_decrypt (lift E) wr fs c inf outf =
    Some (ret, c2, upd fs outf (Some (gctr E (inc32 (g_y (f_gcm c))) body))) /\
    (ret = true <-> Z.of_nat (length body) = recorded).
Proof. exact gcmfile_size_check_lemma. Qed.
Print Assumptions gcmfile_size_check.

(** ** C53 *)
(** False of the code: whenever one of the files cannot be opened, or the container has at most 16
    bytes, the cleanup code closes a stream that was never opened. *)
Theorem gcmfile_open_failure_refuted : forall blk wr fs c inf outf junk,
  (fs inf = None \/ wr outf = false \/ wr (tmp_path outf) = false -> gcmfile_encrypt blk wr fs c inf outf junk = None) /\
  (fs inf = None \/ wr outf = false \/ (exists cont, fs inf = Some cont /\ length cont <= 16) ->
   gcmfile_decrypt blk wr fs c inf outf = None).
Proof. exact gcmfile_open_failure_refuted_lemma. Qed.
Print Assumptions gcmfile_open_failure_refuted.

(** ** C54 *)
(** False of the code: encrypting a file onto itself reports success and the result is the
    container of the empty file, so the data is lost. *)
Theorem gcmfile_in_place_refuted : forall blk wr fs c p junk data r,
  fs p = Some data -> gcm_finish (f_gcm c) 16 = Some r -> wr p = true -> wr (tmp_path p) = true ->
  exists c1 fs1, gcmfile_encrypt blk wr fs c p p junk = Some (true, c1, fs1) /\
    fs1 p = Some (snd r ++ [0; 0; 0; 0]%N ++ junk).
Proof. exact gcmfile_in_place_refuted_lemma. Qed.
Print Assumptions gcmfile_in_place_refuted.
Example gcmfile_in_place_instance : exists c r, gcmfile_open (lift toyE) [] gcm_iv12 gcm_aad5 = Some c /\
  gcm_finish (f_gcm c) 16 = Some r /\ fs0 path_in = Some file_data.
Proof. eexists; eexists. split; [vm_compute; reflexivity|]. split; [vm_compute; reflexivity|]. reflexivity. Qed.

From Coq Require Import Strings.String Strings.Ascii.
(** the characters of a literal *)
Definition chars (s : string) : list N := map N_of_ascii (list_ascii_of_string s).
(** the temporary file of "out.bin", and the value the associated-data function returns *)
Example tmp_name : tmp_path (chars "out.bin") = chars "out.bin.tmp".
Proof. reflexivity. Qed.
Example gcmfile_aad_reports : forall c aad, fst (gcmfile_aad c aad) = true.
Proof. reflexivity. Qed.
