(** * Property theorems: which files the file functions touch, and when they return (C53, C54, C92, C93) *)
From Verif Require Import Base CbcModel Toy GcmModel GcmProofs FileModel FileProofs GcmProps FileProps WbaesModel WbgcmModel FileExact.
Local Open Scope nat_scope.

(** ** C53: exactly when the functions do not return *)
(** Encryption: a file that cannot be opened.  Decryption: besides that, a container of at most 16 bytes or of more than
    2^31 - 1 bytes of ciphertext, or input and output of the same name.  The white-box variants agree. *)
Theorem gcmfile_defined_iff : forall blk wr fs c inf outf junk,
  (gcmfile_encrypt blk wr fs c inf outf junk = None <-> fs inf = None \/ wr outf = false \/ wr (tmp_path outf) = false) /\
  (gcmfile_decrypt blk wr fs c inf outf = None <-> fs inf = None \/ wr outf = false \/ inf = outf \/
    (exists cont, fs inf = Some cont /\ (length cont <= 16 \/ (2147483647 + 24 < N.of_nat (length cont))%N))).
Proof. exact gcmfile_defined_lemma. Qed.
Print Assumptions gcmfile_defined_iff.
Theorem wbgcmfile_defined_iff : forall k wr fs c inf outf junk,
  (wbgcmfile_encrypt k wr fs c inf outf junk = None <-> fs inf = None \/ wr outf = false \/ wr (tmp_path outf) = false) /\
  (wbgcmfile_decrypt k wr fs c inf outf = None <-> fs inf = None \/ wr outf = false \/ inf = outf \/
    (exists cont, fs inf = Some cont /\ (length cont <= 16 \/ (2147483647 + 24 < N.of_nat (length cont))%N))).
Proof. exact wbgcmfile_defined_lemma. Qed.
Print Assumptions wbgcmfile_defined_iff.

(** ** C92: only the files named by the caller change *)
(** True of decryption, whatever the contents of the container.  Of encryption it is true but for one file, the one whose
    name is that of the output followed by ".tmp", which does not exist afterwards. *)
Theorem gcmfile_touches_partial : forall blk wr fs c inf outf junk ok c1 fs1,
  (gcmfile_encrypt blk wr fs c inf outf junk = Some (ok, c1, fs1) ->
     ok = true /\ fs1 (tmp_path outf) = None /\ fs1 outf <> None /\ forall p, p <> outf -> p <> tmp_path outf -> fs1 p = fs p) /\
  (gcmfile_decrypt blk wr fs c inf outf = Some (ok, c1, fs1) -> forall p, p <> outf -> fs1 p = fs p).
Proof. exact gcmfile_frame_lemma. Qed.
Print Assumptions gcmfile_touches_partial.
Theorem wbgcmfile_touches_partial : forall k wr fs c inf outf junk ok c1 tag fs1,
  (wbgcmfile_encrypt k wr fs c inf outf junk = Some (ok, c1, tag, fs1) ->
     ok = true /\ fs1 (tmp_path outf) = None /\ fs1 outf <> None /\ forall p, p <> outf -> p <> tmp_path outf -> fs1 p = fs p) /\
  (wbgcmfile_decrypt k wr fs c inf outf = Some (ok, c1, tag, fs1) -> forall p, p <> outf -> fs1 p = fs p).
Proof. exact wbgcmfile_frame_lemma. Qed.
Print Assumptions wbgcmfile_touches_partial.
(** So a file of that name is lost.  If it is the input itself, the call reports success, the input is gone and the
    output is the container of the empty file. *)
Theorem gcmfile_tmp_input_refuted : forall blk wr fs c outf junk d, fs (tmp_path outf) = Some d -> wr outf = true -> wr (tmp_path outf) = true ->
  exists c1 fs1 r, gcmfile_encrypt blk wr fs c (tmp_path outf) outf junk = Some (true, c1, fs1) /\ fs1 (tmp_path outf) = None /\
    gcm_finish (f_gcm c) 16 = Some r /\ fs1 outf = Some (snd r ++ [0; 0; 0; 0]%N ++ junk).
Proof. exact gcmfile_tmp_input_lemma. Qed.
Print Assumptions gcmfile_tmp_input_refuted.
Theorem wbgcmfile_tmp_input_refuted : forall k wr fs c outf junk d, fs (tmp_path outf) = Some d -> wr outf = true -> wr (tmp_path outf) = true ->
  exists c1 tag fs1, wbgcmfile_encrypt k wr fs c (tmp_path outf) outf junk = Some (true, c1, tag, fs1) /\ fs1 (tmp_path outf) = None /\
    wbgcm_finish k c 16 = Some (c1, tag) /\ fs1 outf = Some (tag ++ [0; 0; 0; 0]%N ++ junk).
Proof. exact wbgcmfile_tmp_input_lemma. Qed.
Print Assumptions wbgcmfile_tmp_input_refuted.
(** a file "enc.tmp" next to the input is lost *)
Example gcmfile_tmp_case : exists c c1 fs1, gcmfile_open (lift toyE) [] gcm_iv12 gcm_aad5 = Some c /\
  let fs := upd fs0 (tmp_path path_enc) (Some [1; 2; 3]%N) in
  gcmfile_encrypt (lift toyE) wr_all fs c path_in path_enc [0; 0; 0; 0]%N = Some (true, c1, fs1) /\
  fs (tmp_path path_enc) = Some [1; 2; 3]%N /\ fs1 (tmp_path path_enc) = None /\ fs1 path_in = Some file_data.
Proof. eexists _, _, _. split; [vm_compute; reflexivity|]. cbv zeta. split; [vm_compute; reflexivity|]. split; [reflexivity|]. split; vm_compute; reflexivity. Qed.

(** ** C93: files of every size come back *)
(** False of the code: a file of more than 2^31 - 1 bytes is encrypted with success, and no context, key or output path
    lets the decryption of the result return.  (Up to that size it does: gcmfile_roundtrip.) *)
Theorem gcmfile_large_refuted : forall blk wr fs c inf outf junk data, length (g_base (f_gcm c)) = 16 ->
  fs inf = Some data -> inf <> outf -> inf <> tmp_path outf -> wr outf = true -> wr (tmp_path outf) = true -> length junk = 4 ->
  (2147483647 < N.of_nat (length data))%N ->
  exists c1 fs1 cont, gcmfile_encrypt blk wr fs c inf outf junk = Some (true, c1, fs1) /\ fs1 outf = Some cont /\ length cont = length data + 24 /\
    forall blk' wr' c' decf, gcmfile_decrypt blk' wr' fs1 c' outf decf = None.
Proof. exact gcmfile_large_lemma. Qed.
Print Assumptions gcmfile_large_refuted.
Theorem wbgcmfile_large_refuted : forall k wr fs c inf outf junk data, length (g_base c) = 16 ->
  fs inf = Some data -> inf <> outf -> inf <> tmp_path outf -> wr outf = true -> wr (tmp_path outf) = true -> length junk = 4 ->
  (2147483647 < N.of_nat (length data))%N ->
  exists c1 tag fs1 cont, wbgcmfile_encrypt k wr fs c inf outf junk = Some (true, c1, tag, fs1) /\ fs1 outf = Some cont /\ length cont = length data + 24 /\
    forall k' wr' c' decf, wbgcmfile_decrypt k' wr' fs1 c' outf decf = None.
Proof. exact wbgcmfile_large_lemma. Qed.
Print Assumptions wbgcmfile_large_refuted.
(** every context a caller has opened meets the first hypothesis, and there are such files *)
Example gcmfile_large_case : exists c, gcmfile_open (lift toyE) [] gcm_iv12 gcm_aad5 = Some c /\ length (g_base (f_gcm c)) = 16 /\
  exists data : list N, (2147483647 < N.of_nat (length data))%N.
Proof.
  eexists. split; [vm_compute; reflexivity|]. split; [vm_compute; reflexivity|].
  exists (repeat 0%N (N.to_nat (2 ^ 31))). rewrite repeat_length, N2Nat.id. reflexivity.
Qed.
