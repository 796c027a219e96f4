(** * Properties of the white-box GCM variants (C46, C47, C68-C71) *)
From Verif Require Import Base CbcModel CbcSpec GcmModel GcmSpec GcmProofs FileModel FileProofs CipherExt FpeModel MatModel AesSpec AesModel AesProofs AesProps WbaesModel WbaesProofs WbgcmModel WbgcmSpec WbgcmProofs WbgcmKeys WbgcmThms WbgcmTop WbgcmWit.
From Coq Require Import ZArith.
Local Open Scope nat_scope.
Local Opaque ee_gen_table mask_gen_table wbgcm_session ee_key mask_key wbgcmfile_encrypt wbgcmfile_decrypt.

(** ** C46: variant ee *)
(** Generation succeeds whatever the random numbers; then every run of setiv, aad, any list of encrypt (decrypt) calls
    and finish gives the bytes and the tag that GCM over standard AES-128 gives for the same calls.
    Partial: not when there is neither additional data nor a message, see [ee_empty_tag_refuted]. *)
Theorem ee_conforms_partial : forall rnd junk key, bytes key -> 16 <= length key ->
  exists ctx, ee_gen_table rnd junk key = Ret ctx /\
  forall d iv aad ps t, bytes iv -> bytes aad -> small_pieces ps -> t <= 16 ->
    (8 * N.of_nat (length aad) < 2 ^ 64)%N -> (8 * N.of_nat (length (concat ps)) < 2 ^ 64)%N -> nothing aad ps = false ->
    exists os tag, wbgcm_session d (ee_key ctx) iv aad ps t = Some (os, tag) /\ map (@length N) os = map (@length N) ps /\
      gcm_session d (lift (aes_encrypt (firstn 16 key))) iv aad ps t = Some (concat os, tag).
Proof. exact ee_conforms_lemma. Qed.
Print Assumptions ee_conforms_partial.
(** One message: SP 800-38D with AES-128 under the first sixteen bytes of the key. *)
Theorem ee_standard_partial : forall rnd junk key ctx d iv aad p t, bytes key -> ee_gen_table rnd junk key = Ret ctx -> bytes iv -> bytes aad -> bytes p ->
  (8 * N.of_nat (length iv) < 2 ^ 32)%N -> (8 * N.of_nat (length aad) < 2 ^ 64)%N -> (N.of_nat (length p) <= 2147483647)%N -> t <= 16 -> nothing aad [p] = false ->
  let E := aes_encrypt (firstn 16 key) in let o := gctr E (inc32 (J0 E iv)) p in
  wbgcm_session d (ee_key ctx) iv aad [p] t = Some ([o], gcm_tag E iv aad (match d with Enc => o | Dec => p end) t).
Proof. exact ee_standard_lemma. Qed.
Print Assumptions ee_standard_partial.
(** test case 4 of the GCM specification (McGrew and Viega), through every possible set of tables *)
Example ee_gcm_vector : forall rnd junk, exists ctx,
  ee_gen_table rnd junk (N_to_be 16 0xfeffe9928665731c6d6a8f9467308308) = Ret ctx /\
  wbgcm_session Enc (ee_key ctx) (N_to_be 12 0xcafebabefacedbaddecaf888) (N_to_be 20 0xfeedfacedeadbeeffeedfacedeadbeefabaddad2)
    [N_to_be 60 0xd9313225f88406e5a55909c5aff5269a86a7a9531534f7da2e4c303d8a318a721c3c0c95956809532fcf0e2449a6b525b16aedf5aa0de657ba637b39] 16 =
  Some ([N_to_be 60 0x42831ec2217774244b7221b784d0d49ce3aa212f2c02a4e035c17e2329aca12e21d514b25466931c7d8f6a5aac84aa051ba30b396a0aac973d58e091],
        N_to_be 16 0x5bc94fbc3221a5db94fae95ae7121a47).
Proof.
  intros rnd junk. set (key := N_to_be 16 0xfeffe9928665731c6d6a8f9467308308). assert (BK : bytes key) by apply bytes_N_to_be.
  destruct (ee_conforms_partial rnd junk key BK (Nat.le_refl _)) as (ctx & E1 & _). exists ctx. split; [exact E1|].
  pose proof (ee_standard_partial rnd junk key ctx Enc (N_to_be 12 0xcafebabefacedbaddecaf888) (N_to_be 20 0xfeedfacedeadbeeffeedfacedeadbeefabaddad2)
    (N_to_be 60 0xd9313225f88406e5a55909c5aff5269a86a7a9531534f7da2e4c303d8a318a721c3c0c95956809532fcf0e2449a6b525b16aedf5aa0de657ba637b39) 16 BK E1
    (bytes_N_to_be _ _) (bytes_N_to_be _ _) (bytes_N_to_be _ _) eq_refl eq_refl ltac:(vm_compute; discriminate) (Nat.le_refl _) eq_refl) as H.
  cbv zeta in H. etransitivity; [exact H|]. clear. vm_compute. reflexivity.
Qed.
(** Decrypting what was encrypted, call by call, restores the pieces and gives the same tag, without exception. *)
Theorem ee_roundtrip : forall rnd junk key ctx iv aad ps t, bytes key -> ee_gen_table rnd junk key = Ret ctx -> bytes iv -> bytes aad -> small_pieces ps -> t <= 16 ->
  (8 * N.of_nat (length aad) < 2 ^ 64)%N -> (8 * N.of_nat (length (concat ps)) < 2 ^ 64)%N ->
  exists cs tag, wbgcm_session Enc (ee_key ctx) iv aad ps t = Some (cs, tag) /\ map (@length N) cs = map (@length N) ps /\
    wbgcm_session Dec (ee_key ctx) iv aad cs t = Some (ps, tag).
Proof. exact ee_roundtrip_lemma. Qed.
Print Assumptions ee_roundtrip.
(** What the exception is: with no additional data and no message the tag is the encoded key stream block; the key
    context's own tables, applied to it, give the standard tag. *)
Theorem ee_empty_tag : forall rnd junk key ctx d iv tag, bytes key -> ee_gen_table rnd junk key = Ret ctx -> bytes iv -> (8 * N.of_nat (length iv) < 2 ^ 32)%N ->
  wbgcm_session d (ee_key ctx) iv [] [] 16 = Some ([], tag) ->
  tag = ee_aux ctx (J0 (aes_encrypt (firstn 16 key)) iv) /\
  map (fun i => ee_III ctx i (get tag i) (ee_I ctx i 0%N)) (seq 0 16) = gcm_tag (aes_encrypt (firstn 16 key)) iv [] [] 16.
Proof. exact ee_empty_tag_lemma. Qed.
Print Assumptions ee_empty_tag.
Theorem ee_empty_tag_refuted : exists rnd junk key ctx iv tag, bytes key /\ 16 <= length key /\ bytes iv /\ ee_gen_table rnd junk key = Ret ctx /\
  wbgcm_session Enc (ee_key ctx) iv [] [] 16 = Some ([], tag) /\ tag <> gcm_tag (aes_encrypt (firstn 16 key)) iv [] [] 16.
Proof. exact ee_empty_tag_refuted_lemma. Qed.
Print Assumptions ee_empty_tag_refuted.

(** ** C47: variant mask *)
Theorem mask_defined : forall rnd junk key, bytes key -> 16 <= length key -> exists ctxs, mask_gen_table rnd junk key = Ret ctxs.
Proof. exact mask_defined_lemma. Qed.
Print Assumptions mask_defined.
(** What is encrypted with the encryption tables, in any list of calls, the decryption tables generated together with
    them restore call by call. *)
Theorem mask_roundtrip : forall rnd junk key ctxs iv aad ps t, bytes key -> mask_gen_table rnd junk key = Ret ctxs -> bytes iv -> bytes aad -> small_pieces ps -> t <= 16 ->
  (8 * N.of_nat (length aad) < 2 ^ 64)%N -> (8 * N.of_nat (length (concat ps)) < 2 ^ 64)%N ->
  exists cs tag tag', wbgcm_session Enc (mask_key (fst ctxs)) iv aad ps t = Some (cs, tag) /\ map (@length N) cs = map (@length N) ps /\
    wbgcm_session Dec (mask_key (snd ctxs)) iv aad cs t = Some (ps, tag').
Proof. exact mask_roundtrip_lemma. Qed.
Print Assumptions mask_roundtrip.
Example mask_roundtrip_case : forall rnd junk, exists ctxs cs tag tag', mask_gen_table rnd junk (repeat 7%N 16) = Ret ctxs /\
  wbgcm_session Enc (mask_key (fst ctxs)) [1; 2; 3]%N [9]%N [repeat 5%N 33; [6]%N] 12 = Some (cs, tag) /\ map (@length N) cs = [33; 1] /\
  wbgcm_session Dec (mask_key (snd ctxs)) [1; 2; 3]%N [9]%N cs 12 = Some ([repeat 5%N 33; [6]%N], tag').
Proof.
  intros rnd junk. assert (BK : bytes (repeat 7%N 16)) by (repeat constructor). destruct (mask_defined rnd junk _ BK (Nat.le_refl _)) as (ctxs & E1).
  destruct (mask_roundtrip rnd junk _ ctxs [1; 2; 3]%N [9]%N [repeat 5%N 33; [6]%N] 12 BK E1 ltac:(repeat constructor) ltac:(repeat constructor) ltac:(apply small_pieces_check; reflexivity) ltac:(lia) eq_refl eq_refl) as (cs & tag & tag' & H1 & H2 & H3).
  exists ctxs, cs, tag, tag'. split; [exact E1|]. split; [exact H1|]. split; [exact H2|exact H3].
Qed.
(** The tags of the two sides differ. *)
Theorem mask_tag_refuted : exists rnd junk key ctxs iv aad p c tag p' tag', bytes key /\ 16 <= length key /\ bytes iv /\ bytes aad /\ bytes p /\ mask_gen_table rnd junk key = Ret ctxs /\
  wbgcm_session Enc (mask_key (fst ctxs)) iv aad [p] 16 = Some ([c], tag) /\
  wbgcm_session Dec (mask_key (snd ctxs)) iv aad [c] 16 = Some ([p'], tag') /\ p' = p /\ tag' <> tag.
Proof. exact mask_tag_refuted_lemma. Qed.
Print Assumptions mask_tag_refuted.

(** ** C68: what the mask variant computes *)
(** Ciphertext and tag are those of GCM over AES-128 passed, byte by byte, through one bijection of bytes per position
    in the block; the ciphertext that is hashed is the mapped one.  (The maps are those of the two key contexts, each
    side holding one direction.) *)
Theorem mask_encrypt_form : forall rnd junk key ctxs iv aad ps q t, bytes key -> mask_gen_table rnd junk key = Ret ctxs -> bytes iv -> bytes aad -> small_pieces (ps ++ [q]) ->
  Forall (fun p => length p mod 16 = 0) ps -> t <= 16 ->
  (8 * N.of_nat (length iv) < 2 ^ 32)%N -> (8 * N.of_nat (length aad) < 2 ^ 64)%N -> (8 * N.of_nat (length (concat ps ++ q)) < 2 ^ 64)%N ->
  nothing aad [concat ps ++ q] = false ->
  let E := aes_encrypt (firstn 16 key) in let c := bytewise (mask_L ctxs) (gctr E (inc32 (J0 E iv)) (concat ps ++ q)) in
  exists cs, wbgcm_session Enc (mask_key (fst ctxs)) iv aad (ps ++ [q]) t = Some (cs, bytewise (mask_L ctxs) (gcm_tag E iv aad c t)) /\
    map (@length N) cs = map (@length N) (ps ++ [q]) /\ concat cs = c.
Proof. exact mask_enc_lemma. Qed.
Print Assumptions mask_encrypt_form.
(** The decrypting side maps the bytes back before it combines them with the key stream, and its tag is that of GCM with
    the hash mapped back: this is not the tag of the encrypting side. *)
Theorem mask_decrypt_form : forall rnd junk key ctxs iv aad ps q t, bytes key -> mask_gen_table rnd junk key = Ret ctxs -> bytes iv -> bytes aad -> small_pieces (ps ++ [q]) ->
  Forall (fun p => length p mod 16 = 0) ps -> t <= 16 ->
  (8 * N.of_nat (length iv) < 2 ^ 32)%N -> (8 * N.of_nat (length aad) < 2 ^ 64)%N -> (8 * N.of_nat (length (concat ps ++ q)) < 2 ^ 64)%N ->
  nothing aad [concat ps ++ q] = false ->
  let E := aes_encrypt (firstn 16 key) in let c := concat ps ++ q in
  exists os, wbgcm_session Dec (mask_key (snd ctxs)) iv aad (ps ++ [q]) t = Some (os, firstn t (xorl (bytewise (mask_Li ctxs) (gcm_hash E aad c)) (E (J0 E iv)))) /\
    map (@length N) os = map (@length N) (ps ++ [q]) /\ concat os = gctr E (inc32 (J0 E iv)) (bytewise (mask_Li ctxs) c).
Proof. exact mask_dec_lemma. Qed.
Print Assumptions mask_decrypt_form.
(** The maps are bijections on bytes, inverse to each other. *)
Theorem mask_maps_inverse : forall rnd junk key ctxs i x, bytes key -> mask_gen_table rnd junk key = Ret ctxs -> i < 16 -> byte x ->
  byte (mask_L ctxs i x) /\ byte (mask_Li ctxs i x) /\ mask_Li ctxs i (mask_L ctxs i x) = x /\ mask_L ctxs i (mask_Li ctxs i x) = x.
Proof. intros rnd junk key ctxs i x B E I X. exact (proj2 (proj2 (mask_get rnd junk key ctxs B E)) i x I X). Qed.
Print Assumptions mask_maps_inverse.
(** the maps are not trivial: from a constant random sequence each is the matrix below *)
Example mask_maps_case : exists ctxs, mask_gen_table ones blank (repeat 7%N 16) = Ret ctxs /\ mask_L ctxs 3 1 = MatMulNum 8 A8 1 /\ MatMulNum 8 A8 1 <> 1%N.
Proof.
  destruct (mask_ones (repeat 7%N 16) ltac:(repeat constructor) (Nat.le_refl _)) as (ctxs & E & H). exists ctxs. split; [exact E|]. split; [|vm_compute; discriminate].
  unfold mask_L. now rewrite (proj2 (H 3 ltac:(lia))).
Qed.

(** ** C69: files *)
(** The file of the ee variant is the one gcmfile writes with AES-128 (tag apart when there is nothing to
    authenticate), and decryption restores the file. *)
Theorem ee_file_roundtrip : forall rnd junk key ctx iv aad wr fs inf encf decf up data, bytes key -> ee_gen_table rnd junk key = Ret ctx ->
  bytes iv -> bytes aad -> bytes data -> fs inf = Some data -> inf <> encf -> inf <> tmp_path encf -> decf <> encf ->
  (forall p, In p [encf; tmp_path encf; decf] -> wr p = true) -> length up = 4 ->
  (8 * N.of_nat (length iv) < 2 ^ 32)%N -> (8 * N.of_nat (length aad) < 2 ^ 64)%N -> (N.of_nat (length data) <= 2147483647)%N ->
  let E := aes_encrypt (firstn 16 key) in let ct := gctr E (inc32 (J0 E iv)) data in let k := ee_key ctx in
  exists tag c1 fs1 c2 tag2 fs2,
    wbgcmfile_encrypt k wr fs (wbgcm_open k iv aad) inf encf up = Some (true, c1, tag, fs1) /\
    fs1 encf = Some (tag ++ N_to_le 4 (N.of_nat (length data)) ++ up ++ ct) /\ fs1 (tmp_path encf) = None /\
    (forall p, p <> encf -> p <> tmp_path encf -> fs1 p = fs p) /\
    (nothing aad [data] = false -> tag = gcm_tag E iv aad ct 16) /\
    wbgcmfile_decrypt k wr fs1 (wbgcm_open k iv aad) encf decf = Some (true, c2, tag2, fs2) /\
    fs2 decf = Some data /\ (forall p, p <> decf -> fs2 p = fs1 p).
Proof. exact ee_file_lemma. Qed.
Print Assumptions ee_file_roundtrip.
Theorem mask_file_roundtrip : forall rnd junk key ctxs iv aad wr fs inf encf decf up data, bytes key -> mask_gen_table rnd junk key = Ret ctxs ->
  bytes iv -> bytes aad -> bytes data -> fs inf = Some data -> inf <> encf -> inf <> tmp_path encf -> decf <> encf ->
  (forall p, In p [encf; tmp_path encf; decf] -> wr p = true) -> length up = 4 ->
  (8 * N.of_nat (length iv) < 2 ^ 32)%N -> (8 * N.of_nat (length aad) < 2 ^ 64)%N -> (N.of_nat (length data) <= 2147483647)%N ->
  let E := aes_encrypt (firstn 16 key) in let ct := bytewise (mask_L ctxs) (gctr E (inc32 (J0 E iv)) data) in
  let k := mask_key (fst ctxs) in let k' := mask_key (snd ctxs) in
  exists tag c1 fs1 c2 tag2 fs2,
    wbgcmfile_encrypt k wr fs (wbgcm_open k iv aad) inf encf up = Some (true, c1, tag, fs1) /\
    fs1 encf = Some (tag ++ N_to_le 4 (N.of_nat (length data)) ++ up ++ ct) /\ fs1 (tmp_path encf) = None /\
    (forall p, p <> encf -> p <> tmp_path encf -> fs1 p = fs p) /\
    wbgcmfile_decrypt k' wr fs1 (wbgcm_open k' iv aad) encf decf = Some (true, c2, tag2, fs2) /\
    fs2 decf = Some data /\ (forall p, p <> decf -> fs2 p = fs1 p).
Proof. exact mask_file_lemma. Qed.
Print Assumptions mask_file_roundtrip.
(** a file of 300 bytes *)
Example ee_file_case : forall rnd junk, exists ctx tag c1 fs1 c2 tag2 fs2,
  let fs : fsys := upd (fun _ => None) [97]%N (Some (repeat 5%N 300)) in let k := ee_key ctx in
  ee_gen_table rnd junk (repeat 7%N 16) = Ret ctx /\
  wbgcmfile_encrypt k (fun _ => true) fs (wbgcm_open k (repeat 1%N 12) []) [97]%N [98]%N (repeat 0%N 4) = Some (true, c1, tag, fs1) /\
  wbgcmfile_decrypt k (fun _ => true) fs1 (wbgcm_open k (repeat 1%N 12) []) [98]%N [99]%N = Some (true, c2, tag2, fs2) /\ fs2 [99]%N = Some (repeat 5%N 300).
Proof.
  intros rnd junk. assert (BK : bytes (repeat 7%N 16)) by (repeat constructor). destruct (ee_conforms_partial rnd junk _ BK (Nat.le_refl _)) as (ctx & E1 & _).
  assert (BD : bytes (repeat 5%N 300)) by (apply bytes_repeat; reflexivity). assert (BI : bytes (repeat 1%N 12)) by (apply bytes_repeat; reflexivity).
  assert (TP : [97]%N <> tmp_path [98]%N) by (intros H; discriminate H).
  destruct (ee_file_roundtrip rnd junk _ ctx (repeat 1%N 12) [] (fun _ => true) (upd (fun _ => None) [97]%N (Some (repeat 5%N 300))) [97]%N [98]%N [99]%N (repeat 0%N 4) (repeat 5%N 300) BK E1 BI (Forall_nil _) BD
    (upd_same _ _ _) ltac:(intros H; discriminate H) TP ltac:(intros H; discriminate H) (fun _ _ => eq_refl) eq_refl eq_refl eq_refl ltac:(rewrite repeat_length; lia)) as (tag & c1 & fs1 & c2 & tag2 & fs2 & F1 & _ & _ & _ & _ & F2 & F3 & _).
  exists ctx, tag, c1, fs1, c2, tag2, fs2. cbv zeta. split; [exact E1|]. split; [exact F1|]. split; [exact F2|exact F3].
Qed.

(** ** C70: the recorded tag is not checked *)
(** Whatever tag the file carries, decryption reports success and writes its output, in both variants. *)
Theorem wbgcmfile_tamper_refuted : forall rnd junk key ctx ctxs iv aad wr fs inf outf tag up ct, bytes key -> ee_gen_table rnd junk key = Ret ctx -> mask_gen_table rnd junk key = Ret ctxs ->
  bytes iv -> bytes aad -> bytes ct -> length tag = 16 -> length up = 4 -> (N.of_nat (length ct) <= 2147483647)%N -> (8 * N.of_nat (length iv) < 2 ^ 32)%N ->
  fs inf = Some (tag ++ N_to_le 4 (N.of_nat (length ct)) ++ up ++ ct) -> inf <> outf -> wr outf = true ->
  let E := aes_encrypt (firstn 16 key) in
  (exists c2 tag2, wbgcmfile_decrypt (ee_key ctx) wr fs (wbgcm_open (ee_key ctx) iv aad) inf outf =
     Some (true, c2, tag2, upd fs outf (Some (gctr E (inc32 (J0 E iv)) ct)))) /\
  (exists c2 tag2, wbgcmfile_decrypt (mask_key (snd ctxs)) wr fs (wbgcm_open (mask_key (snd ctxs)) iv aad) inf outf =
     Some (true, c2, tag2, upd fs outf (Some (gctr E (inc32 (J0 E iv)) (bytewise (mask_Li ctxs) ct))))).
Proof. exact wbgcmfile_tamper_refuted_lemma. Qed.
Print Assumptions wbgcmfile_tamper_refuted.

(** ** C71: short keys *)
Theorem wbgcm_short_key_refuted : forall rnd junk key, length key < 16 -> ee_gen_table rnd junk key = Undef /\ mask_gen_table rnd junk key = Undef.
Proof. intros rnd junk key L. exact (conj (ee_short rnd junk key L) (mask_short rnd junk key L)). Qed.
Print Assumptions wbgcm_short_key_refuted.
