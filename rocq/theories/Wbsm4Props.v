(** * Properties of white-box SM4 with dummy rounds (C41, C42, C61) and of its key files (C43) *)
From Verif Require Import Base Word32 CbcModel CbcSpec CbcProofs GcmModel GcmSpec GcmProofs Toy CipherExt Sm4Model Sm4Spec Sm4Proofs FpeModel MatModel Wbsm4Model Wbsm4Spec Wbsm4Proofs Wbsm4Enc WbkeyModel WbkeyProofs Wbsm4Thms.
From Coq Require Import ZArith.
Local Open Scope nat_scope.
Local Opaque MatMulVec MatMulNum MatMulMat genaffinepair affinemix affinecom4 genaffinepairs wRandomShuffleU8.


(** ** C41 *)
(** No dummy rounds: generation succeeds whatever the random numbers and the contents of the memory, and the
    tables compute SM4 on every block. *)
Theorem wbsm4_conforms : forall rnd rs junk em key b, bytes key -> block16 b ->
  exists ctx, wbsm4_gen_table rnd rs (wbsm4_context_init junk em 0) key = Ret ctx /\ wbsm4_encrypt ctx b = Ret (sm4_for em key b).
Proof. exact wbsm4_conforms_lemma. Qed.
Print Assumptions wbsm4_conforms.
(** the standard's example through the white box *)
Example wbsm4_standard_vector : forall rnd rs junk, let key := N_to_be 16 0x0123456789abcdeffedcba9876543210 in
  exists ctx, wbsm4_gen_table rnd rs (wbsm4_context_init junk 1 0) key = Ret ctx /\
    wbsm4_encrypt ctx key = Ret (N_to_be 16 0x681edf34d206965e86b3e94f536e4246).
Proof.
  intros rnd rs junk key. assert (K : block16 key) by (split; [reflexivity|apply bytes_N_to_be]).
  destruct (wbsm4_conforms rnd rs junk 1 key key (proj2 K) K) as (ctx & E1 & E2). exists ctx. split; [exact E1|]. rewrite E2. apply f_equal. vm_compute. reflexivity.
Qed.

(** ** C42 *)
(** Dummy rounds: when generation succeeds and, in every round, the four entries DD[i][j][0] of the allocated memory
    cancel (as in zeroed memory), the tables compute SM4.
    Missing from C42: other contents of the memory, and random numbers for which generation goes wrong (both
    refuted below). *)
Theorem wbsm4_dummy_conforms_partial : forall rnd rs junk em d key b ctx, bytes key -> block16 b -> length rs = 32 + d ->
  (forall i, i < 32 + 4 * d -> N.lxor (N.lxor (N.lxor (junk (LDD i 0 0%N)) (junk (LDD i 1 0%N))) (junk (LDD i 2 0%N))) (junk (LDD i 3 0%N)) = 0%N) ->
  wbsm4_gen_table rnd rs (wbsm4_context_init junk em d) key = Ret ctx -> wbsm4_encrypt ctx b = Ret (sm4_for em key b).
Proof. exact wbsm4_dummy_conforms_partial_lemma. Qed.
Print Assumptions wbsm4_dummy_conforms_partial.
(** With at most one dummy round generation always succeeds. *)
Theorem wbsm4_one_dummy_generates : forall rnd rs junk em d key, bytes key -> d <= 1 ->
  exists ctx, wbsm4_gen_table rnd rs (wbsm4_context_init junk em d) key = Ret ctx.
Proof. exact wbsm4_one_dummy_generates_lemma. Qed.
Print Assumptions wbsm4_one_dummy_generates.
(** With one dummy round, the result is SM4 for one block, or for all, exactly when the entries DD[i][j][0] of the
    allocated memory cancel in the four rounds g, .., g + 3 the dummy round was expanded to. *)
Theorem wbsm4_one_dummy_exact : forall rs, length rs = 33 -> exists g, g <= 31 /\ forall rnd junk em key ctx b, bytes key -> block16 b -> memory junk ->
  wbsm4_gen_table rnd rs (wbsm4_context_init junk em 1) key = Ret ctx ->
  (wbsm4_encrypt ctx b = Ret (sm4_for em key b) <->
   forall i, g <= i < g + 4 -> N.lxor (N.lxor (N.lxor (junk (LDD i 0 0%N)) (junk (LDD i 1 0%N))) (junk (LDD i 2 0%N))) (junk (LDD i 3 0%N)) = 0%N).
Proof. exact wbsm4_one_dummy_exact_lemma. Qed.
Print Assumptions wbsm4_one_dummy_exact.
(** So C42 fails for some contents of the memory: for any number of dummy rounds and any placement of them there
    are contents for which no block at all is encrypted correctly. *)
Theorem wbsm4_dummy_conforms_refuted : forall rs d, 1 <= d -> length rs = 32 + d -> exists junk, memory junk /\
  forall rnd em key ctx b, bytes key -> block16 b -> wbsm4_gen_table rnd rs (wbsm4_context_init junk em d) key = Ret ctx ->
  exists c, wbsm4_encrypt ctx b = Ret c /\ c <> sm4_for em key b.
Proof. exact wbsm4_dummy_conforms_refuted_lemma. Qed.
Print Assumptions wbsm4_dummy_conforms_refuted.
(** And it fails for some random numbers: with two or more dummy rounds generation can index its arrays out of
    bounds, whatever the key and the other random numbers ... *)
Theorem wbsm4_dummy_generates_refuted : forall d, 2 <= d -> exists rs, length rs = 32 + d /\
  forall rnd junk em key, bytes key -> wbsm4_gen_table rnd rs (wbsm4_context_init junk em d) key = Undef.
Proof. exact wbsm4_dummy_generates_refuted_lemma. Qed.
Print Assumptions wbsm4_dummy_generates_refuted.
(** ... and with more than 32 it always does. *)
Theorem wbsm4_many_dummies_refuted : forall d, 32 < d -> forall rnd rs junk em key, length rs = 32 + d -> bytes key ->
  wbsm4_gen_table rnd rs (wbsm4_context_init junk em d) key = Undef.
Proof. exact wbsm4_many_dummies_refuted_lemma. Qed.
Print Assumptions wbsm4_many_dummies_refuted.
(** two dummy rounds, random numbers for which they do not touch, zeroed memory *)
Definition rs_apart : list N := (1 :: map N.of_nat (seq 0 33))%N.
Example wbsm4_dummy_instance : forall rnd key b, bytes key -> block16 b -> length rs_apart = 34 /\
  exists ctx, wbsm4_gen_table rnd rs_apart (wbsm4_context_init (fun _ => 0%N) 1 2) key = Ret ctx /\
  w_rounds ctx = 40 /\ wbsm4_encrypt ctx b = Ret (std_encrypt (normal_key key) b).
Proof.
  intros rnd key b BK Bb. split; [reflexivity|].
  assert (A : apart false (placement rs_apart 2) = true) by (vm_compute; reflexivity).
  destruct (gen_table_ok rnd rs_apart (wbsm4_context_init (fun _ => 0%N) 1 2) key 2 BK eq_refl A) as (P & R & ctx & E & G).
  exists ctx. split; [exact E|]. split; [exact (proj1 G)|].
  change (std_encrypt (normal_key key) b) with (sm4_for 1 key b).
  exact (wbsm4_dummy_conforms_partial rnd rs_apart (fun _ => 0%N) 1 2 key b ctx BK Bb eq_refl (fun _ _ => eq_refl) E).
Qed.

(** ** C61: the modes *)
Theorem wbsm4_gcm_conforms : forall ctx em d key iv aad p t, holds ctx em key -> em <> 0%Z -> bytes iv -> bytes aad -> bytes p ->
  (8 * N.of_nat (length iv) < 2 ^ 32)%N -> (8 * N.of_nat (length aad) < 2 ^ 64)%N ->
  (N.of_nat (length p) <= 2147483647)%N -> t <= 16 ->
  let E := std_encrypt (normal_key key) in
  let o := gctr E (inc32 (J0 E iv)) p in
  gcm_session d (lift (wb_run ctx)) iv aad [p] t = Some (o, gcm_tag E iv aad (match d with Enc => o | Dec => p end) t).
Proof. exact wbsm4_gcm_conforms_lemma. Qed.
Print Assumptions wbsm4_gcm_conforms.
Theorem wbsm4_cbc_conforms : forall ctx em key m out cap iv, holds ctx em key -> em <> 0%Z -> bytes m -> block16 iv ->
  (N.of_nat (length (lib_padded m)) <= int_max)%N -> length (lib_padded m) <= cap -> length out = cap ->
  wrapper_cbc_encrypt false (lift (wb_run ctx)) m out cap iv =
  Some {| cr_ret := true;
          cr_out := cbc_encrypt_bytes (std_encrypt (normal_key key)) iv (lib_padded m) ++ skipn (length (lib_padded m)) out;
          cr_use := Some (N.of_nat (length (lib_padded m)));
          cr_iv := iv |}.
Proof. exact wbsm4_cbc_conforms_lemma. Qed.
Print Assumptions wbsm4_cbc_conforms.
(** CBC: a context generated for decryption undoes one generated, with other random numbers, for encryption. *)
Theorem wbsm4_cbc_roundtrip : forall ce cd em key m iv out1 cap1 out2 cap2, holds ce em key -> em <> 0%Z -> holds cd 0 key -> 
  bytes m -> m <> [] -> recoverable m -> block16 iv -> (N.of_nat (length (lib_padded m)) <= int_max)%N ->
  length out1 = cap1 -> length (lib_padded m) <= cap1 -> length out2 = cap2 -> length (lib_padded m) <= cap2 ->
  exists r d,
    wrapper_cbc_encrypt false (lift (wb_run ce)) m out1 cap1 iv = Some r /\ cr_ret r = true /\
    wrapper_cbc_decrypt (lift (wb_run cd)) (firstn (length (lib_padded m)) (cr_out r))
      (length (lib_padded m)) out2 cap2 iv = Some d /\ cr_ret d = true /\
    cr_use d = Some (N.of_nat (length m)) /\ firstn (length m) (cr_out d) = m.
Proof. exact wbsm4_cbc_roundtrip_lemma. Qed.
Print Assumptions wbsm4_cbc_roundtrip.
(** contexts with the hypothesis of these theorems *)
Example wbsm4_holds : forall rnd rs junk em key, bytes key -> exists ctx,
  wbsm4_gen_table rnd rs (wbsm4_context_init junk em 0) key = Ret ctx /\ holds ctx em key.
Proof.
  intros rnd rs junk em key BK. destruct (wbsm4_one_dummy_generates rnd rs junk em 0 key BK ltac:(lia)) as (ctx & E). exists ctx. split; [exact E|].
  intros b Bb. destruct (wbsm4_conforms rnd rs junk em key b BK Bb) as (ctx' & E' & H). rewrite E in E'. injection E' as <-. exact H.
Qed.
(** GCM example of RFC 8998 through the white box *)
Example wbsm4_gcm_rfc8998 : forall rnd rs junk, exists ctx,
  wbsm4_gen_table rnd rs (wbsm4_context_init junk 1 0) (N_to_be 16 0x0123456789abcdeffedcba9876543210) = Ret ctx /\
  option_map snd (gcm_session Enc (lift (wb_run ctx)) (N_to_be 12 0x00001234567800000000ABCD) (N_to_be 20 0xFEEDFACEDEADBEEFFEEDFACEDEADBEEFABADDAD2)
    [N_to_be 64 0xAAAAAAAAAAAAAAAABBBBBBBBBBBBBBBBCCCCCCCCCCCCCCCCDDDDDDDDDDDDDDDDEEEEEEEEEEEEEEEEFFFFFFFFFFFFFFFFEEEEEEEEEEEEEEEEAAAAAAAAAAAAAAAA] 16)
  = Some (N_to_be 16 0x83DE3541E4C2B58177E065A9BF7B62EC).
Proof.
  intros rnd rs junk. destruct (wbsm4_holds rnd rs junk 1 (N_to_be 16 0x0123456789abcdeffedcba9876543210) (bytes_N_to_be _ _)) as (ctx & E & H).
  exists ctx. split; [exact E|]. rewrite (wbsm4_gcm_conforms ctx 1 Enc _ _ _ _ 16 H) by (try apply bytes_N_to_be; try (rewrite length_N_to_be; reflexivity); try discriminate; try lia; try reflexivity).
  vm_compute. reflexivity.
Qed.

(** ** C43 *)
(** What key2file wrote, file2key restores, into any context allocated for at least as many rounds (bytes after the
    end do no harm): the number of rounds, the mode, and what the context encrypts every block to. *)
Theorem wbsm4_keyfile_roundtrip : forall ctx ctx2 rest b, w_rounds ctx <= w_alloc ctx -> 4 <= w_rounds ctx -> (N.of_nat (w_rounds ctx) < 2 ^ 31)%N ->
  (- 2 ^ 31 <= w_encmode ctx < 2 ^ 31)%Z -> (forall l, in_range (w_rounds ctx) l -> word (w_mem ctx l)) -> w_rounds ctx <= w_alloc ctx2 ->
  exists file ctx', wbsm4_key2file true ctx = Ret file /\ wbsm4_file2key ctx2 (Some (file ++ rest)) = Ret (true, ctx') /\
    w_rounds ctx' = w_rounds ctx /\ w_encmode ctx' = w_encmode ctx /\ wbsm4_encrypt ctx' b = wbsm4_encrypt ctx b.
Proof. exact wbsm4_keyfile_roundtrip_lemma. Qed.
Print Assumptions wbsm4_keyfile_roundtrip.
(** A file cut short anywhere is rejected. *)
Theorem wbsm4_keyfile_truncated : forall ctx ctx2 file n, w_rounds ctx <= w_alloc ctx -> (N.of_nat (w_rounds ctx) < 2 ^ 31)%N -> w_rounds ctx <= w_alloc ctx2 ->
  wbsm4_key2file true ctx = Ret file -> n < length file -> exists ctx', wbsm4_file2key ctx2 (Some (firstn n file)) = Ret (false, ctx').
Proof. exact wbsm4_keyfile_truncated_lemma. Qed.
Print Assumptions wbsm4_keyfile_truncated.
(** A file without the sixteen bytes of the header is rejected, and the context is left alone. *)
Theorem wbsm4_keyfile_header : forall ctx f, firstn 16 f <> [68; 117; 109; 109; 121; 82; 111; 117; 110; 100; 45; 87; 66; 83; 77; 52]%N ->
  wbsm4_file2key ctx (Some f) = Ret (false, ctx).
Proof. exact wrong_header. Qed.
Print Assumptions wbsm4_keyfile_header.
(** The number of rounds in the file is believed: loading into a context allocated for fewer rounds writes outside
    the allocated memory. *)
Theorem wbsm4_keyfile_rounds_refuted : forall ctx ctx2 file rest, w_rounds ctx <= w_alloc ctx -> (N.of_nat (w_rounds ctx) < 2 ^ 31)%N -> w_alloc ctx2 < w_rounds ctx ->
  wbsm4_key2file true ctx = Ret file -> wbsm4_file2key ctx2 (Some (file ++ rest)) = Undef.
Proof. exact wbsm4_keyfile_rounds_refuted_lemma. Qed.
Print Assumptions wbsm4_keyfile_rounds_refuted.
(** And a file of 24 bytes that holds no table at all is accepted when its number of rounds is zero or negative; the
    context then encrypts with no round whatever. *)
Theorem wbsm4_keyfile_short_refuted : forall (ctx : wctx) (r em : Z), (- 2 ^ 31 <= r <= 0)%Z -> (- 2 ^ 31 <= em < 2 ^ 31)%Z ->
  exists file, length file = 24 /\ wbsm4_file2key ctx (Some file) = Ret (true, mkwctx 0 em (w_alloc ctx) (w_mem ctx)).
Proof. exact wbsm4_keyfile_short_refuted_lemma. Qed.
Print Assumptions wbsm4_keyfile_short_refuted.
(** A file that cannot be opened: fclose(NULL). *)
Theorem wbsm4_keyfile_missing_refuted : forall ctx, wbsm4_file2key ctx None = Undef /\ wbsm4_key2file false ctx = Undef.
Proof. exact wbsm4_keyfile_missing_refuted_lemma. Qed.
Print Assumptions wbsm4_keyfile_missing_refuted.
(** In particular a key generated with any number of dummy rounds, saved and loaded elsewhere, encrypts as before. *)
Theorem wbsm4_keyfile_generated : forall rnd rs junk em d key ctx ctx2 b, bytes key -> length rs = 32 + d -> memory junk -> (N.of_nat d < 2 ^ 28)%N -> (- 2 ^ 31 <= em < 2 ^ 31)%Z ->
  wbsm4_gen_table rnd rs (wbsm4_context_init junk em d) key = Ret ctx -> 32 + 4 * d <= w_alloc ctx2 ->
  exists file ctx', wbsm4_key2file true ctx = Ret file /\ wbsm4_file2key ctx2 (Some file) = Ret (true, ctx') /\
    w_encmode ctx' = em /\ wbsm4_encrypt ctx' b = wbsm4_encrypt ctx b.
Proof. exact wbsm4_keyfile_generated_lemma. Qed.
Print Assumptions wbsm4_keyfile_generated.
(** and such contexts exist *)
Example wbsm4_keyfile_instance : forall rnd rs junk key b, bytes key -> block16 b -> length rs = 32 -> memory junk -> exists ctx file ctx', 
  wbsm4_gen_table rnd rs (wbsm4_context_init junk 1 0) key = Ret ctx /\ wbsm4_key2file true ctx = Ret file /\
  wbsm4_file2key (wbsm4_context_init (fun _ => 5%N) 0 1) (Some file) = Ret (true, ctx') /\
  wbsm4_encrypt ctx' b = Ret (std_encrypt (normal_key key) b).
Proof.
  intros rnd rs junk key b BK Bb L M. destruct (wbsm4_conforms rnd rs junk 1 key b BK Bb) as (ctx & E & H). exists ctx.
  destruct (wbsm4_keyfile_generated rnd rs junk 1 0 key ctx (wbsm4_context_init (fun _ => 5%N) 0 1) b) as (file & ctx' & F1 & F2 & _ & F3); auto; try reflexivity; try lia.
  - cbn [wbsm4_context_init w_alloc]. lia.
  - exists file, ctx'. rewrite F3, H. auto.
Qed.
