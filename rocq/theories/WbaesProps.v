(** * Properties of white-box AES (C45, C65), its modes (C66), and format-preserving encryption over the library's ciphers (C67) *)
From Verif Require Import Base CbcModel CbcSpec CbcProofs GcmModel GcmSpec GcmProofs FileModel FileProofs CipherExt Sm4Model Sm4Spec Sm4Proofs FpeModel FpeSpec FpeProofs FpeExt Wbsm4Spec Wbsm4Thms Wbsm4Props AesSpec AesModel AesProofs AesProps WbaesModel WbaesProofs WbaesThms.
From Coq Require Import ZArith.
Local Open Scope nat_scope.
Local Opaque wbaes_gen_table wbaes_encrypt.

(** ** C45 *)
(** Generation succeeds whatever the random numbers and the contents of the memory, and the tables compute AES-128
    under the first sixteen bytes of the key, on every block. *)
Theorem wbaes_conforms : forall rnd junk key, bytes key -> 16 <= length key ->
  exists ctx, wbaes_gen_table rnd junk key = Ret ctx /\ forall b, block16 b -> wbaes_encrypt ctx b = aes_encrypt (firstn 16 key) b.
Proof. exact wbaes_conforms_lemma. Qed.
Print Assumptions wbaes_conforms.
(** the example of FIPS 197 through the white box *)
Example wbaes_fips_vector : forall rnd junk, exists ctx, wbaes_gen_table rnd junk fips_key = Ret ctx /\
  wbaes_encrypt ctx fips_block = N_to_be 16 0x3925841d02dc09fbdc118597196a0b32.
Proof.
  intros rnd junk. destruct (wbaes_conforms rnd junk fips_key (bytes_N_to_be _ _) (Nat.le_refl _)) as (ctx & E1 & E2). exists ctx. split; [exact E1|].
  rewrite E2 by (split; [reflexivity|apply bytes_N_to_be]). vm_compute. reflexivity.
Qed.
(** Two contexts generated for the same key from different random numbers encrypt alike, and what one encrypts
    standard AES decrypts. *)
Theorem wbaes_randomness_irrelevant : forall rnd rnd' junk junk' key ctx ctx' b, bytes key -> block16 b ->
  wbaes_gen_table rnd junk key = Ret ctx -> wbaes_gen_table rnd' junk' key = Ret ctx' ->
  wbaes_encrypt ctx b = wbaes_encrypt ctx' b /\ aes_decrypt (firstn 16 key) (wbaes_encrypt ctx b) = b.
Proof. exact wbaes_randomness_irrelevant_lemma. Qed.
Print Assumptions wbaes_randomness_irrelevant.

(** ** C65 *)
(** A key of fewer than sixteen bytes is read past its end; there is no way to tell the function its length. *)
Theorem wbaes_short_key_refuted : forall rnd junk key, length key < 16 -> wbaes_gen_table rnd junk key = Undef.
Proof. exact wbaes_short_key_refuted_lemma. Qed.
Print Assumptions wbaes_short_key_refuted.

(** ** C66: the modes *)
Theorem wbaes_gcm_conforms : forall rnd junk key ctx d iv aad p t, bytes key -> wbaes_gen_table rnd junk key = Ret ctx -> bytes iv -> bytes aad -> bytes p ->
  (8 * N.of_nat (length iv) < 2 ^ 32)%N -> (8 * N.of_nat (length aad) < 2 ^ 64)%N ->
  (N.of_nat (length p) <= 2147483647)%N -> t <= 16 ->
  let E := aes_encrypt (firstn 16 key) in
  let o := gctr E (inc32 (J0 E iv)) p in
  gcm_session d (lift (wbaes_encrypt ctx)) iv aad [p] t = Some (o, gcm_tag E iv aad (match d with Enc => o | Dec => p end) t).
Proof. exact wbaes_gcm_conforms_lemma. Qed.
Print Assumptions wbaes_gcm_conforms.
Theorem wbaes_cbc_conforms : forall rnd junk key ctx m out cap iv, bytes key -> wbaes_gen_table rnd junk key = Ret ctx -> bytes m -> block16 iv ->
  (N.of_nat (length (lib_padded m)) <= int_max)%N -> length (lib_padded m) <= cap -> length out = cap ->
  wrapper_cbc_encrypt false (lift (wbaes_encrypt ctx)) m out cap iv =
  Some {| cr_ret := true;
          cr_out := cbc_encrypt_bytes (aes_encrypt (firstn 16 key)) iv (lib_padded m) ++ skipn (length (lib_padded m)) out;
          cr_use := Some (N.of_nat (length (lib_padded m)));
          cr_iv := iv |}.
Proof. exact wbaes_cbc_conforms_lemma. Qed.
Print Assumptions wbaes_cbc_conforms.
(** GCM files written with the white box are AES-GCM containers. *)
Theorem wbaes_gcmfile_conforms : forall rnd junk key ctx tag0 iv aad wr fs inf encf up data c, bytes key -> wbaes_gen_table rnd junk key = Ret ctx ->
  bytes iv -> bytes aad -> bytes data -> fs inf = Some data ->
  inf <> encf -> inf <> tmp_path encf -> wr encf = true -> wr (tmp_path encf) = true ->
  (8 * N.of_nat (length iv) < 2 ^ 32)%N -> (8 * N.of_nat (length aad) < 2 ^ 64)%N ->
  (N.of_nat (length data) <= 2147483647)%N ->
  gcmfile_open (lift (wbaes_encrypt ctx)) tag0 iv aad = Some c ->
  let E := aes_encrypt (firstn 16 key) in
  let ct := gctr E (inc32 (J0 E iv)) data in
  exists c1 fs1, gcmfile_encrypt (lift (wbaes_encrypt ctx)) wr fs c inf encf up = Some (true, c1, fs1) /\
    fs1 encf = Some (gcm_tag E iv aad ct 16 ++ N_to_le 4 (N.of_nat (length data)) ++ up ++ ct).
Proof. exact wbaes_gcmfile_conforms_lemma. Qed.
Print Assumptions wbaes_gcmfile_conforms.
(** test case 2 of the GCM specification through the white box *)
Example wbaes_gcm_vector : forall rnd junk, exists ctx, wbaes_gen_table rnd junk (repeat 0%N 16) = Ret ctx /\
  gcm_session Enc (lift (wbaes_encrypt ctx)) (repeat 0%N 12) [] [repeat 0%N 16] 16 =
  Some (N_to_be 16 0x0388dace60b6a392f328c2b971b2fe78, N_to_be 16 0xab6e47d42cec13bdf53a67b21257bddf).
Proof.
  intros rnd junk. assert (B : bytes (repeat 0%N 16)) by (apply bytes_repeat; reflexivity).
  destruct (wbaes_conforms rnd junk (repeat 0%N 16) B (Nat.le_refl _)) as (ctx & E1 & _). exists ctx. split; [exact E1|].
  rewrite (wbaes_gcm_conforms rnd junk (repeat 0%N 16) ctx Enc) by (try exact E1; try apply bytes_repeat; try (repeat constructor); try reflexivity; cbn [length repeat]; lia).
  vm_compute. reflexivity.
Qed.

(** ** C67 *)
(** FF1 and FF3 over each cipher of the library are FF1 and FF3 of SP 800-38G over the standard cipher (for FF3 the
    standard's CIPH is the cipher under the reversed key, so the key to give the library is the reversed one). *)
Definition ff1_over (F E : list N -> list N) : Prop := forall clog radix T c s junk,
  ff1_limits clog radix T (length s) -> ~ ff1_bad_tweak clog radix T (length s) ->
  (let v := length s - length s / 2 in clog radix v = ceil_log radix v) -> numeral_string radix s -> fpe_init T radix = Some c ->
  ff1_encrypt F clog c junk s = Ret (map char_of (FF1_Encrypt E radix T (map digit_of s)) ++ [0%N]) /\
  ff1_decrypt F clog c junk s = Ret (map char_of (FF1_Decrypt E radix T (map digit_of s)) ++ [0%N]).
Definition ff3_over (F E : list N -> list N) : Prop := forall clog radix T c s, bytes T ->
  ff3_limits clog radix T (length s) -> (radix ^ N.of_nat (ceil_div (length s) 2) <= 2 ^ 96)%N -> numeral_string radix s -> fpe_init T radix = Some c ->
  ff3_encrypt F clog c s = Ret (map char_of (FF3_Encrypt E radix (firstn 8 T) (map digit_of s)) ++ [0%N]) /\
  ff3_decrypt F clog c s = Ret (map char_of (FF3_Decrypt E radix (firstn 8 T) (map digit_of s)) ++ [0%N]).
Theorem fpe_over_sm4 : forall key, bytes key -> let F := sm4_encrypt (sm4_init_key sm4_context_init key) in
  ff1_over F (std_encrypt (normal_key key)) /\ ff3_over F (std_encrypt (normal_key key)).
Proof. exact fpe_over_sm4_lemma. Qed.
Print Assumptions fpe_over_sm4.
Theorem fpe_over_wbsm4 : forall ctx em key, holds ctx em key -> em <> 0%Z ->
  ff1_over (wb_run ctx) (std_encrypt (normal_key key)) /\ ff3_over (wb_run ctx) (std_encrypt (normal_key key)).
Proof. exact fpe_over_wbsm4_lemma. Qed.
Print Assumptions fpe_over_wbsm4.
Theorem fpe_over_aes : forall buf keylen k, bytes buf -> 16 <= length buf -> aes_init_key buf keylen = Ret k ->
  ff1_over (wrapper_aes_encrypt k) (aes_encrypt (firstn 16 buf)) /\ ff3_over (wrapper_aes_encrypt k) (aes_encrypt (firstn 16 buf)).
Proof. exact fpe_over_aes_lemma. Qed.
Print Assumptions fpe_over_aes.
Theorem fpe_over_wbaes : forall rnd junk key ctx, bytes key -> wbaes_gen_table rnd junk key = Ret ctx ->
  ff1_over (wbaes_encrypt ctx) (aes_encrypt (firstn 16 key)) /\ ff3_over (wbaes_encrypt ctx) (aes_encrypt (firstn 16 key)).
Proof. exact fpe_over_wbaes_lemma. Qed.
Print Assumptions fpe_over_wbaes.
(** NIST's FF1 sample 1: radix 10, no tweak, 0123456789 -> 2433477484 *)
Definition ff1_sample : list N := [48; 49; 50; 51; 52; 53; 54; 55; 56; 57]%N.
Example wbaes_ff1_sample : forall rnd junk j, exists ctx c, wbaes_gen_table rnd junk fips_key = Ret ctx /\ fpe_init [] 10 = Some c /\
  ff1_encrypt (wbaes_encrypt ctx) ceil_log c j ff1_sample = Ret [50; 52; 51; 51; 52; 55; 55; 52; 56; 52; 0]%N.
Proof.
  intros rnd junk j. destruct (wbaes_conforms rnd junk fips_key (bytes_N_to_be _ _) (Nat.le_refl _)) as (ctx & E1 & _). exists ctx. eexists. split; [exact E1|]. split; [reflexivity|].
  assert (L : ff1_limits ceil_log 10 [] (length ff1_sample)).
  { unfold ff1_limits. cbv zeta. change (length ff1_sample) with 10. change (10 - 10 / 2) with 5. replace (ceil_log 10 5) with 17 by (vm_compute; reflexivity).
    change (ceil_div 17 8) with 3. change (2 ^ 31)%N with 2147483648%N. change (2 ^ 30)%N with 1073741824%N. cbn [length].
    split; [lia|]. split; [constructor|]. repeat split; lia. }
  assert (NB : ~ ff1_bad_tweak ceil_log 10 [] (length ff1_sample)) by (intros [_ H]; vm_compute in H; discriminate).
  assert (NS : numeral_string 10 ff1_sample) by (apply numeral_check; vm_compute; reflexivity).
  destruct (fpe_over_wbaes rnd junk fips_key ctx (bytes_N_to_be _ _) E1) as [F1 _].
  destruct (F1 ceil_log 10%N [] _ ff1_sample j L NB eq_refl NS eq_refl) as [E _]. etransitivity; [exact E|]. vm_compute. reflexivity.
Qed.
(** NIST's FF3 sample 1: key EF4359D8..., tweak D8E7920AFA330A73, 890121234567890000 -> 750918814058654607 *)
Definition ff3_sample : list N := [56; 57; 48; 49; 50; 49; 50; 51; 52; 53; 54; 55; 56; 57; 48; 48; 48; 48]%N.
Definition ff3_key : list N := N_to_be 16 0x946AFC046F6D037F4FAA80D5D85943EF.
Definition ff3_tweak : list N := N_to_be 8 0xD8E7920AFA330A73.
Example aes_ff3_sample : exists k c,
  aes_init_key ff3_key 16 = Ret k /\ fpe_init ff3_tweak 10 = Some c /\
  ff3_encrypt (wrapper_aes_encrypt k) ceil_log c ff3_sample =
  Ret [55; 53; 48; 57; 49; 56; 56; 49; 52; 48; 53; 56; 54; 53; 52; 54; 48; 55; 0]%N.
Proof.
  destruct (aes_encrypt_conforms ff3_key 16 [] (Nat.le_refl _) (Nat.le_refl _)) as (k & E1 & _). exists k. eexists. split; [exact E1|]. split; [reflexivity|].
  assert (B : bytes ff3_tweak) by apply bytes_N_to_be.
  assert (L : ff3_limits ceil_log 10 ff3_tweak (length ff3_sample)).
  { unfold ff3_limits. cbv zeta. repeat split; try (vm_compute; congruence); change (length ff3_sample) with 18; change (length ff3_tweak) with 8; lia. }
  assert (NB : (10 ^ N.of_nat (ceil_div (length ff3_sample) 2) <= 2 ^ 96)%N) by (vm_compute; discriminate).
  assert (NS : numeral_string 10 ff3_sample) by (apply numeral_check; vm_compute; reflexivity).
  destruct (fpe_over_aes ff3_key 16 k (bytes_N_to_be _ _) (Nat.le_refl _) E1) as [_ F3].
  destruct (F3 ceil_log 10%N ff3_tweak _ ff3_sample B L NB NS eq_refl) as [E _]. etransitivity; [exact E|]. vm_compute. reflexivity.
Qed.
