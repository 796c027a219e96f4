(** * White-box AES: the modes *)
From Verif Require Import Base CbcModel CbcSpec CbcProofs GcmModel GcmSpec GcmProofs FileModel FileProofs CipherExt Sm4Model Sm4Spec Sm4Proofs FpeModel FpeSpec FpeProofs FpeExt Wbsm4Spec Wbsm4Thms AesSpec AesModel AesProofs WbaesModel WbaesProofs.
From Coq Require Import ZArith.
Local Open Scope nat_scope.
Local Opaque wbaes_encrypt aes_encrypt aes_decrypt.
Lemma wbaes_agrees rnd junk key ctx : bytes key -> wbaes_gen_table rnd junk key = Ret ctx ->
  agree (wbaes_encrypt ctx) (aes_encrypt (firstn 16 key)) /\ block_function (aes_encrypt (firstn 16 key)) /\ block16 (firstn 16 key).
Proof.
  intros B E. destruct (Nat.lt_ge_cases (length key) 16) as [L|L]; [rewrite wbaes_short_key_refuted_lemma in E by exact L; discriminate|].
  destruct (wbaes_conforms_lemma rnd junk key B L) as (ctx' & E' & H). rewrite E in E'. apply Ret_inj in E'. subst ctx'.
  assert (K : block16 (firstn 16 key)) by now apply K16. split; [exact H|]. split; [|exact K]. intros b Bb. now apply block16_aes_encrypt.
Qed.
Local Opaque wbaes_gen_table.
Lemma wbaes_randomness_irrelevant_lemma rnd rnd' junk junk' key ctx ctx' b : bytes key -> block16 b ->
  wbaes_gen_table rnd junk key = Ret ctx -> wbaes_gen_table rnd' junk' key = Ret ctx' ->
  wbaes_encrypt ctx b = wbaes_encrypt ctx' b /\ aes_decrypt (firstn 16 key) (wbaes_encrypt ctx b) = b.
Proof.
  intros B Bb E E'. destruct (wbaes_agrees _ _ _ _ B E) as (A & _ & K). destruct (wbaes_agrees _ _ _ _ B E') as (A' & _ & _).
  rewrite (A b Bb), (A' b Bb). split; [reflexivity|]. now apply aes_decrypt_encrypt.
Qed.
Lemma wbaes_gcm_conforms_lemma rnd junk key ctx d iv aad p t : bytes key -> wbaes_gen_table rnd junk key = Ret ctx -> bytes iv -> bytes aad -> bytes p ->
  (8 * N.of_nat (length iv) < 2 ^ 32)%N -> (8 * N.of_nat (length aad) < 2 ^ 64)%N ->
  (N.of_nat (length p) <= 2147483647)%N -> t <= 16 ->
  let E := aes_encrypt (firstn 16 key) in
  let o := gctr E (inc32 (J0 E iv)) p in
  gcm_session d (lift (wbaes_encrypt ctx)) iv aad [p] t = Some (o, gcm_tag E iv aad (match d with Enc => o | Dec => p end) t).
Proof. intros B E. destruct (wbaes_agrees _ _ _ _ B E) as (A & F & _). intros. now apply gcm_session_impl. Qed.
Lemma wbaes_cbc_conforms_lemma rnd junk key ctx m out cap iv : bytes key -> wbaes_gen_table rnd junk key = Ret ctx -> bytes m -> block16 iv ->
  (N.of_nat (length (lib_padded m)) <= int_max)%N -> length (lib_padded m) <= cap -> length out = cap ->
  wrapper_cbc_encrypt false (lift (wbaes_encrypt ctx)) m out cap iv =
  Some {| cr_ret := true;
          cr_out := cbc_encrypt_bytes (aes_encrypt (firstn 16 key)) iv (lib_padded m) ++ skipn (length (lib_padded m)) out;
          cr_use := Some (N.of_nat (length (lib_padded m)));
          cr_iv := iv |}.
Proof. intros B E. destruct (wbaes_agrees _ _ _ _ B E) as (A & F & _). intros. now apply cbc_encrypt_impl. Qed.
(** GCM files with an implementation [F] of the block function [E] *)
Lemma gcmfile_impl E F tag0 iv aad wr fs inf encf up data c : agree F E -> block_function E ->
  bytes iv -> bytes aad -> bytes data -> fs inf = Some data ->
  inf <> encf -> inf <> tmp_path encf -> wr encf = true -> wr (tmp_path encf) = true ->
  (8 * N.of_nat (length iv) < 2 ^ 32)%N -> (8 * N.of_nat (length aad) < 2 ^ 64)%N ->
  (N.of_nat (length data) <= 2147483647)%N ->
  gcmfile_open (lift F) tag0 iv aad = Some c ->
  let ct := gctr E (inc32 (J0 E iv)) data in
  exists c1 fs1, gcmfile_encrypt (lift F) wr fs c inf encf up = Some (true, c1, fs1) /\
    fs1 encf = Some (gcm_tag E iv aad ct 16 ++ N_to_le 4 (N.of_nat (length data)) ++ up ++ ct).
Proof.
  intros A HE Hiv Haad Hd Hf N1 N2 W1 W2 L1 L2 L3 O. cbv zeta. assert (HF : block_function F) by (eapply agree_block; eauto).
  destruct (gcmfile_conforms_lemma F tag0 iv aad wr fs inf encf up data c HF Hiv Haad Hd Hf N1 N2 W1 W2 L1 L2 L3 O) as (c1 & fs1 & E1 & _ & E2).
  exists c1, fs1. split; [exact E1|]. rewrite E2. unfold gcm_ciphertext.
  rewrite (J0_ext F E) by auto. rewrite (gctr_ext F E) by (auto; apply inc32_block, J0_block; auto). rewrite (gcm_tag_ext F E) by auto. reflexivity.
Qed.
Lemma wbaes_gcmfile_conforms_lemma rnd junk key ctx tag0 iv aad wr fs inf encf up data c : bytes key -> wbaes_gen_table rnd junk key = Ret ctx ->
  bytes iv -> bytes aad -> bytes data -> fs inf = Some data ->
  inf <> encf -> inf <> tmp_path encf -> wr encf = true -> wr (tmp_path encf) = true ->
  (8 * N.of_nat (length iv) < 2 ^ 32)%N -> (8 * N.of_nat (length aad) < 2 ^ 64)%N ->
  (N.of_nat (length data) <= 2147483647)%N ->
  gcmfile_open (lift (wbaes_encrypt ctx)) tag0 iv aad = Some c ->
  let E := aes_encrypt (firstn 16 key) in
  let ct := gctr E (inc32 (J0 E iv)) data in
  exists c1 fs1, gcmfile_encrypt (lift (wbaes_encrypt ctx)) wr fs c inf encf up = Some (true, c1, fs1) /\
    fs1 encf = Some (gcm_tag E iv aad ct 16 ++ N_to_le 4 (N.of_nat (length data)) ++ up ++ ct).
Proof. intros B E. destruct (wbaes_agrees _ _ _ _ B E) as (A & F & _). intros. eapply gcmfile_impl; eauto. Qed.
(** format-preserving encryption *)
Definition fpe_over (F E : list N -> list N) : Prop :=
  (forall clog radix T c s junk,
  ff1_limits clog radix T (length s) -> ~ ff1_bad_tweak clog radix T (length s) ->
  (let v := length s - length s / 2 in clog radix v = ceil_log radix v) -> numeral_string radix s -> fpe_init T radix = Some c ->
  ff1_encrypt F clog c junk s = Ret (map char_of (FF1_Encrypt E radix T (map digit_of s)) ++ [0%N]) /\
  ff1_decrypt F clog c junk s = Ret (map char_of (FF1_Decrypt E radix T (map digit_of s)) ++ [0%N])) /\
  (forall clog radix T c s, bytes T ->
  ff3_limits clog radix T (length s) -> (radix ^ N.of_nat (ceil_div (length s) 2) <= 2 ^ 96)%N -> numeral_string radix s -> fpe_init T radix = Some c ->
  ff3_encrypt F clog c s = Ret (map char_of (FF3_Encrypt E radix (firstn 8 T) (map digit_of s)) ++ [0%N]) /\
  ff3_decrypt F clog c s = Ret (map char_of (FF3_Decrypt E radix (firstn 8 T) (map digit_of s)) ++ [0%N])).
Lemma fpe_over_impl F E : agree F E -> block_function E -> fpe_over F E.
Proof. intros A H. split; intros; [now apply ff1_impl|now apply ff3_impl]. Qed.
Lemma fpe_over_wbaes_lemma rnd junk key ctx : bytes key -> wbaes_gen_table rnd junk key = Ret ctx -> fpe_over (wbaes_encrypt ctx) (aes_encrypt (firstn 16 key)).
Proof. intros B E. destruct (wbaes_agrees _ _ _ _ B E) as (A & F & _). now apply fpe_over_impl. Qed.
Lemma fpe_over_aes_lemma buf keylen k : bytes buf -> 16 <= length buf -> aes_init_key buf keylen = Ret k -> fpe_over (wrapper_aes_encrypt k) (aes_encrypt (firstn 16 buf)).
Proof. intros B L E. destruct (aes_wrapper_agrees buf keylen k L B E). now apply fpe_over_impl. Qed.
Lemma fpe_over_sm4_lemma key : bytes key -> fpe_over (sm4_encrypt (sm4_init_key sm4_context_init key)) (std_encrypt (normal_key key)).
Proof. intros B. apply fpe_over_impl; [exact (sm4_agree key B)|]. intros b _. apply st_to_block. Qed.
Lemma fpe_over_wbsm4_lemma ctx em key : holds ctx em key -> em <> 0%Z -> fpe_over (wb_run ctx) (std_encrypt (normal_key key)).
Proof.
  intros H NE. apply fpe_over_impl.
  - intros b Hb. unfold wb_run. rewrite (H b Hb). unfold sm4_for. now rewrite (proj2 (Z.eqb_neq em 0) NE).
  - intros b _. apply st_to_block.
Qed.
