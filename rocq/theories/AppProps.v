(** * Properties of the FPE application functions (C33-C36, C57, C58) *)
From Verif Require Import Base CbcSpec Toy FpeModel FpeSpec FpeProofs Sm4Model Sm4Proofs AppModel AppSpec AppProofs CnProofs.
Local Open Scope nat_scope.

(** In all statements: [ciph] gives the block function of each cipher; the context comes from
    WBCRYPTO_fpe_app_init for any key, cipher name and FFX name; [j..] are initial contents of
    uninitialised memory; [after] is the caller's output buffer, which must be long enough. *)

(** ** C33 *)
(** The marked positions become other digits, the others stay, and decryption restores the number.
    The last component of a result lists the bytes written outside the local array (see C36). *)
Theorem phone_encrypt_decrypt : forall ciph clog junk0 key keylen cipher ffx ctx phone sample after after' j1 j2,
  app_init junk0 key keylen cipher ffx = Ret ctx -> block_function (ciph (a_kind ctx) (a_key ctx)) ->
  app_number phone sample -> clog_sane clog 10 (length phone) ->
  ffx_fits ffx (n_starred sample (length phone)) (S (n_kept sample (length phone))) ->
  length phone <= length after -> length phone <= length after' ->
  exists phone', same_format sample phone phone' /\
    encrypt_phone ciph clog ctx j1 phone sample after = Ret (mkres (phone' ++ skipn (length phone) after) [0%N]) /\
    decrypt_phone ciph clog ctx j2 phone' sample after' = Ret (mkres (phone ++ skipn (length phone) after') [0%N]).
Proof. exact phone_roundtrip. Qed.
Print Assumptions phone_encrypt_decrypt.
(** With FF3 and fewer than seven kept positions -- in particular with the empty sample -- the tweak
    array is read beyond its end. *)
Theorem phone_ff3_refuted : forall ciph clog junk0 key keylen cipher ffx ctx phone sample after j,
  app_init junk0 key keylen cipher ffx = Ret ctx -> ~ is_ff1 ffx -> sample = [] \/ length phone <= length sample ->
  1 <= n_starred sample (length phone) -> n_kept sample (length phone) < 7 -> length phone <= length after ->
  encrypt_phone ciph clog ctx j phone sample after = Undef.
Proof. exact phone_short_tweak. Qed.
Print Assumptions phone_ff3_refuted.

(** "13888888888" under "138****8888" *)
Definition ex_phone : list N := [49; 51; 56; 56; 56; 56; 56; 56; 56; 56; 56]%N.
Definition ex_sample : list N := [49; 51; 56; 42; 42; 42; 42; 56; 56; 56; 56]%N.
Definition ex_key : list N := map N.of_nat (seq 1 16).
(** SM4 in every role *)
Definition ex_ciph (k : cipher_kind) (key b : list N) : list N := sm4_encrypt (sm4_init_key sm4_context_init key) b.
Definition ex_ctx (ffx : list N) : app_ctx := mkapp s_sm4 ffx Sm4 ex_key.
Lemma ceil_log_sane radix n : (2 <= radix <= 36)%N -> clog_sane ceil_log radix n.
Proof.
  intros H v _. split; [lia|]. unfold ceil_log.
  assert (N.log2_up (radix ^ N.of_nat v) <= 8 * N.of_nat v)%N; [|lia].
  rewrite <- (N.log2_up_pow2 (8 * N.of_nat v)) by lia. apply N.log2_up_le_mono.
  rewrite N.pow_mul_r. apply N.pow_le_mono_l. change (2 ^ 8)%N with 256%N. lia.
Qed.
Lemma number_check num sample : forallb (fun c => c <? 256)%N num = true ->
  forallb (fun i => negb (starredb sample i) || ((48 <=? get num i) && (get num i <=? 57))%N) (seq 0 (length num)) = true ->
  (sample = [] \/ length sample = length num) -> (N.of_nat (length num) < 2 ^ 28)%N -> app_number num sample.
Proof.
  intros B D S L. split; [|split; [|split; auto]].
  - apply Forall_forall. rewrite forallb_forall in B. intros x Hx. apply N.ltb_lt. auto.
  - intros i Hi St. rewrite forallb_forall in D. specialize (D i). rewrite in_seq in D. apply starredb_spec in St. rewrite St in D.
    cbn [negb orb] in D. rewrite andb_true_iff, !N.leb_le in D. apply D. lia.
Qed.
Example phone_instance : app_init [] ex_key 16 s_sm4 s_ff1 = Ret (ex_ctx s_ff1) /\ app_number ex_phone ex_sample /\
  ffx_fits s_ff1 (n_starred ex_sample 11) (S (n_kept ex_sample 11)) /\ clog_sane ceil_log 10 11 /\
  (exists r, encrypt_phone ex_ciph ceil_log (ex_ctx s_ff1) [] ex_phone ex_sample (repeat 0%N 12) = Ret (mkres r [0%N]) /\
     r <> ex_phone ++ [0%N] /\ firstn 3 r = firstn 3 ex_phone) /\
  ffx_fits s_ff3 (n_starred ex_sample 11) (S (n_kept ex_sample 11)) /\
  encrypt_phone ex_ciph ceil_log (ex_ctx s_ff3) [] ex_phone [] (repeat 0%N 12) = Undef.
Proof.
  split; [reflexivity|]. split; [apply number_check; [reflexivity|reflexivity|right; reflexivity|reflexivity]|].
  split; [split; [vm_compute; lia|intros H; exfalso; apply H; reflexivity]|]. split; [apply ceil_log_sane; lia|].
  split; [eexists; split; [vm_compute; reflexivity|split; [vm_compute; discriminate|reflexivity]]|].
  split; [split; [intros H; unfold is_ff1, s_ff3 in H; discriminate H|vm_compute; lia]|]. vm_compute. reflexivity.
Qed.

(** ** C34 *)
(** An ID number is a body and possibly a final X, which is kept whatever the sample says. *)
Theorem idcard_encrypt_decrypt : forall ciph clog junk0 key keylen cipher ffx ctx body x sample after after' j1 j2,
  app_init junk0 key keylen cipher ffx = Ret ctx -> block_function (ciph (a_kind ctx) (a_key ctx)) ->
  x = [88%N] \/ (x = [] /\ body <> [] /\ last body 0%N <> 88%N) ->
  bytes body -> (forall i, i < length body -> starred sample i -> digit (get body i)) ->
  sample = [] \/ length body <= length sample -> (N.of_nat (length body) < 2 ^ 28)%N ->
  clog_sane clog 10 (length body) ->
  ffx_fits ffx (n_starred sample (length body)) (S (n_kept sample (length body))) ->
  length (body ++ x) <= length after -> length (body ++ x) <= length after' ->
  exists body', same_format sample body body' /\
    encrypt_idcard ciph clog ctx j1 (body ++ x) sample after = Ret (mkres (body' ++ x ++ skipn (length (body ++ x)) after) [0%N]) /\
    decrypt_idcard ciph clog ctx j2 (body' ++ x) sample after' = Ret (mkres (body ++ x ++ skipn (length (body ++ x)) after') [0%N]).
Proof. exact idcard_roundtrip. Qed.
Print Assumptions idcard_encrypt_decrypt.
Theorem idcard_ff3_refuted : forall ciph clog junk0 key keylen cipher ffx ctx body x sample after j,
  app_init junk0 key keylen cipher ffx = Ret ctx -> ~ is_ff1 ffx ->
  x = [88%N] \/ (x = [] /\ body <> [] /\ last body 0%N <> 88%N) -> sample = [] \/ length body <= length sample ->
  1 <= n_starred sample (length body) -> n_kept sample (length body) < 7 -> length (body ++ x) <= length after ->
  encrypt_idcard ciph clog ctx j (body ++ x) sample after = Undef.
Proof. exact idcard_short_tweak. Qed.
Print Assumptions idcard_ff3_refuted.
(** "40000000000000000X" under "4412**********1234": the X stays *)
Definition ex_id : list N := (52 :: repeat 48 16)%N.
Definition ex_id_sample : list N := [52; 52; 49; 50; 42; 42; 42; 42; 42; 42; 42; 42; 42; 42; 49; 50; 51; 52]%N.
Example idcard_instance :
  bytes ex_id /\ (forall i, i < length ex_id -> starred ex_id_sample i -> digit (get ex_id i)) /\
  ffx_fits s_ff1 (n_starred ex_id_sample 17) (S (n_kept ex_id_sample 17)) /\
  exists r, encrypt_idcard ex_ciph ceil_log (ex_ctx s_ff1) [] (ex_id ++ [88%N]) ex_id_sample (repeat 0%N 19) = Ret (mkres r [0%N]) /\
     length r = 19 /\ skipn 14 r = [48; 48; 48; 88; 0]%N /\ firstn 17 r <> ex_id.
Proof.
  assert (A : app_number ex_id (firstn 17 ex_id_sample)) by (apply number_check; [reflexivity|reflexivity|right; reflexivity|reflexivity]).
  split; [apply A|]. split.
  { intros i Hi [H|H]; [discriminate|]. apply A; auto. right. 
    assert (i < 17) as Hi' by exact Hi. clear Hi. do 17 (destruct i as [|i]; [exact H|]). lia. }
  split; [split; [vm_compute; lia|intros H; exfalso; apply H; reflexivity]|].
  eexists. split; [vm_compute; reflexivity|]. split; [reflexivity|]. split; [reflexivity|vm_compute; discriminate].
Qed.

(** ** C35 *)
(** Text over U+4E00 .. U+9EFF, one mark per character: marked characters are replaced by characters of
    the same range, the others are kept, and decryption restores the text. *)
Theorem cn_encrypt_decrypt : forall ciph clog junk0 key keylen cipher ffx ctx text ms sample after after' j1 j2 ji1 jt1 ji2 jt2,
  app_init junk0 key keylen cipher ffx = Ret ctx -> block_function (ciph (a_kind ctx) (a_key ctx)) ->
  cn_sample text ms sample -> Forall han text -> (N.of_nat (length text) < 2 ^ 26)%N ->
  clog_sane clog 12 (4 * length text) -> 1 <= n_stars ms ->
  ffx_fits ffx (4 * n_stars ms) (S (4 * n_keeps ms)) ->
  length (utf8 text) <= length after -> length (utf8 text) <= length after' ->
  exists text', length text' = length text /\ Forall han text' /\
    (forall i cp, nth_error ms i = Some (Keep cp) -> get text' i = get text i) /\
    encrypt_cn ciph clog ctx j1 ji1 jt1 (utf8 text) sample after = Ret (mkres (utf8 text' ++ skipn (length (utf8 text)) after) [0%N]) /\
    decrypt_cn ciph clog ctx j2 ji2 jt2 (utf8 text') sample after' = Ret (mkres (utf8 text ++ skipn (length (utf8 text)) after') [0%N]).
Proof. exact cn_roundtrip. Qed.
Print Assumptions cn_encrypt_decrypt.
(** U+5E7F U+4E1C U+7701, the middle one kept *)
Definition ex_text : list N := [0x5E7F; 0x4E1C; 0x7701]%N.
Definition ex_marks : list mark := [Star; Keep 0x4E1C; Star].
Example cn_instance : cn_sample ex_text ex_marks (marks_string ex_marks) /\ Forall han ex_text /\
  ffx_fits s_ff1 (4 * n_stars ex_marks) (S (4 * n_keeps ex_marks)) /\
  exists r, encrypt_cn ex_ciph ceil_log (ex_ctx s_ff1) [] [] [] (utf8 ex_text) (marks_string ex_marks) (repeat 0%N 9) =
    Ret (mkres r [0%N]) /\ length r = 9 /\ firstn 3 (skipn 3 r) = utf8 [0x4E1C%N] /\ firstn 3 r <> utf8 [0x5E7F%N].
Proof.
  split; [right; split; [reflexivity|split; [reflexivity|repeat constructor; cbn; lia]]|].
  split; [repeat constructor; unfold han; lia|].
  split; [split; [vm_compute; lia|intros H; exfalso; apply H; reflexivity]|].
  eexists. split; [vm_compute; reflexivity|]. split; [reflexivity|]. split; [vm_compute; reflexivity|vm_compute; discriminate].
Qed.

(** ** C58 *)
(** A kept character outside U+4E00 .. U+9EFF, here U+FF08, puts nothing into the tweak: the
    uninitialised array is used, and decryption need not restore the text. *)
Definition ex_text2 : list N := [0x5E7F; 0xFF08; 0x7701]%N.
Theorem cn_other_kept_refuted : exists ct ms, 
  cn_sample ex_text2 ms (marks_string ms) /\ ms = [Star; Keep 0xFF08%N; Star] /\
  encrypt_cn ex_ciph ceil_log (ex_ctx s_ff1) [] [] [] (utf8 ex_text2) (marks_string ms) (repeat 0%N 9) = Ret (mkres ct [0%N]) /\
  decrypt_cn ex_ciph ceil_log (ex_ctx s_ff1) [] [] [] ct (marks_string ms) (repeat 0%N 9) = Ret (mkres (utf8 ex_text2) [0%N]) /\
  exists pt, decrypt_cn ex_ciph ceil_log (ex_ctx s_ff1) [] [] [7%N] ct (marks_string ms) (repeat 0%N 9) = Ret (mkres pt [0%N]) /\
             pt <> utf8 ex_text2.
Proof.
  eexists. exists [Star; Keep 0xFF08%N; Star]. split; [right; split; [reflexivity|split; [reflexivity|repeat constructor; cbn; lia]]|].
  split; [reflexivity|]. split; [vm_compute; reflexivity|]. split; [vm_compute; reflexivity|].
  eexists. split; [vm_compute; reflexivity|vm_compute; discriminate].
Qed.
Print Assumptions cn_other_kept_refuted.

(** ** C36 *)
(** Every successful call writes one byte, the terminator, past the end of a local array. *)
Theorem app_overflow_refuted : forall ciph clog junk0 key keylen cipher ffx ctx,
  app_init junk0 key keylen cipher ffx = Ret ctx -> block_function (ciph (a_kind ctx) (a_key ctx)) ->
  (forall phone sample after j, app_number phone sample -> clog_sane clog 10 (length phone) ->
     ffx_fits ffx (n_starred sample (length phone)) (S (n_kept sample (length phone))) -> length phone <= length after ->
     exists r, encrypt_phone ciph clog ctx j phone sample after = Ret r /\ r_stray r = [0%N]) /\
  (forall id sample after j, app_number id sample -> id <> [] -> last id 0%N <> 88%N -> clog_sane clog 10 (length id) ->
     ffx_fits ffx (n_starred sample (length id)) (S (n_kept sample (length id))) -> length id <= length after ->
     exists r, encrypt_idcard ciph clog ctx j id sample after = Ret r /\ r_stray r = [0%N]) /\
  (forall text ms sample after j ji jt, cn_sample text ms sample -> Forall han text -> (N.of_nat (length text) < 2 ^ 26)%N ->
     clog_sane clog 12 (4 * length text) -> 1 <= n_stars ms -> ffx_fits ffx (4 * n_stars ms) (S (4 * n_keeps ms)) ->
     length (utf8 text) <= length after ->
     exists r, encrypt_cn ciph clog ctx j ji jt (utf8 text) sample after = Ret r /\ r_stray r = [0%N]).
Proof. exact app_overflow_refuted_lemma. Qed.
Print Assumptions app_overflow_refuted.

(** ** C57 *)
(** The first sixteen key bytes determine the context; unknown cipher names mean AES. *)
Theorem app_init_key : forall junk key keylen cipher ffx, length junk = 16 -> 16 <= keylen -> 16 <= length key ->
  exists ctx, app_init junk key keylen cipher ffx = Ret ctx /\ a_key ctx = firstn 16 key /\ a_ffx ctx = ffx /\
    (cipher <> s_sm4 -> cipher <> s_wbsm4 -> cipher <> s_wbaes -> a_kind ctx = Aes) /\
    (cipher = s_sm4 -> a_kind ctx = Sm4) /\ (cipher = s_wbsm4 -> a_kind ctx = Wbsm4) /\ (cipher = s_wbaes -> a_kind ctx = Wbaes).
Proof. exact app_init_key_lemma. Qed.
Print Assumptions app_init_key.
(** A shorter key is completed with uninitialised memory: two calls with the same arguments can give
    different keys (the other functions normalise short keys, C23). *)
Theorem app_init_short_key_refuted : forall key keylen cipher ffx, keylen < 16 -> keylen <= length key ->
  exists junk1 junk2 c1 c2, length junk1 = 16 /\ length junk2 = 16 /\
    app_init junk1 key keylen cipher ffx = Ret c1 /\ app_init junk2 key keylen cipher ffx = Ret c2 /\ a_key c1 <> a_key c2.
Proof. exact app_init_short_key_refuted_lemma. Qed.
Print Assumptions app_init_short_key_refuted.
Example app_init_instance : app_init (repeat 9%N 16) [1; 2; 3]%N 3 [120%N] s_ff3 = Ret (mkapp [120%N] s_ff3 Aes ([1; 2; 3] ++ repeat 9 13)%N).
Proof. reflexivity. Qed.

From Coq Require Import Strings.String Strings.Ascii.
(** the characters of a literal *)
Definition chars (s : string) : list N := map N_of_ascii (list_ascii_of_string s).
(** the names a caller writes *)
Example app_names : [s_aes; s_wbaes; s_sm4; s_wbsm4; s_ff1; s_ff3] = map chars ["aes"; "wbaes"; "sm4"; "wbsm4"; "ff1"; "ff3"]%string.
Proof. reflexivity. Qed.
