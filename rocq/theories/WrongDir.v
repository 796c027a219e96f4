(** * White-box SM4 contexts used in the wrong direction *)
From Verif Require Import Base CbcModel CbcSpec CbcProofs CbcBlocks GcmModel GcmSpec GcmProofs CipherExt Sm4Model Sm4Spec Sm4Proofs FpeModel MatModel Wbsm4Model Wbsm4Spec Wbsm4Proofs Wbsm4Enc Wbsm4Thms SewbModel SewbProofs.
From Coq Require Import ZArith.
Local Open Scope nat_scope.
#[local] Opaque wbsm4_encrypt se_encrypt.
Lemma run_for ctx em key : holds ctx em key -> agree (wb_run ctx) (sm4_for em key).
Proof. intros H b Bb. unfold wb_run. now rewrite (H b Bb). Qed.
Lemma for_block em key : block_function (sm4_for em key).
Proof. intros b _. unfold sm4_for. destruct (em =? 0)%Z; [unfold std_decrypt|unfold std_encrypt]; apply st_to_block. Qed.
#[local] Opaque std_encrypt std_decrypt.
Lemma wrong_block_lemma ctx em key b c : holds ctx em key -> em <> 0%Z -> block16 b -> wbsm4_encrypt ctx b = Ret c ->
  wbsm4_decrypt ctx c = Ret (std_encrypt (normal_key key) (std_encrypt (normal_key key) b)).
Proof.
  intros H NE Bb E. apply Z.eqb_neq in NE. rewrite (H b Bb) in E. injection E as <-. unfold wbsm4_decrypt. rewrite (H _ (for_block em key b Bb)).
  unfold sm4_for. now rewrite NE.
Qed.
Lemma wrong_se_lemma rnd em key ctx b : bytes key -> em <> 0%Z -> se_gen_table rnd (se_context_init em) key = Ret ctx -> block16 b ->
  se_decrypt ctx (se_encrypt ctx b) = std_encrypt (normal_key key) (std_encrypt (normal_key key) b).
Proof.
  intros B NE E Bb. apply Z.eqb_neq in NE. destruct (se_wbsm4_conforms_lemma rnd (se_context_init em) key B) as (ctx' & E' & C).
  assert (ctx' = ctx) by congruence. subst ctx'. rewrite (proj1 (C b Bb)). rewrite (proj2 (C _ (for_block _ key b Bb))).
  unfold sm4_for. change (se_encmode (se_context_init em)) with em. now rewrite NE.
Qed.
Lemma wrong_gcm_lemma ctx d key iv aad p t : holds ctx 0 key -> bytes iv -> bytes aad -> bytes p ->
  (8 * N.of_nat (length iv) < 2 ^ 32)%N -> (8 * N.of_nat (length aad) < 2 ^ 64)%N -> (N.of_nat (length p) <= 2147483647)%N -> t <= 16 ->
  let D := std_decrypt (normal_key key) in
  let o := gctr D (inc32 (J0 D iv)) p in
  gcm_session d (lift (wb_run ctx)) iv aad [p] t = Some (o, gcm_tag D iv aad (match d with Enc => o | Dec => p end) t).
Proof.
  intros H Hiv Ha Hp L1 L2 L3 Ht. apply gcm_session_impl; try assumption.
  - exact (run_for ctx 0 key H).
  - exact (for_block 0 key).
Qed.
Lemma blk16_block c k : bytes c -> 16 * S k <= length c -> block16 (blk16 c k).
Proof. intros B L. unfold blk16. split; [rewrite firstn_length, skipn_length; lia|apply bytes_firstn; now apply bytes_skipn]. Qed.
Lemma wrong_cbc_lemma ctx em key c post out cap iv : holds ctx em key -> em <> 0%Z -> bytes c -> block16 iv -> length c mod 16 = 0 ->
  (N.of_nat (length c) <= int_max)%N -> length c <= cap -> length out = cap ->
  exists r, cbc128_decrypt (lift (wb_run ctx)) (c ++ post) (length c) out cap iv = Some r /\ cr_ret r = true /\
    forall k, 16 * S k <= length c -> blk16 (cr_out r) k = xorl (std_encrypt (normal_key key) (blk16 c k)) (chained iv c k).
Proof.
  intros H NE B BI M L1 L2 L3. pose proof (run_for ctx em key H) as A.
  assert (HF : block_function (wb_run ctx)) by (eapply agree_block; [exact A|apply for_block]).
  destruct (cbc_decrypt_blocks_lemma (wb_run ctx) c post out cap iv HF B BI M L1 L2 L3) as (r & R & T & K). exists r. split; [exact R|]. split; [exact T|].
  intros k Lk. rewrite (K k Lk), (A _ (blk16_block c k B Lk)). unfold sm4_for. apply Z.eqb_neq in NE. now rewrite NE.
Qed.
