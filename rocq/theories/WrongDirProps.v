(** * Property theorems: white-box SM4 contexts used in the wrong direction (C124) *)
From Verif Require Import Base CbcModel CbcSpec CbcBlocks GcmModel GcmSpec Sm4Model Sm4Spec FpeModel MatModel Wbsm4Model Wbsm4Spec Wbsm4Props SewbModel SewbProofs WrongDir.
From Coq Require Import ZArith.
Local Open Scope nat_scope.

(** ** C124: a white-box SM4 context made for the other direction is refused *)
(** False of the code: no function looks at the direction.  Decrypting with a context for encryption encrypts once more. *)
Theorem wbsm4_wrong_direction_refuted : forall ctx em key b c, holds ctx em key -> em <> 0%Z -> block16 b -> wbsm4_encrypt ctx b = Ret c ->
  wbsm4_decrypt ctx c = Ret (std_encrypt (normal_key key) (std_encrypt (normal_key key) b)).
Proof. exact wrong_block_lemma. Qed.
Print Assumptions wbsm4_wrong_direction_refuted.
Theorem sewb_wrong_direction_refuted : forall rnd em key ctx b, bytes key -> em <> 0%Z -> se_gen_table rnd (se_context_init em) key = Ret ctx -> block16 b ->
  se_decrypt ctx (se_encrypt ctx b) = std_encrypt (normal_key key) (std_encrypt (normal_key key) b).
Proof. exact wrong_se_lemma. Qed.
Print Assumptions sewb_wrong_direction_refuted.
(** CBC decryption with a context for encryption succeeds and encrypts each block of the ciphertext once more. *)
Theorem wbsm4_cbc_wrong_direction_refuted : forall ctx em key c post out cap iv, holds ctx em key -> em <> 0%Z -> bytes c -> block16 iv -> length c mod 16 = 0 ->
  (N.of_nat (length c) <= int_max)%N -> length c <= cap -> length out = cap ->
  exists r, cbc128_decrypt (lift (wb_run ctx)) (c ++ post) (length c) out cap iv = Some r /\ cr_ret r = true /\
    forall k, 16 * S k <= length c -> blk16 (cr_out r) k = xorl (std_encrypt (normal_key key) (blk16 c k)) (chained iv c k).
Proof. exact wrong_cbc_lemma. Qed.
Print Assumptions wbsm4_cbc_wrong_direction_refuted.
(** GCM needs the context for encryption in both directions.  With one for decryption, encryption and decryption succeed
    and are GCM over the inverse of SM4: a message encrypted under the right context is decrypted to another one. *)
Theorem wbsm4_gcm_wrong_direction_refuted : forall ctx d key iv aad p t, holds ctx 0 key -> bytes iv -> bytes aad -> bytes p ->
  (8 * N.of_nat (length iv) < 2 ^ 32)%N -> (8 * N.of_nat (length aad) < 2 ^ 64)%N -> (N.of_nat (length p) <= 2147483647)%N -> t <= 16 ->
  let D := std_decrypt (normal_key key) in
  let o := gctr D (inc32 (J0 D iv)) p in
  gcm_session d (lift (wb_run ctx)) iv aad [p] t = Some (o, gcm_tag D iv aad (match d with Enc => o | Dec => p end) t).
Proof. exact wrong_gcm_lemma. Qed.
Print Assumptions wbsm4_gcm_wrong_direction_refuted.
(** contexts for both directions exist for every key and all random numbers; a block and a message that are not returned *)
Example wrong_direction_instances : forall rnd rs junk, let k := N_to_be 16 0x0123456789abcdeffedcba9876543210 in
  block16 k /\ (exists ce, holds ce 1 k) /\ std_encrypt (normal_key k) (std_encrypt (normal_key k) k) <> k /\
  (exists ce cd c tag p tag', wbsm4_gen_table rnd rs (wbsm4_context_init junk 1 0) k = Ret ce /\ wbsm4_gen_table rnd rs (wbsm4_context_init junk 0 0) k = Ret cd /\
    gcm_session Enc (lift (wb_run ce)) (firstn 12 k) [] [k] 16 = Some (c, tag) /\ gcm_session Dec (lift (wb_run cd)) (firstn 12 k) [] [c] 16 = Some (p, tag') /\
    p <> k /\ tag' <> tag).
Proof.
  intros rnd rs junk k. assert (B : bytes k) by apply bytes_N_to_be. assert (L : length k = 16) by apply length_N_to_be.
  split; [split; assumption|]. split; [destruct (wbsm4_holds rnd rs junk 1 k B) as (ce & _ & H); now exists ce|]. split; [vm_compute; discriminate|].
  destruct (wbsm4_holds rnd rs junk 1 k B) as (ce & E1 & H1). destruct (wbsm4_holds rnd rs junk 0 k B) as (cd & E0 & H0).
  pose proof (wbsm4_gcm_conforms ce 1 Enc k (firstn 12 k) [] k 16 H1 ltac:(discriminate) (bytes_firstn 12 k B) (Forall_nil _) B
    eq_refl eq_refl ltac:(vm_compute; discriminate) (le_n 16)) as G. cbv zeta in G.
  match type of G with _ = Some (?o, ?t) => set (c := o) in *; set (tag := t) in * end.
  assert (Vc : c = ltac:(let x := eval vm_compute in c in exact x)) by (vm_compute; reflexivity).
  assert (Vt : tag = ltac:(let x := eval vm_compute in tag in exact x)) by (vm_compute; reflexivity).
  assert (Bc : bytes c) by (rewrite Vc; unfold bytes; repeat (apply Forall_cons; [reflexivity|]); apply Forall_nil).
  assert (Lc : (N.of_nat (length c) <= 2147483647)%N) by (rewrite Vc; vm_compute; discriminate).
  pose proof (wrong_gcm_lemma cd Dec k (firstn 12 k) [] c 16 H0 (bytes_firstn 12 k B) (Forall_nil _) Bc eq_refl eq_refl Lc (le_n 16)) as G'. cbv zeta in G'.
  exists ce, cd, c, tag. do 2 eexists. split; [exact E1|]. split; [exact E0|]. split; [exact G|]. split; [exact G'|].
  rewrite Vc, Vt. split; vm_compute; discriminate.
Qed.
