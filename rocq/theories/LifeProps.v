(** * Properties of the life of heap objects (C81 - C86) *)
From Verif Require Import Base CbcModel GcmModel FpeModel Sm4Model ParModel Sm4Spec LifeModel LifeSpec LifeTotal LifeTree LifeGen LifeOps LifeSafe LifeThms LifeMask.
Local Open Scope nat_scope.

(** an allocator with memory, and a block function that copies its input as long as its key object is live *)
Definition enough (_ : nat) : answer := Stay.
Lemma enough_plenty : plenty enough.
Proof. intros n. reflexivity. Qed.
Definition copier (f : nat) (m : mem) (key : cell) (b : list N) : outcome (option (list N)) :=
  match cells_at m key with Some _ => Ret (Some b) | None => Undef end.
Lemma copier_works : forall f m key b, cells_at m key <> None -> exists r, copier f m key b = Ret (Some r).
Proof. intros f m key b H. unfold copier. destruct (cells_at m key); [now exists b|congruence]. Qed.
Lemma closed_empty k : closed (mkmem [] k).
Proof. intros [|a] b c E; discriminate. Qed.

(** ** C81: key material is erased when it is no longer needed *)
(** False of table generation: whatever the allocator, the random tables, the key and the heap, when the call returns
    the round keys are left in a live block that nothing points to, and the key can be computed from them. *)
Theorem wbsm4_gen_erases_key_refuted : forall al tab dummy ctx d key m cs m', bytes key -> closed m -> cells_at m ctx = Some cs ->
  life_wbsm4_gen al tab dummy ctx d key m = Ret (tt, m') -> keeps_key m m' key.
Proof. exact gen_keeps_key. Qed.
Print Assumptions wbsm4_gen_erases_key_refuted.
Theorem se_wbsm4_gen_erases_key_refuted : forall al ctx key maps m cs m', bytes key -> closed m -> cells_at m ctx = Some cs ->
  life_se_gen al ctx key maps m = Ret (tt, m') -> keeps_key m m' key.
Proof. exact se_gen_keeps_key. Qed.
Print Assumptions se_wbsm4_gen_erases_key_refuted.
(** the hypotheses are met by making a context in any heap and generating its tables, which leaves one block more *)
Theorem wbsm4_gen_returns : forall al tab dummy e d key B k, plenty al -> closed (mkmem B 0) -> exists m1 m2,
  life_wbsm4_init al e d (mkmem B k) = Ret (Ptr (length B), m1) /\ closed m1 /\
  life_wbsm4_gen al tab dummy (Ptr (length B)) d key m1 = Ret (tt, m2) /\ live_blocks m2 = live_blocks m1 + 1 /\
  live_blocks m1 = live_blocks (mkmem B k) + (5 + 31 * (32 + 4 * d)).
Proof. exact gen_happens. Qed.
Print Assumptions wbsm4_gen_returns.
Example wbsm4_gen_case : forall tab dummy key, bytes key -> exists m1 m2,
  life_wbsm4_init enough 1 2 (mkmem [] 0) = Ret (Ptr 0, m1) /\ life_wbsm4_gen enough tab dummy (Ptr 0) 2 key m1 = Ret (tt, m2) /\ keeps_key m1 m2 key.
Proof.
  intros tab dummy key Bk. destruct (wbsm4_init_eq enough 1 2 [] 0 enough_plenty) as (L & k1 & E & LL & AL & T & C0 & C1 & CL).
  destruct (wbsm4_gen_returns enough tab dummy 1 2 key [] 0 enough_plenty (closed_empty 0)) as (m1 & m2 & E1 & K & E2 & _).
  assert (m1 = mkmem ([] ++ L) k1) by (cbn [length] in E1; rewrite E in E1; now injection E1 as <-). subst m1.
  exists (mkmem ([] ++ L) k1), m2. split; [exact E|]. split; [exact E2|].
  destruct (proj1 T) as (cs & Ec & _).
  eapply wbsm4_gen_erases_key_refuted; [exact Bk|exact K| |exact E2]. unfold cells_at. cbn [m_blocks app length]. rewrite Ec. reflexivity.
Qed.
Example se_wbsm4_gen_case : forall key maps, bytes key -> length maps = 3 -> exists m2,
  life_se_gen enough (Ptr 0) key maps (mkmem [mkblk true [Num 1; Num 0; Num 0; Num 0]] 0) = Ret (tt, m2) /\
  keeps_key (mkmem [mkblk true [Num 1; Num 0; Num 0; Num 0]] 0) m2 key.
Proof.
  intros key maps Bk L. set (m0 := mkmem [mkblk true [Num 1; Num 0; Num 0; Num 0]] 0).
  assert (T : length [Num 1; Num 0; Num 0; Num 0] = S (length maps)) by (rewrite L; reflexivity).
  destruct (se_gen_total enough copier (fun _ _ _ _ => 0%N) (fun _ => false) enough_plenty copier_works 0 key maps [Num 1; Num 0; Num 0; Num 0] (Num 1) [mkblk true [Num 1; Num 0; Num 0; Num 0]] 0 eq_refl eq_refl T) as (k' & E).
  eexists. split; [exact E|]. eapply (se_wbsm4_gen_erases_key_refuted enough (Ptr 0) key maps m0 [Num 1; Num 0; Num 0; Num 0]); [exact Bk| |reflexivity|exact E].
  intros [|[|a]] b c F; [|discriminate|discriminate]. injection F as <-. cbn. intros [I|[I|[I|[I|[]]]]]; discriminate.
Qed.
(** False of the release of a GCM file context: the hash subkey stays in a block that can no longer be reached. *)
Theorem gcmfile_free_erases_subkey_refuted : forall al blk key f B k h, plenty al -> block16 h -> closed (mkmem B 0) ->
  (forall m, blk f m key (repeat 0%N 16) = Ret (Some h)) -> (forall x, key = Ptr x -> x < length B) ->
  exists m1 m2, life_gcmfile_init al blk key f (mkmem B k) = Ret (Ptr (length B), m1) /\ context_free (Ptr (length B)) m1 = Ret (tt, m2) /\
  exists a cs (hi lo : N), nth_error (m_blocks m2) a = Some (mkblk true cs) /\ nth_error cs 26 = Some (Num hi) /\ nth_error cs 10 = Some (Num lo) /\
    (hi * 2 ^ 64 + lo = be_to_N h)%N /\ forall roots, (forall x, In x roots -> x <= length B) -> ~ reaches m2 roots a.
Proof. exact gcmfile_free_lemma. Qed.
Print Assumptions gcmfile_free_erases_subkey_refuted.
Example gcmfile_free_case : exists m1 m2, let h := N_to_be 16 0x66e94bd4ef8a2c3b884cfa59ca342b2e in
  life_gcmfile_init enough (fun _ _ _ _ => Ret (Some h)) null 0 (mkmem [] 0) = Ret (Ptr 0, m1) /\ context_free (Ptr 0) m1 = Ret (tt, m2) /\
  live_blocks m2 = 2 /\ exists cs, nth_error (m_blocks m2) 1 = Some (mkblk true cs) /\ nth_error cs 26 = Some (Num 0x66e94bd4ef8a2c3b).
Proof. eexists _, _. cbv zeta. split; [vm_compute; reflexivity|]. split; [vm_compute; reflexivity|]. split; [reflexivity|]. eexists. split; reflexivity. Qed.
(** False of key setup: the padded copy of the key is given back to the allocator as it is. *)
Theorem sm4_key_copy_erased_refuted : forall al e a cs key B k, plenty al -> nth_error B a = Some (mkblk true cs) -> length cs = 32 -> exists m',
  life_sm4_key al e (Ptr a) key (mkmem B k) = Ret (tt, m') /\
  nth_error (m_blocks m') (length B) = Some (mkblk false (map Num (key_padding_pkcs7 key))).
Proof. exact sm4_key_copy. Qed.
Print Assumptions sm4_key_copy_erased_refuted.
Example sm4_key_copy_case : exists m1, life_sm4_init enough (mkmem [] 0) = Ret (Ptr 0, m1) /\
  exists m2, life_sm4_key enough 1 (Ptr 0) [1; 2; 3]%N m1 = Ret (tt, m2) /\
  nth_error (m_blocks m2) 1 = Some (mkblk false (map Num ([1; 2; 3] ++ repeat 13 13)%N)).
Proof.
  eexists. split; [reflexivity|]. destruct (sm4_key_copy_erased_refuted enough 1 0 (repeat (Num 0) 32) [1; 2; 3]%N [mkblk true (repeat (Num 0) 32)] 1
    enough_plenty eq_refl eq_refl) as (m2 & E & F). exists m2. split; [exact E|exact F].
Qed.
(** True of the functions that release a context in one block: afterwards it holds zeros only. *)
Theorem context_free_erases : forall a cs B k, nth_error B a = Some (mkblk true cs) -> exists m',
  context_free (Ptr a) (mkmem B k) = Ret (tt, m') /\ holds m' a (repeat 0%N (length cs)) /\ live_blocks m' = live_blocks (mkmem B k) /\
  context_free (Ptr a) m' = Ret (tt, m').
Proof. exact context_twice_lemma. Qed.
Print Assumptions context_free_erases.
Example context_free_case : exists m', context_free (Ptr 0) (mkmem [mkblk true [Num 5; Num 7]] 3) = Ret (tt, m') /\ holds m' 0 [0; 0]%N.
Proof. destruct (context_free_erases 0 [Num 5; Num 7] [mkblk true [Num 5; Num 7]] 3 eq_refl) as (m' & E & H & _). now exists m'. Qed.

(** ** C82: a program that releases what it obtained does not grow *)
(** False: the memory in use after any sequence of calls is exactly this. *)
Theorem memory_in_use : forall al blk tab dummy, plenty al ->
  (forall f m key b, cells_at m key <> None -> exists r, blk f m key b = Ret (Some r)) ->
  forall cs env m, play al blk tab dummy cs nothing = Ret (env, m) ->
  live_blocks m = total (map occupies env) + total (map leaves cs).
Proof. exact play_memory_lemma. Qed.
Print Assumptions memory_in_use.
(** So every cipher context ever created stays, released or not, and so does what the calls leave behind. *)
Theorem release_returns_memory_refuted : forall al blk tab dummy cs env m, plenty al ->
  (forall f m key b, cells_at m key <> None -> exists r, blk f m key b = Ret (Some r)) ->
  play al blk tab dummy cs nothing = Ret (env, m) ->
  length (filter (fun x => cipher (h_kind x)) env) + total (map leaves cs) <= live_blocks m.
Proof. exact play_grows_lemma. Qed.
Print Assumptions release_returns_memory_refuted.
(** an AES context, GCM over it, an FPE context, a CBC encryption; everything is released *)
Definition tidy : list call := [Context 61; Gcm 0 7; GcmUse 1 (repeat 1%N 16); Fpe 0 [1; 2; 3]%N 10 7; Scratch [4; 4];
  CbcEncrypt [1; 2]%N (repeat 14%N 16); GcmFile 0 7; Mac 0 [9]%N 36 7; WbGcm 0 8; Release 5; Release 4; Release 3; Release 2; Release 1; Release 0].
Example tidy_case : exists env m, play enough copier (fun _ _ _ _ => 0%N) (fun _ => false) tidy nothing = Ret (env, m) /\
  forallb h_released env = true /\ live_blocks m = 5.
Proof. eexists _, _. split; [vm_compute; reflexivity|]. split; reflexivity. Qed.
(** A query over n rows through the MySQL function leaves n SM4 contexts, each with the round keys. *)
Theorem udf_query_returns_memory_refuted : forall al n key f rows B k, plenty al -> bytes key -> Forall (fun r => 2 <= snd (fst r) <= 36)%N rows ->
  exists m' D rks,
  life_udf_query al n key f rows (mkmem B k) = Ret (tt, m') /\
  live_blocks m' = live_blocks (mkmem B k) + length rows /\
  m_blocks m' = B ++ D /\ filter b_live D = repeat (mkblk true (map Num rks)) (length rows) /\ sm4_key_of_round_keys rks = normal_key key.
Proof. exact udf_query_lemma. Qed.
Print Assumptions udf_query_returns_memory_refuted.
Example udf_query_case : forall n row, (2 <= snd (fst row) <= 36)%N -> exists m' D rks,
  life_udf_query enough 30 [1; 2; 3]%N 1 (repeat row n) (mkmem [] 0) = Ret (tt, m') /\ live_blocks m' = n /\
  filter b_live D = repeat (mkblk true (map Num rks)) n /\ m_blocks m' = D.
Proof.
  intros n row H. assert (Bk : bytes [1; 2; 3]%N) by (repeat constructor).
  assert (F : Forall (fun r => 2 <= snd (fst r) <= 36)%N (repeat row n)) by (apply Forall_forall; intros x I; apply repeat_spec in I; now subst).
  destruct (udf_query_returns_memory_refuted enough 30 [1; 2; 3]%N 1 (repeat row n) [] 0 enough_plenty Bk F) as (m' & D & rks & E & L & D' & Fl & _).
  rewrite repeat_length in *. exists m', D, rks. auto.
Qed.
(** One parallel GCM call leaves its counter blocks; one CBC encryption leaves its padded plaintext. *)
Theorem gcm_parallel_returns_memory_refuted : forall al n ctr B k, plenty al -> (forall i, i < len_s n -> length (ctr i) = 16) -> exists m',
  life_parallel al n ctr (mkmem B k) = Ret (tt, m') /\ live_blocks m' = live_blocks (mkmem B k) + 1 + len_s n.
Proof. exact parallel_lemma. Qed.
Print Assumptions gcm_parallel_returns_memory_refuted.
Theorem cbc_encrypt_returns_memory_refuted : forall al inp padded B k, plenty al -> length inp <= length padded -> exists m',
  life_cbc_encrypt al inp padded (mkmem B k) = Ret (tt, m') /\ live_blocks m' = live_blocks (mkmem B k) + 1 /\ holds m' (length B) padded.
Proof. exact cbc_lemma. Qed.
Print Assumptions cbc_encrypt_returns_memory_refuted.
Example parallel_cbc_case : exists m1 m2, life_parallel enough 4 (fun i => repeat (N.of_nat i) 16) (mkmem [] 0) = Ret (tt, m1) /\
  life_cbc_encrypt enough [1; 2]%N (repeat 14%N 16) m1 = Ret (tt, m2) /\ live_blocks m2 = live_blocks m1 + 1 /\ live_blocks m1 = 1 + len_s 4.
Proof. eexists _, _. split; [reflexivity|]. split; [reflexivity|]. split; reflexivity. Qed.

(** The key object of the masked white-box GCM is two blocks, 16 of pointers and 4096 of 256 bytes, one for each (i, j),
    and no function of the library releases it. *)
Theorem mask_context_memory : forall al B k, plenty al -> exists m', life_mask_init_table al (mkmem B k) = Ret (Ptr (length B), m') /\
  live_blocks m' = live_blocks (mkmem B k) + (2 + 16 + 256 * 16) /\
  (forall a, a < length B -> nth_error (m_blocks m') a = nth_error B a) /\
  (forall i j, i < 16 -> j < 256 -> exists q, follow m' (Ptr (length B)) i j = Ret (Ptr q) /\ nth_error (m_blocks m') q = Some (mkblk true (repeat Junk 256))) /\
  (forall i j i' j' q, i < 16 -> j < 256 -> i' < 16 -> j' < 256 -> follow m' (Ptr (length B)) i j = Ret q -> follow m' (Ptr (length B)) i' j' = Ret q -> i = i' /\ j = j').
Proof. exact mask_table_lemma. Qed.
Print Assumptions mask_context_memory.
(** A context of one block is a new block of zeros, as large as its header says: 60 words and the number of rounds for
    AES, 32 words for SM4, the tables of white-box AES. *)
Theorem contexts_are_fresh : forall al B k, plenty al ->
  (exists k', life_aes_init al (mkmem B k) = Ret (Ptr (length B), mkmem (B ++ [mkblk true (repeat (Num 0) (4 * (14 + 1) + 1))]) k')) /\
  (exists k', life_sm4_init al (mkmem B k) = Ret (Ptr (length B), mkmem (B ++ [mkblk true (repeat (Num 0) 32)]) k')) /\
  (exists k' n, life_wbaes_init al (mkmem B k) = Ret (Ptr (length B), mkmem (B ++ [mkblk true (repeat (Num 0) n)]) k') /\
     N.of_nat n = (10 * (16 * 256) + 9 * (16 * 256) + (9 * 4 * 3 * 8 + 9 * 4 * 3 * 8) * (16 * 16) + 16 * 256 + 16 * 256)%N).
Proof. exact fresh_contexts_lemma. Qed.
Print Assumptions contexts_are_fresh.
Example mask_context_case : exists m', life_mask_init_table enough (mkmem [] 0) = Ret (Ptr 0, m') /\ live_blocks m' = 4114 /\
  exists q, follow m' (Ptr 0) 3 200 = Ret (Ptr q).
Proof.
  destruct (mask_context_memory enough [] 0 enough_plenty) as (m' & E & L & _ & F & _). exists m'. split; [exact E|]. split; [exact L|].
  destruct (F 3 200) as (q & Q & _); [lia|lia|]. exists q. exact Q.
Qed.

(** ** C83: releasing NULL, releasing twice, and use after release *)
Theorem fpe_free_null : forall m, life_fpe_free null m = Ret (tt, m) /\ life_mac_free null m = Ret (tt, m).
Proof. exact free_null_lemma. Qed.
Print Assumptions fpe_free_null.
Theorem free_null_refuted : forall m, life_wbgcm_free null m = Undef /\ context_free null m = Undef.
Proof. exact free_null_bad. Qed.
Print Assumptions free_null_refuted.
(** An FPE context gives back both its blocks when released once; released twice the behaviour is undefined. *)
Theorem fpe_free_once : forall al tweak radix key f B k, plenty al -> (2 <= radix <= 36)%N -> exists m1 m2,
  life_fpe_init al tweak radix key f (mkmem B k) = Ret (Ptr (length B), m1) /\ life_fpe_free (Ptr (length B)) m1 = Ret (tt, m2) /\
  live_blocks m2 = live_blocks (mkmem B k) /\ life_fpe_free (Ptr (length B)) m2 = Undef.
Proof. exact fpe_twice_lemma. Qed.
Print Assumptions fpe_free_once.
Example fpe_free_case : exists m1 m2, life_fpe_init enough [1; 2; 3]%N 10 null 0 (mkmem [] 0) = Ret (Ptr 0, m1) /\ live_blocks m1 = 2 /\
  life_fpe_free (Ptr 0) m1 = Ret (tt, m2) /\ live_blocks m2 = 0.
Proof. eexists _, _. split; [reflexivity|]. split; [reflexivity|]. split; reflexivity. Qed.
Theorem wbgcm_free_twice_refuted : forall a cs B k, nth_error B a = Some (mkblk true cs) -> exists m',
  life_wbgcm_free (Ptr a) (mkmem B k) = Ret (tt, m') /\ life_wbgcm_free (Ptr a) m' = Undef.
Proof. exact wbgcm_twice_lemma. Qed.
Print Assumptions wbgcm_free_twice_refuted.
(** A GCM context that was released calls the function at address 0. *)
Theorem gcm_use_after_free_refuted : forall blk a key f h b B k, nth_error B a = Some (mkblk true (gcm_object key f h)) -> exists m',
  context_free (Ptr a) (mkmem B k) = Ret (tt, m') /\ life_gcm_block blk (Ptr a) b m' = Undef.
Proof. exact gcm_after_free_lemma. Qed.
Print Assumptions gcm_use_after_free_refuted.
Example gcm_use_case : exists m1 m2, let blk := fun _ _ _ b => Ret (Some b) in
  life_gcm_init enough blk null 0 (mkmem [] 0) = Ret (Ptr 0, m1) /\ (exists r, life_gcm_block blk (Ptr 0) [1]%N m1 = Ret r) /\
  context_free (Ptr 0) m1 = Ret (tt, m2) /\ life_gcm_block blk (Ptr 0) [1]%N m2 = Undef.
Proof. eexists _, _. cbv zeta. split; [vm_compute; reflexivity|]. split; [eexists; reflexivity|]. split; reflexivity. Qed.

(** ** C84: when memory runs out, initialisation returns NULL *)
(** True of the first request each initialisation makes. *)
Theorem init_reports_no_memory : forall al blk n e d key f tweak radix B k, al k = Fail ->
  context_init al n (mkmem B k) = Ret (null, mkmem B (S k)) /\
  life_se_init al e (mkmem B k) = Ret (null, mkmem B (S k)) /\
  life_wbsm4_init al e d (mkmem B k) = Ret (null, mkmem B (S k)) /\
  life_gcm_init al blk key f (mkmem B k) = Ret (null, mkmem B (S k)) /\
  life_gcmfile_init al blk key f (mkmem B k) = Ret (null, mkmem B (S k)) /\
  life_wbgcm_init al blk key f (mkmem B k) = Ret (null, mkmem B (S k)) /\
  life_fpe_init al tweak radix key f (mkmem B k) = Ret (null, mkmem B (S k)) /\
  life_mac_init al tweak radix key f (mkmem B k) = Ret (null, mkmem B (S k)).
Proof. exact init_fail_lemma. Qed.
Print Assumptions init_reports_no_memory.
(** False of the others. *)
Theorem wbsm4_init_no_memory_refuted : forall al e d B k, al k <> Fail -> al (S k) = Fail -> life_wbsm4_init al e d (mkmem B k) = Undef.
Proof. exact wbsm4_init_fail_lemma. Qed.
Print Assumptions wbsm4_init_no_memory_refuted.
Theorem fpe_init_no_memory_refuted : forall al tweak radix key f B k, al k <> Fail -> al (S k) = Fail -> (2 <= radix <= 36)%N -> tweak <> [] ->
  life_fpe_init al tweak radix key f (mkmem B k) = Undef.
Proof. exact fpe_init_fail_lemma. Qed.
Print Assumptions fpe_init_no_memory_refuted.
Theorem gcmfile_init_no_memory_refuted : forall al blk key f B k, al k <> Fail -> al (S k) = Fail -> exists m',
  life_gcmfile_init al blk key f (mkmem B k) = Ret (Ptr (length B), m') /\ forall b, life_gcmfile_block blk (Ptr (length B)) b m' = Undef.
Proof. exact gcmfile_init_fail_lemma. Qed.
Print Assumptions gcmfile_init_no_memory_refuted.
Theorem sm4_key_no_memory_refuted : forall al e ctx key B k, al k = Fail -> life_sm4_key al e ctx key (mkmem B k) = Undef.
Proof. exact sm4_key_fail_lemma. Qed.
Print Assumptions sm4_key_no_memory_refuted.
Theorem mask_init_no_memory_refuted : forall al B k, al k <> Fail -> al (S k) = Fail -> life_mask_init_table al (mkmem B k) = Undef.
Proof. exact mask_no_memory_lemma. Qed.
Print Assumptions mask_init_no_memory_refuted.
(** an allocator that has memory for one request, and then none *)
Definition one_left (n : nat) : answer := if n =? 0 then Stay else Fail.
Example one_left_case : one_left 0 <> Fail /\ one_left 1 = Fail /\ context_init one_left 61 (mkmem [] 1) = Ret (null, mkmem [] 2) /\
  life_fpe_init one_left [7]%N 10 null 0 (mkmem [] 0) = Undef /\ (exists r, life_fpe_init one_left [] 10 null 0 (mkmem [] 0) = Ret r).
Proof. split; [discriminate|]. split; [reflexivity|]. split; [reflexivity|]. split; [reflexivity|]. eexists. reflexivity. Qed.

(** ** C85: a caller that keeps to the rules never meets undefined behaviour *)
Theorem calls_by_the_rules_are_safe : forall al blk tab dummy, plenty al ->
  (forall f m key b, cells_at m key <> None -> exists r, blk f m key b = Ret (Some r)) ->
  forall cs, play al blk tab dummy cs nothing <> Undef.
Proof. exact play_safe_lemma. Qed.
Print Assumptions calls_by_the_rules_are_safe.
(** [tidy_case] is such a program; releasing the cipher context before the GCM context that uses it is one as well, using
    the GCM context then is not *)
Example untidy_case : play enough copier (fun _ _ _ _ => 0%N) (fun _ => false) [Context 61; Gcm 0 7; Release 1; GcmUse 1 [1]%N] nothing = Abort.
Proof. vm_compute. reflexivity. Qed.
(** ** C86: a call changes only the object it is about *)
Theorem calls_are_local : forall al blk tab dummy, plenty al ->
  (forall f m key b, cells_at m key <> None -> exists r, blk f m key b = Ret (Some r)) ->
  forall cs c st st' j, play al blk tab dummy cs nothing = Ret st -> make al blk tab dummy c st = Ret st' ->
  subject c <> Some j -> untouched j st st'.
Proof. exact play_untouched_lemma. Qed.
Print Assumptions calls_are_local.
Example calls_are_local_case : exists st st', play enough copier (fun _ _ _ _ => 0%N) (fun _ => false) [Context 2; Fpe 0 [5]%N 10 7] nothing = Ret st /\
  make enough copier (fun _ _ _ _ => 0%N) (fun _ => false) (Release 0) st = Ret st' /\ untouched 1 st st' /\
  nth_error (m_blocks (snd st')) 2 = Some (mkblk true [Num 5]).
Proof.
  eexists _, _. split; [vm_compute; reflexivity|]. split; [vm_compute; reflexivity|]. split; [|reflexivity].
  intros x lo a E P H. cbn in *. injection E as <-. injection P as <-. cbn in H.
  destruct a as [|[|[|a]]]; [lia|reflexivity|reflexivity|lia].
Qed.
