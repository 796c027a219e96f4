(** * Property theorems: GCM (C08 - C15, C52) *)
From Verif Require Import Base CbcModel CbcSpec Toy GcmModel GcmSpec GfProofs GcmProofs.
Local Open Scope nat_scope.

(** ** C08 *)
(** The tables built by WBCRYPTO_gcm_init from the hash key [h] and the multiplication gcm_mult
    compute the product of GF(2^128). *)
Theorem gcm_mult_is_gf_mul : forall h x, block16 h -> block16 x ->
  gcm_mult (fst (init_tables h)) (snd (init_tables h)) x = N_to_be 16 (gf_mul (be_to_N x) (be_to_N h)).
Proof. exact gcm_mult_is_gf_mul_lemma. Qed.
Print Assumptions gcm_mult_is_gf_mul.

(** GHASH test case 2 of the GCM specification: H = 66e94bd4ef8a2c3b884cfa59ca342b2e,
    X = 0388dace60b6a392f328c2b971b2fe78 *)
Example gcm_mult_instance :
  gcm_mult (fst (init_tables (N_to_be 16 0x66e94bd4ef8a2c3b884cfa59ca342b2e)))
           (snd (init_tables (N_to_be 16 0x66e94bd4ef8a2c3b884cfa59ca342b2e)))
           (N_to_be 16 0x0388dace60b6a392f328c2b971b2fe78)
  = N_to_be 16 0x5e2ec746917062882c85b0685353deb7.
Proof. vm_compute. reflexivity. Qed.

(** ** C09 *)
(** init; setiv; aad; encrypt; finish give the ciphertext and the tag of SP 800-38D. *)
Theorem gcm_conforms : forall E iv aad p t, block_function E -> bytes iv -> bytes aad -> bytes p ->
  (8 * N.of_nat (length iv) < 2 ^ 32)%N -> (8 * N.of_nat (length aad) < 2 ^ 64)%N ->
  (N.of_nat (length p) <= 2147483647)%N -> t <= 16 ->
  gcm_session Enc (lift E) iv aad [p] t =
  Some (gcm_ciphertext E iv p, gcm_tag E iv aad (gcm_ciphertext E iv p) t).
Proof. exact gcm_conforms_lemma. Qed.
Print Assumptions gcm_conforms.

(** decryption of any ciphertext: plaintext by GCTR, tag over the ciphertext *)
Theorem gcm_decrypt_conforms : forall E iv aad c t, block_function E -> bytes iv -> bytes aad -> bytes c ->
  (8 * N.of_nat (length iv) < 2 ^ 32)%N -> (8 * N.of_nat (length aad) < 2 ^ 64)%N ->
  (N.of_nat (length c) <= 2147483647)%N -> t <= 16 ->
  gcm_session Dec (lift E) iv aad [c] t =
  Some (gctr E (inc32 (J0 E iv)) c, gcm_tag E iv aad c t).
Proof. exact gcm_decrypt_conforms_lemma. Qed.
Print Assumptions gcm_decrypt_conforms.

Example gcm_conforms_instance : block_function toyE /\ bytes gcm_iv20 /\ bytes gcm_aad5 /\ bytes gcm_msg /\
  exists ct tag, gcm_session Enc (lift toyE) gcm_iv20 gcm_aad5 [gcm_msg] 16 = Some (ct, tag) /\
    gcm_session Dec (lift toyE) gcm_iv20 gcm_aad5 [ct] 16 = Some (gcm_msg, tag) /\
    length ct = 39 /\ length tag = 16.
Proof.
  split; [apply toy_is_block_cipher|]. split; [repeat constructor|]. split; [repeat constructor|].
  split; [repeat constructor|].
  eexists; eexists. split; [vm_compute; reflexivity|]. split; [vm_compute; reflexivity|]. split; reflexivity.
Qed.

(** ** C10 *)
(** Encrypt pieces [ps]; cut the ciphertext at the same places and decrypt: the plaintext comes
    back and the two tags agree. *)
Theorem gcm_roundtrip : forall E iv aad ps cs t, block_function E -> bytes iv -> bytes aad ->
  small_pieces ps -> t <= 16 ->
  exists ct tag, gcm_session Enc (lift E) iv aad ps t = Some (ct, tag) /\ length ct = length (concat ps) /\
  (map (@length N) cs = map (@length N) ps -> concat cs = ct ->
   gcm_session Dec (lift E) iv aad cs t = Some (concat ps, tag)).
Proof. exact session_inverse. Qed.
Print Assumptions gcm_roundtrip.

Example gcm_roundtrip_instance :
  small_pieces [firstn 5 gcm_msg; skipn 5 gcm_msg] /\
  exists ct tag, gcm_session Enc (lift toyE) gcm_iv12 gcm_aad5 [firstn 5 gcm_msg; skipn 5 gcm_msg] 12 = Some (ct, tag) /\
    gcm_session Dec (lift toyE) gcm_iv12 gcm_aad5 [firstn 5 ct; skipn 5 ct] 12 = Some (gcm_msg, tag).
Proof.
  split; [apply small_pieces_check; vm_compute; reflexivity|].
  eexists; eexists. split; [vm_compute; reflexivity|]. vm_compute; reflexivity.
Qed.

(** ** C11 *)
(** Pieces whose lengths are multiples of 16, except possibly the last, give the result of the
    standard on the concatenation: ciphertext and tag. *)
Theorem gcm_streaming_partial : forall E d iv aad ps q t, block_function E -> bytes iv -> bytes aad ->
  small_pieces (ps ++ [q]) -> Forall (fun p => length p mod 16 = 0) ps ->
  (8 * N.of_nat (length iv) < 2 ^ 32)%N -> (8 * N.of_nat (length aad) < 2 ^ 64)%N ->
  (8 * N.of_nat (length (concat ps ++ q)) < 2 ^ 64)%N -> t <= 16 ->
  let m := concat ps ++ q in
  let o := gctr E (inc32 (J0 E iv)) m in
  gcm_session d (lift E) iv aad (ps ++ [q]) t =
  Some (o, gcm_tag E iv aad (match d with Enc => o | Dec => m end) t).
Proof. exact gcm_streaming_partial_lemma. Qed.
Print Assumptions gcm_streaming_partial.
Example gcm_streaming_instance :
  small_pieces ([firstn 32 gcm_msg] ++ [skipn 32 gcm_msg]) /\
  gcm_session Enc (lift toyE) gcm_iv12 gcm_aad5 [firstn 32 gcm_msg; skipn 32 gcm_msg] 16 =
  gcm_session Enc (lift toyE) gcm_iv12 gcm_aad5 [gcm_msg] 16.
Proof.
  split; [apply small_pieces_check; vm_compute; reflexivity|].
  vm_compute; reflexivity.
Qed.
(** What any cut produces (full characterisation of the output): each call starts a new counter block. *)
Theorem gcm_streaming_actual : forall E d c p q, block_function E ->
  reachable (lift E) c -> small_pieces [p; q] ->
  snd (crypt_pieces d (lift E) c [p; q]) =
  gctr E (inc32 (g_y c)) p ++ gctr E (inc32 (inc32_n (nblk (length p)) (g_y c))) q.
Proof. exact gcm_streaming_actual_lemma. Qed.
Print Assumptions gcm_streaming_actual.
(** The full property is false: a cut after 5 bytes changes the ciphertext. *)
Theorem gcm_streaming_refuted : exists E iv aad p q r1 r2, block_function E /\ bytes iv /\ bytes aad /\
  small_pieces [p; q] /\ gcm_session Enc (lift E) iv aad [p; q] 16 = Some r1 /\
  gcm_session Enc (lift E) iv aad [p ++ q] 16 = Some r2 /\ fst r1 <> fst r2 /\ snd r1 <> snd r2.
Proof. exact gcm_streaming_refuted_lemma. Qed.
Print Assumptions gcm_streaming_refuted.

Example reachable_instance : exists c, reachable (lift toyE) c /\ g_len c = 39%N /\ g_add_len c = 5%N.
Proof.
  eexists. split.
  - eexists. exists [OpSetiv gcm_iv20; OpAad gcm_aad5; OpCrypt Enc gcm_msg 40; OpFinish 16].
    split; [vm_compute; reflexivity|]. split; [repeat constructor|]. vm_compute; reflexivity.
  - split; reflexivity.
Qed.

(** ** C12 *)
(** After any history of calls, setiv followed by aad gives the context a fresh one would have
    (with a block function that may also fail). *)
Theorem gcm_reuse_partial : forall blk c0 ops c iv a,
  gcm_init blk = Some c0 -> gcm_run blk c0 ops = Some c ->
  fst (gcm_setiv blk c iv) = fst (gcm_setiv blk c0 iv) /\
  (fst (gcm_setiv blk c0 iv) = true ->
   gcm_aad (snd (gcm_setiv blk c iv)) a = gcm_aad (snd (gcm_setiv blk c0 iv)) a).
Proof. exact gcm_reuse_partial_lemma. Qed.
Print Assumptions gcm_reuse_partial.
(** Without an aad call the only difference is the stale AAD length. *)
Theorem gcm_reuse_stale : forall blk c0 ops c iv,
  gcm_init blk = Some c0 -> gcm_run blk c0 ops = Some c -> fst (gcm_setiv blk c0 iv) = true ->
  let f := snd (gcm_setiv blk c0 iv) in
  snd (gcm_setiv blk c iv) = mkgcm (g_len f) (g_add_len c) (g_HL f) (g_HH f) (g_base f) (g_y f) (g_buf f).
Proof. exact gcm_reuse_stale_lemma. Qed.
Print Assumptions gcm_reuse_stale.
(** The full property is false: message 1 with AAD, message 2 without; the second tag differs
    from the tag a fresh context computes. *)
Theorem gcm_reuse_refuted : exists E c0 c iv p t1 t2, block_function E /\
  gcm_init (lift E) = Some c0 /\
  gcm_run (lift E) c0 [OpSetiv iv; OpAad gcm_aad5; OpCrypt Enc p (length p); OpFinish 16] = Some c /\
  (let use c := gcm_run (lift E) c [OpSetiv iv; OpCrypt Enc p (length p)] in
   (do d <- use c0; gcm_finish d 16) = Some t1 /\ (do d <- use c; gcm_finish d 16) = Some t2) /\
  snd t1 <> snd t2.
Proof. exact gcm_reuse_refuted_lemma. Qed.
Print Assumptions gcm_reuse_refuted.
Example gcm_reuse_instance : exists c0 c, gcm_init (lift toyE) = Some c0 /\
  gcm_run (lift toyE) c0 [OpSetiv gcm_iv20; OpAad gcm_aad5; OpCrypt Enc gcm_msg 39; OpCrypt Dec gcm_msg 3; OpFinish 16] = Some c /\
  c <> c0 /\ fst (gcm_setiv (lift toyE) c gcm_iv12) = true.
Proof.
  eexists; eexists. split; [vm_compute; reflexivity|]. split; [vm_compute; reflexivity|].
  split; [intros H; apply (f_equal g_len) in H; vm_compute in H; discriminate|]. vm_compute; reflexivity.
Qed.

(** ** C13 *)
(** Two aad calls hash like one call (first piece block-aligned) but only the second length is
    recorded. *)
Theorem gcm_aad_pieces_partial : forall E c a b, block_function E -> reachable (lift E) c -> bytes a -> bytes b ->
  length a mod 16 = 0 ->
  let s := gcm_aad c (a ++ b) in
  gcm_aad (gcm_aad c a) b =
  mkgcm (g_len s) (N.of_nat (length b) mod 2 ^ 64) (g_HL s) (g_HH s) (g_base s) (g_y s) (g_buf s).
Proof. exact gcm_aad_pieces_partial_lemma. Qed.
Print Assumptions gcm_aad_pieces_partial.
Theorem gcm_aad_pieces_refuted : exists E c0 iv a b p t1 t2, block_function E /\
  gcm_init (lift E) = Some c0 /\ bytes a /\ bytes b /\ length a = 16 /\
  (do c <- gcm_run (lift E) c0 [OpSetiv iv; OpAad (a ++ b); OpCrypt Enc p (length p)]; gcm_finish c 16) = Some t1 /\
  (do c <- gcm_run (lift E) c0 [OpSetiv iv; OpAad a; OpAad b; OpCrypt Enc p (length p)]; gcm_finish c 16) = Some t2 /\
  snd t1 <> snd t2.
Proof. exact gcm_aad_pieces_refuted_lemma. Qed.
Print Assumptions gcm_aad_pieces_refuted.

(** ** C14 *)
(** A crypt call on [inp] consults the block function exactly on [counter_blocks]: it succeeds iff
    the block function succeeds on all of them. *)
Theorem gcm_queries : forall d blk c inp outlen, length inp <= outlen ->
  (N.of_nat (length inp) <= 2147483647)%N ->
  (fst (fst (gcm_crypt d blk c inp outlen)) = true <->
   Forall (fun b => blk b <> None) (counter_blocks (nblk (length inp)) (g_y c))).
Proof. exact gcm_queries_lemma. Qed.
Print Assumptions gcm_queries.
(** They are pairwise distinct, differ from the starting block (the one encrypted for the tag)
    and share its first 12 bytes, for up to 2^32 - 1 blocks. *)
Theorem gcm_counters_distinct : forall y n i j, block16 y -> (N.of_nat n < 2 ^ 32)%N -> i < j -> j < S n ->
  nth i (y :: counter_blocks n y) [] <> nth j (y :: counter_blocks n y) [] /\
  firstn 12 (nth j (y :: counter_blocks n y) []) = firstn 12 y.
Proof. exact gcm_counters_distinct_lemma. Qed.
Print Assumptions gcm_counters_distinct.
(** the bound is sharp: after 2^32 blocks the counter repeats *)
Theorem gcm_counter_period : forall y k, block16 y -> N.of_nat k = (2 ^ 32)%N -> inc32_n k y = y.
Proof. exact gcm_counter_period_lemma. Qed.
Print Assumptions gcm_counter_period.
Example gcm_counters_instance : block16 (repeat 255%N 16) /\
  nth 0 (counter_blocks 3 (repeat 255%N 16)) [] = repeat 255%N 12 ++ [0; 0; 0; 0]%N /\
  nth 2 (counter_blocks 3 (repeat 255%N 16)) [] = repeat 255%N 12 ++ [0; 0; 0; 2]%N.
Proof. split; [split; [reflexivity|repeat constructor]|]. split; vm_compute; reflexivity. Qed.

(** ** C15 *)
Theorem gcm_reject_no_effect : forall d blk c inp outlen, outlen < length inp ->
  gcm_crypt d blk c inp outlen = (false, c, []).
Proof. exact gcm_reject_no_effect_lemma. Qed.
Print Assumptions gcm_reject_no_effect.
(** and only such calls, or a failing block function, are rejected; an accepted call writes
    exactly inlen bytes *)
Theorem gcm_accept : forall d E c inp outlen, block_function E -> reachable (lift E) c -> bytes inp ->
  (N.of_nat (length inp) <= 2147483647)%N -> length inp <= outlen ->
  exists c' o, gcm_crypt d (lift E) c inp outlen = (true, c', o) /\ length o = length inp /\ bytes o.
Proof. exact gcm_accept_lemma. Qed.
Print Assumptions gcm_accept.

(** ** C52 *)
(** A call with 2^31 <= inlen < 2^32 and enough room returns 1 but writes nothing. *)
Theorem gcm_large_input_refuted : forall d blk c inp outlen, length inp <= outlen ->
  (2 ^ 31 <= N.of_nat (length inp) < 2 ^ 32)%N ->
  exists c', gcm_crypt d blk c inp outlen = (true, c', []) /\ g_y c' = g_y c /\ g_buf c' = g_buf c.
Proof. exact gcm_large_input_refuted_lemma. Qed.
Print Assumptions gcm_large_input_refuted.
Example gcm_large_input_exists : exists inp : list N, bytes inp /\ (2 ^ 31 <= N.of_nat (length inp) < 2 ^ 32)%N.
Proof.
  exists (repeat 0%N (N.to_nat (2 ^ 31))). split; [apply bytes_repeat; reflexivity|].
  rewrite repeat_length, N2Nat.id. split; [apply N.le_refl|reflexivity].
Qed.
