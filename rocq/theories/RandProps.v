(** * Properties of the random generator and of the tables generated with it (C75 - C80) *)
From Verif Require Import Base Word32 CbcSpec GcmModel GcmSpec FileModel Sm4Model Sm4Spec FpeModel MatModel MatSpec Wbsm4Model Wbsm4Spec Wbsm4Proofs SewbModel AesSpec AesProofs WbaesModel WbaesProofs WbgcmModel WbgcmSpec WbgcmProofs WbgcmKeys WbgcmTop RandModel RandProofs RandRefine RandTables RandEnc RandThms RandSeeds.
From Coq Require Import ZArith.
Local Open Scope nat_scope.
Local Opaque MatMulVec MatMulNum MatMulMat genMatpair genPermutation genMatpairs genPermutations s_genMatpairs gen_tables s_wbaes_gen_table s_wbsm4_gen_table s_se_gen_table s_ee_gen_table s_mask_gen_table s_genaffinepair permuteQPR aes_encrypt sm4_for wbsm4_encrypt wbaes_encrypt.

(** ** C75: the generator *)
(** After any seeding the first 2^32 values are pairwise different, every 32-bit number is among them, and then the
    sequence starts again. *)
Theorem random_no_repeat : forall seed s n, (N.of_nat n <= 2 ^ 32)%N -> NoDup (calls n (InitRandom seed s)).
Proof. intros seed s n H. apply calls_NoDup; [apply InitRandom_ok|exact H]. Qed.
Print Assumptions random_no_repeat.
Theorem random_full : forall seed s n v, N.of_nat n = (2 ^ 32)%N -> (v < 2 ^ 32)%N -> In v (calls n (InitRandom seed s)).
Proof. intros seed s n v H V. apply calls_onto; [apply InitRandom_ok|exact H|exact V]. Qed.
Print Assumptions random_full.
Theorem random_period : forall seed s n m, N.of_nat m = (2 ^ 32)%N ->
  exists l, length l = m /\ calls (m + n) (InitRandom seed s) = l ++ calls n (InitRandom seed s).
Proof.
  intros seed s n m M. pose proof (InitRandom_ok seed s) as O. exists (calls m (InitRandom seed s)).
  rewrite !(cus_random_iter _ _ O). split; [now rewrite map_length, seq_length|].
  rewrite seq_app, map_app. f_equal. cbn [Nat.add]. rewrite <- (Nat.add_0_r m) at 1. generalize 0 as a. intro a. revert a.
  induction n as [|n IH]; intro a; [reflexivity|]. cbn [seq map]. f_equal; [rewrite Nat.add_comm; now apply calls_period|].
  rewrite <- Nat.add_succ_r. apply IH.
Qed.
Print Assumptions random_period.
(** Seeds that differ give sequences that differ. *)
Theorem random_seeds_differ : forall a b s t, (a < 2 ^ 32)%N -> (b < 2 ^ 32)%N ->
  (forall n, calls n (InitRandom a s) = calls n (InitRandom b t)) -> a = b.
Proof.
  intros a b s t A B H. apply (seeds_differ_lemma a b s t A B). intro n. specialize (H (S n)).
  rewrite !(cus_random_iter _ _ (InitRandom_ok _ _)) in H. rewrite seq_S, !map_app in H. apply app_inj_tail in H. exact (proj2 H).
Qed.
Print Assumptions random_seeds_differ.
Example random_case : calls 4 (InitRandom 1 rng0) = [1738361671; 4281508316; 4213098256; 3836572130]%N.
Proof. vm_compute. reflexivity. Qed.
Example random_no_repeat_case : NoDup (calls 4 (InitRandom 1 rng0)) /\ (N.of_nat 4 <= 2 ^ 32)%N.
Proof. split; [apply random_no_repeat|]; vm_compute; discriminate. Qed.
(** (the premise of [random_full] and [random_period] is met) *)
Example random_full_case : forall v, (v < 2 ^ 32)%N -> In v (calls (N.to_nat (2 ^ 32)) (InitRandom 1 rng0)).
Proof. intros v V. apply random_full; [apply N2Nat.id|exact V]. Qed.

(** ** C76: tables generated with this generator are correct *)
(** Whatever the clock shows, whatever randseed is and whatever was drawn before. *)
Theorem wbsm4_generator_conforms : forall clk s rs junk em key b, bytes key -> block16 b ->
  exists ctx s', s_wbsm4_gen_table clk s rs (wbsm4_context_init junk em 0) key = Ret (ctx, s') /\ wbsm4_encrypt ctx b = Ret (sm4_for em key b).
Proof. exact s_wbsm4_conforms_lemma. Qed.
Print Assumptions wbsm4_generator_conforms.
Theorem se_wbsm4_generator_conforms : forall clk s ctx key, bytes key ->
  exists ctx' s', s_se_gen_table clk s ctx key = Ret (ctx', s') /\
    forall b, block16 b -> se_encrypt ctx' b = sm4_for (se_encmode ctx) key b /\ se_decrypt ctx' b = sm4_for (se_encmode ctx) key b.
Proof. exact s_se_conforms_lemma. Qed.
Print Assumptions se_wbsm4_generator_conforms.
Theorem wbaes_generator_conforms : forall clk s junk key, bytes key -> 16 <= length key ->
  exists ctx e s', s_wbaes_gen_table clk s junk key = Ret (ctx, e, s') /\ forall b, block16 b -> wbaes_encrypt ctx b = aes_encrypt (firstn 16 key) b.
Proof.
  intros clk s junk key B L. destruct (s_wbaes_instance clk s junk key L) as (rnd & ctx & e & s' & E & F). exists ctx, e, s'. split; [exact E|].
  destruct (wbaes_conforms_lemma rnd junk key B L) as (c & F' & H). rewrite F in F'. apply Ret_inj in F'. subst c. exact H.
Qed.
Print Assumptions wbaes_generator_conforms.
Theorem ee_generator_conforms_partial : forall clk s junk key d iv aad p t, bytes key -> 16 <= length key -> bytes iv -> bytes aad -> bytes p ->
  (8 * N.of_nat (length iv) < 2 ^ 32)%N -> (8 * N.of_nat (length aad) < 2 ^ 64)%N -> (N.of_nat (length p) <= 2147483647)%N -> t <= 16 -> nothing aad [p] = false ->
  exists ctx s', s_ee_gen_table clk s junk key = Ret (ctx, s') /\
  let E := aes_encrypt (firstn 16 key) in let o := gctr E (inc32 (J0 E iv)) p in
  wbgcm_session d (ee_key ctx) iv aad [p] t = Some ([o], gcm_tag E iv aad (match d with Enc => o | Dec => p end) t).
Proof.
  intros clk s junk key d iv aad p t B L. intros. destruct (s_ee_instance clk s junk key L) as (rnd & ctx & s' & E & F). exists ctx, s'. split; [exact E|].
  cbv zeta. now apply (ee_standard_lemma rnd junk key ctx).
Qed.
Print Assumptions ee_generator_conforms_partial.
Theorem mask_generator_roundtrip : forall clk s junk key, bytes key -> 16 <= length key ->
  exists ce cd s', s_mask_gen_table clk s junk key = Ret (ce, cd, s') /\
  forall iv aad ps t, bytes iv -> bytes aad -> small_pieces ps -> t <= 16 ->
  (8 * N.of_nat (length aad) < 2 ^ 64)%N -> (8 * N.of_nat (length (concat ps)) < 2 ^ 64)%N ->
  exists cs tag tag', wbgcm_session Enc (mask_key ce) iv aad ps t = Some (cs, tag) /\ map (@length N) cs = map (@length N) ps /\
    wbgcm_session Dec (mask_key cd) iv aad cs t = Some (ps, tag').
Proof.
  intros clk s junk key B L. destruct (s_mask_ok clk s junk key B L) as (ce & cd & s' & E & G). exists ce, cd, s'. split; [exact E|].
  intros iv aad ps t. exact (mask_roundtrip_good key (ce, cd) iv aad ps t B G).
Qed.
Print Assumptions mask_generator_roundtrip.
(** the test vector of the SM4 standard, through tables made with the generator of a program that starts at second T *)
Example wbsm4_generator_case : forall T, let key := N_to_be 16 0x0123456789abcdeffedcba9876543210 in
  exists ctx s', s_wbsm4_gen_table (fun _ => T) rng0 [] (wbsm4_context_init (fun _ => 0%N) 1 0) key = Ret (ctx, s') /\
    wbsm4_encrypt ctx key = Ret (N_to_be 16 0x681edf34d206965e86b3e94f536e4246).
Proof.
  intros T key. assert (K : block16 key) by (split; [reflexivity|apply bytes_N_to_be]).
  destruct (wbsm4_generator_conforms (fun _ => T) rng0 [] (fun _ => 0%N) 1 key key (proj2 K) K) as (c & s' & E & H). exists c, s'. split; [exact E|].
  etransitivity; [exact H|]. apply f_equal. vm_compute. reflexivity.
Qed.
Example wbaes_generator_case : forall T, exists ctx e s', s_wbaes_gen_table (fun _ => T) rng0 (fun _ _ => 0%N) (N_to_be 16 0x000102030405060708090a0b0c0d0e0f) = Ret (ctx, e, s') /\
  wbaes_encrypt ctx (N_to_be 16 0x00112233445566778899aabbccddeeff) = N_to_be 16 0x69c4e0d86a7b0430d8cdb78070b4c55a.
Proof.
  intros T. set (key := N_to_be 16 0x000102030405060708090a0b0c0d0e0f). assert (B : bytes key) by apply bytes_N_to_be. assert (L : 16 <= length key) by (vm_compute; lia).
  destruct (wbaes_generator_conforms (fun _ => T) rng0 (fun _ _ => 0%N) key B L) as (c & e & s' & E & H). exists c, e, s'. split; [exact E|].
  assert (BB : block16 (N_to_be 16 0x00112233445566778899aabbccddeeff)) by (split; [reflexivity|apply bytes_N_to_be]).
  etransitivity; [exact (H _ BB)|]. vm_compute. reflexivity.
Qed.

(** ** C77: the tables are not fresh *)
(** Two generations that start from the same randseed and read the same seconds make the same tables, whatever the
    generator had drawn before; in particular two programs started in the same second. *)
Theorem wbsm4_tables_fresh_refuted : forall clk clk' s s' rs ctx key, r_seed s = r_seed s' ->
  (forall k, w32 (clk (r_calls s + k)) = w32 (clk' (r_calls s' + k))) ->
  match s_wbsm4_gen_table clk s rs ctx key, s_wbsm4_gen_table clk' s' rs ctx key with
  | Ret (c, _), Ret (c', _) => same_wctx c c' | Undef, Undef => True | Abort, Abort => True | _, _ => False end.
Proof.
  intros clk clk' s s' rs ctx key A B. pose proof (sim_wbsm4 clk clk' s s' rs ctx key (conj A B)) as H.
  destruct (s_wbsm4_gen_table clk s rs ctx key) as [[c t]| |], (s_wbsm4_gen_table clk' s' rs ctx key) as [[c' t']| |]; try exact H. exact (proj1 H).
Qed.
Print Assumptions wbsm4_tables_fresh_refuted.
Theorem se_wbsm4_tables_fresh_refuted : forall clk clk' s s' ctx key, r_seed s = r_seed s' ->
  (forall k, w32 (clk (r_calls s + k)) = w32 (clk' (r_calls s' + k))) -> forall c t c' t',
  s_se_gen_table clk s ctx key = Ret (c, t) -> s_se_gen_table clk' s' ctx key = Ret (c', t') -> c = c'.
Proof.
  intros clk clk' s s' ctx key A B c t c' t' E E'. pose proof (sim_se clk clk' s s' ctx key (conj A B)) as H. rewrite E, E' in H. exact (proj1 H).
Qed.
Print Assumptions se_wbsm4_tables_fresh_refuted.
Theorem wbaes_tables_fresh_refuted : forall clk clk' s s' junk key, r_seed s = r_seed s' ->
  (forall k, w32 (clk (r_calls s + k)) = w32 (clk' (r_calls s' + k))) -> forall c e t c' e' t',
  s_wbaes_gen_table clk s junk key = Ret (c, e, t) -> s_wbaes_gen_table clk' s' junk key = Ret (c', e', t') -> c = c'.
Proof.
  intros clk clk' s s' junk key A B c e t c' e' t'. Local Transparent s_wbaes_gen_table. unfold s_wbaes_gen_table. destruct (length key <? 16); [discriminate|]. cbv zeta.
  pose proof (sim_encodings clk clk' (s_fin_wbaes junk) junk junk s s' (local_fin_mask junk) (conj A B)) as H.
  destruct (s_gen_encodings clk s junk (s_fin_wbaes junk)) as [[[e0 a] u]| |], (s_gen_encodings clk' s' junk (s_fin_wbaes junk)) as [[[e0' a'] u']| |]; try contradiction; try discriminate.
  cbn [obind]. intros E E'. destruct H as [H _]. apply Ret_inj in E, E'. apply (f_equal (fun x => fst (fst x))) in E, E'. cbn [fst] in E, E'. rewrite <- E, <- E'. injection H as -> ->. reflexivity.
Qed.
Local Opaque s_wbaes_gen_table.
Print Assumptions wbaes_tables_fresh_refuted.
(** the premises are met by a program that has drawn numbers before and one that has not *)
Example tables_fresh_case : r_seed (snd (cus_random (InitRandom 7 rng0))) = r_seed rng0 /\
  forall k, w32 ((fun _ => 1700000000%N) (r_calls (snd (cus_random (InitRandom 7 rng0))) + k)) = w32 ((fun _ => 1700000000%N) (r_calls rng0 + k)).
Proof. split; reflexivity. Qed.

(** ** C78: the nibble encodings of white-box AES are public *)
(** All the input and output encodings of the tables but the matrices - in every round, and the external ones on the
    input side - are determined by the second in which they are drawn: any two contexts, for any keys, in any
    programs, with any randseed, have the same ones when that second is the same. *)
Theorem wbaes_encodings_secret_refuted : forall clk clk' s s' junk junk' key key' ctx ctx' e e' t t',
  s_wbaes_gen_table clk s junk key = Ret (ctx, e, t) -> s_wbaes_gen_table clk' s' junk' key' = Ret (ctx', e', t') ->
  w32 (clk (r_calls s + 424)) = w32 (clk' (r_calls s' + 424)) -> same_nibbles e e'.
Proof. exact wbaes_nibbles_lemma. Qed.
Print Assumptions wbaes_encodings_secret_refuted.
Example wbaes_encodings_case : exists ctx e t ctx' e' t',
  s_wbaes_gen_table (fun _ => 1700000000%N) rng0 (fun _ _ => 0%N) (repeat 1%N 16) = Ret (ctx, e, t) /\
  s_wbaes_gen_table (fun k => N.of_nat k + 1699999576)%N (SetRandSeed 99 rng0) (fun _ _ => 0%N) (repeat 2%N 16) = Ret (ctx', e', t') /\ same_nibbles e e'.
Proof.
  assert (B1 : bytes (repeat 1%N 16)) by (repeat constructor). assert (B2 : bytes (repeat 2%N 16)) by (repeat constructor).
  destruct (wbaes_generator_conforms (fun _ => 1700000000%N) rng0 (fun _ _ => 0%N) _ B1 (Nat.le_refl _)) as (c & e & t & E & _).
  destruct (wbaes_generator_conforms (fun k => N.of_nat k + 1699999576)%N (SetRandSeed 99 rng0) (fun _ _ => 0%N) _ B2 (Nat.le_refl _)) as (c' & e' & t' & E' & _).
  exists c, e, t, c', e', t'. split; [exact E|]. split; [exact E'|]. refine (wbaes_encodings_secret_refuted _ _ _ _ _ _ _ _ _ _ _ _ _ _ E E' _). vm_compute. reflexivity.
Qed.

(** ** C79: the masks of the mask variant are public *)
(** The block function inside the two key contexts is AES-128 with a mask that is determined by the second in which
    it is drawn; within a second the two masks are the same. *)
Theorem mask_secret_refuted : forall clk s junk key ce cd s', bytes key -> s_mask_gen_table clk s junk key = Ret (ce, cd, s') ->
  forall b, block16 b ->
    mask_aux ce b = map (fun i => N.lxor (get (aes_encrypt (firstn 16 key) b) i) (clock_mask (clk (r_calls s + 946)) i)) (seq 0 16) /\
    mask_aux cd b = map (fun i => N.lxor (get (aes_encrypt (firstn 16 key) b) i) (clock_mask (clk (r_calls s + 947)) i)) (seq 0 16).
Proof. exact mask_clock_lemma. Qed.
Print Assumptions mask_secret_refuted.
(** the mask of a given second *)
Example mask_secret_case : map (clock_mask 1700000000) (seq 0 16) = [51; 132; 183; 32; 14; 98; 123; 103; 158; 224; 45; 143; 8; 245; 235; 212]%N.
Proof. vm_compute. reflexivity. Qed.
Example mask_secret_case2 : exists ce cd s', s_mask_gen_table (fun _ => 1700000000%N) rng0 (fun _ _ _ => 0%N) (N_to_be 16 0x000102030405060708090a0b0c0d0e0f) = Ret (ce, cd, s') /\
  xorl (mask_aux ce (N_to_be 16 0x00112233445566778899aabbccddeeff)) (map (clock_mask 1700000000) (seq 0 16)) = N_to_be 16 0x69c4e0d86a7b0430d8cdb78070b4c55a.
Proof.
  set (key := N_to_be 16 0x000102030405060708090a0b0c0d0e0f). assert (B : bytes key) by apply bytes_N_to_be. assert (L : 16 <= length key) by (vm_compute; lia).
  destruct (s_mask_ok (fun _ => 1700000000%N) rng0 (fun _ _ _ => 0%N) key B L) as (ce & cd & s' & E & _). exists ce, cd, s'. split; [exact E|].
  assert (BB : block16 (N_to_be 16 0x00112233445566778899aabbccddeeff)) by (split; [reflexivity|apply bytes_N_to_be]).
  rewrite (proj1 (mask_secret_refuted _ _ _ _ _ _ _ B E _ BB)). cbv beta. vm_compute. reflexivity.
Qed.

(** ** C80: seedings of the matrix functions *)
(** Within a second no two of the first 2^32 seedings give the same sequence ... *)
Theorem matrix_seeds_fresh : forall clk T s i j, (forall n, w32 (clk n) = T) -> (r_seed s < 2 ^ 32)%N -> i < j -> (N.of_nat j < 2 ^ 32)%N ->
  ~ forall n, rng_stream (Nat.iter (S i) (reseed clk) s) n = rng_stream (Nat.iter (S j) (reseed clk) s) n.
Proof. exact reseed_fresh_lemma. Qed.
Print Assumptions matrix_seeds_fresh.
(** ... but when the clock ticks the next pair of matrices can be the one just drawn: randseed and the second are
    combined by exclusive or, and a step of both can cancel. *)
Theorem matrix_fresh_refuted : forall n clk s a b t a' b' t',
  s_genaffinepair n clk s = Ret (a, b, t) -> s_genaffinepair n clk t = Ret (a', b', t') ->
  (r_seed s mod 4 = 3)%N -> (r_seed s + 4 < 2 ^ 32)%N ->
  (clk (r_calls s + 1)%nat mod 4 = 1)%N -> clk (r_calls s + 4)%nat = (clk (r_calls s + 1)%nat + 1)%N -> (clk (r_calls s + 4)%nat < 2 ^ 32)%N ->
  a_mat a = a_mat a' /\ a_mat b = a_mat b'.
Proof. exact repeat_tick_lemma. Qed.
Print Assumptions matrix_fresh_refuted.
(** the second and third pair a program makes, when the clock ticks from 5 to 6 between them *)
Example matrix_fresh_case : let clk k := if k <? 7 then 5%N else 6%N in exists a b s a1 b1 s1 a2 b2 s2,
  s_genaffinepair 32 clk rng0 = Ret (a, b, s) /\ s_genaffinepair 32 clk s = Ret (a1, b1, s1) /\ s_genaffinepair 32 clk s1 = Ret (a2, b2, s2) /\ a_mat a1 = a_mat a2.
Proof.
  intro clk. destruct (s_genaffinepair_ret 32 clk rng0 size32) as (a & b & s & E). destruct (s_genaffinepair_ret 32 clk s size32) as (a1 & b1 & s1 & E1).
  destruct (s_genaffinepair_ret 32 clk s1 size32) as (a2 & b2 & s2 & E2). exists a, b, s, a1, b1, s1, a2, b2, s2. repeat (split; [assumption|]).
  destruct (affine_matpair _ _ _ _ _ _ E) as (u & _ & C & D).
  refine (proj1 (matrix_fresh_refuted _ _ _ _ _ _ _ _ _ E1 E2 _ _ _ _ _)); rewrite ?C, ?D; vm_compute; reflexivity.
Qed.
