(** * Model of the random generator WBMatrix/src/random.c and of where it is seeded

    MatModel and the models of the white-box generators take any sequence of 32-bit numbers for the values of
    cus_random.  Here the generator itself is modelled, with its global variables, the global [randseed] and the
    clock, and the generators of tables are written over it.

    Simplifications: [clk n] is the value of time(NULL) at the n-th call made by the functions below, converted to
    unsigned int (the call in wrandom.c:20 is not counted: it seeds rand(), whose values are [rs] as in Wbsm4Model).
    Between two seedings a function draws from the sequence [rng_stream], whose n-th element is the result of the n-th
    call of [cus_random] (lemma [cus_random_iter]). *)
From Verif Require Import Base Word32 Sm4Model FpeModel MatModel Wbsm4Model SewbModel WbaesModel WbgcmModel.
Local Open Scope nat_scope.

(** ** random.c *)
(** random.c:6-13 permuteQPR (unsigned int; the product is computed in 64 bits) *)
Definition permuteQPR (x : N) : N :=
  (let prime := 4294967291 in
   if prime <=? x then x
   else let residue := (x * x) mod prime in
        if x <=? prime / 2 then residue else prime - residue)%N.
(** random.c:3-4 m_index and m_intermediateOffset; WBMatrix.c:3 randseed; the number of calls of time(NULL) so far *)
Record rng := mkrng { r_index : N; r_off : N; r_seed : N; r_calls : nat }.
(** the state when the program starts (globals are zero) *)
Definition rng0 : rng := mkrng 0 0 0 0.
(** random.c:15-20 InitRandom *)
Definition InitRandom (seedBase : N) (s : rng) : rng :=
  let seedOffset := w32 (seedBase + 1) in
  mkrng (permuteQPR (w32 (permuteQPR seedBase + 0x682f0161))) (permuteQPR (w32 (permuteQPR seedOffset + 0x46790905)))
        (r_seed s) (r_calls s).
(** random.c:22-25 cus_random *)
Definition cus_random (s : rng) : N * rng :=
  (permuteQPR (N.lxor (w32 (permuteQPR (r_index s) + r_off s)) 0x5bf03635),
   mkrng (w32 (r_index s + 1)) (r_off s) (r_seed s) (r_calls s)).
(** the values of successive calls, and the state after [n] of them *)
Definition rng_stream (s : rng) (n : nat) : N :=
  permuteQPR (N.lxor (w32 (permuteQPR (w32 (r_index s + N.of_nat n)) + r_off s)) 0x5bf03635).
Definition rng_adv (s : rng) (n : nat) : rng := mkrng (w32 (r_index s + N.of_nat n)) (r_off s) (r_seed s) (r_calls s).

(** ** Seeding *)
(** WBMatrix.c:52-54 SetRandSeed *)
Definition SetRandSeed (seed : N) (s : rng) : rng := mkrng (r_index s) (r_off s) (w32 seed) (r_calls s).
(** InitRandom((unsigned int) time(NULL)): wbaes.c:82, wbaes_wbgcm_mask_init.c:6 and :101, wbaes_wbgcm_ee_init.c:76,
    wbsm4_gen.c:130, se_wbsm4.c:34 *)
Definition seed_time (clk : nat -> N) (s : rng) : rng :=
  InitRandom (w32 (clk (r_calls s))) (mkrng (r_index s) (r_off s) (r_seed s) (S (r_calls s))).
(** InitRandom((randseed++) ^ ((unsigned int) time(NULL))): WBMatrix.c:139 and the like *)
Definition reseed (clk : nat -> N) (s : rng) : rng :=
  InitRandom (N.lxor (r_seed s) (w32 (clk (r_calls s)))) (mkrng (r_index s) (r_off s) (w32 (r_seed s + 1)) (S (r_calls s))).

(** ** WBMatrix.c *)
(** WBMatrix.c:2015-2151 genMatpairM32 and the like: seeded at :2026, and again by randM32 (:166, called at :2029) *)
Definition s_genMatpair (n : nat) (clk : nat -> N) (s : rng) : outcome (list N * list N * rng) :=
  let s := reseed clk (reseed clk s) in
  obind (genMatpair n (rng_stream s) 0) (fun '(A, B, pos) => Ret (A, B, rng_adv s pos)).
(** WBMatrix.c:258-286 randV8, randV16, randV32, randV64 *)
Definition s_randV (n : nat) (clk : nat -> N) (s : rng) : N * rng :=
  let s := reseed clk s in
  let '(v, pos) := randV n (rng_stream s) 0 in (v, rng_adv s pos).
(** WBMatrix.c:2584-2624 genaffinepairM32 and the like *)
Definition s_genaffinepair (n : nat) (clk : nat -> N) (s : rng) : outcome (aff * aff * rng) :=
  obind (s_genMatpair n clk s) (fun '(A, B, s) =>
  let '(v, s) := s_randV n clk s in
  Ret (mkaff A v, mkaff B (MatMulVec n B v), s)).

(** ** White-box SM4 *)
(** wbsm4_gen.c:134-138 and :143-146 *)
Fixpoint s_genaffinepairs (n k : nat) (clk : nat -> N) (s : rng) : outcome (list (aff * aff) * rng) :=
  match k with
  | O => Ret ([], s)
  | S k' =>
      obind (s_genaffinepair n clk s) (fun '(a, b, s) =>
      obind (s_genaffinepairs n k' clk s) (fun '(l, s) => Ret ((a, b) :: l, s)))
  end.
(** wbsm4_gen.c:140-165, as [gen_round] *)
Definition s_gen_round (P : list (aff * aff)) (i : nat) (clk : nat -> N) (s : rng) : outcome (wround * rng) :=
  obind (s_genaffinepairs 8 4 clk s) (fun '(Eij, s) =>
  let Ei_inv := affinecom4 8 (pair_snd Eij 0) (pair_snd Eij 1) (pair_snd Eij 2) (pair_snd Eij 3) in
  let M k := affinemix 32 Ei_inv (pair_snd P (i + 1 + k)) in
  obind (s_genaffinepair 32 clk s) (fun '(Q, Q_inv, s) =>
  let C := affinemix 32 (pair_fst P (i + 4)) (pair_snd P i) in
  let D := affinemix 32 (pair_fst P (i + 4)) Q_inv in
  let '(temp_u32, s) := cus_random s in
  let C := mkaff (a_mat C) (N.lxor (a_vec C) temp_u32) in
  let D := mkaff (a_mat D) (N.lxor (a_vec D) (N.lxor (a_vec (pair_fst P (i + 4))) temp_u32)) in
  Ret (mkwround Eij Q M C D, s))).
Fixpoint s_gen_rounds (P : list (aff * aff)) (is : list nat) (clk : nat -> N) (s : rng) : outcome (list wround * rng) :=
  match is with
  | [] => Ret ([], s)
  | i :: is' =>
      obind (s_gen_round P i clk s) (fun '(r, s) =>
      obind (s_gen_rounds P is' clk s) (fun '(l, s) => Ret (r :: l, s)))
  end.
(** wbsm4_gen.c:105-279 WBCRYPTO_wbsm4_gen_table: seeded at :130; from :166 on no function seeds *)
Definition s_wbsm4_gen_table (clk : nat -> N) (s : rng) (rs : list N) (ctx : wctx) (key : list N) : outcome (wctx * rng) :=
  let rk := sm4_init_key_mode (if (w_encmode ctx =? 0)%Z then 0 else 1) sm4_context_init key in
  let s := seed_time clk s in
  let dummy_array := wbsm4_gen_dummyround_array rs 32 ((w_rounds ctx - 32) / 4) in
  obind (s_genaffinepairs 32 36 clk s) (fun '(P, s) =>
  obind (s_gen_rounds P (seq 0 32) clk s) (fun '(R, s) =>
  obind (ofold (gen_step R rk (rng_stream s)) (combine (seq 0 (w_rounds ctx)) dummy_array) (w_mem ctx, false, 0%Z, 0)) (fun '(mem, _, _, pos) =>
  Ret (mkwctx (w_rounds ctx) (w_encmode ctx) (w_alloc ctx) (external P (rng_stream s) pos mem), rng_adv s (pos + 3))))).
(** se_wbsm4.c:20-91 WBCRYPTO_se_wbsm4_gen_table: seeded at :34; no function called in the loop :47-80 seeds *)
Definition s_se_gen_table (clk : nat -> N) (s : rng) (ctx : sectx) (key : list N) : outcome (sectx * rng) :=
  let rk := sm4_init_key_mode (if (se_encmode ctx =? 0)%Z then 0 else 1) sm4_context_init key in
  let s := seed_time clk s in
  obind (s_genaffinepairs 32 36 clk s) (fun '(P, s) =>
  let R := map (se_gen_round P rk (rng_stream s) 0) (seq 0 32) in
  Ret (mksectx (se_encmode ctx) (map (fun r => fst (fst r)) R) (map (fun r => snd (fst r)) R) (map snd R)
    (map (fun i => pair_fst P i) (seq 0 4)) (map (fun i => pair_snd P (35 - i)) (seq 0 4)), rng_adv s 160)).

(** ** White-box AES *)
(** wbaes.c:33-46 *)
Fixpoint s_genMatpairs (n k : nat) (clk : nat -> N) (s : rng) : outcome (list (list N * list N) * rng) :=
  match k with
  | O => Ret ([], s)
  | S k' =>
      obind (s_genMatpair n clk s) (fun '(A, B, s) =>
      obind (s_genMatpairs n k' clk s) (fun '(l, s) => Ret ((A, B) :: l, s)))
  end.
(** the permutations of wbaes.c:83-136, wbaes_wbgcm_mask_init.c:102-170, wbaes_wbgcm_ee_init.c:77-142: they continue
    one sequence; with the number of draws *)
Definition nibble_encodings (rnd : nat -> N) (junk : nat -> nat -> N)
  : list (list N * list N) * list (list N * list N) * list (list N * list N) * nat :=
  let '(o, pos) := genPermutations 16 2304 rnd junk 0 in
  let '(o1, pos) := genPermutations 16 1152 rnd junk pos in
  let '(o2, pos) := genPermutations 16 576 rnd junk pos in (o, o1, o2, pos).
(** wbaes.c:33-46, :82 (seeding) and :83-153, as [gen_encodings]; [fin] draws the external encodings *)
Definition s_gen_encodings {A} (clk : nat -> N) (s : rng) (junk : nat -> nat -> N)
  (fin : (nat -> N) -> nat -> list (list N * list N) * (A * nat)) : outcome (encodings * A * rng) :=
  obind (s_genMatpairs 8 144 clk s) (fun '(Ls, s) =>
  obind (s_genMatpairs 32 36 clk s) (fun '(MBs, s) =>
  obind (s_genMatpairs 8 32 clk s) (fun '(exs, s) =>
  let s := seed_time clk s in
  let '(o, o1, o2, pos) := nibble_encodings (rng_stream s) junk in
  let '(ins, (a, pos)) := fin (rng_stream s) pos in
  Ret (mkenc
    (fun i j => pr Ls (16 * i + j)) (fun i j => pr MBs (4 * i + j)) (fun i => pr exs (2 * i)) (fun i => pr exs (2 * i + 1))
    (fun i j k => pr o (2 * (128 * i + 8 * j + k))) (fun i j k => pr o (2 * (128 * i + 8 * j + k) + 1))
    (fun i j k => pr o1 (2 * (64 * i + 8 * j + k))) (fun i j k => pr o1 (2 * (64 * i + 8 * j + k) + 1))
    (fun i j k => pr o2 (2 * (32 * i + 8 * j + k))) (fun i j k => pr o2 (2 * (32 * i + 8 * j + k) + 1))
    (fun i j => pr ins (2 * i + j)), a, rng_adv s pos)))).
(** wbaes.c:138-153, as [fin_wbaes] (and wbaes_wbgcm_mask_init.c:172-194, as [fin_mask]) *)
Definition s_fin_wbaes (junk : nat -> nat -> N) (rnd : nat -> N) (pos : nat) : list (list N * list N) * ((nat -> nat -> list N * list N) * nat) :=
  fin_mask rnd junk pos.
(** wbaes.c:20-307 WBCRYPTO_wbaes_gen_table, with the encodings *)
Definition s_wbaes_gen_table (clk : nat -> N) (s : rng) (junk : nat -> nat -> N) (key : list N)
  : outcome (wbaes_ctx * encodings * rng) :=
  if length key <? 16 then Undef else
  let ek := shifted_key (expandKey key) in
  obind (s_gen_encodings clk s junk (s_fin_wbaes junk)) (fun '(e, out, s) =>
  Ret (mkwbaes (gen_tables e ek (enc_out out)) (typeIb e out), e, s)).
(** wbaes_wbgcm_mask_init.c:30-310 WBCRYPTO_wbaes_wbgcm_mask_gen_aes_table *)
Definition s_mask_gen_aes (clk : nat -> N) (s : rng) (junk : nat -> nat -> N) (key : list N)
  : outcome (wbtables * (nat -> N -> N) * rng) :=
  if length key <? 16 then Undef else
  let ek := shifted_key (expandKey key) in
  obind (s_gen_encodings clk s junk (s_fin_wbaes junk)) (fun '(e, out, s) =>
  Ret (gen_tables e ek (enc_out out), typeIb e out, s)).
(** wbaes_wbgcm_mask_init.c:4-10 genRandomMask *)
Definition s_genRandomMask (clk : nat -> N) (s : rng) : (nat -> N) * rng :=
  let s := seed_time clk s in (genRandomMask (rng_stream s) 0, rng_adv s 16).
(** wbaes_wbgcm_mask_init.c:312-466, as [mask_gen_gcm]; the permutations :335-363 continue the sequence of the last
    matrix; genRandomMask seeds *)
Definition s_mask_gen_gcm (clk : nat -> N) (s : rng) (junk : nat -> nat -> N) (enc dec : wbtables * (nat -> N -> N))
  : outcome (mask_ctx * mask_ctx * rng) :=
  obind (s_genMatpairs 8 48 clk s) (fun '(Ls, s) =>
  let '(Ns, pos) := genPermutations 256 64 (rng_stream s) junk 0 in
  let s := rng_adv s pos in
  let L1 i := pr Ls (3 * i) in let L2 i := pr Ls (3 * i + 1) in let L3 i := pr Ls (3 * i + 2) in
  let N1 i := pr Ns (4 * i) in let N2 i := pr Ns (4 * i + 1) in let N3 i := pr Ns (4 * i + 2) in let N4 i := pr Ns (4 * i + 3) in
  let '(mE, s) := s_genRandomMask clk s in
  let '(mD, s) := s_genRandomMask clk s in
  Ret (mkmask true (fst enc) (fun i j => N.lxor (snd enc i j) (mE i))
         (fun i j => perm8 (fst (N1 i)) (MatMulNum 8 (fst (L2 i)) (MatMulNum 8 (fst (L1 i)) (N.lxor j (mE i)))))
         (fun i j => perm8 (fst (N2 i)) (MatMulNum 8 (fst (L2 i)) (MatMulNum 8 (fst (L1 i)) j)))
         (fun i j k => MatMulNum 8 (snd (L2 i)) (N.lxor (perm8 (snd (N1 i)) j) (perm8 (snd (N2 i)) k)))
         (fun i => snd (L1 i)),
       mkmask false (fst dec) (fun i j => N.lxor (snd dec i j) (mD i))
         (fun i j => perm8 (fst (N3 i)) (MatMulNum 8 (fst (L3 i)) (N.lxor (MatMulNum 8 (snd (L1 i)) j) (mD i))))
         (fun i j => perm8 (fst (N4 i)) (MatMulNum 8 (fst (L3 i)) j))
         (fun i j k => MatMulNum 8 (snd (L3 i)) (N.lxor (perm8 (snd (N3 i)) j) (perm8 (snd (N4 i)) k)))
         (fun i => fst (L1 i)), s)).
(** wbaes_wbgcm_mask_init.c:468-473 WBCRYPTO_wbaes_wbgcm_mask_gen_table; [junk k]: the uninitialised arrays in step k *)
Definition s_mask_gen_table (clk : nat -> N) (s : rng) (junk : nat -> nat -> nat -> N) (key : list N) : outcome (mask_ctx * mask_ctx * rng) :=
  obind (s_mask_gen_aes clk s (junk 0) key) (fun '(tE, ibE, s) =>
  obind (s_mask_gen_aes clk s (junk 1) key) (fun '(tD, ibD, s) =>
  s_mask_gen_gcm clk s (junk 2) (tE, ibE) (tD, ibD))).
(** wbaes_wbgcm_ee_init.c:4-318 WBCRYPTO_wbaes_wbgcm_ee_gen_table: seeded at :76 *)
Definition s_fin_ee (junk : nat -> nat -> N) (rnd : nat -> N) (pos : nat)
  : list (list N * list N) * (((nat -> list N * list N) * (nat -> list N * list N)) * nat) :=
  let '(ins, pos) := genPermutations 16 32 rnd junk pos in
  let '(o, pos) := genPermutations 256 32 rnd junk pos in
  (ins, ((fun i => pr o (2 * i), fun i => pr o (2 * i + 1)), pos)).
Definition s_ee_gen_table (clk : nat -> N) (s : rng) (junk : nat -> nat -> N) (key : list N) : outcome (ee_ctx * rng) :=
  if length key <? 16 then Undef else
  let ek := shifted_key (expandKey key) in
  obind (s_gen_encodings clk s junk (s_fin_ee junk)) (fun '(e, (out1, out2), s) =>
  Ret (mkee (gen_tables e ek (fun j => perm8 (fst (out1 j))))
    (fun i x => perm8 (fst (out2 i)) (MatMulNum 8 (fst (e_ex_out e i)) x))
    (fun i j k => MatMulNum 8 (snd (e_ex_out e i)) (N.lxor (perm8 (snd (out1 i)) j) (perm8 (snd (out2 i)) k))), s)).
