(** * The table lookups of src/sm4/sm4.c and src/modes/gcm128.c.

    The same functions as in Sm4Model and GcmModel, each also returning the table entries it reads, in order: what an
    observer of the memory accesses (a shared cache, for instance) can tell apart at best.  Where C leaves the order of
    two lookups of one expression open, it is the order in which they are written. *)
From Verif Require Import Base Word32 CbcModel GcmModel Sm4Model.
Local Open Scope nat_scope.

Inductive table := TSm4S | TSm4T | THH | THL | TLast4.
Definition lookups := list (table * N).
Definition traced (A : Type) := (A * lookups)%type.
Definition tret {A} (a : A) : traced A := (a, []).
Definition tbind {A B} (m : traced A) (f : A -> traced B) : traced B :=
  let '(a, t) := m in let '(b, u) := f a in (b, t ++ u).
Notation "'look' x <- o ; f" := (tbind o (fun x => f)) (at level 200, x pattern, o at level 100, f at level 200).

(** src/sm4/sm4.c:14-37 SM4_S[b], :42-85 SM4_SBOX_T[b] *)
Definition sm4_s_tr (b : N) : traced N := (sm4_s b, [(TSm4S, b)]).
Definition sm4_sbox_t_tr (b : N) : traced N := (sm4_sbox_t b, [(TSm4T, b)]).
(** src/sm4/sm4.c:110-115 and :180-185 *)
Definition sm4_sub_tr (X : N) : traced N :=
  look a <- sm4_s_tr (byte_at X 24); look b <- sm4_s_tr (byte_at X 16);
  look c <- sm4_s_tr (byte_at X 8); look d <- sm4_s_tr (byte_at X 0);
  tret (N.lor (N.lor (N.lor (N.shiftl a 24) (N.shiftl b 16)) (N.shiftl c 8)) d).
(** src/sm4/sm4.c:108-121 SM4_T_slow *)
Definition sm4_t_slow_tr (X : N) : traced N :=
  look t <- sm4_sub_tr X;
  tret (N.lxor (N.lxor (N.lxor (N.lxor t (rotl32 t 2)) (rotl32 t 10)) (rotl32 t 18)) (rotl32 t 24)).
(** src/sm4/sm4.c:123-129 SM4_T *)
Definition sm4_t_tr (X : N) : traced N :=
  look a <- sm4_sbox_t_tr (byte_at X 24); look b <- sm4_sbox_t_tr (byte_at X 16);
  look c <- sm4_sbox_t_tr (byte_at X 8); look d <- sm4_sbox_t_tr (byte_at X 0);
  tret (N.lxor (N.lxor (N.lxor a (rotl32 b 24)) (rotl32 c 16)) (rotl32 d 8)).
(** src/sm4/sm4.c:177-194, one iteration of the key schedule (stores forwards, encmode 1) *)
Definition sm4_ks_step_tr (s : list N * list N) (i : nat) : traced (list N * list N) :=
  let '(K, rk) := s in
  let X := N.lxor (N.lxor (N.lxor (get K ((i + 1) mod 4)) (get K ((i + 2) mod 4))) (get K ((i + 3) mod 4))) (get CK i) in
  look t <- sm4_sub_tr X;
  let t := N.lxor (N.lxor t (rotl32 t 13)) (rotl32 t 23) in
  let K' := set K (i mod 4) (N.lxor (get K (i mod 4)) t) in
  tret (K', set rk i (get K' (i mod 4))).
(** src/sm4/sm4.c:146-205 WBCRYPTO_sm4_init_key *)
Definition sm4_init_key_tr (rk key : list N) : traced (list N) :=
  let pk := key_padding_pkcs7 key in
  let K := map (fun n => N.lxor (get_u32_be pk (4 * n)) (get FK n)) (seq 0 4) in
  look s <- fold_left (fun m i => look s <- m; sm4_ks_step_tr s i) (seq 0 32) (tret (K, rk));
  tret (snd s).
(** src/sm4/sm4.c:207-213 SM4_RNDS *)
Definition sm4_rnds_tr (F : N -> traced N) (rk : list N) (k0 k1 k2 k3 : nat) (B : N * N * N * N) : traced (N * N * N * N) :=
  let '(B0, B1, B2, B3) := B in
  look f <- F (N.lxor (N.lxor (N.lxor B1 B2) B3) (get rk k0)); let B0 := N.lxor B0 f in
  look f <- F (N.lxor (N.lxor (N.lxor B0 B2) B3) (get rk k1)); let B1 := N.lxor B1 f in
  look f <- F (N.lxor (N.lxor (N.lxor B0 B1) B3) (get rk k2)); let B2 := N.lxor B2 f in
  look f <- F (N.lxor (N.lxor (N.lxor B0 B1) B2) (get rk k3)); let B3 := N.lxor B3 f in
  tret (B0, B1, B2, B3).
(** src/sm4/sm4.c:215-242 WBCRYPTO_sm4_encrypt *)
Definition sm4_encrypt_tr (rk b : list N) : traced (list N) :=
  let B := sm4_load b in
  look B <- sm4_rnds_tr sm4_t_slow_tr rk 0 1 2 3 B;
  look B <- sm4_rnds_tr sm4_t_tr rk 4 5 6 7 B;
  look B <- sm4_rnds_tr sm4_t_tr rk 8 9 10 11 B;
  look B <- sm4_rnds_tr sm4_t_tr rk 12 13 14 15 B;
  look B <- sm4_rnds_tr sm4_t_tr rk 16 17 18 19 B;
  look B <- sm4_rnds_tr sm4_t_tr rk 20 21 22 23 B;
  look B <- sm4_rnds_tr sm4_t_tr rk 24 25 26 27 B;
  look B <- sm4_rnds_tr sm4_t_slow_tr rk 28 29 30 31 B;
  tret (sm4_store B).
(** src/sm4/sm4.c:244-267 WBCRYPTO_sm4_decrypt *)
Definition sm4_decrypt_tr (rk b : list N) : traced (list N) :=
  let B := sm4_load b in
  look B <- sm4_rnds_tr sm4_t_slow_tr rk 31 30 29 28 B;
  look B <- sm4_rnds_tr sm4_t_tr rk 27 26 25 24 B;
  look B <- sm4_rnds_tr sm4_t_tr rk 23 22 21 20 B;
  look B <- sm4_rnds_tr sm4_t_tr rk 19 18 17 16 B;
  look B <- sm4_rnds_tr sm4_t_tr rk 15 14 13 12 B;
  look B <- sm4_rnds_tr sm4_t_tr rk 11 10 9 8 B;
  look B <- sm4_rnds_tr sm4_t_tr rk 7 6 5 4 B;
  look B <- sm4_rnds_tr sm4_t_slow_tr rk 3 2 1 0 B;
  tret (sm4_store B).

(** src/modes/gcm128.c:21-26 and :28-33 *)
Definition mult_nibble_tr (HH HL : list N) (z : N * N) (n : nat) : traced (N * N) :=
  (mult_nibble HH HL z n, [(TLast4, N.land (snd z) 0x0f); (THH, N.of_nat n); (THL, N.of_nat n)]).
(** src/modes/gcm128.c:3-39 gcm_mult *)
Definition gcm_mult_tr (HH HL : list N) (x : list N) : traced (list N) :=
  let lo0 := N.to_nat (N.land (get x 15) 0x0f) in
  let z0 : traced (N * N) := ((get HH lo0, get HL lo0), [(THH, N.of_nat lo0); (THL, N.of_nat lo0)]) in
  let step (m : traced (N * N)) i :=
    let lo := N.to_nat (N.land (get x i) 0x0f) in
    let hi := N.to_nat (N.shiftr (get x i) 4) in
    look z <- m;
    look z1 <- (if i =? 15 then tret z else mult_nibble_tr HH HL z lo);
    mult_nibble_tr HH HL z1 hi in
  look z <- fold_left step [15;14;13;12;11;10;9;8;7;6;5;4;3;2;1;0] z0;
  let '(zh, zl) := z in
  tret (put_u32_be (N.shiftr zh 32) ++ put_u32_be zh ++ put_u32_be (N.shiftr zl 32) ++ put_u32_be zl).
(** src/modes/gcm128.c:123-129 and :150-156 *)
Definition absorb_tr (HH HL : list N) (acc data : list N) : traced (list N) :=
  fold_left (fun m p => look a <- m; gcm_mult_tr HH HL (xor_into a p)) (chunks 16 data) (tret acc).
(** src/modes/gcm128.c:139-160 WBCRYPTO_gcm_aad *)
Definition gcm_aad_tr (c : gcm_ctx) (aad : list N) : traced gcm_ctx :=
  look b <- absorb_tr (g_HH c) (g_HL c) (g_buf c) aad;
  tret (mkgcm (g_len c) (w64 (N.of_nat (length aad))) (g_HL c) (g_HH c) (g_base c) (g_y c) b).
