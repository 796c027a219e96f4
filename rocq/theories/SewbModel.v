(** * Model of src/se_wbsm4: white-box SM4 from self-equivalences of the S-box

    Simplifications: memory allocation succeeds; sm4_sbox[..] << 24 is the two's complement shift, reduced to 32
    bits; the round keys do not change during the call; random numbers are those of MatModel.  The arrays A and B
    are defined in a header that two source files include; the model takes them to be one object each. *)
From Verif Require Import Base Word32 GcmModel Sm4Model FpeModel MatModel Wbsm4Model SewbTables.
From Coq Require Import ZArith.
Local Open Scope nat_scope.

(** src/se_wbsm4/se_wbsm4_local.h:8-41 *)
Definition sm4_sbox : list N :=
  [0xd6; 0x90; 0xe9; 0xfe; 0xcc; 0xe1; 0x3d; 0xb7; 0x16; 0xb6; 0x14; 0xc2; 0x28; 0xfb; 0x2c; 0x05;
   0x2b; 0x67; 0x9a; 0x76; 0x2a; 0xbe; 0x04; 0xc3; 0xaa; 0x44; 0x13; 0x26; 0x49; 0x86; 0x06; 0x99;
   0x9c; 0x42; 0x50; 0xf4; 0x91; 0xef; 0x98; 0x7a; 0x33; 0x54; 0x0b; 0x43; 0xed; 0xcf; 0xac; 0x62;
   0xe4; 0xb3; 0x1c; 0xa9; 0xc9; 0x08; 0xe8; 0x95; 0x80; 0xdf; 0x94; 0xfa; 0x75; 0x8f; 0x3f; 0xa6;
   0x47; 0x07; 0xa7; 0xfc; 0xf3; 0x73; 0x17; 0xba; 0x83; 0x59; 0x3c; 0x19; 0xe6; 0x85; 0x4f; 0xa8;
   0x68; 0x6b; 0x81; 0xb2; 0x71; 0x64; 0xda; 0x8b; 0xf8; 0xeb; 0x0f; 0x4b; 0x70; 0x56; 0x9d; 0x35;
   0x1e; 0x24; 0x0e; 0x5e; 0x63; 0x58; 0xd1; 0xa2; 0x25; 0x22; 0x7c; 0x3b; 0x01; 0x21; 0x78; 0x87;
   0xd4; 0x00; 0x46; 0x57; 0x9f; 0xd3; 0x27; 0x52; 0x4c; 0x36; 0x02; 0xe7; 0xa0; 0xc4; 0xc8; 0x9e;
   0xea; 0xbf; 0x8a; 0xd2; 0x40; 0xc7; 0x38; 0xb5; 0xa3; 0xf7; 0xf2; 0xce; 0xf9; 0x61; 0x15; 0xa1;
   0xe0; 0xae; 0x5d; 0xa4; 0x9b; 0x34; 0x1a; 0x55; 0xad; 0x93; 0x32; 0x30; 0xf5; 0x8c; 0xb1; 0xe3;
   0x1d; 0xf6; 0xe2; 0x2e; 0x82; 0x66; 0xca; 0x60; 0xc0; 0x29; 0x23; 0xab; 0x0d; 0x53; 0x4e; 0x6f;
   0xd5; 0xdb; 0x37; 0x45; 0xde; 0xfd; 0x8e; 0x2f; 0x03; 0xff; 0x6a; 0x72; 0x6d; 0x6c; 0x5b; 0x51;
   0x8d; 0x1b; 0xaf; 0x92; 0xbb; 0xdd; 0xbc; 0x7f; 0x11; 0xd9; 0x5c; 0x41; 0x1f; 0x10; 0x5a; 0xd8;
   0x0a; 0xc1; 0x31; 0x88; 0xa5; 0xcd; 0x7b; 0xbd; 0x2d; 0x74; 0xd0; 0x12; 0xb8; 0xe5; 0xb4; 0xb0;
   0x89; 0x69; 0x97; 0x4a; 0x0c; 0x96; 0x77; 0x7e; 0x65; 0xb9; 0xf1; 0x09; 0xc5; 0x6e; 0xc6; 0x84;
   0x18; 0xf0; 0x7d; 0xec; 0x3a; 0xdc; 0x4d; 0x20; 0x79; 0xee; 0x5f; 0x3e; 0xd7; 0xcb; 0x39; 0x48]%N.
(** se_wbsm4_local.h:43-76 L_matrix *)
Definition SE_L_matrix : list N :=
  [0xA0202080; 0x50101040; 0x28080820; 0x14040410; 0xA020208; 0x5010104; 0x2808082; 0x1404041;
   0x80A02020; 0x40501010; 0x20280808; 0x10140404; 0x80A0202; 0x4050101; 0x82028080; 0x41014040;
   0x2080A020; 0x10405010; 0x8202808; 0x4101404; 0x2080A02; 0x1040501; 0x80820280; 0x40410140;
   0x202080A0; 0x10104050; 0x8082028; 0x4041014; 0x202080A; 0x1010405; 0x80808202; 0x40404101]%N.

(** include/wbcrypto/se_wbsm4.h:12-19; M[i][k] is entry k of entry i *)
Record sectx := mksectx { se_encmode : Z; se_M : list (list aff); se_C : list aff; se_D : list aff; se_SE : list aff; se_FE : list aff }.
Definition zero_aff32 : aff := mkaff (repeat 0%N 32) 0%N.
(** src/se_wbsm4/se_wbsm4.c:3-14 WBCRYPTO_se_wbsm4_context_init *)
Definition se_context_init (encmode : Z) : sectx :=
  mksectx encmode (repeat (repeat zero_aff32 3) 32) (repeat zero_aff32 32) (repeat zero_aff32 32) (repeat zero_aff32 4) (repeat zero_aff32 4).

(** se_wbsm4.c:47-80, iteration i: M[i], C[i] and D[i].  [P]: the pairs (P[i], P_inv[i]); five draws *)
Definition se_gen_round (P : list (aff * aff)) (rk : list N) (rnd : nat -> N) (pos i : nat) : list aff * aff * aff :=
  let a j := N.to_nat (draw rnd (pos + 5 * i + j) mod 2039)%N in
  let stored T j := nth (a j) T aff0 in
  let AA := affinecom4 8 (stored SE_A 0) (stored SE_A 1) (stored SE_A 2) (stored SE_A 3) in
  let BB := affinecom4 8 (stored SE_B 0) (stored SE_B 1) (stored SE_B 2) (stored SE_B 3) in
  let K := mkaff (identityM 32) (get rk i) in
  let L := mkaff SE_L_matrix 0%N in
  let M k := affinemix 32 AA (affinemix 32 K (pair_snd P (i + 1 + k))) in
  let C := affinemix 32 (pair_fst P (i + 4)) (pair_snd P i) in
  let D := affinemix 32 (pair_fst P (i + 4)) (affinemix 32 L BB) in
  let temp_u32 := draw rnd (pos + 5 * i + 4) in
  ([M 0; M 1; M 2], mkaff (a_mat C) (N.lxor (a_vec C) temp_u32),
   mkaff (a_mat D) (N.lxor (a_vec D) (N.lxor (a_vec (pair_fst P (i + 4))) temp_u32))).
(** se_wbsm4.c:20-91 WBCRYPTO_se_wbsm4_gen_table: the context afterwards (the return value is 1) *)
Definition se_gen_table (rnd : nat -> N) (ctx : sectx) (key : list N) : outcome sectx :=
  let rk := sm4_init_key_mode (if (se_encmode ctx =? 0)%Z then 0 else 1) sm4_context_init key in
  obind (genaffinepairs 32 36 rnd 0) (fun '(P, pos) =>
  let R := map (se_gen_round P rk rnd pos) (seq 0 32) in
  Ret (mksectx (se_encmode ctx) (map (fun r => fst (fst r)) R) (map (fun r => snd (fst r)) R) (map snd R)
    (map (fun i => pair_fst P i) (seq 0 4)) (map (fun i => pair_snd P (35 - i)) (seq 0 4)))).

(** se_wbsm4.c:112-114 *)
Definition se_sub (x : N) : N :=
  let s k := get sm4_sbox (N.to_nat (byte_at x k)) in
  N.lor (N.lor (N.lor (w32 (N.shiftl (s 24%N) 24)) (N.shiftl (s 16%N) 16)) (N.shiftl (s 8%N) 8)) (s 0%N).
(** se_wbsm4.c:107-123, one iteration *)
Definition se_round (ctx : sectx) (s : N * N * N * N) (i : nat) : N * N * N * N :=
  let '(x0, x1, x2, x3) := s in
  let M k := nth k (nth i (se_M ctx) []) aff0 in
  let xt1 := affineU 32 (M 0) x1 in
  let xt2 := affineU 32 (M 1) x2 in
  let xt3 := affineU 32 (M 2) x3 in
  let x4 := N.lxor (N.lxor xt1 xt2) xt3 in
  let x4 := se_sub x4 in
  let xt0 := affineU 32 (nth i (se_C ctx) aff0) x0 in
  let xt4 := affineU 32 (nth i (se_D ctx) aff0) x4 in
  let x4 := N.lxor xt0 xt4 in
  (x1, x2, x3, x4).
(** se_wbsm4.c:93-136 WBCRYPTO_se_wbsm4_encrypt (returns 1) and :138-140 WBCRYPTO_se_wbsm4_decrypt; GET32 and PUT32
    (se_wbsm4_local.h:78-88) are those of Wbsm4Model *)
Definition se_encrypt (ctx : sectx) (b : list N) : list N :=
  let SE i := affineU 32 (nth i (se_SE ctx) aff0) in
  let FE i := affineU 32 (nth i (se_FE ctx) aff0) in
  let s := (SE 0 (GET32 b 0), SE 1 (GET32 b 4), SE 2 (GET32 b 8), SE 3 (GET32 b 12)) in
  let '(x0, x1, x2, x3) := fold_left (se_round ctx) (seq 0 32) s in
  put_u32_be (FE 0 x3) ++ put_u32_be (FE 1 x2) ++ put_u32_be (FE 2 x1) ++ put_u32_be (FE 3 x0).
Definition se_decrypt (ctx : sectx) (b : list N) : list N := se_encrypt ctx b.
