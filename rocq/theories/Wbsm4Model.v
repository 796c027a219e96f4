(** * Model of src/wbsm4: white-box SM4 with dummy rounds

    Simplifications: memory allocation succeeds; shifting an int to the left past bit 31 (wbsm4_gen.c:181, :201,
    :225, :244, :261) is the two's complement shift, reduced to 32 bits; an array entry that is assigned and then
    changed by ^= in the loops over x and j is given by one expression, as the entries do not depend on each
    other; random numbers are those of MatModel. *)
From Verif Require Import Base Word32 GcmModel Sm4Model FpeModel MatModel.
From Coq Require Import ZArith.
Local Open Scope nat_scope.

(** src/wbsm4/wbsm4_gen.c:3-36 SBOX *)
Definition SBOX : list N :=
  [0xd6; 0x90; 0xe9; 0xfe; 0xcc; 0xe1; 0x3d; 0xb7; 0x16; 0xb6; 0x14; 0xc2; 0x28; 0xfb; 0x2c; 0x05;
   0x2b; 0x67; 0x9a; 0x76; 0x2a; 0xbe; 0x04; 0xc3; 0xaa; 0x44; 0x13; 0x26; 0x49; 0x86; 0x06; 0x99;
   0x9c; 0x42; 0x50; 0xf4; 0x91; 0xef; 0x98; 0x7a; 0x33; 0x54; 0x0b; 0x43; 0xed; 0xcf; 0xac; 0x62;
   0xe4; 0xb3; 0x1c; 0xa9; 0xc9; 0x08; 0xe8; 0x95; 0x80; 0xdf; 0x94; 0xfa; 0x75; 0x8f; 0x3f; 0xa6;
   0x47; 0x07; 0xa7; 0xfc; 0xf3; 0x73; 0x17; 0xba; 0x83; 0x59; 0x3c; 0x19; 0xe6; 0x85; 0x4f; 0xa8;
   0x68; 0x6b; 0x81; 0xb2; 0x71; 0x64; 0xda; 0x8b; 0xf8; 0xeb; 0x0f; 0x4b; 0x70; 0x56; 0x9d; 0x35;
   0x1e; 0x24; 0x0e; 0x5e; 0x63; 0x58; 0xd1; 0xa2; 0x25; 0x22; 0x7c; 0x3b; 0x01; 0x21; 0x78; 0x87;
   0xd4; 0x00; 0x46; 0x57; 0x9f; 0xd3; 0x27; 0x52; 0x4c; 0x36; 0x02; 0xe7; 0xa0; 0xc4; 0xc8; 0x9e;
   0xea; 0xbf; 0x8a; 0xd2; 0x40; 0xc7; 0x38; 0xb5; 0xa3; 0xf7; 0xf2; 0xce; 0xf9; 0x61; 0x15; 0xa1;
   0xe0; 0xae; 0x5d; 0xa4; 0x9b; 0x34; 0x1a; 0x55; 0xad; 0x93; 0x32; 0x30; 0xf5; 0x8c; 0xb1; 0xe3;
   0x1d; 0xf6; 0xe2; 0x2e; 0x82; 0x66; 0xca; 0x60; 0xc0; 0x29; 0x23; 0xab; 0x0d; 0x53; 0x4e; 0x6f;
   0xd5; 0xdb; 0x37; 0x45; 0xde; 0xfd; 0x8e; 0x2f; 0x03; 0xff; 0x6a; 0x72; 0x6d; 0x6c; 0x5b; 0x51;
   0x8d; 0x1b; 0xaf; 0x92; 0xbb; 0xdd; 0xbc; 0x7f; 0x11; 0xd9; 0x5c; 0x41; 0x1f; 0x10; 0x5a; 0xd8;
   0x0a; 0xc1; 0x31; 0x88; 0xa5; 0xcd; 0x7b; 0xbd; 0x2d; 0x74; 0xd0; 0x12; 0xb8; 0xe5; 0xb4; 0xb0;
   0x89; 0x69; 0x97; 0x4a; 0x0c; 0x96; 0x77; 0x7e; 0x65; 0xb9; 0xf1; 0x09; 0xc5; 0x6e; 0xc6; 0x84;
   0x18; 0xf0; 0x7d; 0xec; 0x3a; 0xdc; 0x4d; 0x20; 0x79; 0xee; 0x5f; 0x3e; 0xd7; 0xcb; 0x39; 0x48]%N.
(** src/wbsm4/wbsm4_gen.c:38-71 L_matrix *)
Definition L_matrix : list N :=
  [0xA0202080; 0x50101040; 0x28080820; 0x14040410; 0xA020208; 0x5010104; 0x2808082; 0x1404041;
   0x80A02020; 0x40501010; 0x20280808; 0x10140404; 0x80A0202; 0x4050101; 0x82028080; 0x41014040;
   0x2080A020; 0x10405010; 0x8202808; 0x4101404; 0x2080A02; 0x1040501; 0x80820280; 0x40410140;
   0x202080A0; 0x10104050; 0x8082028; 0x4041014; 0x202080A; 0x1010405; 0x80808202; 0x40404101]%N.

(** ** The context
    include/wbcrypto/wbsm4.h:12-24.  The tables are a memory of named entries: MM[i][k][j][x], and so on. *)
Inductive loc :=
| LMM (i k j : nat) (x : N) | LCC (i j : nat) (x : N) | LDD (i j : nat) (x : N) | LTable (i j : nat) (x : N)
| LSE (i j : nat) (x : N) | LFE (i j : nat) (x : N).
(** [w_alloc]: the number of rounds for which context_init allocated MM, CC, DD and Table; encmode is an int *)
Record wctx := mkwctx { w_rounds : nat; w_encmode : Z; w_alloc : nat; w_mem : loc -> N }.
(** src/wbsm4/wbsm4.c:3-45 WBCRYPTO_wbsm4_context_init; [junk]: the contents of the allocated memory *)
Definition wbsm4_context_init (junk : loc -> N) (encmode : Z) (dummyrounds : nat) : wctx :=
  let rounds := 32 + 4 * dummyrounds in mkwctx rounds encmode rounds junk.

(** ** Table generation *)
(** wbsm4_gen.c:82-103 wbsm4_gen_dummyround_array; [rs]: the numbers drawn by wRandomShuffleU8.  The list is what
    the loop at :92-100 writes; it has rounds + 4 * dummyrounds entries, the size of the array (C42). *)
Definition wbsm4_gen_dummyround_array (rs : list N) (rounds dummyrounds : nat) : list N :=
  let da := repeat 0%N rounds ++ repeat 1%N dummyrounds in
  let da := wRandomShuffleU8 rs da in
  flat_map (fun d => if (d =? 0)%N then [d] else repeat 1%N 4) da.

(** wbsm4_gen.c:134-138 and :143-146 *)
Fixpoint genaffinepairs (n k : nat) (rnd : nat -> N) (pos : nat) : outcome (list (aff * aff) * nat) :=
  match k with
  | O => Ret ([], pos)
  | S k' =>
      obind (genaffinepair n rnd pos) (fun '(a, b, pos) =>
      obind (genaffinepairs n k' rnd pos) (fun '(l, pos) => Ret ((a, b) :: l, pos)))
  end.
Definition aff0 : aff := mkaff [] 0%N.
Definition pair_fst (l : list (aff * aff)) (i : nat) : aff := fst (nth i l (aff0, aff0)).
Definition pair_snd (l : list (aff * aff)) (i : nat) : aff := snd (nth i l (aff0, aff0)).
(** Eij[i], (Q[i], Q_inv[i]), M[i], C[i], D[i] *)
Record wround := mkwround { r_E : list (aff * aff); r_Q : aff; r_M : nat -> aff; r_C : aff; r_D : aff }.
(** wbsm4_gen.c:140-165, one iteration; [P]: the pairs (P[i], P_inv[i]) *)
Definition gen_round (P : list (aff * aff)) (i : nat) (rnd : nat -> N) (pos : nat) : outcome (wround * nat) :=
  obind (genaffinepairs 8 4 rnd pos) (fun '(Eij, pos) =>
  let Ei_inv := affinecom4 8 (pair_snd Eij 0) (pair_snd Eij 1) (pair_snd Eij 2) (pair_snd Eij 3) in
  let M k := affinemix 32 Ei_inv (pair_snd P (i + 1 + k)) in
  obind (genaffinepair 32 rnd pos) (fun '(Q, Q_inv, pos) =>
  let C := affinemix 32 (pair_fst P (i + 4)) (pair_snd P i) in
  let D := affinemix 32 (pair_fst P (i + 4)) Q_inv in
  let temp_u32 := draw rnd pos in
  let C := mkaff (a_mat C) (N.lxor (a_vec C) temp_u32) in
  let D := mkaff (a_mat D) (N.lxor (a_vec D) (N.lxor (a_vec (pair_fst P (i + 4))) temp_u32)) in
  Ret (mkwround Eij Q M C D, pos + 1))).
Fixpoint gen_rounds (P : list (aff * aff)) (is : list nat) (rnd : nat -> N) (pos : nat) : outcome (list wround * nat) :=
  match is with
  | [] => Ret ([], pos)
  | i :: is' =>
      obind (gen_round P i rnd pos) (fun '(r, pos) =>
      obind (gen_rounds P is' rnd pos) (fun '(l, pos) => Ret (r :: l, pos)))
  end.

(** x << (24 - j * 8), in a uint32_t *)
Definition at_byte (j : nat) (x : N) : N := w32 (N.shiftl x (24 - 8 * N.of_nat j)).
(** Q_constant[j] for j < 3 and Q_constant[0] ^ Q_constant[1] ^ Q_constant[2] otherwise (wbsm4_gen.c:186-193 and the
    like); three draws *)
Definition mask (rnd : nat -> N) (pos j : nat) : N :=
  if j <? 3 then draw rnd (pos + j) else N.lxor (N.lxor (draw rnd pos) (draw rnd (pos + 1))) (draw rnd (pos + 2)).
(** wbsm4_gen.c:180-193 and, for other maps, :200-210, :259-271 *)
Definition affine_entry (A : aff) (rnd : nat -> N) (pos j : nat) (x : N) : N :=
  N.lxor (affineU 32 A (at_byte j x)) (N.lxor (if j <? 3 then 0 else a_vec A) (mask rnd pos j)).
(** wbsm4_gen.c:222-231 *)
Definition table_entry (r : wround) (rk : N) (rnd : nat -> N) (pos j : nat) (x : N) : N :=
  let QL := MatMulMat 32 (a_mat (r_Q r)) L_matrix in
  let temp_u8 := affineU 8 (pair_fst (r_E r) j) x in
  let temp_u8 := get SBOX (N.to_nat (N.lxor temp_u8 (N.land (N.shiftr rk (24 - 8 * N.of_nat j)) 0xff))) in
  let temp_u32 := at_byte j temp_u8 in
  N.lxor (MatMulNum 32 QL temp_u32) (N.lxor (if j <? 3 then 0 else a_vec (r_Q r)) (mask rnd pos j)).
(** wbsm4_gen.c:175-232: the entries for round i of the loop *)
Definition real_round (r : wround) (rk : N) (rnd : nat -> N) (pos i : nat) (mem : loc -> N) : loc -> N := fun l =>
  match l with
  | LMM i' k j x => if i' =? i then affine_entry (r_M r k) rnd pos j x else mem l
  | LCC i' j x => if i' =? i then affine_entry (r_C r) rnd (pos + 3) j x else mem l
  | LDD i' j x => if i' =? i then affine_entry (r_D r) rnd (pos + 3) j x else mem l
  | LTable i' j x => if i' =? i then table_entry r rk rnd (pos + 6) j x else mem l
  | _ => mem l
  end.
(** wbsm4_gen.c:235-246 *)
Definition dummy_round (i : nat) (mem : loc -> N) : loc -> N := fun l =>
  match l with
  | LTable i' j x => if i' =? i then 0%N else mem l
  | LCC i' j x => if i' =? i then at_byte j x else mem l
  | _ => mem l
  end.
(** wbsm4_gen.c:169-248, one iteration on (memory, flag, point, number of draws); Undef: M, C, D, Q, Eij or rk
    indexed outside 0..31 *)
Definition gen_step (R : list wround) (rk : list N) (rnd : nat -> N) (s : (loc -> N) * bool * Z * nat) (id : nat * N) :
  outcome ((loc -> N) * bool * Z * nat) :=
  let '(mem, flag, point, pos) := s in
  let '(i, d) := id in
  if (d =? 0)%N then
    let point := (if flag then point - 4 else point)%Z in
    match (if (point <? 0)%Z then None else nth_error R (Z.to_nat point)) with
    | Some r => Ret (real_round r (get rk (Z.to_nat point)) rnd pos i mem, false, (point + 1)%Z, pos + 9)
    | None => Undef
    end
  else Ret (dummy_round i mem, true, (point + 1)%Z, pos).
(** wbsm4_gen.c:255-273 *)
Definition external (P : list (aff * aff)) (rnd : nat -> N) (pos : nat) (mem : loc -> N) : loc -> N := fun l =>
  match l with
  | LSE i j x => if i <? 4 then affine_entry (pair_fst P i) rnd pos j x else mem l
  | LFE i j x => if i <? 4 then affine_entry (pair_snd P (35 - i)) rnd pos j x else mem l
  | _ => mem l
  end.
(** wbsm4_gen.c:105-279 WBCRYPTO_wbsm4_gen_table: the context afterwards (the return value is 1).  [rnd]: the values
    of cus_random, [rs]: those of rand() in wRandomShuffleU8. *)
Definition wbsm4_gen_table (rnd : nat -> N) (rs : list N) (ctx : wctx) (key : list N) : outcome wctx :=
  let rk := sm4_init_key_mode (if (w_encmode ctx =? 0)%Z then 0 else 1) sm4_context_init key in
  let dummy_array := wbsm4_gen_dummyround_array rs 32 ((w_rounds ctx - 32) / 4) in
  obind (genaffinepairs 32 36 rnd 0) (fun '(P, pos) =>
  obind (gen_rounds P (seq 0 32) rnd pos) (fun '(R, pos) =>
  obind (ofold (gen_step R rk rnd) (combine (seq 0 (w_rounds ctx)) dummy_array) (w_mem ctx, false, 0%Z, pos)) (fun '(mem, _, _, pos) =>
  Ret (mkwctx (w_rounds ctx) (w_encmode ctx) (w_alloc ctx) (external P rnd pos mem))))).

(** ** Encryption *)
(** wbsm4.c:62: T[0][(x >> 24) & 0xff] ^ T[1][(x >> 16) & 0xff] ^ T[2][(x >> 8) & 0xff] ^ T[3][x & 0xff] *)
Definition lookup (T : nat -> N -> N) (x : N) : N :=
  N.lxor (N.lxor (N.lxor (T 0 (byte_at x 24)) (T 1 (byte_at x 16))) (T 2 (byte_at x 8))) (T 3 (byte_at x 0)).
(** wbsm4_local.h:6-10 GET32; :12-16 PUT32 is [put_u32_be] *)
Definition GET32 (b : list N) (i : nat) : N :=
  N.lxor (N.lxor (N.lxor (N.shiftl (get b i) 24) (N.shiftl (get b (i + 1)) 16)) (N.shiftl (get b (i + 2)) 8)) (get b (i + 3)).
(** wbsm4.c:67-82, one iteration *)
Definition wb_round (mem : loc -> N) (s : N * N * N * N) (i : nat) : N * N * N * N :=
  let '(x0, x1, x2, x3) := s in
  let xt1 := lookup (fun j x => mem (LMM i 0 j x)) x1 in
  let xt2 := lookup (fun j x => mem (LMM i 1 j x)) x2 in
  let xt3 := lookup (fun j x => mem (LMM i 2 j x)) x3 in
  let x4 := N.lxor (N.lxor xt1 xt2) xt3 in
  let x4 := lookup (fun j x => mem (LTable i j x)) x4 in
  let xt0 := lookup (fun j x => mem (LCC i j x)) x0 in
  let xt4 := lookup (fun j x => mem (LDD i j x)) x4 in
  let x4 := N.lxor xt0 xt4 in
  (x1, x2, x3, x4).
(** wbsm4.c:51-96 WBCRYPTO_wbsm4_encrypt (returns 1) and :98-100 WBCRYPTO_wbsm4_decrypt.  Out of bounds when the
    number of rounds exceeds that of the allocation. *)
Definition wbsm4_encrypt (ctx : wctx) (b : list N) : outcome (list N) :=
  let mem := w_mem ctx in
  let SE i := lookup (fun j x => mem (LSE i j x)) in
  let FE i := lookup (fun j x => mem (LFE i j x)) in
  let s := (SE 0 (GET32 b 0), SE 1 (GET32 b 4), SE 2 (GET32 b 8), SE 3 (GET32 b 12)) in
  if w_alloc ctx <? w_rounds ctx then Undef else
  let '(x0, x1, x2, x3) := fold_left (wb_round mem) (seq 0 (w_rounds ctx)) s in
  Ret (put_u32_be (FE 0 x3) ++ put_u32_be (FE 1 x2) ++ put_u32_be (FE 2 x1) ++ put_u32_be (FE 3 x0)).
Definition wbsm4_decrypt (ctx : wctx) (b : list N) : outcome (list N) := wbsm4_encrypt ctx b.
