(** * Model of src/wbaes/wbaes.c and src/wbaes/wbaes_local.c: white-box AES

    The table generators of wbaes_wbgcm_ee_init.c and wbaes_wbgcm_mask_init.c share the text of most of this file; the
    citations are to wbaes.c, those of the other two are in WbgcmModel.

    Simplifications: memory allocation succeeds; an array whose entries are each assigned once is modelled by the
    function from its indices to the value assigned; shifting an int to the left past bit 31 (wbaes.c:170 and the like)
    is the two's complement shift, reduced to 32 bits; random numbers are those of MatModel. *)
From Verif Require Import Base Word32 GcmModel FpeModel MatModel.
Local Open Scope nat_scope.

(** src/wbaes/wbaes_local.h:6-24 SBox *)
Definition SBox : list N :=
  [0x63; 0x7c; 0x77; 0x7b; 0xf2; 0x6b; 0x6f; 0xc5; 0x30; 0x01; 0x67; 0x2b; 0xfe; 0xd7; 0xab; 0x76;
   0xca; 0x82; 0xc9; 0x7d; 0xfa; 0x59; 0x47; 0xf0; 0xad; 0xd4; 0xa2; 0xaf; 0x9c; 0xa4; 0x72; 0xc0;
   0xb7; 0xfd; 0x93; 0x26; 0x36; 0x3f; 0xf7; 0xcc; 0x34; 0xa5; 0xe5; 0xf1; 0x71; 0xd8; 0x31; 0x15;
   0x04; 0xc7; 0x23; 0xc3; 0x18; 0x96; 0x05; 0x9a; 0x07; 0x12; 0x80; 0xe2; 0xeb; 0x27; 0xb2; 0x75;
   0x09; 0x83; 0x2c; 0x1a; 0x1b; 0x6e; 0x5a; 0xa0; 0x52; 0x3b; 0xd6; 0xb3; 0x29; 0xe3; 0x2f; 0x84;
   0x53; 0xd1; 0x00; 0xed; 0x20; 0xfc; 0xb1; 0x5b; 0x6a; 0xcb; 0xbe; 0x39; 0x4a; 0x4c; 0x58; 0xcf;
   0xd0; 0xef; 0xaa; 0xfb; 0x43; 0x4d; 0x33; 0x85; 0x45; 0xf9; 0x02; 0x7f; 0x50; 0x3c; 0x9f; 0xa8;
   0x51; 0xa3; 0x40; 0x8f; 0x92; 0x9d; 0x38; 0xf5; 0xbc; 0xb6; 0xda; 0x21; 0x10; 0xff; 0xf3; 0xd2;
   0xcd; 0x0c; 0x13; 0xec; 0x5f; 0x97; 0x44; 0x17; 0xc4; 0xa7; 0x7e; 0x3d; 0x64; 0x5d; 0x19; 0x73;
   0x60; 0x81; 0x4f; 0xdc; 0x22; 0x2a; 0x90; 0x88; 0x46; 0xee; 0xb8; 0x14; 0xde; 0x5e; 0x0b; 0xdb;
   0xe0; 0x32; 0x3a; 0x0a; 0x49; 0x06; 0x24; 0x5c; 0xc2; 0xd3; 0xac; 0x62; 0x91; 0x95; 0xe4; 0x79;
   0xe7; 0xc8; 0x37; 0x6d; 0x8d; 0xd5; 0x4e; 0xa9; 0x6c; 0x56; 0xf4; 0xea; 0x65; 0x7a; 0xae; 0x08;
   0xba; 0x78; 0x25; 0x2e; 0x1c; 0xa6; 0xb4; 0xc6; 0xe8; 0xdd; 0x74; 0x1f; 0x4b; 0xbd; 0x8b; 0x8a;
   0x70; 0x3e; 0xb5; 0x66; 0x48; 0x03; 0xf6; 0x0e; 0x61; 0x35; 0x57; 0xb9; 0x86; 0xc1; 0x1d; 0x9e;
   0xe1; 0xf8; 0x98; 0x11; 0x69; 0xd9; 0x8e; 0x94; 0x9b; 0x1e; 0x87; 0xe9; 0xce; 0x55; 0x28; 0xdf;
   0x8c; 0xa1; 0x89; 0x0d; 0xbf; 0xe6; 0x42; 0x68; 0x41; 0x99; 0x2d; 0x0f; 0xb0; 0x54; 0xbb; 0x16]%N.
(** src/wbaes/wbaes_local.h:26-29 rCon *)
Definition rCon : list N := [0x8d; 0x01; 0x02; 0x04; 0x08; 0x10; 0x20; 0x40; 0x80; 0x1b; 0x36]%N.
Definition sbox (x : N) : N := get SBox (N.to_nat x).

(** src/wbaes/wbaes_local.c:3-11 shiftRows; the same table is wbaes.c:156 shiftindex *)
Definition shiftTab : list nat := [0; 5; 10; 15; 4; 9; 14; 3; 8; 13; 2; 7; 12; 1; 6; 11].
Definition shiftindex (j : nat) : nat := nth j shiftTab 0.
Definition shiftRows (state : list N) : list N := map (fun i => get state (shiftindex i)) (seq 0 16).

(** src/wbaes/wbaes_local.c:13-28 gMul; one iteration on (a, b, p) *)
Definition gMul_step (s : N * N * N) (_ : nat) : N * N * N :=
  let '(a, b, p) := s in
  let p := if (N.land b 1 =? 1)%N then N.lxor p a else p in
  let hi_bit_set := N.land a 0x80 in
  let a := (N.shiftl a 1 mod 256)%N in
  let a := if (hi_bit_set =? 0x80)%N then N.lxor a 0x1b else a in
  (a, N.shiftr b 1, p).
Definition gMul (a b : N) : N := snd (fold_left gMul_step (seq 0 8) (a, b, 0%N)).

(** src/wbaes/wbaes_local.c:40-59, iteration i: the bytes written so far, with four more *)
Definition expand_step (expandedKey : list N) (i : nat) : list N :=
  let tmp k := get expandedKey (4 * (i - 1) + k) in
  let tmp' k :=
    if i mod 4 =? 0 then
      match k with
      | 0 => N.lxor (sbox (tmp 1)) (get rCon (i / 4))
      | 1 => sbox (tmp 2)
      | 2 => sbox (tmp 3)
      | _ => sbox (tmp 0)
      end
    else tmp k in
  expandedKey ++ map (fun k => N.lxor (get expandedKey (4 * (i - 4) + k)) (tmp' k)) (seq 0 4).
(** src/wbaes/wbaes_local.c:30-60 expandKey; the first loop (:35-40) copies 16 bytes *)
Definition expandKey (key : list N) : list N := fold_left expand_step (seq 4 40) (map (get key) (seq 0 16)).
(** expandedKey after shiftRows(expandedKey + 16 * i) for i = 0, .., 9 (wbaes.c:158, :205, :254).  Part i is changed
    before its first use and not again. *)
Definition shifted_key (expandedKey : list N) : list N :=
  flat_map (fun i => let part := firstn 16 (skipn (16 * i) expandedKey) in if i <? 10 then shiftRows part else part) (seq 0 11).

(** ** Encodings *)
(** wbaes.c:33-46: [k] calls of genMatpairM8 or genMatpairM32 *)
Fixpoint genMatpairs (n k : nat) (rnd : nat -> N) (pos : nat) : outcome (list (list N * list N) * nat) :=
  match k with
  | O => Ret ([], pos)
  | S k' =>
      obind (genMatpair n rnd pos) (fun '(A, B, pos) =>
      obind (genMatpairs n k' rnd pos) (fun '(l, pos) => Ret ((A, B) :: l, pos)))
  end.
(** wbaes.c:83-153: [k] calls of genPermutation4 (size 16) or genPermutation8 (size 256).  [junk pos]: the contents of
    the array inverse at the call whose first draw is number [pos] *)
Fixpoint genPermutations (size k : nat) (rnd : nat -> N) (junk : nat -> nat -> N) (pos : nat) : list (list N * list N) * nat :=
  match k with
  | O => ([], pos)
  | S k' =>
      let '(P, Q, pos') := genPermutation size rnd pos (map (junk pos) (seq 0 size)) in
      let '(l, pos') := genPermutations size k' rnd junk pos' in
      ((P, Q) :: l, pos')
  end.
Definition pr (l : list (list N * list N)) (i : nat) : list N * list N := nth i l ([], []).

(** the encodings common to the three generators; a pair is (the map, its inverse) *)
Record encodings := mkenc {
  e_L : nat -> nat -> list N * list N;                (* L[9][16], L_inv *)
  e_MB : nat -> nat -> list N * list N;               (* MB[9][4], MB_inv *)
  e_ex_in : nat -> list N * list N;                   (* ex_in[16], ex_in_inv *)
  e_ex_out : nat -> list N * list N;                  (* ex_out[16], ex_out_inv *)
  e_II : nat -> nat -> nat -> list N * list N;        (* TypeII_out[9][16][8], TypeII_out_inv *)
  e_III : nat -> nat -> nat -> list N * list N;       (* TypeIII_out[9][16][8] *)
  e_IV_II1 : nat -> nat -> nat -> list N * list N;    (* TypeIV_II_out1[9][8][8] *)
  e_IV_III1 : nat -> nat -> nat -> list N * list N;   (* TypeIV_III_out1[9][8][8] *)
  e_IV_II2 : nat -> nat -> nat -> list N * list N;    (* TypeIV_II_out2[9][4][8] *)
  e_IV_III2 : nat -> nat -> nat -> list N * list N;   (* TypeIV_III_out2[9][4][8] *)
  e_in : nat -> nat -> list N * list N }.             (* TypeII_ex_in[16][2] *)
(** wbaes.c:33-46 and :83-136: everything up to the loop over the external encodings, which [fin] completes from the
    next draw on (:138-153; in each iteration of a loop two permutations are drawn) *)
Definition gen_encodings {A} (rnd : nat -> N) (junk : nat -> nat -> N) (fin : nat -> list (list N * list N) * A) : outcome (encodings * A) :=
  obind (genMatpairs 8 144 rnd 0) (fun '(Ls, pos) =>
  obind (genMatpairs 32 36 rnd pos) (fun '(MBs, pos) =>
  obind (genMatpairs 8 32 rnd pos) (fun '(exs, pos) =>
  let '(o, pos) := genPermutations 16 2304 rnd junk pos in
  let '(o1, pos) := genPermutations 16 1152 rnd junk pos in
  let '(o2, pos) := genPermutations 16 576 rnd junk pos in
  let '(ins, a) := fin pos in
  Ret (mkenc
    (fun i j => pr Ls (16 * i + j)) (fun i j => pr MBs (4 * i + j)) (fun i => pr exs (2 * i)) (fun i => pr exs (2 * i + 1))
    (fun i j k => pr o (2 * (128 * i + 8 * j + k))) (fun i j k => pr o (2 * (128 * i + 8 * j + k) + 1))
    (fun i j k => pr o1 (2 * (64 * i + 8 * j + k))) (fun i j k => pr o1 (2 * (64 * i + 8 * j + k) + 1))
    (fun i j k => pr o2 (2 * (32 * i + 8 * j + k))) (fun i j k => pr o2 (2 * (32 * i + 8 * j + k) + 1))
    (fun i j => pr ins (2 * i + j)), a)))).

(** ** Tables *)
(** (w & mask) >> s for the mask of four bits at s = 28 - 4k: nibble k of a word *)
Definition nib (k : nat) (w : N) : N := N.land (N.shiftr w (28 - 4 * N.of_nat k)) 0xf.
(** wbaes.c:170-177 and the like: encode the nibbles of a word by the permutations [P 0], .., [P 7] *)
Definition enc32 (P : nat -> list N) (w : N) : N :=
  let t k := w32 (N.shiftl (get (P k) (N.to_nat (nib k w))) (28 - 4 * N.of_nat k)) in
  N.lor (N.lor (N.lor (N.lor (N.lor (N.lor (N.lor (t 0) (t 1)) (t 2)) (t 3)) (t 4)) (t 5)) (t 6)) (t 7).
(** wbaes.c:164-165 and the like: the same for the two nibbles of a byte *)
Definition enc8 (P0 P1 : list N) (x : N) : N :=
  (N.lor (N.shiftl (get P0 (N.to_nat (N.shiftr (N.land x 0xf0) 4))) 4) (get P1 (N.to_nat (N.land x 0x0f))) mod 256)%N.
(** wbaes.c:48-54 Tyi *)
Definition Tyi (k : nat) (x : N) : N :=
  let word a b c d := N.lor (N.lor (N.lor (w32 (N.shiftl a 24)) (N.shiftl b 16)) (N.shiftl c 8)) d in
  match k with
  | 0 => word (gMul 2 x) x x (gMul 3 x)
  | 1 => word (gMul 3 x) (gMul 2 x) x x
  | 2 => word x (gMul 3 x) (gMul 2 x) x
  | _ => word x x (gMul 3 x) (gMul 2 x)
  end.
(** wbaes.c:56-61 Out_L *)
Definition Out_L (e : encodings) (i c : nat) : list N :=
  let L j := fst (e_L e i (4 * c + j)) in Matrixcom4 8 (L 0) (L 1) (L 2) (L 3).
(** the decoding at the start of round i: wbaes.c:164-166 (i = 0), :210-215, :259-262 *)
Definition decode_in (e : encodings) (i j : nat) (x : N) : N :=
  let s := shiftindex j in
  match i with
  | 0 => MatMulNum 8 (snd (e_ex_in e s)) (enc8 (snd (e_in e s 0)) (snd (e_in e s 1)) x)
  | S i' =>
      MatMulNum 8 (snd (e_L e i' s))
        (enc8 (snd (e_IV_III2 e i' (s / 4) (s mod 4 * 2))) (snd (e_IV_III2 e i' (s / 4) (s mod 4 * 2 + 1))) x)
  end.
(** wbaes.c:159-179 and :206-228: TypeII[i][j][x] for i < 9; [ek] is [shifted_key] of the expanded key *)
Definition typeII (e : encodings) (ek : list N) (i j : nat) (x : N) : N :=
  let t := decode_in e i j x in
  let t := sbox (N.lxor t (get ek (16 * i + j))) in
  let t := Tyi (j mod 4) t in
  let t := MatMulNum 32 (fst (e_MB e i (j / 4))) t in
  enc32 (fun k => fst (e_II e i j k)) t.
(** wbaes.c:180-200 and :230-250: TypeIII[i][j][x] *)
Definition typeIII (e : encodings) (i j : nat) (x : N) : N :=
  let t := enc8 (snd (e_IV_II2 e i (j / 4) (j mod 4 * 2))) (snd (e_IV_II2 e i (j / 4) (j mod 4 * 2 + 1))) x in
  let t := w32 (N.shiftl t (24 - 8 * N.of_nat (j mod 4))) in
  let t := MatMulNum 32 (snd (e_MB e i (j / 4))) t in
  let t := MatMulNum 32 (Out_L e i (j / 4)) t in
  enc32 (fun k => fst (e_III e i j k)) t.
(** wbaes.c:259-264: the last round before the output encoding *)
Definition final (e : encodings) (ek : list N) (j : nat) (x : N) : N :=
  let t := decode_in e 9 j x in
  let t := N.lxor (sbox (N.lxor t (get ek (16 * 9 + j)))) (get ek (16 * 10 + j)) in
  MatMulNum 8 (fst (e_ex_out e j)) t.
(** wbaes.c:275-291: TypeIV_II[i][j][m][k][x][y], and with the other encodings TypeIV_III *)
Definition typeIV (out out1 out2 : nat -> nat -> nat -> list N * list N) (i j m k : nat) (x y : N) : N :=
  let a (P : list N * list N) := get (snd P) (N.to_nat x) in
  let b (P : list N * list N) := get (snd P) (N.to_nat y) in
  let f (P : list N * list N) v := get (fst P) (N.to_nat v) in
  match m with
  | 0 => f (out1 i (2 * j) k) (N.lxor (a (out i (4 * j) k)) (b (out i (4 * j + 1) k)))
  | 1 => f (out1 i (2 * j + 1) k) (N.lxor (a (out i (4 * j + 2) k)) (b (out i (4 * j + 3) k)))
  | _ => f (out2 i j k) (N.lxor (a (out1 i (2 * j) k)) (b (out1 i (2 * j + 1) k)))
  end.
(** wbaes.c:299-301: TypeIa[i][x] *)
Definition typeIa (e : encodings) (i : nat) (x : N) : N :=
  enc8 (fst (e_in e i 0)) (fst (e_in e i 1)) (MatMulNum 8 (fst (e_ex_in e i)) x).

(** the tables used by the rounds (include/wbcrypto/wbaes.h:13-20; same in the other two contexts) *)
Record wbtables := mkwbt {
  t_II : nat -> nat -> N -> N; t_III : nat -> nat -> N -> N;
  t_IV_II : nat -> nat -> nat -> nat -> N -> N -> N; t_IV_III : nat -> nat -> nat -> nat -> N -> N -> N;
  t_Ia : nat -> N -> N }.
(** [out]: the encoding of TypeII[9][j] *)
Definition gen_tables (e : encodings) (ek : list N) (out : nat -> N -> N) : wbtables :=
  mkwbt (fun i j x => if i <? 9 then typeII e ek i j x else out j (final e ek j x))
    (typeIII e) (typeIV (e_II e) (e_IV_II1 e) (e_IV_II2 e)) (typeIV (e_III e) (e_IV_III1 e) (e_IV_III2 e)) (typeIa e).

(** struct wbaes_context *)
Record wbaes_ctx := mkwbaes { wb_t : wbtables; wb_Ib : nat -> N -> N }.
(** wbaes.c:138-153: TypeII_ex_in and TypeIII_ex_out drawn in turn *)
Definition fin_wbaes (rnd : nat -> N) (junk : nat -> nat -> N) (pos : nat) : list (list N * list N) * (nat -> nat -> list N * list N) :=
  let '(o, _) := genPermutations 16 64 rnd junk pos in
  (map (fun n => pr o (2 * n)) (seq 0 32), fun i j => pr o (2 * (2 * i + j) + 1)).
(** wbaes.c:265-266 *)
Definition enc_out (out : nat -> nat -> list N * list N) (j : nat) (x : N) : N := enc8 (fst (out j 0)) (fst (out j 1)) x.
(** wbaes.c:302-303: TypeIb[i][x] *)
Definition typeIb (e : encodings) (out : nat -> nat -> list N * list N) (i : nat) (x : N) : N :=
  MatMulNum 8 (snd (e_ex_out e i)) (enc8 (snd (out i 0)) (snd (out i 1)) x).
(** wbaes.c:20-307 WBCRYPTO_wbaes_gen_table: the context afterwards (the return value is 1; the argument keylen is not
    used).  Undef: expandKey reads 16 bytes of a shorter buffer. *)
Definition wbaes_gen_table (rnd : nat -> N) (junk : nat -> nat -> N) (key : list N) : outcome wbaes_ctx :=
  if length key <? 16 then Undef else
  let ek := shifted_key (expandKey key) in
  obind (gen_encodings rnd junk (fin_wbaes rnd junk)) (fun '(e, out) =>
  Ret (mkwbaes (gen_tables e ek (enc_out out)) (typeIb e out))).

(** ** Encryption *)
(** wbaes.c:325-332 and the like: the exclusive or of two encoded words through the tables [T k] *)
Definition xor_tables (T : nat -> N -> N -> N) (a b : N) : N :=
  let t k := w32 (N.shiftl (T k (nib k a) (nib k b)) (28 - 4 * N.of_nat k)) in
  N.lor (N.lor (N.lor (N.lor (N.lor (N.lor (N.lor (t 0) (t 1)) (t 2)) (t 3)) (t 4)) (t 5)) (t 6)) (t 7).
(** wbaes.c:343-350 and the like: the last of the three, stored in four bytes *)
Definition xor_bytes (T : nat -> N -> N -> N) (a b : N) : list N :=
  let t k := T k (nib k a) (nib k b) in
  let s k := (N.lor (N.shiftl (t k) 4) (t (k + 1)%nat) mod 256)%N in
  [s 0; s 2; s 4; s 6].
(** wbaes.c:320-350 and :352-382: the four bytes of column j through the tables U and V *)
Definition half_column (U : nat -> N -> N) (V : nat -> nat -> N -> N -> N) (j : nat) (col : list N) : list N :=
  let u r := U (4 * j + r) (get col r) in
  let ab := xor_tables (V 0) (u 0) (u 1) in
  let cd := xor_tables (V 1) (u 2) (u 3) in
  xor_bytes (V 2) ab cd.
(** wbaes.c:318-383: one round.  The columns are updated one after the other; each reads and writes only its own bytes. *)
Definition wb_aes_round (t : wbtables) (state : list N) (i : nat) : list N :=
  let state := shiftRows state in
  flat_map (fun j =>
    let col := map (fun r => get state (4 * j + r)) (seq 0 4) in
    half_column (t_III t i) (t_IV_III t i j) j (half_column (t_II t i) (t_IV_II t i j) j col)) (seq 0 4).
(** wbaes.c:309-390 aux_WBCRYPTO_wbaes_encrypt *)
Definition aux_encrypt (t : wbtables) (input : list N) : list N :=
  let state := map (get input) (seq 0 16) in
  let state := fold_left (wb_aes_round t) (seq 0 9) state in
  let state := shiftRows state in
  map (fun j => (t_II t 9 j (get state j) mod 256)%N) (seq 0 16).
(** wbaes.c:397-399 *)
Definition ex_in (t : wbtables) (input : list N) : list N := map (fun i => t_Ia t i (get input i)) (seq 0 16).
(** wbaes.c:392-407 WBCRYPTO_wbaes_encrypt (returns 1) *)
Definition wbaes_encrypt (ctx : wbaes_ctx) (input : list N) : list N :=
  let EX_OUT := aux_encrypt (wb_t ctx) (ex_in (wb_t ctx) input) in
  map (fun i => wb_Ib ctx i (get EX_OUT i)) (seq 0 16).
