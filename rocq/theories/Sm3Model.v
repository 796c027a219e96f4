(** * SM3: src/sm3/sm3.c, src/sm3/sm3_local.h, src/sm3/md32_common.h *)
From Verif Require Import Base Word32.
Local Open Scope nat_scope.

(** include/wbcrypto/sm3.h:15-20 struct sm3_context; [x_h] holds A..H, [x_data] the 64 bytes of
    unsigned int data[16], which the code only accesses through an unsigned char pointer *)
Record sm3_ctx := mksm3 { x_h : list N; x_Nl : N; x_Nh : N; x_data : list N; x_num : nat }.

(** src/sm3/sm3_local.h:75-82 and src/sm3/sm3.c:15-27 WBCRYPTO_sm3_init *)
Definition sm3_init : sm3_ctx :=
  mksm3 [0x7380166f; 0x4914b2b9; 0x172442d7; 0xda8a0600; 0xa96f30bc; 0x163138aa; 0xe38dee4d; 0xb0fb0e4e]%N
        0 0 (repeat 0%N 64) 0.

(** unsigned int addition *)
Definition add32 (a b : N) : N := w32 (a + b).
(** src/sm3/sm3_local.h:42-43 P0, P1; ROTATE (md32_common.h:92) is rotl32 on unsigned int *)
Definition c_P0 (x : N) : N := N.lxor (N.lxor x (rotl32 x 9)) (rotl32 x 17).
Definition c_P1 (x : N) : N := N.lxor (N.lxor x (rotl32 x 15)) (rotl32 x 23).
(** src/sm3/sm3_local.h:45-49 FF0 GG0 FF1 GG1 *)
Definition c_FF0 (x y z : N) : N := N.lxor (N.lxor x y) z.
Definition c_GG0 (x y z : N) : N := N.lxor (N.lxor x y) z.
Definition c_FF1 (x y z : N) : N := N.lor (N.land x y) (N.land (N.lor x y) z).
Definition c_GG1 (x y z : N) : N := N.lxor z (N.land x (N.lxor y z)).
(** src/sm3/sm3_local.h:51-52 EXPAND *)
Definition c_EXPAND (w0 w7 w13 w3 w10 : N) : N :=
  N.lxor (N.lxor (c_P1 (N.lxor (N.lxor w0 w7) (rotl32 w13 15))) (rotl32 w3 7)) w10.

(** The body of sm3_block_data_order is straight-line code over the eight variables A..H and the
    sixteen variables W00..W15; its statements are kept as a list.
    RND k [regs] TJ i a b is R1/R2(regs, TJ, Wi, Wa ^ Wb); EXP d w0 w7 w13 w3 w10 is Wd = EXPAND(...). *)
Inductive stmt := RND (kind : nat) (regs : list nat) (TJ : N) (wi wa wb : nat)
                | EXP (d w0 w7 w13 w3 w10 : nat).
(** src/sm3/sm3_local.h:54-71 RND, R1, R2: new values of the registers *)
Definition exec_rnd (kind : nat) (r : list nat) (TJ Wi Wj : N) (R : list N) : list N :=
  let v n := get R (nth n r 0) in
  let FF := if kind =? 1 then c_FF0 else c_FF1 in
  let GG := if kind =? 1 then c_GG0 else c_GG1 in
  let A12 := rotl32 (v 0) 12 in
  let A12_SM := add32 (add32 A12 (v 4)) TJ in
  let SS1 := rotl32 A12_SM 7 in
  let TT1 := add32 (add32 (add32 (FF (v 0) (v 1) (v 2)) (v 3)) (N.lxor SS1 A12)) Wj in
  let TT2 := add32 (add32 (add32 (GG (v 4) (v 5) (v 6)) (v 7)) SS1) Wi in
  let R1 := set R (nth 1 r 0) (rotl32 (v 1) 9) in
  let R2 := set R1 (nth 3 r 0) TT1 in
  let R3 := set R2 (nth 5 r 0) (rotl32 (get R2 (nth 5 r 0)) 19) in
  set R3 (nth 7 r 0) (c_P0 TT2).
Definition exec (s : list N * list N) (i : stmt) : list N * list N :=
  let '(R, W) := s in
  match i with
  | RND k r TJ wi wa wb => (exec_rnd k r TJ (get W wi) (N.lxor (get W wa) (get W wb)) R, W)
  | EXP d w0 w7 w13 w3 w10 => (R, set W d (c_EXPAND (get W w0) (get W w7) (get W w13) (get W w3) (get W w10)))
  end.
Section Prog.
Let A := 0. Let B := 1. Let C := 2. Let D := 3. Let E := 4. Let F := 5. Let G := 6. Let H := 7.
(** src/sm3/sm3.c:69-184 the statements in order *)
Definition sm3_prog : list stmt := 
  [ RND 1 [A; B; C; D; E; F; G; H] 0x79CC4519 0 0 4;
    EXP 0 0 7 13 3 10;
    RND 1 [D; A; B; C; H; E; F; G] 0xF3988A32 1 1 5;
    EXP 1 1 8 14 4 11;
    RND 1 [C; D; A; B; G; H; E; F] 0xE7311465 2 2 6;
    EXP 2 2 9 15 5 12;
    RND 1 [B; C; D; A; F; G; H; E] 0xCE6228CB 3 3 7;
    EXP 3 3 10 0 6 13;
    RND 1 [A; B; C; D; E; F; G; H] 0x9CC45197 4 4 8;
    EXP 4 4 11 1 7 14;
    RND 1 [D; A; B; C; H; E; F; G] 0x3988A32F 5 5 9;
    EXP 5 5 12 2 8 15;
    RND 1 [C; D; A; B; G; H; E; F] 0x7311465E 6 6 10;
    EXP 6 6 13 3 9 0;
    RND 1 [B; C; D; A; F; G; H; E] 0xE6228CBC 7 7 11;
    EXP 7 7 14 4 10 1;
    RND 1 [A; B; C; D; E; F; G; H] 0xCC451979 8 8 12;
    EXP 8 8 15 5 11 2;
    RND 1 [D; A; B; C; H; E; F; G] 0x988A32F3 9 9 13;
    EXP 9 9 0 6 12 3;
    RND 1 [C; D; A; B; G; H; E; F] 0x311465E7 10 10 14;
    EXP 10 10 1 7 13 4;
    RND 1 [B; C; D; A; F; G; H; E] 0x6228CBCE 11 11 15;
    EXP 11 11 2 8 14 5;
    RND 1 [A; B; C; D; E; F; G; H] 0xC451979C 12 12 0;
    EXP 12 12 3 9 15 6;
    RND 1 [D; A; B; C; H; E; F; G] 0x88A32F39 13 13 1;
    EXP 13 13 4 10 0 7;
    RND 1 [C; D; A; B; G; H; E; F] 0x11465E73 14 14 2;
    EXP 14 14 5 11 1 8;
    RND 1 [B; C; D; A; F; G; H; E] 0x228CBCE6 15 15 3;
    EXP 15 15 6 12 2 9;
    RND 2 [A; B; C; D; E; F; G; H] 0x9D8A7A87 0 0 4;
    EXP 0 0 7 13 3 10;
    RND 2 [D; A; B; C; H; E; F; G] 0x3B14F50F 1 1 5;
    EXP 1 1 8 14 4 11;
    RND 2 [C; D; A; B; G; H; E; F] 0x7629EA1E 2 2 6;
    EXP 2 2 9 15 5 12;
    RND 2 [B; C; D; A; F; G; H; E] 0xEC53D43C 3 3 7;
    EXP 3 3 10 0 6 13;
    RND 2 [A; B; C; D; E; F; G; H] 0xD8A7A879 4 4 8;
    EXP 4 4 11 1 7 14;
    RND 2 [D; A; B; C; H; E; F; G] 0xB14F50F3 5 5 9;
    EXP 5 5 12 2 8 15;
    RND 2 [C; D; A; B; G; H; E; F] 0x629EA1E7 6 6 10;
    EXP 6 6 13 3 9 0;
    RND 2 [B; C; D; A; F; G; H; E] 0xC53D43CE 7 7 11;
    EXP 7 7 14 4 10 1;
    RND 2 [A; B; C; D; E; F; G; H] 0x8A7A879D 8 8 12;
    EXP 8 8 15 5 11 2;
    RND 2 [D; A; B; C; H; E; F; G] 0x14F50F3B 9 9 13;
    EXP 9 9 0 6 12 3;
    RND 2 [C; D; A; B; G; H; E; F] 0x29EA1E76 10 10 14;
    EXP 10 10 1 7 13 4;
    RND 2 [B; C; D; A; F; G; H; E] 0x53D43CEC 11 11 15;
    EXP 11 11 2 8 14 5;
    RND 2 [A; B; C; D; E; F; G; H] 0xA7A879D8 12 12 0;
    EXP 12 12 3 9 15 6;
    RND 2 [D; A; B; C; H; E; F; G] 0x4F50F3B1 13 13 1;
    EXP 13 13 4 10 0 7;
    RND 2 [C; D; A; B; G; H; E; F] 0x9EA1E762 14 14 2;
    EXP 14 14 5 11 1 8;
    RND 2 [B; C; D; A; F; G; H; E] 0x3D43CEC5 15 15 3;
    EXP 15 15 6 12 2 9;
    RND 2 [A; B; C; D; E; F; G; H] 0x7A879D8A 0 0 4;
    EXP 0 0 7 13 3 10;
    RND 2 [D; A; B; C; H; E; F; G] 0xF50F3B14 1 1 5;
    EXP 1 1 8 14 4 11;
    RND 2 [C; D; A; B; G; H; E; F] 0xEA1E7629 2 2 6;
    EXP 2 2 9 15 5 12;
    RND 2 [B; C; D; A; F; G; H; E] 0xD43CEC53 3 3 7;
    EXP 3 3 10 0 6 13;
    RND 2 [A; B; C; D; E; F; G; H] 0xA879D8A7 4 4 8;
    EXP 4 4 11 1 7 14;
    RND 2 [D; A; B; C; H; E; F; G] 0x50F3B14F 5 5 9;
    EXP 5 5 12 2 8 15;
    RND 2 [C; D; A; B; G; H; E; F] 0xA1E7629E 6 6 10;
    EXP 6 6 13 3 9 0;
    RND 2 [B; C; D; A; F; G; H; E] 0x43CEC53D 7 7 11;
    EXP 7 7 14 4 10 1;
    RND 2 [A; B; C; D; E; F; G; H] 0x879D8A7A 8 8 12;
    EXP 8 8 15 5 11 2;
    RND 2 [D; A; B; C; H; E; F; G] 0x0F3B14F5 9 9 13;
    EXP 9 9 0 6 12 3;
    RND 2 [C; D; A; B; G; H; E; F] 0x1E7629EA 10 10 14;
    EXP 10 10 1 7 13 4;
    RND 2 [B; C; D; A; F; G; H; E] 0x3CEC53D4 11 11 15;
    EXP 11 11 2 8 14 5;
    RND 2 [A; B; C; D; E; F; G; H] 0x79D8A7A8 12 12 0;
    EXP 12 12 3 9 15 6;
    RND 2 [D; A; B; C; H; E; F; G] 0xF3B14F50 13 13 1;
    EXP 13 13 4 10 0 7;
    RND 2 [C; D; A; B; G; H; E; F] 0xE7629EA1 14 14 2;
    EXP 14 14 5 11 1 8;
    RND 2 [B; C; D; A; F; G; H; E] 0xCEC53D43 15 15 3;
    EXP 15 15 6 12 2 9;
    RND 2 [A; B; C; D; E; F; G; H] 0x9D8A7A87 0 0 4;
    EXP 0 0 7 13 3 10;
    RND 2 [D; A; B; C; H; E; F; G] 0x3B14F50F 1 1 5;
    EXP 1 1 8 14 4 11;
    RND 2 [C; D; A; B; G; H; E; F] 0x7629EA1E 2 2 6;
    EXP 2 2 9 15 5 12;
    RND 2 [B; C; D; A; F; G; H; E] 0xEC53D43C 3 3 7;
    EXP 3 3 10 0 6 13;
    RND 2 [A; B; C; D; E; F; G; H] 0xD8A7A879 4 4 8;
    RND 2 [D; A; B; C; H; E; F; G] 0xB14F50F3 5 5 9;
    RND 2 [C; D; A; B; G; H; E; F] 0x629EA1E7 6 6 10;
    RND 2 [B; C; D; A; F; G; H; E] 0xC53D43CE 7 7 11;
    RND 2 [A; B; C; D; E; F; G; H] 0x8A7A879D 8 8 12;
    RND 2 [D; A; B; C; H; E; F; G] 0x14F50F3B 9 9 13;
    RND 2 [C; D; A; B; G; H; E; F] 0x29EA1E76 10 10 14;
    RND 2 [B; C; D; A; F; G; H; E] 0x53D43CEC 11 11 15;
    RND 2 [A; B; C; D; E; F; G; H] 0xA7A879D8 12 12 0;
    RND 2 [D; A; B; C; H; E; F; G] 0x4F50F3B1 13 13 1;
    RND 2 [C; D; A; B; G; H; E; F] 0x9EA1E762 14 14 2;
    RND 2 [B; C; D; A; F; G; H; E] 0x3D43CEC5 15 15 3 ].
End Prog.
(** md32_common.h:96-99 HOST_c2l, sixteen times (src/sm3/sm3.c:52-67) *)
Definition c2l (p : list N) (i : nat) : N :=
  N.lor (N.lor (N.lor (N.shiftl (get p i) 24) (N.shiftl (get p (i + 1)) 16)) (N.shiftl (get p (i + 2)) 8)) (get p (i + 3)).
Definition load_W (p : list N) : list N := map (fun i => c2l p (4 * i)) (seq 0 16).
(** src/sm3/sm3.c:29-195 sm3_block_data_order with num = 1: ctx->A..H afterwards *)
Definition block1 (h p : list N) : list N :=
  let '(R, _) := fold_left exec sm3_prog (h, load_W p) in xorl h R.
(** src/sm3/sm3.c:37 [for (; num--;)] over num 64-byte blocks *)
Definition block_data_order (h p : list N) : list N := fold_left block1 (chunks 64 p) h.

(** memcpy(p + off, v, |v|) inside the 64-byte buffer *)
Definition put (p : list N) (off : nat) (v : list N) : list N := firstn off p ++ v ++ skipn (off + length v) p.

(** src/sm3/md32_common.h:130-186 HASH_UPDATE *)
Definition sm3_update (c : sm3_ctx) (data : list N) : sm3_ctx :=
  let len := N.of_nat (length data) in
  if (len =? 0)%N then c
  else
    let l := w32 (x_Nl c + w32 (w32 len * 8)) in
    let Nh1 := if (l <? x_Nl c)%N then w32 (x_Nh c + 1) else x_Nh c in
    let Nh2 := w32 (Nh1 + w32 (N.shiftr len 29)) in
    let n := x_num c in
    let rest h p data :=           (* md32_common.h:172-184 *)
      let k := length data / 64 in
      let h' := if 0 <? k then block_data_order h (firstn (k * 64) data) else h in
      let data' := if 0 <? k then skipn (k * 64) data else data in
      if length data' =? 0 then mksm3 h' l Nh2 p 0
      else mksm3 h' l Nh2 (put p 0 data') (length data') in
    if negb (n =? 0) then
      if (64 <=? length data) || (64 <=? length data + n) then
        let p := put (x_data c) n (firstn (64 - n) data) in
        rest (block_data_order (x_h c) p) (repeat 0%N 64) (skipn (64 - n) data)
      else mksm3 (x_h c) l Nh2 (put (x_data c) n data) (n + length data)
    else rest (x_h c) (x_data c) data.

(** md32_common.h:100-104 HOST_l2c *)
Definition l2c (l : N) : list N :=
  [N.land (N.shiftr l 24) 0xff; N.land (N.shiftr l 16) 0xff; N.land (N.shiftr l 8) 0xff; N.land l 0xff].
(** src/sm3/md32_common.h:193-229 HASH_FINAL: context afterwards and the 32 bytes written to md *)
Definition sm3_final (c : sm3_ctx) : sm3_ctx * list N :=
  let n := x_num c in
  let p := put (x_data c) n [0x80%N] in
  let n1 := n + 1 in
  let '(h1, p1, n2) :=
    if 64 - 8 <? n1
    then let p' := put p n1 (repeat 0%N (64 - n1)) in (block_data_order (x_h c) p', p', 0)
    else (x_h c, p, n1) in
  let p2 := put p1 n2 (repeat 0%N (64 - 8 - n2)) in
  let p3 := put p2 56 (l2c (x_Nh c) ++ l2c (x_Nl c)) in
  let h2 := block_data_order h1 p3 in
  (mksm3 h2 (x_Nl c) (x_Nh c) (repeat 0%N 64) 0, concat (map l2c h2)).

(** src/sm3/sm3.c:197-202 WBCRYPTO_sm3: the digest (the function has no return statement; its int
    result is indeterminate and not modelled) *)
Definition sm3 (msg : list N) : list N := snd (sm3_final (sm3_update sm3_init msg)).

(** what a caller runs: SM3_Init, any number of SM3_Update calls, SM3_Final *)
Definition sm3_stream (pieces : list (list N)) : list N :=
  snd (sm3_final (fold_left sm3_update pieces sm3_init)).

