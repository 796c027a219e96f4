(** * Model of src/modes/gcm128.c (and the constants of include/wbcrypto/modes.h). *)
From Verif Require Import Base CbcModel.

(** C unsigned 64-bit arithmetic *)
Definition w64 (x : N) : N := (x mod 2 ^ 64)%N.
Definition shl64 (x n : N) : N := w64 (N.shiftl x n).
(** include/wbcrypto/modes.h:18-22 GET_UINT32_BE *)
Definition get_u32_be (b : list N) (i : nat) : N :=
  N.lor (N.lor (N.lor (N.shiftl (get b i) 24) (N.shiftl (get b (i + 1)) 16))
               (N.shiftl (get b (i + 2)) 8)) (get b (i + 3)).
(** include/wbcrypto/modes.h:24-28 PUT_UINT32_BE: the four bytes stored *)
Definition put_u32_be (n : N) : list N :=
  [ (N.shiftr n 24) mod 256; (N.shiftr n 16) mod 256; (N.shiftr n 8) mod 256; n mod 256 ]%N.

(** include/wbcrypto/modes.h:12-14 last4 *)
Definition last4 : list N :=
  [ 0x0000; 0x1c20; 0x3840; 0x2460; 0x7080; 0x6ca0; 0x48c0; 0x54e0;
    0xe100; 0xfd20; 0xd940; 0xc560; 0x9180; 0x8da0; 0xa9c0; 0xb5e0 ]%N.

(** include/wbcrypto/modes.h:37-47 struct gcm128_context without key and block, which are a
    parameter of the functions below. *)
Record gcm_ctx := mkgcm {
  g_len : N; g_add_len : N;          (* uint64_t *)
  g_HL : list N; g_HH : list N;      (* uint64_t[16] *)
  g_base : list N;                   (* base_ectr[16] *)
  g_y : list N; g_buf : list N }.    (* unsigned char[16] *)

(** src/modes/gcm128.c:21-26 (identically :28-33): shift the accumulator by one nibble, reduce,
    add table entry [n]. *)
Definition mult_nibble (HH HL : list N) (z : N * N) (n : nat) : N * N :=
  let '(zh, zl) := z in
  let rem := N.land zl 0x0f in
  let zl1 := N.lor (shl64 zh 60) (N.shiftr zl 4) in
  let zh1 := N.shiftr zh 4 in
  let zh2 := N.lxor zh1 (shl64 (get last4 (N.to_nat rem)) 48) in
  (N.lxor zh2 (get HH n), N.lxor zl1 (get HL n)).

(** src/modes/gcm128.c:3-39 gcm_mult *)
Definition gcm_mult (HH HL : list N) (x : list N) : list N :=
  let lo0 := N.to_nat (N.land (get x 15) 0x0f) in
  let z0 := (get HH lo0, get HL lo0) in
  let step z i :=
    let lo := N.to_nat (N.land (get x i) 0x0f) in
    let hi := N.to_nat (N.shiftr (get x i) 4) in
    let z1 := if i =? 15 then z else mult_nibble HH HL z lo in
    mult_nibble HH HL z1 hi in
  let '(zh, zl) := fold_left step [15;14;13;12;11;10;9;8;7;6;5;4;3;2;1;0] z0 in
  put_u32_be (N.shiftr zh 32) ++ put_u32_be zh ++ put_u32_be (N.shiftr zl 32) ++ put_u32_be zl.

(** src/modes/gcm128.c:76-82 the loop building entries 4, 2, 1 *)
Definition init_shift (s : list N * list N * N * N) (i : nat) : list N * list N * N * N :=
  let '(HH, HL, vh, vl) := s in
  let T := (N.land vl 1 * 0xe1000000)%N in
  let vl' := N.lor (shl64 vh 63) (N.shiftr vl 1) in
  let vh' := N.lxor (N.shiftr vh 1) (shl64 T 32) in
  (set HH i vh', set HL i vl', vh', vl').
(** src/modes/gcm128.c:83-91 the loops filling the remaining entries *)
Definition init_fill (HH HL : list N) (i : nat) : list N * list N :=
  let vh := get HH i in
  let vl := get HL i in
  fold_left (fun s j => let '(a, b) := s in
               (set a (i + j) (N.lxor vh (get a j)), set b (i + j) (N.lxor vl (get b j))))
            (seq 1 (i - 1)) (HH, HL).
(** src/modes/gcm128.c:62-91 table construction from the 16 bytes of H *)
Definition init_tables (h : list N) : list N * list N :=
  let vh := N.lor (N.shiftl (get_u32_be h 0) 32) (get_u32_be h 4) in
  let vl := N.lor (N.shiftl (get_u32_be h 8) 32) (get_u32_be h 12) in
  let HL := set (set (repeat 0%N 16) 8 vl) 0 0%N in
  let HH := set (set (repeat 0%N 16) 8 vh) 0 0%N in
  let '(HH1, HL1, _, _) := fold_left init_shift [4; 2; 1] (HH, HL, vh, vl) in
  let '(HH2, HL2) := init_fill HH1 HL1 2 in
  let '(HH3, HL3) := init_fill HH2 HL2 4 in
  init_fill HH3 HL3 8.
(** src/modes/gcm128.c:41-95 WBCRYPTO_gcm_init ([None]: returns NULL).  The wrappers src/aes/aes_modes.c:32-35,
    src/sm4/sm4_modes.c:32-35, src/wbsm4/wbsm4_modes.c:32-35 and src/wbaes/wbaes_modes.c:17-20 call it with the
    cipher's encryption function as [blk]. *)
Definition gcm_init (blk : blockfn) : option gcm_ctx :=
  match blk (repeat 0%N 16) with
  | None => None
  | Some h =>
    let '(HH, HL) := init_tables h in
    Some (mkgcm 0 0 HL HH (repeat 0%N 16) (repeat 0%N 16) (repeat 0%N 16))
  end.

(** [for (i = 0; i < use_len; i++) buf[i] ^= p[i]] (gcm128.c:125, :152, :197, :245) *)
Definition xor_into (buf p : list N) : list N :=
  xorl (firstn (length p) buf) p ++ skipn (length p) buf.

(** the loops [while (len > 0)] of gcm128.c:123-129 and :150-156, which cut off
    use_len = min(len, 16) bytes at a time *)
Definition absorb (HH HL : list N) (acc data : list N) : list N :=
  fold_left (fun a p => gcm_mult HH HL (xor_into a p)) (chunks 16 data) acc.

(** src/modes/gcm128.c:97-137 WBCRYPTO_gcm_setiv; the bool is the return value *)
Definition gcm_setiv (blk : blockfn) (c : gcm_ctx) (iv : list N) : bool * gcm_ctx :=
  let y0 := repeat 0%N 16 in
  let y :=
    if length iv =? 12 then set (iv ++ skipn 12 y0) 15 1%N
    else
      let work := repeat 0%N 12 ++ put_u32_be (w64 (N.of_nat (length iv) * 8)) in
      gcm_mult (g_HH c) (g_HL c) (xor_into (absorb (g_HH c) (g_HL c) y0 iv) work) in
  let c1 := mkgcm 0 (g_add_len c) (g_HL c) (g_HH c) (g_base c) y (repeat 0%N 16) in
  match blk y with
  | None => (false, c1)
  | Some e => (true, mkgcm 0 (g_add_len c) (g_HL c) (g_HH c) e y (repeat 0%N 16))
  end.

(** src/modes/gcm128.c:139-160 WBCRYPTO_gcm_aad (always returns 1) *)
Definition gcm_aad (c : gcm_ctx) (aad : list N) : gcm_ctx :=
  mkgcm (g_len c) (w64 (N.of_nat (length aad))) (g_HL c) (g_HH c) (g_base c) (g_y c)
        (absorb (g_HH c) (g_HL c) (g_buf c) aad).

(** [for (i = 16; i > 12; i--) if (++ctx->y[i - 1] != 0) break;] (gcm128.c:184, :233) *)
Fixpoint ctr_incr_from (n : nat) (y : list N) (i : nat) : list N :=
  match n with
  | O => y
  | S n' =>
    let b := ((get y (i - 1) + 1) mod 256)%N in
    let y' := set y (i - 1) b in
    if (b =? 0)%N then ctr_incr_from n' y' (i - 1) else y'
  end.
Definition ctr_incr (y : list N) : list N := ctr_incr_from 4 y 16.

(** direction: what is hashed *)
Inductive dir := Enc | Dec.

(** src/modes/gcm128.c:179-205 (Enc) and :228-255 (Dec): one iteration per chunk of at most 16
    bytes.  State: y, buf, bytes written so far to [out]. *)
Fixpoint crypt_loop (blk : blockfn) (HH HL : list N) (d : dir) (cs : list (list N))
         (y buf out : list N) : bool * list N * list N * list N :=
  match cs with
  | [] => (true, y, buf, out)
  | p :: cs' =>
    let y' := ctr_incr y in
    match blk y' with
    | None => (false, y', buf, out)
    | Some ectr =>
      let o := xorl (firstn (length p) ectr) p in
      let buf' := gcm_mult HH HL (xor_into buf (match d with Enc => o | Dec => p end)) in
      crypt_loop blk HH HL d cs' y' buf' (out ++ o)
    end
  end.

(** src/modes/gcm128.c:162-209 WBCRYPTO_gcm_encrypt and :211-259 WBCRYPTO_gcm_decrypt.
    Result: return value, context, bytes written to out[0..].  [int len = inlen] wraps, so for
    inlen >= 2^31 a negative len is added to ctx->len and the loop body never runs. *)
Definition gcm_crypt (d : dir) (blk : blockfn) (c : gcm_ctx) (inp : list N) (outlen : nat)
  : bool * gcm_ctx * list N :=
  if outlen <? length inp then (false, c, [])
  else
    let len := c_int (N.of_nat (length inp)) in
    let newlen := Z.to_N ((Z.of_N (g_len c) + len) mod 2 ^ 64)%Z in
    let data := firstn (Z.to_nat len) inp in
    let '(ok, y, buf, out) := crypt_loop blk (g_HH c) (g_HL c) d (chunks 16 data) (g_y c) (g_buf c) [] in
    (ok, mkgcm newlen (g_add_len c) (g_HL c) (g_HH c) (g_base c) y buf, out).
Definition gcm_encrypt := gcm_crypt Enc.
Definition gcm_decrypt := gcm_crypt Dec.

(** src/modes/gcm128.c:261-285 WBCRYPTO_gcm_finish: context and the [len] tag bytes;
    [None] when len > 16 (memcpy and the xor loop run past the 16-byte arrays). *)
Definition gcm_finish (c : gcm_ctx) (len : nat) : option (gcm_ctx * list N) :=
  let orig_len := w64 (g_len c * 8) in
  let orig_add := w64 (g_add_len c * 8) in
  if 16 <? len then None
  else
    let tag := firstn len (g_base c) in
    if (orig_len =? 0)%N && (orig_add =? 0)%N then Some (c, tag)
    else
      let work := put_u32_be (N.shiftr orig_add 32) ++ put_u32_be orig_add
                  ++ put_u32_be (N.shiftr orig_len 32) ++ put_u32_be orig_len in
      let buf := gcm_mult (g_HH c) (g_HL c) (xor_into (g_buf c) work) in
      Some (mkgcm (g_len c) (g_add_len c) (g_HL c) (g_HH c) (g_base c) (g_y c) buf,
            xorl tag (firstn len buf)).

(** Client scenarios (no code in /repo): a run of encrypt/decrypt calls on one context, every call
    with an output buffer of exactly the piece's size. *)
Fixpoint crypt_pieces (d : dir) (blk : blockfn) (c : gcm_ctx) (ps : list (list N))
  : bool * gcm_ctx * list N :=
  match ps with
  | [] => (true, c, [])
  | p :: ps' =>
    let '(ok, c1, o) := gcm_crypt d blk c p (length p) in
    if ok : bool then
      let '(ok2, c2, o2) := crypt_pieces d blk c1 ps' in (ok2, c2, o ++ o2)
    else (false, c1, o)
  end.
(** init; setiv; aad; a list of encrypt (decrypt) calls; finish *)
Definition gcm_session (d : dir) (blk : blockfn) (iv aad : list N) (ps : list (list N)) (taglen : nat)
  : option (list N * list N) :=
  do c0 <- gcm_init blk;
  let '(ok1, c1) := gcm_setiv blk c0 iv in
  if ok1 : bool then
    let '(ok2, c2, out) := crypt_pieces d blk (gcm_aad c1 aad) ps in
    if ok2 : bool then
      do t <- gcm_finish c2 taglen;
      Some (out, snd t)
    else None
  else None.
(** the calls of the API as operations on a context *)
Inductive gcm_op := OpSetiv (iv : list N) | OpAad (a : list N) | OpCrypt (d : dir) (x : list N) (outlen : nat)
  | OpFinish (len : nat).
Definition gcm_step (blk : blockfn) (c : gcm_ctx) (o : gcm_op) : option gcm_ctx :=
  match o with
  | OpSetiv iv => Some (snd (gcm_setiv blk c iv))
  | OpAad a => Some (gcm_aad c a)
  | OpCrypt d x outlen => Some (snd (fst (gcm_crypt d blk c x outlen)))
  | OpFinish len => do r <- gcm_finish c len; Some (fst r)
  end.
Fixpoint gcm_run (blk : blockfn) (c : gcm_ctx) (ops : list gcm_op) : option gcm_ctx :=
  match ops with
  | [] => Some c
  | o :: ops' => do c' <- gcm_step blk c o; gcm_run blk c' ops'
  end.

(** gcm128.c:184-187 (and :233-236): the arguments handed to the block function by a call that
    processes [n] 16-byte chunks, in order, starting from ctx->y = [y] *)
Fixpoint counter_blocks (n : nat) (y : list N) : list (list N) :=
  match n with O => [] | S n' => ctr_incr y :: counter_blocks n' (ctr_incr y) end.

(** arguments of an operation are byte strings *)
Definition op_bytes (o : gcm_op) : Prop :=
  match o with OpSetiv x | OpAad x | OpCrypt _ x _ => bytes x | OpFinish _ => True end.
(** contexts a client can obtain with the block function [blk]: init, then any calls *)
Definition reachable (blk : blockfn) (c : gcm_ctx) : Prop :=
  exists c0 ops, gcm_init blk = Some c0 /\ Forall op_bytes ops /\ gcm_run blk c0 ops = Some c.
