(** * Model of src/utils/padding.c, src/modes/cbc128.c and the CBC wrappers.

    Conventions: a buffer is the [list N] of its bytes; [None] is undefined behaviour
    (out-of-bounds access, use after free); a block function returns [None] when the C
    function returns 0.  Arrays passed by the caller are assumed pairwise disjoint except
    where a definition says otherwise. *)
From Verif Require Import Base.

(** C conversion of an [int] value to [size_t] (64-bit). *)
Definition size_of_int (z : Z) : N := Z.to_N (z mod 2 ^ 64)%Z.

(** conversion size_t -> int (implementation-defined; gcc wraps) *)
Definition c_int (n : N) : Z :=
  let m := (n mod 2 ^ 32)%N in
  if (m <? 2 ^ 31)%N then Z.of_N m else (Z.of_N m - 2 ^ 32)%Z.

(** largest [int] *)
Definition int_max : N := (2 ^ 31 - 1)%N.

(** src/utils/padding.c:3-23 WBCRYPTO_key_padding_pkcs7.  [dst] is reallocated to 16 bytes;
    only its final contents are modelled (both callers pass a 16-byte allocation). *)
Definition key_padding_pkcs7 (src : list N) : list N :=
  let srclen := length src in
  if 16 <? srclen then firstn 16 src
  else src ++ (if srclen <? 16 then repeat (N.of_nat (16 - srclen)) (16 - srclen) else []).

(** src/utils/padding.c:25-44 WBCRYPTO_key_padding_zeros *)
Definition key_padding_zeros (src : list N) : list N :=
  let srclen := length src in
  if 16 <? srclen then firstn 16 src
  else src ++ (if srclen <? 16 then repeat 0%N (16 - srclen) else []).

(** src/utils/padding.c:74-78 WBCRYPTO_padding_pkcs7_merge_length and :48
    ([int pad_len]; a value above INT_MAX is handled by the callers below). *)
Definition merge_length (srclen : nat) : nat :=
  if srclen mod 16 =? 0 then srclen else (srclen / 16 + 1) * 16.

(** src/utils/padding.c:46-61 WBCRYPTO_padding_pkcs7_merge: contents of the reallocated [dst].
    [int pad_len] above INT_MAX makes realloc fail and memset(NULL): [None]. *)
Definition padding_merge (src : list N) : option (list N) :=
  let srclen := length src in
  let pad_len := merge_length srclen in
  if (int_max <? N.of_nat pad_len)%N then None
  else Some (src ++ (if srclen <? pad_len
                     then repeat (N.of_nat (pad_len - srclen)) (pad_len - srclen) else [])).

(** src/utils/padding.c:81-84 (also :64-67): [int pad_num = src[srclen-1]]; out of 0..16 means 0;
    [srclen = 0] reads [src[-1]]: [None].  [buf] is the underlying buffer. *)
Definition separate_pad_num (buf : list N) (srclen : nat) : option N :=
  if srclen =? 0 then None
  else do b <- read_at buf (srclen - 1) 1;
       let p := hd 0%N b in
       Some (if (16 <? p)%N then 0%N else p).

(** src/utils/padding.c:80-87 WBCRYPTO_padding_pkcs7_separate_length.
    [afpad_len] is an [int] returned as [size_t]; the difference is taken in [size_t]. *)
Definition separate_length (buf : list N) (srclen : nat) : option N :=
  do p <- separate_pad_num buf srclen;
  Some (size_of_int (c_int (size_of_int (Z.of_nat srclen - Z.of_N p)))).

(** src/utils/padding.c:63-72 WBCRYPTO_padding_pkcs7_separate: contents of [dst];
    [int afpad_len]; a negative value makes a huge memcpy: [None]. *)
Definition padding_separate (src : list N) : option (list N) :=
  do p <- separate_pad_num src (length src);
  let afpad_len := c_int (size_of_int (Z.of_nat (length src) - Z.of_N p)) in
  if (afpad_len <? 0)%Z then None
  else Some (firstn (Z.to_nat afpad_len) src).

Definition blockfn := list N -> option (list N).
(** a block function that always succeeds (all block functions of this library do) *)
Definition lift (E : list N -> list N) : blockfn := fun b => Some (E b).

(** outcome of a CBC call: return value, output buffer, *use_olen if written, ivec *)
Record cbc_result := { cr_ret : bool; cr_out : list N; cr_use : option N; cr_iv : list N }.

(** the [iv] pointer of the encryption loop: [None] = ivec, [Some off] = out + off *)
Definition iv_read (ivec out : list N) (ivp : option nat) : option (list N) :=
  match ivp with None => read_at ivec 0 16 | Some o => read_at out o 16 end.

(** src/modes/cbc128.c:18-27 the loop [while (len >= 16)] of WBCRYPTO_cbc128_encrypt followed by
    :28-40 the loop [while (len)], whose body runs once because len < 16 there.
    The two 8-byte words of a block are xored as 16 bytes. Result: return value and out.
    (A block function that fails leaves [out] as it was before the call; simplification.) *)
Fixpoint enc_loop (blk : blockfn) (ivec afin : list N) (fuel : nat)
         (out : list N) (off : nat) (ivp : option nat) (len : nat) : option (bool * list N) :=
  match fuel with
  | O => None
  | S f =>
    if 16 <=? len then
      do a <- read_at afin off 16;
      do v <- iv_read ivec out ivp;
      do out1 <- write_at out off (xorl a v);
      match blk (xorl a v) with
      | None => Some (false, out1)
      | Some c =>
        do out2 <- write_at out1 off c;
        enc_loop blk ivec afin f out2 (off + 16) (Some off) (len - 16)
      end
    else if len =? 0 then Some (true, out)
    else
      do a <- read_at afin off len;
      do v <- iv_read ivec out ivp;
      let x := xorl a (firstn len v) ++ skipn len v in
      do out1 <- write_at out off x;
      match blk x with
      | None => Some (false, out1)
      | Some c => do out2 <- write_at out1 off c; Some (true, out2)
      end
  end.

(** src/modes/cbc128.c:3-44 WBCRYPTO_cbc128_encrypt.
    [realloc_moves]: the allocator's choice whether the realloc inside
    WBCRYPTO_padding_pkcs7_merge moves the block.  The caller keeps its old pointer [afin]
    (the new one is a local of the callee), so a moved block is read after free: [None] as soon
    as a byte of it is read. *)
Definition cbc128_encrypt (realloc_moves : bool) (blk : blockfn) (inp : list N)
           (out : list N) (max_olen : nat) (ivec : list N) : option cbc_result :=
  do afin <- padding_merge inp;
  let len := length afin in
  if max_olen <? len
  then Some {| cr_ret := false; cr_out := out; cr_use := None; cr_iv := ivec |}
  else
    let afin' := if realloc_moves then [] else afin in
    do r <- enc_loop blk ivec afin' (S len) out 0 None len;
    let '(ret, out') := r in
    Some {| cr_ret := ret; cr_out := out'; cr_use := Some (N.of_nat len); cr_iv := ivec |}.

(** src/modes/cbc128.c:63-79 the [in != out] loop of WBCRYPTO_cbc128_decrypt (buffers disjoint).
    The iv pointer ([ivec], then the previous ciphertext block of [in], which is never written)
    is represented by the 16 bytes it points to.  Result: ok flag, out, iv bytes, off, len. *)
Fixpoint dec_loop_sep (blk : blockfn) (inp : list N) (fuel : nat)
         (out iv : list N) (off len : nat) : option (bool * list N * list N * nat * nat) :=
  match fuel with
  | O => None
  | S f =>
    if 16 <=? len then
      do a <- read_at inp off 16;
      match blk a with
      | None => Some (false, out, iv, off, len)
      | Some d =>
        do out1 <- write_at out off d;
        do o <- read_at out1 off 16;
        do out2 <- write_at out1 off (xorl o iv);
        dec_loop_sep blk inp f out2 a (off + 16) (len - 16)
      end
    else Some (true, out, iv, off, len)
  end.

(** src/modes/cbc128.c:85-90 the inner word loop of the in-place branch, one 8-byte word:
    [c = in_t[n]; out_t[n] = tmp.t[n] ^ ivec_t[n]; ivec_t[n] = c]. [buf] is in = out. *)
Definition dec_word_inplace (tmp : list N) (off n : nat) (s : list N * list N)
  : option (list N * list N) :=
  let '(buf, ivec) := s in
  do c <- read_at buf (off + 8 * n) 8;
  do t <- read_at tmp (8 * n) 8;
  do v <- read_at ivec (8 * n) 8;
  do buf' <- write_at buf (off + 8 * n) (xorl t v);
  do ivec' <- write_at ivec (8 * n) c;
  Some (buf', ivec').

(** src/modes/cbc128.c:80-96 the [in == out] loop. *)
Fixpoint dec_loop_inplace (blk : blockfn) (fuel : nat)
         (buf ivec : list N) (off len : nat) : option (bool * list N * list N * nat * nat) :=
  match fuel with
  | O => None
  | S f =>
    if 16 <=? len then
      do a <- read_at buf off 16;
      match blk a with
      | None => Some (false, buf, ivec, off, len)
      | Some tmp =>
        do s1 <- dec_word_inplace tmp off 0 (buf, ivec);
        do s2 <- dec_word_inplace tmp off 1 s1;
        let '(buf', ivec') := s2 in
        dec_loop_inplace blk f buf' ivec' (off + 16) (len - 16)
      end
    else Some (true, buf, ivec, off, len)
  end.

(** src/modes/cbc128.c:99-113 the loop [while (len)] of WBCRYPTO_cbc128_decrypt, body run once
    (0 < len < 16): the block function reads 16 bytes at [in]. [inp] is the buffer [in] points
    into; out bytes are written for n < len, ivec gets the 16 bytes read. *)
Definition dec_tail (blk : blockfn) (inp out ivec : list N) (off len : nat)
  : option (bool * list N * list N) :=
  if len =? 0 then Some (true, out, ivec)
  else
    do a <- read_at inp off 16;
    match blk a with
    | None => Some (false, out, ivec)
    | Some tmp =>
      do out' <- write_at out off (firstn len (xorl tmp ivec));
      Some (true, out', a)
    end.

(** src/modes/cbc128.c:55-117 with in and out disjoint and [int len = n], n >= 0 *)
Definition dec_run_sep (blk : blockfn) (inp out ivec : list N) (n : nat) : option cbc_result :=
  do r <- dec_loop_sep blk inp (S n) out ivec 0 n;
  let '(ok, out1, iv1, off, len) := r in
  if ok : bool then
    do t <- dec_tail blk inp out1 iv1 off len;
    let '(ok2, out2, iv2) := t in
    Some {| cr_ret := ok2; cr_out := out2; cr_use := None; cr_iv := iv2 |}
  else Some {| cr_ret := false; cr_out := out1; cr_use := None; cr_iv := ivec |}.
(** src/modes/cbc128.c:55-117 with in == out and [int len = n], n >= 0 *)
Definition dec_run_inplace (blk : blockfn) (buf ivec : list N) (n : nat) : option cbc_result :=
  do r <- dec_loop_inplace blk (S n) buf ivec 0 n;
  let '(ok, out1, iv1, off, len) := r in
  if ok : bool then
    do t <- dec_tail blk out1 out1 iv1 off len;
    let '(ok2, out2, iv2) := t in
    Some {| cr_ret := ok2; cr_out := out2; cr_use := None; cr_iv := iv2 |}
  else Some {| cr_ret := false; cr_out := out1; cr_use := None; cr_iv := iv1 |}.
(** src/modes/cbc128.c:55-117 with len < 0: [while (len >= 16)] is not entered; the body of [while (len)] :99-113 runs
    once with [n < len] comparing as size_t, hence true, and leaves at [if (len <= 16)].  The input is [inp] (equal to
    [out] when in == out). *)
Definition dec_negative (blk : blockfn) (inp out ivec : list N) : option cbc_result :=
  do a <- read_at inp 0 16;
  match blk a with
  | None => Some {| cr_ret := false; cr_out := out; cr_use := None; cr_iv := ivec |}
  | Some tmp =>
    do out' <- write_at out 0 (xorl tmp ivec);
    Some {| cr_ret := true; cr_out := out'; cr_use := None; cr_iv := a |}
  end.

(** src/modes/cbc128.c:46-117 WBCRYPTO_cbc128_decrypt with in and out disjoint.
    [inp] is the input buffer (at least the bytes the caller owns), [inlen] the argument; [int len = inlen]. *)
Definition cbc128_decrypt (blk : blockfn) (inp : list N) (inlen : nat)
           (out : list N) (max_olen : nat) (ivec : list N) : option cbc_result :=
  if max_olen <? inlen
  then Some {| cr_ret := false; cr_out := out; cr_use := None; cr_iv := ivec |}
  else if (int_max <? N.of_nat inlen)%N then
    let len := c_int (N.of_nat inlen) in
    if (len <? 0)%Z then dec_negative blk inp out ivec else dec_run_sep blk inp out ivec (Z.to_nat len)
  else dec_run_sep blk inp out ivec inlen.

(** src/modes/cbc128.c:46-117 WBCRYPTO_cbc128_decrypt called with in == out. *)
Definition cbc128_decrypt_inplace (blk : blockfn) (buf : list N) (inlen : nat)
           (max_olen : nat) (ivec : list N) : option cbc_result :=
  if max_olen <? inlen
  then Some {| cr_ret := false; cr_out := buf; cr_use := None; cr_iv := ivec |}
  else if (int_max <? N.of_nat inlen)%N then
    let len := c_int (N.of_nat inlen) in
    if (len <? 0)%Z then dec_negative blk buf buf ivec else dec_run_inplace blk buf ivec (Z.to_nat len)
  else dec_run_inplace blk buf ivec inlen.

(** src/sm4/sm4_modes.c:17-30 (identically src/aes/aes_modes.c:17-30 and
    src/wbsm4/wbsm4_modes.c:17-30): the *_cbc_decrypt wrappers, which set
    *use_olen = WBCRYPTO_padding_pkcs7_separate_length(out, inlen) on success. *)
Definition wrapper_cbc_decrypt (blk : blockfn) (inp : list N) (inlen : nat)
           (out : list N) (max_olen : nat) (ivec : list N) : option cbc_result :=
  do r <- cbc128_decrypt blk inp inlen out max_olen ivec;
  if cr_ret r then
    do u <- separate_length (cr_out r) inlen;
    Some {| cr_ret := true; cr_out := cr_out r; cr_use := Some u; cr_iv := cr_iv r |}
  else Some r.

(** src/sm4/sm4_modes.c:3-15, src/aes/aes_modes.c:3-15, src/wbsm4/wbsm4_modes.c:3-15, src/wbaes/wbaes_modes.c:3-15: the *_cbc_encrypt wrappers
    just forward. *)
Definition wrapper_cbc_encrypt := cbc128_encrypt.

(** Client scenario (no code in /repo): successive WBCRYPTO_cbc128_decrypt calls sharing one ivec
    buffer, each with an output buffer of exactly the piece's size; result: the concatenated
    plaintext and the final ivec. *)
Fixpoint decrypt_pieces (blk : blockfn) (ps : list (list N)) (iv : list N) : option (list N * list N) :=
  match ps with
  | [] => Some ([], iv)
  | p :: ps' =>
    do r <- cbc128_decrypt blk p (length p) (repeat 0%N (length p)) (length p) iv;
    if cr_ret r then
      do t <- decrypt_pieces blk ps' (cr_iv r);
      Some (cr_out r ++ fst t, snd t)
    else None
  end.

(** Client scenario: the same with WBCRYPTO_cbc128_encrypt. *)
Fixpoint encrypt_pieces (blk : blockfn) (ps : list (list N)) (iv : list N) : option (list N * list N) :=
  match ps with
  | [] => Some ([], iv)
  | p :: ps' =>
    do r <- cbc128_encrypt false blk p (repeat 0%N (length p)) (length p) iv;
    if cr_ret r then
      do t <- encrypt_pieces blk ps' (cr_iv r);
      Some (cr_out r ++ fst t, snd t)
    else None
  end.
