(** * The modes on one memory: input, output and ivec may overlap
    The other models take the input as it was when the function was called.  Here input and output are two places in one
    array of bytes, and every access is made in the order of the code.  [None]: an access outside the array. *)
From Verif Require Import Base CbcModel GcmModel WbgcmModel.
Local Open Scope nat_scope.

Definition rd (mem : list N) (a : nat) : option N := nth_error mem a.
Definition wr (mem : list N) (a : nat) (v : N) : option (list N) := if a <? length mem then Some (set mem a v) else None.

(** ** GCM *)
Section Gcm.
  (** the encrypted counter block, and what is made of its byte i and byte i of the data: exclusive or in gcm128.c, the
      tables in the white-box variants *)
  Context (stream : list N -> option (list N)) (comb : nat -> N -> N -> N) (mult : list N -> list N) (d : dir).
  (** gcm128.c:190-199 and :239-251, wbaes_wbgcm_ee_mode.c:184-196 and :234-246, wbaes_wbgcm_mask_mode.c:201-214 and
      :256-269: the loop over the bytes [is] of a block *)
  Fixpoint byte_loop (ectr : list N) (pin pout : nat) (is : list nat) (mem buf : list N) : option (list N * list N) :=
    match is with
    | [] => Some (mem, buf)
    | i :: is =>
      match d with
      | Enc =>
        do x <- rd mem (pin + i);
        do mem <- wr mem (pout + i) (comb i (get ectr i) x);
        do o <- rd mem (pout + i);
        byte_loop ectr pin pout is mem (set buf i (N.lxor (get buf i) o))
      | Dec =>
        do x <- rd mem (pin + i);
        let buf := set buf i (N.lxor (get buf i) x) in
        do x <- rd mem (pin + i);
        do mem <- wr mem (pout + i) (comb i (get ectr i) x);
        byte_loop ectr pin pout is mem buf
      end
    end.
  (** gcm128.c:179-206 and :228-256 and the corresponding loops of the white-box variants: result, y, buf and memory *)
  Fixpoint mem_loop (fuel pin pout len : nat) (mem y buf : list N) : option (bool * list N * list N * list N) :=
    match fuel with
    | O => None
    | S f =>
      if len =? 0 then Some (true, y, buf, mem)
      else
        let use_len := if len <? 16 then len else 16 in
        let y := ctr_incr y in
        match stream y with
        | None => Some (false, y, buf, mem)
        | Some ectr =>
          do r <- byte_loop ectr pin pout (seq 0 use_len) mem buf;
          let '(mem, buf) := r in
          mem_loop f (pin + use_len) (pout + use_len) (len - use_len) mem y (mult buf)
        end
    end.
End Gcm.
(** src/modes/gcm128.c:162-209, :211-259 WBCRYPTO_gcm_encrypt and WBCRYPTO_gcm_decrypt: return value, context, memory *)
Definition gcm_crypt_mem (d : dir) (blk : blockfn) (c : gcm_ctx) (mem : list N) (pin inlen pout outlen : nat)
  : option (bool * gcm_ctx * list N) :=
  if outlen <? inlen then Some (false, c, mem)
  else
    let len := c_int (N.of_nat inlen) in
    let newlen := Z.to_N ((Z.of_N (g_len c) + len) mod 2 ^ 64)%Z in
    do r <- mem_loop blk (fun _ e x => N.lxor e x) (gcm_mult (g_HH c) (g_HL c)) d (S (Z.to_nat len)) pin pout (Z.to_nat len) mem (g_y c) (g_buf c);
    let '(ok, y, buf, mem) := r in
    Some (ok, mkgcm newlen (g_add_len c) (g_HL c) (g_HH c) (g_base c) y buf, mem).
(** wbaes_wbgcm_ee_mode.c:155-203, :205-254, wbaes_wbgcm_mask_mode.c:168-221, :223-276: the same of the white-box variants *)
Definition wbgcm_crypt_mem (d : dir) (k : wbkey) (c : gcm_ctx) (mem : list N) (pin inlen pout outlen : nat)
  : option (Z * gcm_ctx * list N) :=
  if outlen <? inlen then Some ((-1)%Z, c, mem)
  else
    let len := c_int (N.of_nat inlen) in
    let newlen := Z.to_N ((Z.of_N (g_len c) + len) mod 2 ^ 64)%Z in
    do r <- mem_loop (fun y => Some (wb_ectr k y)) (k_x k) (gcm_mult (g_HH c) (g_HL c)) d (S (Z.to_nat len)) pin pout (Z.to_nat len) mem (g_y c) (g_buf c);
    let '(_, y, buf, mem) := r in
    Some (1%Z, mkgcm newlen (g_add_len c) (g_HL c) (g_HH c) (g_base c) y buf, mem).

(** ** CBC *)
(** cbc128.c:21-29 the loop of WBCRYPTO_cbc128_encrypt on whole blocks (the padded length is a multiple of 16);
    [afin] is the padded copy of the input, [iv] the address ivec or that of the previous output block.  One word: *)
Definition enc_word_mem (afin : list N) (off pout iv n : nat) (mem : list N) : option (list N) :=
  do a <- read_at afin (off + n) 8;
  do v <- read_at mem (iv + n) 8;
  write_at mem (pout + n) (xorl a v).
Fixpoint enc_loop_mem (blk : blockfn) (afin : list N) (fuel off pout iv len : nat) (mem : list N) : option (bool * list N) :=
  match fuel with
  | O => None
  | S f =>
    if 16 <=? len then
      do mem <- enc_word_mem afin off pout iv 0 mem;
      do mem <- enc_word_mem afin off pout iv 8 mem;
      do x <- read_at mem pout 16;
      match blk x with
      | None => Some (false, mem)
      | Some c => do mem <- write_at mem pout c; enc_loop_mem blk afin f (off + 16) (pout + 16) pout (len - 16) mem
      end
    else Some (true, mem)
  end.
(** cbc128.c:3-44, the realloc of the padding function not moving the block (otherwise C51): return value, *use_olen, memory *)
Definition cbc_encrypt_mem (blk : blockfn) (mem : list N) (pin inlen pout max_olen piv : nat) : option (bool * option nat * list N) :=
  do inp <- read_at mem pin inlen;
  do afin <- padding_merge inp;
  let len := length afin in
  if max_olen <? len then Some (false, None, mem)
  else
    do r <- enc_loop_mem blk afin (S len) 0 pout piv len mem;
    let '(ok, mem) := r in Some (ok, Some len, mem).

(** cbc128.c:66-76 one word: [out_t[n] ^= iv_t[n]] *)
Definition dec_word_mem (pout iv n : nat) (mem : list N) : option (list N) :=
  do o <- read_at mem (pout + n) 8;
  do v <- read_at mem (iv + n) 8;
  write_at mem (pout + n) (xorl o v).
(** cbc128.c:63-79 the loop of WBCRYPTO_cbc128_decrypt for in != out; the block function reads its input before it
    writes, as those of the library do.  Result: ok, memory, the address iv *)
Fixpoint dec_loop_mem (blk : blockfn) (fuel pin pout iv len : nat) (mem : list N) : option (bool * list N * nat) :=
  match fuel with
  | O => None
  | S f =>
    if 16 <=? len then
      do a <- read_at mem pin 16;
      match blk a with
      | None => Some (false, mem, iv)
      | Some t =>
        do mem <- write_at mem pout t;
        do mem <- dec_word_mem pout iv 0 mem;
        do mem <- dec_word_mem pout iv 8 mem;
        dec_loop_mem blk f (pin + 16) (pout + 16) pin (len - 16) mem
      end
    else Some (true, mem, iv)
  end.
(** cbc128.c:46-117 for in != out and inlen a multiple of 16, at most 2^31 - 1 and not 0: return value, memory.  :78 is a
    memcpy, undefined when its arguments overlap.  Other lengths are not modelled here (C07, C91). *)
Definition cbc_decrypt_mem (blk : blockfn) (mem : list N) (pin inlen pout max_olen piv : nat) : option (bool * list N) :=
  if max_olen <? inlen then Some (false, mem)
  else
    do r <- dec_loop_mem blk (S inlen) pin pout piv inlen mem;
    let '(ok, mem, iv) := r in
    if ok : bool then
      if (iv <? piv + 16) && (piv <? iv + 16) then None
      else do v <- read_at mem iv 16; do mem <- write_at mem piv v; Some (true, mem)
    else Some (false, mem).
