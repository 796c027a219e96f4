(** * Model of src/fpe: FF1, FF3 and their MAC variants.

    Simplifications used throughout: a BIGNUM is a natural number; memory allocation succeeds; the
    block function ctx->block, whose return code these files ignore, is a total function [E] on byte
    lists; assertions are active (the library's CMakeLists.txt sets no NDEBUG); strings passed by the
    caller are lists of non-zero characters, without their terminator. *)
From Verif Require Import Base GcmModel.
Local Open Scope nat_scope.

(** How a call ends: it returns, a failed assert aborts the process, or behaviour is undefined
    (access outside an allocated array, use of uninitialised memory). *)
Inductive outcome (A : Type) : Type := Ret (a : A) | Abort | Undef.
Arguments Ret {A}. Arguments Abort {A}. Arguments Undef {A}.
Definition obind {A B} (o : outcome A) (f : A -> outcome B) : outcome B :=
  match o with Ret a => f a | Abort => Abort | Undef => Undef end.
(** a for loop whose body may fail *)
Fixpoint ofold {A I} (f : A -> I -> outcome A) (is : list I) (a : A) : outcome A :=
  match is with [] => Ret a | i :: is' => obind (f a i) (ofold f is') end.

(** ** src/fpe/fpe_locl.h, src/fpe/fpe_locl.c *)
(** fpe_locl.h:16-17 ceil2, floor2 *)
Definition ceil2 (x bit : nat) : nat := x / 2 ^ bit + (if 0 <? x mod 2 ^ bit then 1 else 0).
Definition floor2 (x bit : nat) : nat := x / 2 ^ bit.
(** fpe_locl.c:4-22 pow_uv: (x^u, x^v); BN_exp is the power *)
Definition pow_uv (x : N) (u v : nat) : N * N :=
  if v <? u then let pv := (x ^ N.of_nat v)%N in ((pv * x)%N, pv)
  else let pu := (x ^ N.of_nat u)%N in (pu, if u =? v then pu else (pu * x)%N).
(** fpe_locl.c:39-48 map_chars, one character; the subtraction of '0' is in unsigned int *)
Definition map_char (c : N) : N :=
  if (97 <=? c)%N then (c - 97 + 10)%N else ((c + 2 ^ 32 - 48) mod 2 ^ 32)%N.
Definition map_chars (s : list N) : list N := map map_char s.
(** fpe_locl.c:50-59 inverse_map_chars: the len + 1 bytes written *)
Definition inverse_map_char (r : N) : N :=
  if (r <? 10)%N then ((r + 48) mod 256)%N else ((r - 10 + 97) mod 256)%N.
Definition inverse_map_chars (ds : list N) : list N := map inverse_map_char ds ++ [0%N].
(** fpe_locl.c:62-77 str2num *)
Definition str2num (X : list N) (radix : N) : N := fold_left (fun Y x => (Y * radix + x)%N) X 0%N.
(** fpe_locl.c:80-100 num2str: Y[len-1], then Y[len-2], ... *)
Fixpoint num2str (X radix : N) (len : nat) : list N :=
  match len with O => [] | S l => num2str (X / radix)%N radix l ++ [(X mod radix)%N] end.
(** fpe_locl.c:113-127 str2num_rev *)
Definition str2num_rev (X : list N) (radix : N) : N := fold_right (fun x Y => (Y * radix + x)%N) 0%N X.
(** fpe_locl.c:130-151 num2str_rev *)
Fixpoint num2str_rev (X radix : N) (len : nat) : list N :=
  match len with O => [] | S l => (X mod radix)%N :: num2str_rev (X / radix)%N radix l end.
(** openssl BN_num_bytes, BN_bn2bin *)
Definition bn_bytes (x : N) : nat := N.to_nat ((N.size x + 7) / 8)%N.
Definition bn2bin (x : N) : list N := N_to_be (bn_bytes x) x.
(** memcpy/memset into a buffer, in range *)
Definition blit (buf : list N) (off : nat) (v : list N) : list N :=
  firstn off buf ++ v ++ skipn (off + length v) buf.

(** ** src/fpe/init.c *)
(** include/wbcrypto/fpe.h:15-22 struct fpe_ctx without cipher_ctx and block *)
Record fpe_ctx := mkfpe { f_radix : N; f_tweak : list N; f_tweaklen : N }.
(** init.c:5-24 WBCRYPTO_fpe_init; tweaklen is an unsigned int *)
Definition fpe_init (tweak : list N) (radix : N) : option fpe_ctx :=
  if (radix <? 2)%N || (36 <? radix)%N then None
  else Some (mkfpe radix tweak (N.of_nat (length tweak) mod 2 ^ 32)%N).

Section Fpe.
(** the block function with its key *)
Variable E : list N -> list N.
(** [(unsigned int) ceil(n * log2(radix))], computed by the C library in double precision *)
Variable clog : N -> nat -> nat.

(** ** src/fpe/ff1.c *)
(** ff1.c:38-61 (same text at :189-212, ff1_cmac.c:64-87, :235-258) *)
Definition ff1_P (radix : N) (u : nat) (inlen tweaklen : N) : list N :=
  let temp := N.lor (N.shiftl radix 8) 10 in
  [1; 2; 1;
   N.land (N.shiftr temp 24) 0xff; N.land (N.shiftr temp 16) 0xff; N.land (N.shiftr temp 8) 0xff; N.land temp 0xff;
   N.of_nat (u mod 256);
   N.land (N.shiftr inlen 24) 0xff; N.land (N.shiftr inlen 16) 0xff; N.land (N.shiftr inlen 8) 0xff; N.land inlen 0xff;
   N.land (N.shiftr tweaklen 24) 0xff; N.land (N.shiftr tweaklen 16) 0xff; N.land (N.shiftr tweaklen 8) 0xff;
   N.land tweaklen 0xff]%N.
(** the local variables fixed before the loop, ff1.c:24-36, :69-70 *)
Record ff1_env := mkff1 {
  n_inlen : nat; n_u : nat; n_v : nat; n_qu : N; n_qv : N; n_b : nat; n_d : nat;
  n_pad : nat; n_t : nat; n_Qlen : nat; n_P : list N; n_radix : N }.
Definition ff1_setup (c : fpe_ctx) (inlen : nat) : ff1_env :=
  let u := floor2 inlen 1 in
  let v := inlen - u in
  let '(qu, qv) := pow_uv (f_radix c) u v in
  let temp := clog (f_radix c) v in
  let b := ceil2 temp 3 in
  let d := 4 * ceil2 b 2 + 4 in
  let t := N.to_nat (f_tweaklen c) in
  (* ((-tweaklen - b - 1) % 16 + 16) % 16 in unsigned arithmetic, :33 *)
  let pad := N.to_nat ((((2 ^ 64 - f_tweaklen c - N.of_nat b - 1) mod 2 ^ 32) mod 16 + 16) mod 16)%N in
  let Qlen := t + pad + 1 + b in
  mkff1 inlen u v qu qv b d pad t Qlen (ff1_P (f_radix c) u (N.of_nat inlen) (f_tweaklen c)) (f_radix c).
(** ff1.c:63-66: the first bytes of Q; the rest of the malloc'd block is [junk] *)
Definition ff1_Q0 (c : fpe_ctx) (n : ff1_env) (junk : list N) : list N :=
  firstn (n_t n) (f_tweak c) ++ repeat 0%N (n_pad n) ++ firstn (1 + n_b n) (junk ++ repeat 0%N (1 + n_b n)).
(** ff1.c:77-83 (dec :228-233): Q for round [i] and the half [X] (a number); Bytes has b bytes *)
Definition ff1_Q (n : ff1_env) (Q : list N) (i : nat) (num : N) : outcome (list N) :=
  let Q1 := set Q (n_t n + n_pad n) (N.of_nat i) in
  let Bytes := bn2bin num in
  let BytesLen := length Bytes in
  if n_b n <? BytesLen then Undef
  else
    let Q2 := blit Q1 (n_Qlen n - n_b n) (repeat 0%N (n_b n)) in
    Ret (blit Q2 (n_Qlen n - BytesLen) Bytes).
(** ff1.c:87-96: the CBC-MAC loop; the second component is the value of R after the last but one
    block (saved as cn_1 by ff1_cmac.c:128-130), if there are two *)
Fixpoint prf_loop (R : list N) (prev : option (list N)) (Qs : list (list N)) : list N * option (list N) :=
  match Qs with
  | [] => (R, prev)
  | Qi :: Qs' => let R' := E (xorl Qi R) in
                 prf_loop R' (match Qs' with [_] => Some R' | _ => prev end) Qs'
  end.
Definition ff1_R (n : ff1_env) (Q : list N) : list N * option (list N) :=
  prf_loop (E (n_P n)) None (firstn (n_Qlen n / 16) (chunks 16 Q)).
(** ff1.c:99-124: S and y *)
Definition ff1_y (n : ff1_env) (R : list N) : N :=
  let cnt := ceil2 (n_d n) 4 - 1 in
  let Slen := 16 + cnt * 16 in
  let S0 := blit (repeat 0%N Slen) 0 R in
  let step S j :=
    let jj := N.of_nat j in
    let tmp := repeat 0%N 12 ++ [N.land (N.shiftr jj 24) 0xff; N.land (N.shiftr jj 16) 0xff; N.land (N.shiftr jj 8) 0xff; N.land jj 0xff]%N in
    blit S (16 * j) (E (xorl tmp R)) in
  be_to_N (firstn (n_d n) (fold_left step (seq 1 cnt) S0)).
(** state of the loops: the arrays A and B point to, and Q.  A and B swap roles every round; after
    an even number of rounds A is again the first part of [out]. *)
Definition fstate := (list N * list N * list N)%type.
(** ff1.c:72-138 *)
Definition ff1_enc_round (n : ff1_env) (s : fstate) (i : nat) : outcome fstate :=
  let '(A, B, Q) := s in
  let m := if Nat.odd i then n_v n else n_u n in
  let bnum := str2num (firstn (n_inlen n - m) B) (n_radix n) in
  obind (ff1_Q n Q i bnum) (fun Q' =>
  let y := ff1_y n (fst (ff1_R n Q')) in
  let anum := str2num (firstn m A) (n_radix n) in
  let q := if m =? n_u n then n_qu n else n_qv n in
  let c := ((anum + y) mod q)%N in
  if n_u n =? 0 then Abort                       (* assert(A != B) *)
  else Ret (B, num2str c (n_radix n) m, Q')).
(** BN_mod_sub: the non-negative residue *)
Definition bn_mod_sub (a b m : N) : N := Z.to_N ((Z.of_N a - Z.of_N b) mod Z.of_N m).
(** ff1.c:223-286 *)
Definition ff1_dec_round (n : ff1_env) (s : fstate) (i : nat) : outcome fstate :=
  let '(A, B, Q) := s in
  let m := if Nat.odd i then n_v n else n_u n in
  let anum := str2num (firstn (n_inlen n - m) A) (n_radix n) in
  obind (ff1_Q n Q i anum) (fun Q' =>
  let y := ff1_y n (fst (ff1_R n Q')) in
  let bnum := str2num (firstn m B) (n_radix n) in
  let c := bn_mod_sub bnum y (if m =? n_u n then n_qu n else n_qv n) in
  if n_u n =? 0 then Abort
  else Ret (num2str c (n_radix n) m, A, Q')).
(** sizes outside the range of the types used: a VLA of length 0, [inlen << 2] wrapping (:23), Qlen
    beyond INT_MAX (:34) *)
Definition ff1_sizes (n : ff1_env) : bool :=
  (n_inlen n =? 0) || (2 ^ 30 <=? N.of_nat (n_inlen n))%N || (2 ^ 31 <=? N.of_nat (n_Qlen n))%N.
(** the assertion at ff1.c:66, :217, in unsigned arithmetic *)
Definition ff1_assert (n : ff1_env) : bool :=
  ((N.of_nat (n_t n) + N.of_nat (n_pad n) + 2 ^ 32 - 1) mod 2 ^ 32 <=? N.of_nat (n_Qlen n))%N.
(** ff1.c:4-154 WBCRYPTO_ff1_encrypt (enc) and :156-302 WBCRYPTO_ff1_decrypt: the bytes written to
    [output], including the terminator; the return value is 1.  [junk] is the initial contents of the
    malloc'd Q. *)
Definition ff1_run (round : ff1_env -> fstate -> nat -> outcome fstate) (rounds : list nat)
           (c : fpe_ctx) (junk : list N) (input : list N) : outcome (list N) :=
  let n := ff1_setup c (length input) in
  if ff1_sizes n then Undef
  else if negb (ff1_assert n) then Abort
  else
    let out := map_chars input in
    obind (ofold (round n) rounds (firstn (n_u n) out, skipn (n_u n) out, ff1_Q0 c n junk))
          (fun s => let '(A, B, _) := s in Ret (inverse_map_chars (A ++ B))).
Definition ff1_encrypt := ff1_run ff1_enc_round (seq 0 10).
Definition ff1_decrypt := ff1_run ff1_dec_round (rev (seq 0 10)).

(** ** src/fpe/ff3.c *)
Record ff3_env := mkff3 {
  m_inlen : nat; m_u : nat; m_v : nat; m_qu : N; m_qv : N; m_b : nat; m_radix : N; m_tweak : list N }.
(** ff3.c:18-27 *)
Definition ff3_setup (c : fpe_ctx) (inlen : nat) : ff3_env :=
  let u := ceil2 inlen 1 in
  let v := inlen - u in
  let '(qu, qv) := pow_uv (f_radix c) u v in
  let temp := clog (f_radix c) u in
  mkff3 inlen u v qu qv (ceil2 temp 3) (f_radix c) (f_tweak c).
(** fpe_locl.c:102-110 rev_bytes *)
Definition rev_bytes (l : list N) : list N := rev l.
(** ff3.c:30-52 (dec :110-135): S for round [i] and the number [num] of the half that is kept *)
Definition ff3_S (n : ff3_env) (i : nat) (num : N) : outcome (list N) :=
  match read_at (m_tweak n) (if Nat.odd i then 0 else 4) 4 with
  | None => Undef
  | Some w =>
    let P := w ++ repeat 0%N 12 in
    let P1 := set P 3 (N.lxor (get P 3) (N.of_nat i)) in
    let Bytes := bn2bin num in
    if m_b n <? length Bytes then Undef
    else
      let BytesLen := if 12 <? length Bytes then 12 else length Bytes in
      let P2 := blit P1 4 (repeat 0%N 12) in
      let P3 := blit P2 (16 - BytesLen) (firstn BytesLen Bytes) in
      Ret (rev_bytes (E (rev_bytes P3)))
  end.
(** ff3.c:29-68 *)
Definition ff3_enc_round (n : ff3_env) (s : list N * list N) (i : nat) : outcome (list N * list N) :=
  let '(A, B) := s in
  let m := if Nat.odd i then m_v n else m_u n in
  obind (ff3_S n i (str2num_rev (firstn (m_inlen n - m) B) (m_radix n))) (fun S =>
  let y := be_to_N S in
  let anum := str2num_rev (firstn m A) (m_radix n) in
  let q := if Nat.odd i then m_qv n else m_qu n in
  let c := ((anum + y) mod q)%N in
  if m_u n =? 0 then Abort else Ret (B, num2str_rev c (m_radix n) m)).
(** ff3.c:109-151 *)
Definition ff3_dec_round (n : ff3_env) (s : list N * list N) (i : nat) : outcome (list N * list N) :=
  let '(A, B) := s in
  let m := if Nat.odd i then m_v n else m_u n in
  obind (ff3_S n i (str2num_rev (firstn (m_inlen n - m) A) (m_radix n))) (fun S =>
  let y := be_to_N S in
  let bnum := str2num_rev (firstn m B) (m_radix n) in
  let c := bn_mod_sub bnum y (if Nat.odd i then m_qv n else m_qu n) in
  if m_u n =? 0 then Abort else Ret (num2str_rev c (m_radix n) m, A)).
Definition ff3_sizes (inlen : nat) : bool := (inlen =? 0) || (2 ^ 30 <=? N.of_nat inlen)%N.
(** ff3.c:4-83 WBCRYPTO_ff3_encrypt, :85-165 WBCRYPTO_ff3_decrypt *)
Definition ff3_run (round : ff3_env -> list N * list N -> nat -> outcome (list N * list N)) (rounds : list nat)
           (c : fpe_ctx) (input : list N) : outcome (list N) :=
  let n := ff3_setup c (length input) in
  if ff3_sizes (length input) then Undef
  else
    let out := map_chars input in
    obind (ofold (round n) rounds (firstn (m_u n) out, skipn (m_u n) out))
          (fun s => let '(A, B) := s in Ret (inverse_map_chars (A ++ B))).
Definition ff3_encrypt := ff3_run ff3_enc_round (seq 0 8).
Definition ff3_decrypt := ff3_run ff3_dec_round (rev (seq 0 8)).

(** ** src/fpe/ff1_cmac.c *)
(** ff1_cmac.c:4-13 left_shift_buffer: from the last byte to the first, carrying the top bit *)
Definition left_shift_buffer (input : list N) : list N :=
  fst (fold_right (fun x (s : list N * N) => let '(out, overflow) := s in
         (N.lor ((N.shiftl x 1) mod 256) overflow :: out, if (N.land x 0x80 =? 0)%N then 0%N else 1%N))
       ([], 0%N) input).
(** ff1_cmac.c:15-28 generate_cmac_sub_keys: K1 (K2 is not used afterwards) *)
Definition cmac_K1 : list N :=
  let K2 := E (repeat 0%N 16) in
  let K1 := left_shift_buffer K2 in
  if (N.land (get K2 0) 0x80 =? 0)%N then K1 else set K1 15 (N.lxor (get K1 15) 0x87).
(** ff1_cmac.c:132-141: what round [i] adds to the mac; [cn] is the array cn_1, the indices i are
    those of the source *)
Definition cmac_part (i : nat) (R cn : list N) : list N :=
  let M_last := map (fun j => N.lxor (N.lxor (get cmac_K1 j) (get R i)) (get cn i)) (seq 0 16) in
  E M_last.
(** ff1_cmac.c:103-183 and :274-351: as ff1.c, with the mac.  [cnj i] is what the uninitialised array
    cn_1 holds in round i; it is read when Q has fewer than two blocks. *)
Definition cstate := (fstate * list N)%type.
Definition cmac_cn (cnj : nat -> list N) (i : nat) (r : list N * option (list N)) : list N :=
  match snd r with Some cn => cn | None => cnj i end.
Definition cmac_enc_round (cnj : nat -> list N) (n : ff1_env) (s : cstate) (i : nat) : outcome cstate :=
  let '((A, B, Q), mac) := s in
  let m := if Nat.odd i then n_v n else n_u n in
  let bnum := str2num (firstn (n_inlen n - m) B) (n_radix n) in
  obind (ff1_Q n Q i bnum) (fun Q' =>
  let r := ff1_R n Q' in
  let mac' := xorl mac (cmac_part i (fst r) (cmac_cn cnj i r)) in
  let y := ff1_y n (fst r) in
  let anum := str2num (firstn m A) (n_radix n) in
  let q := if m =? n_u n then n_qu n else n_qv n in
  let c := ((anum + y) mod q)%N in
  if n_u n =? 0 then Abort
  else Ret ((B, num2str c (n_radix n) m, Q'), mac')).
Definition cmac_dec_round (cnj : nat -> list N) (n : ff1_env) (s : cstate) (i : nat) : outcome cstate :=
  let '((A, B, Q), mac) := s in
  let m := if Nat.odd i then n_v n else n_u n in
  let anum := str2num (firstn (n_inlen n - m) A) (n_radix n) in
  obind (ff1_Q n Q i anum) (fun Q' =>
  let r := ff1_R n Q' in
  let mac' := xorl mac (cmac_part i (fst r) (cmac_cn cnj i r)) in
  let y := ff1_y n (fst r) in
  let bnum := str2num (firstn m B) (n_radix n) in
  let c := bn_mod_sub bnum y (if m =? n_u n then n_qu n else n_qv n) in
  if n_u n =? 0 then Abort
  else Ret ((num2str c (n_radix n) m, A, Q'), mac')).
(** ff1_cmac.c:30-200, :202-368: the bytes written to [output] and ctx->tag (which
    WBCRYPTO_ff1_cmac_finish, :370-374, copies to the caller) *)
Definition cmac_run (round : ff1_env -> cstate -> nat -> outcome cstate) (rounds : list nat)
           (c : fpe_ctx) (junk : list N) (input : list N) : outcome (list N * list N) :=
  let n := ff1_setup c (length input) in
  if ff1_sizes n then Undef
  else if negb (ff1_assert n) then Abort
  else
    let out := map_chars input in
    obind (ofold (round n) rounds ((firstn (n_u n) out, skipn (n_u n) out, ff1_Q0 c n junk), repeat 0%N 16))
          (fun s => let '((A, B, _), mac) := s in Ret (inverse_map_chars (A ++ B), mac)).
Definition ff1_cmac_encrypt cnj := cmac_run (cmac_enc_round cnj) (seq 0 10).
Definition ff1_cmac_decrypt cnj := cmac_run (cmac_dec_round cnj) (rev (seq 0 10)).

(** ** src/fpe/ff3_gmac.c *)
(** ff3_gmac.c:40-80 gmac_gen_H is the table construction of WBCRYPTO_gcm_init and :4-38 gmac_mult_H
    is gcm_mult, statement by statement *)
Definition gmac_mult (x : list N) : list N :=
  let '(HH, HL) := init_tables (E (repeat 0%N 16)) in gcm_mult HH HL x.
(** ff3_gmac.c:114-161, :210-258 *)
Definition gmac_enc_round (n : ff3_env) (s : list N * list N * list N) (i : nat) : outcome (list N * list N * list N) :=
  let '(A, B, M) := s in
  let m := if Nat.odd i then m_v n else m_u n in
  obind (ff3_S n i (str2num_rev (firstn (m_inlen n - m) B) (m_radix n))) (fun S =>
  let M' := xorl M (gmac_mult S) in
  let y := be_to_N S in
  let anum := str2num_rev (firstn m A) (m_radix n) in
  let q := if Nat.odd i then m_qv n else m_qu n in
  let c := ((anum + y) mod q)%N in
  if m_u n =? 0 then Abort else Ret (B, num2str_rev c (m_radix n) m, M')).
Definition gmac_dec_round (n : ff3_env) (s : list N * list N * list N) (i : nat) : outcome (list N * list N * list N) :=
  let '(A, B, M) := s in
  let m := if Nat.odd i then m_v n else m_u n in
  obind (ff3_S n i (str2num_rev (firstn (m_inlen n - m) A) (m_radix n))) (fun S =>
  let M' := xorl M (gmac_mult S) in
  let y := be_to_N S in
  let bnum := str2num_rev (firstn m B) (m_radix n) in
  let c := bn_mod_sub bnum y (if Nat.odd i then m_qv n else m_qu n) in
  if m_u n =? 0 then Abort else Ret (num2str_rev c (m_radix n) m, A, M')).
(** ff3_gmac.c:82-177, :179-273: output and ctx->tag (:275-279 WBCRYPTO_ff3_gmac_finish copies it) *)
Definition gmac_run (round : ff3_env -> list N * list N * list N -> nat -> outcome (list N * list N * list N))
           (rounds : list nat) (c : fpe_ctx) (input : list N) : outcome (list N * list N) :=
  let n := ff3_setup c (length input) in
  if ff3_sizes (length input) then Undef
  else
    match read_at (m_tweak n) 0 16 with
    | None => Undef
    | Some T =>
      let out := map_chars input in
      obind (ofold (round n) rounds (firstn (m_u n) out, skipn (m_u n) out, gmac_mult T))
            (fun s => let '(A, B, M) := s in Ret (inverse_map_chars (A ++ B), M))
    end.
Definition ff3_gmac_encrypt := gmac_run gmac_enc_round (seq 0 8).
Definition ff3_gmac_decrypt := gmac_run gmac_dec_round (rev (seq 0 8)).
End Fpe.
