(** * Model of the white-box GCM variants: src/wbaes/wbaes_wbgcm_{ee,mask}_{init,mode,file}.c

    Both variants have the same control flow; what differs is how the key context combines a block of the key stream
    with data.  The functions of the mode are therefore written once over [wbkey], and cite both files.

    Simplifications: malloc succeeds; tables are functions of their indices (see WbaesModel). *)
From Verif Require Import Base Word32 CbcModel GcmModel FileModel FpeModel MatModel WbaesModel.
From Coq Require Import ZArith.
Local Open Scope nat_scope.

(** ** Variant ee: key contexts *)
(** include/wbcrypto/wbaes_wbgcm_ee.h:15-23 struct wbaes_wbgcm_ee_context *)
Record ee_ctx := mkee { ee_t : wbtables; ee_I : nat -> N -> N; ee_III : nat -> N -> N -> N }.
(** wbaes_wbgcm_ee_init.c:144-178: TypeII_ex_in[16][2]; then TypeIII_ex_out1[i] and TypeIII_ex_out2[i] in turn *)
Definition fin_ee (rnd : nat -> N) (junk : nat -> nat -> N) (pos : nat)
  : list (list N * list N) * ((nat -> list N * list N) * (nat -> list N * list N)) :=
  let '(ins, pos) := genPermutations 16 32 rnd junk pos in
  let '(o, _) := genPermutations 256 32 rnd junk pos in
  (ins, (fun i => pr o (2 * i), fun i => pr o (2 * i + 1))).
(** wbaes_wbgcm_ee_init.c:258 (and the stores into uint8_t): a permutation of 256 entries applied to a byte *)
Definition perm8 (P : list N) (x : N) : N := get P (N.to_nat x).
(** wbaes_wbgcm_ee_init.c:4-318 WBCRYPTO_wbaes_wbgcm_ee_gen_table (keylen is not used).  Undef: expandKey reads 16 bytes
    of a shorter buffer.  GBOX_TypeI :296-304, GBOX_TypeIII :306-316 *)
Definition ee_gen_table (rnd : nat -> N) (junk : nat -> nat -> N) (key : list N) : outcome ee_ctx :=
  if length key <? 16 then Undef else
  let ek := shifted_key (expandKey key) in
  obind (gen_encodings rnd junk (fin_ee rnd junk)) (fun '(e, (out1, out2)) =>
  Ret (mkee (gen_tables e ek (fun j => perm8 (fst (out1 j))))
    (fun i x => perm8 (fst (out2 i)) (MatMulNum 8 (fst (e_ex_out e i)) x))
    (fun i j k => MatMulNum 8 (snd (e_ex_out e i)) (N.lxor (perm8 (snd (out1 i)) j) (perm8 (snd (out2 i)) k))))).

(** ** Variant mask: key contexts *)
(** include/wbcrypto/wbaes_wbgcm_mask.h:15-27 struct wbaes_wbgcm_mask_context *)
Record mask_ctx := mkmask {
  mk_enc : bool; mk_t : wbtables; mk_Ib : nat -> N -> N; mk_I : nat -> N -> N; mk_II : nat -> N -> N;
  mk_III : nat -> N -> N -> N; mk_L1 : nat -> list N }.
(** wbaes_wbgcm_mask_init.c:172-194: as in wbaes.c; also the number of the next draw *)
Definition fin_mask (rnd : nat -> N) (junk : nat -> nat -> N) (pos : nat)
  : list (list N * list N) * ((nat -> nat -> list N * list N) * nat) :=
  let '(o, pos) := genPermutations 16 64 rnd junk pos in
  (map (fun n => pr o (2 * n)) (seq 0 32), (fun i j => pr o (2 * (2 * i + j) + 1), pos)).
(** wbaes_wbgcm_mask_init.c:30-310 WBCRYPTO_wbaes_wbgcm_mask_gen_aes_table: tables of the rounds, TypeIb, next draw *)
Definition mask_gen_aes (rnd : nat -> N) (junk : nat -> nat -> N) (key : list N) : outcome (wbtables * (nat -> N -> N) * nat) :=
  if length key <? 16 then Undef else
  let ek := shifted_key (expandKey key) in
  obind (gen_encodings rnd junk (fin_mask rnd junk)) (fun '(e, (out, pos)) =>
  Ret (gen_tables e ek (enc_out out), typeIb e out, pos)).
(** wbaes_wbgcm_mask_init.c:4-10 genRandomMask: the bytes of the mask whose first draw is number [pos] *)
Definition genRandomMask (rnd : nat -> N) (pos : nat) (i : nat) : N := (draw rnd (pos + i) mod 256)%N.
(** wbaes_wbgcm_mask_init.c:312-466 WBCRYPTO_wbaes_wbgcm_mask_gen_gcm_table: L1, L2, L3 :329-334; N1, .., N4 :335-363;
    the encryption side :367-414; the decryption side :419-465 *)
Definition mask_gen_gcm (rnd : nat -> N) (junk : nat -> nat -> N) (enc dec : wbtables * (nat -> N -> N)) : outcome (mask_ctx * mask_ctx) :=
  obind (genMatpairs 8 48 rnd 0) (fun '(Ls, pos) =>
  let '(Ns, pos) := genPermutations 256 64 rnd junk pos in
  let L1 i := pr Ls (3 * i) in let L2 i := pr Ls (3 * i + 1) in let L3 i := pr Ls (3 * i + 2) in
  let N1 i := pr Ns (4 * i) in let N2 i := pr Ns (4 * i + 1) in let N3 i := pr Ns (4 * i + 2) in let N4 i := pr Ns (4 * i + 3) in
  let mE := genRandomMask rnd pos in
  let mD := genRandomMask rnd (pos + 16) in
  Ret (mkmask true (fst enc) (fun i j => N.lxor (snd enc i j) (mE i))
         (fun i j => perm8 (fst (N1 i)) (MatMulNum 8 (fst (L2 i)) (MatMulNum 8 (fst (L1 i)) (N.lxor j (mE i)))))
         (fun i j => perm8 (fst (N2 i)) (MatMulNum 8 (fst (L2 i)) (MatMulNum 8 (fst (L1 i)) j)))
         (fun i j k => MatMulNum 8 (snd (L2 i)) (N.lxor (perm8 (snd (N1 i)) j) (perm8 (snd (N2 i)) k)))
         (fun i => snd (L1 i)),
       mkmask false (fst dec) (fun i j => N.lxor (snd dec i j) (mD i))
         (fun i j => perm8 (fst (N3 i)) (MatMulNum 8 (fst (L3 i)) (N.lxor (MatMulNum 8 (snd (L1 i)) j) (mD i))))
         (fun i j => perm8 (fst (N4 i)) (MatMulNum 8 (fst (L3 i)) j))
         (fun i j k => MatMulNum 8 (snd (L3 i)) (N.lxor (perm8 (snd (N3 i)) j) (perm8 (snd (N4 i)) k)))
         (fun i => fst (L1 i)))).
(** wbaes_wbgcm_mask_init.c:468-473 WBCRYPTO_wbaes_wbgcm_mask_gen_table: the two key contexts.  The three steps use one
    random sequence, each from where the one before stopped. *)
Definition mask_gen_table (rnd : nat -> N) (junk : nat -> nat -> N) (key : list N) : outcome (mask_ctx * mask_ctx) :=
  obind (mask_gen_aes rnd junk key) (fun '(tE, ibE, p1) =>
  obind (mask_gen_aes (fun n => rnd (p1 + n)) (fun n => junk (p1 + n)) key) (fun '(tD, ibD, p2) =>
  mask_gen_gcm (fun n => rnd (p1 + p2 + n)) (fun n => junk (p1 + p2 + n)) (tE, ibE) (tD, ibD))).
(** wbaes_wbgcm_mask_init.c:475-529, :531-547 aux_WBCRYPTO_wbaes_wbgcm_mask_encrypt; the rounds are those of wbaes.c *)
Definition mask_aux (k : mask_ctx) (input : list N) : list N :=
  let EX_OUT := aux_encrypt (mk_t k) (ex_in (mk_t k) input) in
  map (fun i => mk_Ib k i (get EX_OUT i)) (seq 0 16).
(** wbaes_wbgcm_ee_init.c:320-374, :376-391 aux_WBCRYPTO_wbaes_wbgcm_ee_encrypt; the rounds are those of wbaes.c *)
Definition ee_aux (k : ee_ctx) (input : list N) : list N := aux_encrypt (ee_t k) (ex_in (ee_t k) input).

(** ** The key context as the mode uses it *)
Record wbkey := mkwk {
  k_blk : list N -> list N;        (* ctx->block *)
  k_h : nat -> N -> N;             (* byte i of h from byte i of the encrypted zero block *)
  k_base : nat -> N -> N;          (* what is done to byte i of an encrypted counter block *)
  k_x : nat -> N -> N -> N }.      (* such a byte combined with byte i of data *)
(** wbaes_wbgcm_ee_mode.c:60-65 (correctMsg is 0), :187-188 and :243-244, :278-280 *)
Definition ee_key (k : ee_ctx) : wbkey :=
  mkwk (ee_aux k) (fun i h => ee_III k i h (ee_I k i 0%N)) (fun _ e => e) (fun i e d => ee_III k i e (ee_I k i d)).
(** wbaes_wbgcm_mask_mode.c:60-74, :142-144, :196-198 and :251-253, :204-205 and :265-266, :301-303 *)
Definition mask_key (k : mask_ctx) : wbkey :=
  mkwk (mask_aux k)
    (fun i h =>
       let correctMsg := if mk_enc k then 0%N else MatMulNum 8 (mk_L1 k i) 0 in
       let h := mk_III k i (mk_I k i correctMsg) (mk_II k i h) in
       if mk_enc k then MatMulNum 8 (mk_L1 k i) h else h)
    (mk_II k) (fun i e d => mk_III k i (mk_I k i d) e).

(** ** The mode *)
(** wbaes_wbgcm_ee_mode.c:38-97, wbaes_wbgcm_mask_mode.c:38-106: init; the tables are computed as in gcm128.c
    (and multiplied with, wbaes_wbgcm_ee_mode.c:3-36, wbaes_wbgcm_mask_mode.c:3-36, as there) *)
Definition wbgcm_init (k : wbkey) : gcm_ctx :=
  let e := k_blk k (repeat 0%N 16) in
  let h := map (fun i => k_h k i (get e i)) (seq 0 16) in
  let '(HH, HL) := init_tables h in
  mkgcm 0 0 HL HH (repeat 0%N 16) (repeat 0%N 16) (repeat 0%N 16).
(** wbaes_wbgcm_ee_mode.c:132, :181 and :231 (identity), wbaes_wbgcm_mask_mode.c:141-144, :194-198 and :249-253 *)
Definition wb_ectr (k : wbkey) (y : list N) : list N :=
  let e := k_blk k y in map (fun i => k_base k i (get e i)) (seq 0 16).
(** wbaes_wbgcm_ee_mode.c:99-134, wbaes_wbgcm_mask_mode.c:108-146: setiv (returns 1) *)
Definition wbgcm_setiv (k : wbkey) (c : gcm_ctx) (iv : list N) : gcm_ctx :=
  let y0 := repeat 0%N 16 in
  let y :=
    if length iv =? 12 then set (iv ++ skipn 12 y0) 15 1%N
    else
      let work := repeat 0%N 12 ++ put_u32_be (w64 (N.of_nat (length iv) * 8)) in
      gcm_mult (g_HH c) (g_HL c) (xor_into (absorb (g_HH c) (g_HL c) y0 iv) work) in
  mkgcm 0 (g_add_len c) (g_HL c) (g_HH c) (wb_ectr k y) y (repeat 0%N 16).
(** wbaes_wbgcm_ee_mode.c:136-153, wbaes_wbgcm_mask_mode.c:148-166: aad (returns 1) *)
Definition wbgcm_aad (c : gcm_ctx) (aad : list N) : gcm_ctx :=
  mkgcm (g_len c) (w64 (N.of_nat (length aad))) (g_HL c) (g_HH c) (g_base c) (g_y c)
        (absorb (g_HH c) (g_HL c) (g_buf c) aad).
(** the loops wbaes_wbgcm_ee_mode.c:173-201 (Enc), :223-252 (Dec), wbaes_wbgcm_mask_mode.c:186-219 (Enc), :241-274 (Dec);
    state: y, buf, bytes written so far *)
Fixpoint wbgcm_loop (k : wbkey) (HH HL : list N) (d : dir) (cs : list (list N)) (y buf out : list N) : list N * list N * list N :=
  match cs with
  | [] => (y, buf, out)
  | p :: cs' =>
    let y' := ctr_incr y in
    let ectr := wb_ectr k y' in
    let o := map (fun i => k_x k i (get ectr i) (get p i)) (seq 0 (length p)) in
    let buf' := gcm_mult HH HL (xor_into buf (match d with Enc => o | Dec => p end)) in
    wbgcm_loop k HH HL d cs' y' buf' (out ++ o)
  end.
(** wbaes_wbgcm_ee_mode.c:155-203, :205-254, wbaes_wbgcm_mask_mode.c:168-221, :223-276: encrypt and decrypt.
    Result: return value (1 or -1), context, bytes written.  [int len = inlen] wraps as in gcm128.c. *)
Definition wbgcm_crypt (d : dir) (k : wbkey) (c : gcm_ctx) (inp : list N) (outlen : nat) : Z * gcm_ctx * list N :=
  if outlen <? length inp then ((-1)%Z, c, [])
  else
    let len := c_int (N.of_nat (length inp)) in
    let newlen := Z.to_N ((Z.of_N (g_len c) + len) mod 2 ^ 64)%Z in
    let data := firstn (Z.to_nat len) inp in
    let '(y, buf, out) := wbgcm_loop k (g_HH c) (g_HL c) d (chunks 16 data) (g_y c) (g_buf c) [] in
    (1%Z, mkgcm newlen (g_add_len c) (g_HL c) (g_HH c) (g_base c) y buf, out).
(** wbaes_wbgcm_ee_mode.c:256-284, wbaes_wbgcm_mask_mode.c:278-307: finish; context and tag; [None] when len > 16 *)
Definition wbgcm_finish (k : wbkey) (c : gcm_ctx) (len : nat) : option (gcm_ctx * list N) :=
  let orig_len := w64 (g_len c * 8) in
  let orig_add := w64 (g_add_len c * 8) in
  if 16 <? len then None
  else
    let tag := firstn len (g_base c) in
    if (orig_len =? 0)%N && (orig_add =? 0)%N then Some (c, tag)
    else
      let work := put_u32_be (N.shiftr orig_add 32) ++ put_u32_be orig_add
                  ++ put_u32_be (N.shiftr orig_len 32) ++ put_u32_be orig_len in
      let buf := gcm_mult (g_HH c) (g_HL c) (xor_into (g_buf c) work) in
      Some (mkgcm (g_len c) (g_add_len c) (g_HL c) (g_HH c) (g_base c) (g_y c) buf,
            map (fun i => k_x k i (get tag i) (get buf i)) (seq 0 len)).

(** Client scenarios (no code in /repo), as in GcmModel: calls with an output buffer of the size of the piece; what each
    call wrote *)
Fixpoint wbgcm_pieces (d : dir) (k : wbkey) (c : gcm_ctx) (ps : list (list N)) : gcm_ctx * list (list N) :=
  match ps with
  | [] => (c, [])
  | p :: ps' => let '(_, c1, o) := wbgcm_crypt d k c p (length p) in let '(c2, os) := wbgcm_pieces d k c1 ps' in (c2, o :: os)
  end.
(** init; setiv; aad; *)
Definition wbgcm_open (k : wbkey) (iv aad : list N) : gcm_ctx := wbgcm_aad (wbgcm_setiv k (wbgcm_init k) iv) aad.
(** init; setiv; aad; a list of encrypt (decrypt) calls; finish *)
Definition wbgcm_session (d : dir) (k : wbkey) (iv aad : list N) (ps : list (list N)) (taglen : nat) : option (list (list N) * list N) :=
  let '(c, out) := wbgcm_pieces d k (wbgcm_open k iv aad) ps in
  do t <- wbgcm_finish k c taglen; Some (out, snd t).

(** ** Files *)
(** wbaes_wbgcm_ee_file.c:41, :123, wbaes_wbgcm_mask_file.c:41, :123: the call on a slice *)
Definition wbgcm_slice (d : dir) (k : wbkey) (c : gcm_ctx) (p : list N) : gcm_ctx * list N :=
  let '(_, c', o) := wbgcm_crypt d k c p (length p) in (c', o ++ repeat 0%N (length p - length o)).
(** wbaes_wbgcm_ee_file.c:3-78, wbaes_wbgcm_mask_file.c:3-78 *)
Definition wbgcmfile_encrypt (k : wbkey) (wr : path -> bool) (fs : fsys) (c : gcm_ctx) (inf outf : path) (junk : list N)
  : option (bool * gcm_ctx * list N * fsys) :=
  file_encrypt (wbgcm_slice Enc k) (fun g => wbgcm_finish k g file_tag_len) wr fs c inf outf junk.
(** wbaes_wbgcm_ee_file.c:80-142, wbaes_wbgcm_mask_file.c:80-142 *)
Definition wbgcmfile_decrypt (k : wbkey) (wr : path -> bool) (fs : fsys) (c : gcm_ctx) (inf outf : path)
  : option (bool * gcm_ctx * list N * fsys) :=
  file_decrypt (wbgcm_slice Dec k) (fun g => wbgcm_finish k g file_tag_len) wr fs c inf outf.
