(** * Model of the life of the library's heap objects: the functions that create, fill and release
      contexts, and the heap blocks other calls leave behind.

    A heap block is a list of cells; a cell is one member of a struct or one element of an array
    (not one byte).  Simplifications used throughout: an address is never given out twice, so that a
    dangling pointer can be told from a fresh one; a released block keeps the contents it had when it was
    released, but cannot be accessed; the null pointer is the cell [Num 0], which is also what memset
    with 0 leaves in a pointer member. *)
From Verif Require Import Base CbcModel GcmModel FpeModel Sm4Model ParModel.
Local Open Scope nat_scope.

(** a number, the address of a heap block, the address of a function, or not yet written *)
Inductive cell := Num (n : N) | Ptr (a : nat) | Code (f : nat) | Junk.
Definition null : cell := Num 0.
Definition is_null (p : cell) : bool := match p with Num n => (n =? 0)%N | _ => false end.

Record block := mkblk { b_live : bool; b_cells : list cell }.
(** the heap: all blocks ever handed out, and the number of malloc/realloc calls so far *)
Record mem := mkmem { m_blocks : list block; m_calls : nat }.
(** what the allocator answers to a call: failure, or success; for a realloc with the same address or not *)
Inductive answer := Fail | Stay | Move.

(** computations on the heap *)
Definition M (A : Type) := mem -> outcome (A * mem).
Definition ret {A} (x : A) : M A := fun m => Ret (x, m).
Definition mbind {A B} (f : M A) (g : A -> M B) : M B := fun m => obind (f m) (fun r => g (fst r) (snd r)).
Definition undef {A} : M A := fun _ => Undef.
Notation "'let*' x := f 'in' g" := (mbind f (fun x => g)) (at level 200, x pattern, f at level 100, g at level 200).
Notation "f ';;' g" := (mbind f (fun _ => g)) (at level 199, right associativity).
(** for (i = 0; i < n; i++) body(i) *)
Fixpoint mfor (is : list nat) (body : nat -> M unit) : M unit :=
  match is with [] => ret tt | i :: is' => body i ;; mfor is' body end.
Definition loop (n : nat) (body : nat -> M unit) : M unit := mfor (seq 0 n) body.

(** the cells of the live block a pointer designates *)
Definition cells_at (m : mem) (p : cell) : option (list cell) :=
  match p with
  | Ptr a => match nth_error (m_blocks m) a with Some b => if b_live b then Some (b_cells b) else None | None => None end
  | _ => None
  end.
Definition put (m : mem) (p : cell) (b : block) : mem :=
  match p with Ptr a => mkmem (set (m_blocks m) a b) (m_calls m) | _ => m end.
(** p[i] *)
Definition load (p : cell) (i : nat) : M cell := fun m =>
  match cells_at m p with
  | Some cs => match nth_error cs i with Some v => Ret (v, m) | None => Undef end
  | None => Undef
  end.
(** copying [vs] to p + off; a copy of length 0 is harmless with any pointer *)
Definition write (p : cell) (off : nat) (vs : list cell) : M unit := fun m =>
  if length vs =? 0 then Ret (tt, m) else
  match cells_at m p with
  | Some cs => if off + length vs <=? length cs
               then Ret (tt, put m p (mkblk true (firstn off cs ++ vs ++ skipn (off + length vs) cs))) else Undef
  | None => Undef
  end.
Definition store (p : cell) (i : nat) (v : cell) : M unit := write p i [v].
(** memset(p, 0, sizeof( *p)) *)
Definition zero (p : cell) : M unit := fun m =>
  match cells_at m p with
  | Some cs => Ret (tt, put m p (mkblk true (repeat (Num 0) (length cs))))
  | None => Undef
  end.
(** reading the whole object *)
Definition readall (p : cell) : M (list cell) := fun m =>
  match cells_at m p with Some cs => Ret (cs, m) | None => Undef end.

Section Life.
(** the answers of the allocator, by the number of calls made before *)
Variable al : nat -> answer.
(** calling the block function [f] with the key object [key] on an input block: the output, or None if it
    returns 0; it does not write to the heap *)
Variable blk : nat -> mem -> cell -> list N -> outcome (option (list N)).

(** malloc: [n] cells *)
Definition malloc (n : nat) : M cell := fun m =>
  match al (m_calls m) with
  | Fail => Ret (null, mkmem (m_blocks m) (S (m_calls m)))
  | _ => Ret (Ptr (length (m_blocks m)), mkmem (m_blocks m ++ [mkblk true (repeat Junk n)]) (S (m_calls m)))
  end.
(** free: of NULL nothing; of a block that is not live undefined *)
Definition free (p : cell) : M unit := fun m =>
  if is_null p then Ret (tt, m) else
  match cells_at m p with Some cs => Ret (tt, put m p (mkblk false cs)) | None => Undef end.
(** realloc with a non-zero size *)
Definition realloc (p : cell) (n : nat) : M cell := fun m =>
  if is_null p then malloc n m else
  match cells_at m p with
  | None => Undef
  | Some cs =>
    let cs' := firstn n cs ++ repeat Junk (n - length cs) in
    match al (m_calls m) with
    | Fail => Ret (null, mkmem (m_blocks m) (S (m_calls m)))
    | Stay => Ret (p, put (mkmem (m_blocks m) (S (m_calls m))) p (mkblk true cs'))
    | Move => Ret (Ptr (length (m_blocks m)),
                   mkmem (m_blocks (put m p (mkblk false cs)) ++ [mkblk true cs']) (S (m_calls m)))
    end
  end.

(** ** Contexts that are one block *)
(** aes.c:3-13, sm4.c:131-140, wbaes.c:4-14 (the error message printed on failure is left out) *)
Definition context_init (n : nat) : M cell :=
  let* p := malloc n in if is_null p then ret null else zero p ;; ret p.
(** aes.c:15-17, sm4.c:142-144, wbaes.c:16-18, se_wbsm4.c:16-18, wbsm4.c:47-49, gcm128.c:287-289,
    gcmfile.c:174-176: every one of these is memset(ctx, 0, sizeof(struct ...)) *)
Definition context_free (p : cell) : M unit := zero p.
(** include/wbcrypto/aes.h:11-13: AES_KEY is 60 words and the number of rounds *)
Definition life_aes_init : M cell := context_init 61.
(** include/wbcrypto/sm4.h:12-14 *)
Definition life_sm4_init : M cell := context_init 32.
(** include/wbcrypto/wbaes.h:13-20 *)
Definition wbaes_cells : nat := N.to_nat (10 * 16 * 256 + 9 * 16 * 256 + 2 * (9 * 4 * 3 * 8 * 16 * 16) + 2 * (16 * 256)).
Definition life_wbaes_init : M cell := context_init wbaes_cells.
(** se_wbsm4.c:3-14; include/wbcrypto/se_wbsm4.h:12-19: encmode and 168 affine maps of 33 words *)
Definition se_cells : nat := N.to_nat (1 + 168 * 33).
Definition life_se_init (encmode : N) : M cell :=
  let* p := context_init se_cells in if is_null p then ret null else store p 0 (Num encmode) ;; ret p.

(** sm4.c:146-201 aux_sm4_init_key with padding.c:3-23; the round keys are those of Sm4Model *)
Definition life_sm4_key (encmode : N) (ctx : cell) (key : list N) : M unit :=
  let* padkey := malloc 16 in
  (let* dst := realloc padkey 16 in write dst 0 (map Num (key_padding_pkcs7 key))) ;;
  readall padkey ;;
  write ctx 0 (map Num (sm4_init_key_mode encmode sm4_context_init key)) ;;
  free padkey.

(** ** GCM contexts (include/wbcrypto/modes.h:34-44): len, add_len, HL, HH, base_ectr, y, buf, key, block *)
Definition gcm_cells : nat := 84.
Definition gcm_key_at : nat := 82.
Definition gcm_block_at : nat := 83.
(** gcm128.c:41-95; when the block function fails the context is not released *)
Definition life_gcm_init (key : cell) (f : nat) : M cell :=
  let* p := malloc gcm_cells in
  if is_null p then ret null else
  zero p ;; store p gcm_key_at key ;; store p gcm_block_at (Code f) ;;
  let* h := (fun m => obind (blk f m key (repeat 0%N 16)) (fun r => Ret (r, m))) in
  match h with
  | None => ret null
  | Some h => let '(HH, HL) := init_tables h in
              write p 2 (map Num HL) ;; write p 18 (map Num HH) ;; ret p
  end.
(** the call ( *ctx->block)(in, out, ctx->key) every data function of gcm128.c makes (:112, :185, :235) *)
Definition life_gcm_block (p : cell) (b : list N) : M (option (list N)) :=
  let* f := load p gcm_block_at in let* key := load p gcm_key_at in
  match f with Code f => fun m => obind (blk f m key b) (fun r => Ret (r, m)) | _ => undef end.
(** gcmfile.c:3-13; include/wbcrypto/modes.h:195-198: gcm, tag[16].
    The memset clears sizeof(16) = 4 bytes of the tag. *)
Definition life_gcmfile_init (key : cell) (f : nat) : M cell :=
  let* p := malloc 17 in
  if is_null p then ret null else
  write p 1 (repeat (Num 0) 4) ;; let* g := life_gcm_init key f in store p 0 g ;; ret p.
(** gcmfile.c:15-33 setiv, aad and the data functions first follow ctx->gcm *)
Definition life_gcmfile_block (p : cell) (b : list N) : M (option (list N)) :=
  let* g := load p 0 in life_gcm_block g b.

(** ** White-box GCM contexts *)
(** wbaes_wbgcm_ee_mode.c:38-96, wbaes_wbgcm_mask_mode.c:38-106; the decoding of h by the tables of the key
    object is part of the block function here, whose return value these functions ignore *)
Definition life_wbgcm_init (key : cell) (f : nat) : M cell :=
  let* p := malloc gcm_cells in
  if is_null p then ret null else
  zero p ;; store p gcm_key_at key ;; store p gcm_block_at (Code f) ;;
  let* h := (fun m => obind (blk f m key (repeat 0%N 16)) (fun r => Ret (r, m))) in
  let '(HH, HL) := init_tables (match h with Some h => h | None => repeat 0%N 16 end) in
  write p 2 (map Num HL) ;; write p 18 (map Num HH) ;; ret p.
(** wbaes_wbgcm_ee_mode.c:286-292, wbaes_wbgcm_mask_mode.c:309-315: the memset comes before the test for NULL *)
Definition life_wbgcm_free (p : cell) : M unit := zero p ;; if is_null p then ret tt else free p.
(** wbaes_wbgcm_mask_init.c:12-28: the members other than GBOX_TypeIII are one cell (number 1) *)
Definition life_mask_init_table : M cell :=
  let* p := malloc 2 in
  if is_null p then ret null else
  (let* a := malloc 16 in store p 0 a) ;;
  loop 16 (fun i => let* a := load p 0 in let* b := malloc 256 in store a i b) ;;
  loop 16 (fun i => loop 256 (fun j => let* b := malloc 256 in
    let* a := load p 0 in let* ai := load a i in store ai j b)) ;;
  ret p.

(** ** FPE contexts (include/wbcrypto/fpe.h:15-22): cipher_ctx, block, radix, tweak, tweaklen *)
(** init.c:5-24 *)
Definition life_fpe_init (tweak : list N) (radix : N) (key : cell) (f : nat) : M cell :=
  let* p := malloc 5 in
  if is_null p then ret null else
  if (radix <? 2)%N || (36 <? radix)%N then ret null else
  store p 0 key ;; store p 1 (Code f) ;; store p 2 (Num radix) ;; store p 4 (Num (N.of_nat (length tweak) mod 2 ^ 32)) ;;
  let* t := malloc (length tweak) in
  store p 3 t ;; write t 0 (map Num tweak) ;; ret p.
(** init.c:26-33 *)
Definition life_fpe_free (p : cell) : M unit :=
  if is_null p then ret tt else
  let* t := load p 3 in (if is_null t then ret tt else free t) ;; free p.
(** init.c:35-48, which src/aes/aes_modes.c:48-52, src/sm4/sm4_modes.c:48-52, src/wbsm4/wbsm4_modes.c:48-52 and
    src/wbaes/wbaes_modes.c:33-37 call with the cipher's encryption function; include/wbcrypto/fpe.h struct fpe_mac_ctx: the context is its only member *)
Definition life_mac_init (tweak : list N) (radix : N) (key : cell) (f : nat) : M cell :=
  let* p := malloc 1 in
  if is_null p then ret null else
  if (radix <? 2)%N || (36 <? radix)%N then ret null else
  let* q := life_fpe_init tweak radix key f in store p 0 q ;; ret p.
(** init.c:50-57 *)
Definition life_mac_free (p : cell) : M unit :=
  if is_null p then ret tt else
  let* q := load p 0 in (if is_null q then ret tt else life_fpe_free q) ;; free p.
(** ff1.c:6-12, :36, :71, :143-152 (encryption; decryption, FF1-CMAC and FF3 likewise): six numbers, a BN_CTX and
    the three buffers are obtained at the start, used, and released at the end.  OpenSSL's objects are one block
    each; "used" is one access to every buffer. *)
Definition life_scratch (sizes : list nat) : M unit :=
  let fix go (sizes : list nat) : M unit :=
    match sizes with
    | [] => ret tt
    | n :: sizes' => let* p := malloc n in zero p ;; go sizes' ;; free p
    end in go sizes.

(** ** The white-box SM4 context (include/wbcrypto/wbsm4.h:12-24): rounds, encmode, MM, CC, DD, SE, FE, Table;
       here 0 rounds, 1 encmode, 2 MM, 3 CC, 4 DD, 5 Table, then the 8192 words of SE and FE *)
Definition wbsm4_cells : nat := N.to_nat (6 + 2 * 4096).
(** wbsm4.c:3-45; rounds = 32 + 4 * dummyrounds *)
Definition life_wbsm4_init (encmode : N) (dummyrounds : nat) : M cell :=
  let* p := malloc wbsm4_cells in
  if is_null p then ret null else
  let rounds := 32 + 4 * dummyrounds in
  (let* a := malloc rounds in store p 2 a) ;;
  (let* a := malloc rounds in store p 3 a) ;;
  (let* a := malloc rounds in store p 4 a) ;;
  (let* a := malloc rounds in store p 5 a) ;;
  loop rounds (fun i =>
    (let* b := malloc 3 in let* a := load p 2 in store a i b) ;;
    (let* b := malloc 4 in let* a := load p 3 in store a i b) ;;
    (let* b := malloc 4 in let* a := load p 4 in store a i b) ;;
    (let* b := malloc 4 in let* a := load p 5 in store a i b)) ;;
  loop rounds (fun i => loop 3 (fun j =>
    let* b := malloc 4 in let* a := load p 2 in let* ai := load a i in store ai j b)) ;;
  loop rounds (fun i => loop 3 (fun j => loop 4 (fun k =>
    let* b := malloc 256 in let* a := load p 2 in let* ai := load a i in let* aij := load ai j in store aij k b))) ;;
  loop rounds (fun i => loop 4 (fun j =>
    (let* b := malloc 256 in let* a := load p 3 in let* ai := load a i in store ai j b) ;;
    (let* b := malloc 256 in let* a := load p 4 in let* ai := load a i in store ai j b) ;;
    (let* b := malloc 256 in let* a := load p 5 in let* ai := load a i in store ai j b))) ;;
  store p 0 (Num (N.of_nat rounds)) ;; store p 1 (Num encmode) ;; ret p.

(** wbsm4_gen.c:82-103 and wrandom.c:57-72: the array of dummy rounds; the third block is the result *)
Definition life_dummy_array (dummyrounds : nat) : M cell :=
  let* da := malloc (32 + dummyrounds) in zero da ;;
  (let* rn := malloc (32 + dummyrounds + 10) in zero rn ;; free rn) ;;
  let* res := malloc (32 + 4 * dummyrounds) in
  zero res ;; free da ;; ret res.
(** the numbers written into the tables: array (0-2 MM, 3 CC, 4 DD, 5 Table, 6 SE, 7 FE), round, j, x *)
Variable tab : nat -> nat -> nat -> nat -> N.
(** which rounds are dummy rounds *)
Variable dummy : nat -> bool.
Definition row (a i j : nat) : list cell := map (fun x => Num (tab a i j x)) (seq 0 256).
(** wbsm4_gen.c:106-279 WBCRYPTO_wbsm4_gen_table: the memory it obtains, writes and releases.  The numbers are
    arbitrary here (Wbsm4Model says which they are), and a table of 256 words is written at once. *)
Definition life_wbsm4_gen (ctx : cell) (dummyrounds : nat) (key : list N) : M unit :=
  let* sm4_key := life_sm4_init in
  let* e := load ctx 1 in
  life_sm4_key (match e with Num 0 => 0 | _ => 1 end)%N sm4_key key ;;
  let* dummy_array := life_dummy_array dummyrounds in
  loop (32 + 4 * dummyrounds) (fun i =>
    if dummy i then
      loop 4 (fun j => let* a := load ctx 5 in let* ai := load a i in let* aij := load ai j in write aij 0 (row 5 i j)) ;;
      loop 4 (fun j => let* a := load ctx 3 in let* ai := load a i in let* aij := load ai j in write aij 0 (row 3 i j))
    else
      loop 3 (fun w => loop 4 (fun j => let* a := load ctx 2 in let* ai := load a i in let* aiw := load ai w in
        let* t := load aiw j in write t 0 (row w i j))) ;;
      loop 4 (fun j => let* a := load ctx 3 in let* ai := load a i in let* aij := load ai j in write aij 0 (row 3 i j)) ;;
      loop 4 (fun j => let* a := load ctx 4 in let* ai := load a i in let* aij := load ai j in write aij 0 (row 4 i j)) ;;
      loop 4 (fun j => let* a := load ctx 5 in let* ai := load a i in let* aij := load ai j in write aij 0 (row 5 i j))) ;;
  loop 4 (fun i => loop 4 (fun j =>
    write ctx (6 + 1024 * i + 256 * j) (row 6 i j) ;; write ctx (6 + 4096 + 1024 * i + 256 * j) (row 7 i j))) ;;
  free dummy_array.
(** se_wbsm4.c:20-89 WBCRYPTO_se_wbsm4_gen_table, likewise; [maps] is what is written over M, C, D, SE and FE *)
Definition life_se_gen (ctx : cell) (key : list N) (maps : list N) : M unit :=
  let* sm4_key := life_sm4_init in
  let* e := load ctx 0 in
  life_sm4_key (match e with Num 0 => 0 | _ => 1 end)%N sm4_key key ;;
  write ctx 1 (map Num maps).

(** ** Calls that are not about contexts *)
(** gcm_parallel.c:19-30 (and :86-97): the counter blocks of the call; nothing in the function releases them *)
Definition life_parallel (n : nat) (ctr : nat -> list N) : M unit :=
  let* y_arr := malloc (len_s n) in
  loop (len_s n) (fun i => let* y := malloc 16 in store y_arr i y ;; write y 0 (map Num (ctr i))).
(** cbc128.c:8-9 with padding.c:44-58 for a non-empty message: the padded copy; nothing in the function releases it *)
Definition life_cbc_encrypt (inp padded : list N) : M unit :=
  let* afin := malloc (length inp) in
  (let* dst := realloc afin (length padded) in write dst 0 (map Num padded)) ;;
  readall afin ;; ret tt.

(** ** Applications *)
(** fpe_app/init.c:4-37, the branch for "sm4"; the library has no function that undoes it *)
Definition life_app_init_sm4 (key : list N) : M cell :=
  let* p := life_sm4_init in life_sm4_key 1 p key ;; ret p.
(** phone.c:5-56 (idcard.c, cn_utf8.c alike) once the arguments are accepted: the FPE context of the call *)
Definition life_app_call (cipher_ctx : cell) (f : nat) (tweak : list N) (radix : N) (sizes : list nat) : M unit :=
  let* p := life_fpe_init tweak radix cipher_ctx f in
  life_scratch sizes ;; life_fpe_free p.
(** udf/mysql8.cpp:57-117 (mysql5.cpp alike): one row whose arguments are accepted *)
Definition life_udf_row (key tweak : list N) (radix : N) (f : nat) (sizes : list nat) : M unit :=
  let* p := life_app_init_sm4 key in life_app_call p f tweak radix sizes.
(** a query over several rows, each with its own kept characters: udf/mysql8.cpp:24-55 fpe_init, the rows, fpe_deinit *)
Definition life_udf_query (max_length : nat) (key : list N) (f : nat) (rows : list (list N * N * list nat)) : M unit :=
  let* ptr := malloc (max_length + 1) in
  if is_null ptr then ret tt else
  (fix go rows := match rows with
                  | [] => ret tt
                  | (tweak, radix, sizes) :: rows' => life_udf_row key tweak radix f sizes ;; go rows'
                  end) rows ;;
  free ptr.
End Life.
