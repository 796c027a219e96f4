(** * Model of src/utils/keystore.c and of the parts of src/wbsm4 that copy or clear a context as bytes

    File system as in FileModel: [wr p] says whether fopen(p, "wb+") succeeds, fopen(p, "rb") succeeds when the file
    exists. *)
From Verif Require Import Base Word32 GcmModel FpeModel FileModel MatModel Wbsm4Model.
From Coq Require Import ZArith.
Local Open Scope nat_scope.

(** ** src/utils/keystore.c *)
(** keystore.c:3-15 WBCRYPTO_keystore_file_to_key: the return value and the memory at ctx afterwards.  [buf]: that
    memory before.  fread stores one element of ctx_len bytes, its result is ignored (:11).  When the file is
    shorter the element's value is indeterminate: [part].  A failed fopen ends in fclose(NULL) (:14), as does a
    buffer that is too small in an out-of-bounds write: Undef. *)
Definition keystore_file_to_key (fs : fsys) (part buf : list N) (ctx_len : nat) (p : path) : outcome (bool * list N) :=
  match fs p with
  | None => Undef
  | Some f =>
      if length buf <? ctx_len then Undef else
      if length f <? ctx_len then Ret (true, firstn ctx_len part ++ skipn ctx_len buf)
      else Ret (true, firstn ctx_len f ++ skipn ctx_len buf)
  end.
(** keystore.c:17-29 WBCRYPTO_keystore_key_to_file: the return value and the files afterwards.  [room]: the number of
    bytes the device still takes; the result of fwrite is ignored (:25). *)
Definition keystore_key_to_file (wr : path -> bool) (room : nat) (fs : fsys) (buf : list N) (ctx_len : nat) (p : path) :
  outcome (bool * fsys) :=
  if negb (wr p) then Undef else
  if length buf <? ctx_len then Undef else
  Ret (true, upd fs p (Some (firstn room (firstn ctx_len buf)))).

(** ** The context of white-box SM4 as a C structure
    include/wbcrypto/wbsm4.h:12-24.  The pointers MM, CC, DD and Table are one address [s_ptr]: they are set by one
    context_init; [s_arrays]: the arrays SE and FE inside the structure. *)
Record wstruct := mkws { s_rounds : nat; s_encmode : Z; s_ptr : N; s_arrays : loc -> N }.
(** The allocated memory: at an address, tables for a number of rounds *)
Definition heap := N -> option (nat * (loc -> N)).
Definition hupd (h : heap) (a : N) (v : option (nat * (loc -> N))) : heap := fun a' => if (a' =? a)%N then v else h a'.
Definition in_struct (l : loc) : bool := match l with LSE _ _ _ | LFE _ _ _ => true | _ => false end.
(** The context a function is given: Wbsm4Model's view of a structure and the memory.  With no rounds no table is
    looked at. *)
Definition ws_view (h : heap) (s : wstruct) : outcome wctx :=
  match h (s_ptr s) with
  | Some (alloc, tab) => Ret (mkwctx (s_rounds s) (s_encmode s) alloc (fun l => if in_struct l then s_arrays s l else tab l))
  | None => if s_rounds s =? 0 then Ret (mkwctx 0 (s_encmode s) 0 (s_arrays s)) else Undef
  end.
(** src/wbsm4/wbsm4.c:3-45 WBCRYPTO_wbsm4_context_init, the tables being at [a] *)
Definition ws_init (junk : loc -> N) (h : heap) (a : N) (encmode : Z) (dummyrounds : nat) : heap * wstruct :=
  let rounds := 32 + 4 * dummyrounds in
  (hupd h a (Some (rounds, junk)), mkws rounds encmode a junk).
(** src/wbsm4/wbsm4_gen.c:105-279 WBCRYPTO_wbsm4_gen_table *)
Definition ws_gen_table (rnd : nat -> N) (rs : list N) (h : heap) (s : wstruct) (key : list N) : outcome (heap * wstruct) :=
  obind (ws_view h s) (fun c =>
  obind (wbsm4_gen_table rnd rs c key) (fun c' =>
  Ret (hupd h (s_ptr s) (Some (w_alloc c', w_mem c')), mkws (s_rounds s) (s_encmode s) (s_ptr s) (w_mem c')))).
(** src/wbsm4/wbsm4.c:51-100 WBCRYPTO_wbsm4_encrypt, WBCRYPTO_wbsm4_decrypt *)
Definition ws_encrypt (h : heap) (s : wstruct) (b : list N) : outcome (list N) := obind (ws_view h s) (fun c => wbsm4_encrypt c b).
(** src/wbsm4/wbsm4.c:47-49 WBCRYPTO_wbsm4_context_free: the memory and the structure afterwards.  The structure is
    zeroed; nothing is released. *)
Definition ws_context_free (h : heap) (s : wstruct) : heap * wstruct := (h, mkws 0 0 0 (fun _ => 0%N)).
(** The stream of wbsm4_exkey.c:102-117: a length and a copy of the structure *)
Record kstream := mkks { k_len : N; k_struct : wstruct }.
(** sizeof(struct wbsm4_context), 8-byte pointers: two ints, three pointers, two arrays of 4 * 4 * 256 words, a pointer *)
Definition sizeof_wstruct : N := 2 * 4 + 3 * 8 + 2 * (4 * 4 * 256 * 4) + 8.
(** wbsm4_exkey.c:102-117 WBCRYPTO_wbsm4_key2bytes (returns 1; malloc succeeds) *)
Definition wbsm4_key2bytes (s : wstruct) : kstream := mkks (sizeof_wstruct + 4) s.
(** wbsm4_exkey.c:119-129 WBCRYPTO_wbsm4_bytes2key (returns 1): the structure afterwards, whatever it was before *)
Definition wbsm4_bytes2key (s : wstruct) (k : kstream) : wstruct := k_struct k.
