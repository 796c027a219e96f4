(** * Model of src/modes/gcmfile.c (and of the two white-box copies of its file code) *)
From Verif Require Import Base CbcModel GcmModel.
Local Open Scope nat_scope.

(** ** The file system
    A path is the byte string of its name; the file system maps paths to contents.  [wr p] says
    whether fopen(p, "wb+") succeeds; fopen(p, "rb") succeeds when the file exists.
    Simplifications: fwrite, fseek and fflush succeed, no other process touches the files, two
    different strings name two different files, and malloc succeeds. *)
Definition path := list N.
Definition fsys := path -> option (list N).
Definition path_dec : forall p q : path, {p = q} + {p <> q} := list_eq_dec N.eq_dec.
Definition upd (fs : fsys) (p : path) (v : option (list N)) : fsys :=
  fun q => if path_dec q p then v else fs q.

(** include/wbcrypto/modes.h:192-193; sizeof(size_t) = 8 *)
Definition file_tag_len : nat := 16.
Definition file_slice : nat := 128.
Definition size_len : nat := 8.
(** src/modes/gcmfile.c:42-44: outfpath followed by ".tmp" *)
Definition tmp_path (p : path) : path := p ++ [46; 116; 109; 112]%N.

Section Container.
  (** [crypt c p]: one call of the mode's encrypt/decrypt function on a slice; context and the
      block_size bytes then found in [out].  [finish c]: context and 16-byte tag. *)
  Variable C : Type.
  Variable crypt : C -> list N -> C * list N.
  Variable finish : C -> option (C * list N).

  (** src/modes/gcmfile.c:68-77 and :149-160: the loop over the slices read by fread *)
  Fixpoint slices_run (c : C) (ps : list (list N)) : C * list N :=
    match ps with
    | [] => (c, [])
    | p :: ps' => let '(c1, o) := crypt c p in let '(c2, o2) := slices_run c1 ps' in (c2, o ++ o2)
    end.

  (** src/modes/gcmfile.c:35-109 WBCRYPTO_gcmfile_encrypt (same text:
      src/wbaes/wbaes_wbgcm_ee_file.c:3-78, src/wbaes/wbaes_wbgcm_mask_file.c:3-78).
      [None]: a failed fopen, after which cleanup closes an indeterminate or null stream.
      [junk]: the four bytes after file_size that memcpy(size_buf, &file_size, 8) copies (line 64);
      reading them is itself outside the C standard.  The value of ftell is converted to int. *)
  Definition file_encrypt (wr : path -> bool) (fs : fsys) (c : C) (inf outf : path) (junk : list N)
    : option (bool * C * list N * fsys) :=
    match fs inf with
    | None => None
    | Some _ =>
      if negb (wr (tmp_path outf)) then None
      else let fs1 := upd fs (tmp_path outf) (Some []) in
      if negb (wr outf) then None
      else let fs2 := upd fs1 outf (Some []) in
      let data := match fs2 inf with Some d => d | None => [] end in
      let size_buf := N_to_le 4 (N.of_nat (length data) mod 2 ^ 32) ++ junk in
      let '(c1, ct) := slices_run c (chunks file_slice data) in
      do ft <- finish c1;
      let '(c2, tag) := ft in
      let fs3 := upd fs2 (tmp_path outf) (Some ct) in
      let fs4 := upd fs3 outf (Some (tag ++ size_buf ++ ct)) in
      Some (true, c2, tag, upd fs4 (tmp_path outf) None)
    end.

  (** src/modes/gcmfile.c:111-172 WBCRYPTO_gcmfile_decrypt (same text:
      src/wbaes/wbaes_wbgcm_ee_file.c:80-142, src/wbaes/wbaes_wbgcm_mask_file.c:80-142).
      [None]: a failed fopen or an fread returning 0 before outfp is set (cleanup then closes an
      indeterminate or null stream); infpath = outfpath (what the open input stream then delivers
      depends on stdio buffering); more than INT_MAX bytes (read_size overflows). *)
  Definition file_decrypt (wr : path -> bool) (fs : fsys) (c : C) (inf outf : path)
    : option (bool * C * list N * fsys) :=
    match fs inf with
    | None => None
    | Some cont =>
      if length cont =? 0 then None
      else
      let rest := skipn file_tag_len cont in
      if length rest =? 0 then None
      else
      let size_buf := firstn size_len rest ++ repeat 0%N (size_len - length rest) in
      let file_size := c_int (le_to_N (firstn 4 size_buf)) in
      if negb (wr outf) then None
      else if path_dec inf outf then None
      else
      do ft <- finish c;
      let '(c1, tag) := ft in
      let body := skipn size_len rest in
      if (int_max <? N.of_nat (length body))%N then None
      else
      let '(c2, out) := slices_run c1 (chunks file_slice body) in
      Some ((Z.of_nat (length body) =? file_size)%Z, c2, tag, upd fs outf (Some out))
    end.
End Container.
Arguments slices_run {C}.
Arguments file_encrypt {C}.
Arguments file_decrypt {C}.

(** include/wbcrypto/modes.h:195-198 struct gcmfile_context *)
Record gf_ctx := mkgf { f_gcm : gcm_ctx; f_tag : list N }.
(** src/modes/gcmfile.c:3-13 WBCRYPTO_gcmfile_init; [None]: gcm_init returned NULL, which is stored
    and dereferenced by the next call.  [tag0]: contents of the tag field, of which only the first
    4 bytes are cleared (memset with sizeof of an int constant).  The wrappers src/aes/aes_modes.c:37-40,
    src/sm4/sm4_modes.c:37-40, src/wbsm4/wbsm4_modes.c:37-40 and src/wbaes/wbaes_modes.c:22-25 call it with the
    cipher's encryption function as [blk]. *)
Definition gcmfile_init (blk : blockfn) (tag0 : list N) : option gf_ctx :=
  do g <- gcm_init blk; Some (mkgf g (repeat 0%N 4 ++ skipn 4 tag0)).
(** src/modes/gcmfile.c:15-23 *)
Definition gcmfile_setiv (blk : blockfn) (c : gf_ctx) (iv : list N) : bool * gf_ctx :=
  let '(ok, g) := gcm_setiv blk (f_gcm c) iv in (ok, mkgf g (f_tag c)).
(** src/modes/gcmfile.c:25-33 *)
Definition gcmfile_aad (c : gf_ctx) (aad : list N) : bool * gf_ctx :=
  (true, mkgf (gcm_aad (f_gcm c) aad) (f_tag c)).
(** the calls at src/modes/gcmfile.c:72 and :153 : the return value is ignored; [out] was cleared
    before, so bytes not written by a failing call are 0 *)
Definition gcm_slice (d : dir) (blk : blockfn) (c : gcm_ctx) (p : list N) : gcm_ctx * list N :=
  let '(_, c', o) := gcm_crypt d blk c p (length p) in (c', o ++ repeat 0%N (length p - length o)).
(** src/modes/gcmfile.c:35-109 *)
Definition gcmfile_encrypt (blk : blockfn) (wr : path -> bool) (fs : fsys) (c : gf_ctx) (inf outf : path)
  (junk : list N) : option (bool * gf_ctx * fsys) :=
  do r <- file_encrypt (gcm_slice Enc blk) (fun g => gcm_finish g file_tag_len) wr fs (f_gcm c) inf outf junk;
  let '(ok, g, tag, fs') := r in Some (ok, mkgf g tag, fs').
(** src/modes/gcmfile.c:111-172 *)
Definition gcmfile_decrypt (blk : blockfn) (wr : path -> bool) (fs : fsys) (c : gf_ctx) (inf outf : path)
  : option (bool * gf_ctx * fsys) :=
  do r <- file_decrypt (gcm_slice Dec blk) (fun g => gcm_finish g file_tag_len) wr fs (f_gcm c) inf outf;
  let '(ok, g, tag, fs') := r in Some (ok, mkgf g tag, fs').

(** client: init; setiv; aad *)
Definition gcmfile_open (blk : blockfn) (tag0 iv aad : list N) : option gf_ctx :=
  do c <- gcmfile_init blk tag0;
  let '(ok, c1) := gcmfile_setiv blk c iv in
  if ok : bool then Some (snd (gcmfile_aad c1 aad)) else None.
