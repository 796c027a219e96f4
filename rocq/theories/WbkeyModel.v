(** * Model of src/wbsm4/wbsm4_exkey.c: storing the tables of white-box SM4 in a file

    Simplifications: an int and a uint32_t are four bytes, the least significant first; writing to an open file
    succeeds; when fread fails the object it was to fill keeps its value; a negative number of rounds in a file is
    stored as 0 (every loop over the rounds does the same in both cases). *)
From Verif Require Import Base Word32 GcmModel FpeModel MatModel Wbsm4Model.
From Coq Require Import ZArith.
Local Open Scope nat_scope.

Definition le4 (x : N) : list N := rev (N_to_be 4 x).
Definition of_le (l : list N) : N := be_to_N (rev l).
(** the bytes of an int, and the int *)
Definition int_bytes (z : Z) : list N := le4 (Z.to_N (z mod 2 ^ 32)).
Definition bytes_int (l : list N) : Z :=
  let z := Z.of_N (of_le l) in if (z <? 2 ^ 31)%Z then z else (z - 2 ^ 32)%Z.
(** "DummyRound-WBSM4" *)
Definition header : list N := [68; 117; 109; 109; 121; 82; 111; 117; 110; 100; 45; 87; 66; 83; 77; 52]%N.

(** The order of the entries: wbsm4_exkey.c:16-26 (and :68-78), then :27-43 (and :79-95) *)
Definition range256 : list N := map N.of_nat (seq 0 256).
Definition mm_locs (rounds : nat) : list loc :=
  flat_map (fun i => flat_map (fun j => flat_map (fun k => map (LMM i j k) range256) (seq 0 4)) (seq 0 3)) (seq 0 rounds).
Definition other_locs (rounds : nat) : list loc :=
  flat_map (fun i => flat_map (fun j => flat_map (fun k =>
      (if i <? 4 then [LSE i j k; LFE i j k] else []) ++ [LCC i j k; LDD i j k; LTable i j k]) range256) (seq 0 4)) (seq 0 rounds).
Definition file_locs (rounds : nat) : list loc := mm_locs rounds ++ other_locs rounds.

(** wbsm4_exkey.c:3-48 WBCRYPTO_wbsm4_key2file: the file afterwards (returns 1).  [opens]: fopen succeeds; if not,
    cleanup calls fclose(NULL).  Undef as well when an entry is not there. *)
Definition wbsm4_key2file (opens : bool) (ctx : wctx) : outcome (list N) :=
  if negb opens then Undef else
  if w_alloc ctx <? w_rounds ctx then Undef else
  Ret (header ++ int_bytes (Z.of_nat (w_rounds ctx)) ++ int_bytes (w_encmode ctx) ++
       flat_map (fun l => le4 (w_mem ctx l)) (file_locs (w_rounds ctx))).

(** fgets(buf, 17, f): the characters read, and what remains of the file *)
Fixpoint fgets (n : nat) (f : list N) : list N * list N :=
  match n, f with
  | O, _ => ([], f)
  | _, [] => ([], [])
  | S n', c :: f' => if (c =? 10)%N then ([c], f') else let '(l, r) := fgets n' f' in (c :: l, r)
  end.
(** the C string in a zeroed buffer holding these characters *)
Fixpoint cstring (l : list N) : list N :=
  match l with [] => [] | c :: l' => if (c =? 0)%N then [] else c :: cstring l' end.
(** strcmp(a, b) == 0 *)
Fixpoint list_eqb (a b : list N) : bool :=
  match a, b with [], [] => true | x :: a', y :: b' => (x =? y)%N && list_eqb a' b' | _, _ => false end.
(** fread(&x, 4, 1, f) *)
Definition fread4 (f : list N) : option (list N * list N) :=
  if length f <? 4 then None else Some (firstn 4 f, skipn 4 f).
Definition loc_eqb (a b : loc) : bool :=
  match a, b with
  | LMM i k j x, LMM i' k' j' x' => (i =? i') && (k =? k') && (j =? j') && (x =? x')%N
  | LCC i j x, LCC i' j' x' | LDD i j x, LDD i' j' x' | LTable i j x, LTable i' j' x'
  | LSE i j x, LSE i' j' x' | LFE i j x, LFE i' j' x' => (i =? i') && (j =? j') && (x =? x')%N
  | _, _ => false
  end.
Definition store (mem : loc -> N) (l : loc) (v : N) : loc -> N := fun l' => if loc_eqb l l' then v else mem l'.
(** SE and FE are arrays in the context itself; the others were allocated for [alloc] rounds *)
Definition allocated (alloc : nat) (l : loc) : bool :=
  match l with LMM i _ _ _ | LCC i _ _ | LDD i _ _ | LTable i _ _ => i <? alloc | LSE i _ _ | LFE i _ _ => i <? 4 end.
(** wbsm4_exkey.c:68-95: success, and the memory afterwards *)
Fixpoint read_entries (alloc : nat) (ls : list loc) (f : list N) (mem : loc -> N) : outcome (bool * (loc -> N)) :=
  match ls with
  | [] => Ret (true, mem)
  | l :: ls' =>
      if negb (allocated alloc l) then Undef else
      match fread4 f with
      | None => Ret (false, mem)
      | Some (b, f') => read_entries alloc ls' f' (store mem l (of_le b))
      end
  end.
(** wbsm4_exkey.c:50-100 WBCRYPTO_wbsm4_file2key: the return value and the context afterwards.  [f]: the contents
    of the file, None when fopen fails (then fclose(NULL)). *)
Definition wbsm4_file2key (ctx : wctx) (file : option (list N)) : outcome (bool * wctx) :=
  match file with
  | None => Undef
  | Some f =>
      let '(algname, f) := fgets 16 f in
      if negb (list_eqb (cstring algname) header) then Ret (false, ctx) else
      match fread4 f with
      | None => Ret (false, ctx)
      | Some (b, f) =>
          let ctx := mkwctx (Z.to_nat (bytes_int b)) (w_encmode ctx) (w_alloc ctx) (w_mem ctx) in
          match fread4 f with
          | None => Ret (false, ctx)
          | Some (b, f) =>
              let ctx := mkwctx (w_rounds ctx) (bytes_int b) (w_alloc ctx) (w_mem ctx) in
              obind (read_entries (w_alloc ctx) (file_locs (w_rounds ctx)) f (w_mem ctx)) (fun '(ok, mem) =>
              Ret (ok, mkwctx (w_rounds ctx) (w_encmode ctx) (w_alloc ctx) mem))
          end
      end
  end.
