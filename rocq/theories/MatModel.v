(** * Model of the matrix library WBMatrix/src/WBMatrix.c, sizes 4, 8, 16, 32 and 64
    The functions for these sizes have the same text up to the size, so each is modelled once, with the size [n] as
    an argument; the lines cited are those of the 32-bit version, with the others named where they differ.  An n*n
    matrix is the list of its n rows; a row or a vector is an unsigned number.  The functions that view a wide
    integer through a narrower pointer are modelled for a little-endian machine.
    In the functions of size 128 a row or a vector is an array of two 64-bit words and the text differs; they are
    modelled word by word in Mat128Model.v.  The definitions below at n = 128 are not code: they are the same
    functions on the 128-bit numbers that the two words denote, to which Mat128Proofs.v reduces the code. *)
From Verif Require Import Base FpeModel.
Local Open Scope nat_scope.

(** WBMatrix.c:6-18 *)
Definition xor_table : list N := [
  0; 1; 1; 0; 1; 0; 0; 1; 1; 0; 0; 1; 0; 1; 1; 0; 1; 0; 0; 1; 0; 1; 1; 0; 0; 1; 1; 0; 1; 0; 0; 1; 1; 0; 0; 1;
   0; 1; 1; 0; 0; 1; 1; 0; 1; 0; 0; 1; 0; 1; 1; 0; 1; 0; 0; 1; 1; 0; 0; 1; 0; 1; 1; 0; 1; 0; 0; 1; 0; 1; 1; 0;
   0; 1; 1; 0; 1; 0; 0; 1; 0; 1; 1; 0; 1; 0; 0; 1; 1; 0; 0; 1; 0; 1; 1; 0; 0; 1; 1; 0; 1; 0; 0; 1; 1; 0; 0; 1;
   0; 1; 1; 0; 1; 0; 0; 1; 0; 1; 1; 0; 0; 1; 1; 0; 1; 0; 0; 1; 1; 0; 0; 1; 0; 1; 1; 0; 0; 1; 1; 0; 1; 0; 0; 1;
   0; 1; 1; 0; 1; 0; 0; 1; 1; 0; 0; 1; 0; 1; 1; 0; 0; 1; 1; 0; 1; 0; 0; 1; 1; 0; 0; 1; 0; 1; 1; 0; 1; 0; 0; 1;
   0; 1; 1; 0; 0; 1; 1; 0; 1; 0; 0; 1; 0; 1; 1; 0; 1; 0; 0; 1; 1; 0; 0; 1; 0; 1; 1; 0; 1; 0; 0; 1; 0; 1; 1; 0;
   0; 1; 1; 0; 1; 0; 0; 1; 1; 0; 0; 1; 0; 1; 1; 0; 0; 1; 1; 0; 1; 0; 0; 1; 0; 1; 1; 0; 1; 0; 0; 1; 1; 0; 0; 1;
   0; 1; 1; 0]%N.
(** WBMatrix.c:21-33 *)
Definition HW_table : list N := [
  0; 1; 1; 2; 1; 2; 2; 3; 1; 2; 2; 3; 2; 3; 3; 4; 1; 2; 2; 3; 2; 3; 3; 4; 2; 3; 3; 4; 3; 4; 4; 5; 1; 2; 2; 3;
   2; 3; 3; 4; 2; 3; 3; 4; 3; 4; 4; 5; 2; 3; 3; 4; 3; 4; 4; 5; 3; 4; 4; 5; 4; 5; 5; 6; 1; 2; 2; 3; 2; 3; 3; 4;
   2; 3; 3; 4; 3; 4; 4; 5; 2; 3; 3; 4; 3; 4; 4; 5; 3; 4; 4; 5; 4; 5; 5; 6; 2; 3; 3; 4; 3; 4; 4; 5; 3; 4; 4; 5;
   4; 5; 5; 6; 3; 4; 4; 5; 4; 5; 5; 6; 4; 5; 5; 6; 5; 6; 6; 7; 1; 2; 2; 3; 2; 3; 3; 4; 2; 3; 3; 4; 3; 4; 4; 5;
   2; 3; 3; 4; 3; 4; 4; 5; 3; 4; 4; 5; 4; 5; 5; 6; 2; 3; 3; 4; 3; 4; 4; 5; 3; 4; 4; 5; 4; 5; 5; 6; 3; 4; 4; 5;
   4; 5; 5; 6; 4; 5; 5; 6; 5; 6; 6; 7; 2; 3; 3; 4; 3; 4; 4; 5; 3; 4; 4; 5; 4; 5; 5; 6; 3; 4; 4; 5; 4; 5; 5; 6;
   4; 5; 5; 6; 5; 6; 6; 7; 3; 4; 4; 5; 4; 5; 5; 6; 4; 5; 5; 6; 5; 6; 6; 7; 4; 5; 5; 6; 5; 6; 6; 7; 5; 6; 6; 7;
   6; 7; 7; 8]%N.
(** WBMatrix.c:35 *)
Definition idM4 : list N := [0x8; 0x4; 0x2; 0x1]%N.
(** WBMatrix.c:36 *)
Definition idM8 : list N := [0x80; 0x40; 0x20; 0x10; 0x8; 0x4; 0x2; 0x1]%N.
(** WBMatrix.c:37-38 *)
Definition idM16 : list N := [
  0x8000; 0x4000; 0x2000; 0x1000; 0x800; 0x400; 0x200; 0x100; 0x80; 0x40; 0x20; 0x10; 0x8; 0x4; 0x2; 0x1]%N.
(** WBMatrix.c:39-41 *)
Definition idM32 : list N := [
  0x80000000; 0x40000000; 0x20000000; 0x10000000; 0x8000000; 0x4000000; 0x2000000; 0x1000000; 0x800000;
   0x400000; 0x200000; 0x100000; 0x80000; 0x40000; 0x20000; 0x10000; 0x8000; 0x4000; 0x2000; 0x1000; 0x800;
   0x400; 0x200; 0x100; 0x80; 0x40; 0x20; 0x10; 0x8; 0x4; 0x2; 0x1]%N.
(** WBMatrix.c:42-50 *)
Definition idM64 : list N := [
  0x8000000000000000; 0x4000000000000000; 0x2000000000000000; 0x1000000000000000; 0x800000000000000;
   0x400000000000000; 0x200000000000000; 0x100000000000000; 0x80000000000000; 0x40000000000000;
   0x20000000000000; 0x10000000000000; 0x8000000000000; 0x4000000000000; 0x2000000000000; 0x1000000000000;
   0x800000000000; 0x400000000000; 0x200000000000; 0x100000000000; 0x80000000000; 0x40000000000; 0x20000000000;
   0x10000000000; 0x8000000000; 0x4000000000; 0x2000000000; 0x1000000000; 0x800000000; 0x400000000;
   0x200000000; 0x100000000; 0x80000000; 0x40000000; 0x20000000; 0x10000000; 0x8000000; 0x4000000; 0x2000000;
   0x1000000; 0x800000; 0x400000; 0x200000; 0x100000; 0x80000; 0x40000; 0x20000; 0x10000; 0x8000; 0x4000;
   0x2000; 0x1000; 0x800; 0x400; 0x200; 0x100; 0x80; 0x40; 0x20; 0x10; 0x8; 0x4; 0x2; 0x1]%N.
(** (idM64[i], 0) for i < 64 and (0, idM64[i - 64]) for i >= 64, as numbers *)
Definition idM128 : list N := map (fun x => x * 18446744073709551616)%N idM64 ++ idM64.
(** the table used by the functions of size [n] *)
Definition idM (n : nat) : list N :=
  if n =? 4 then idM4 else if n =? 8 then idM8 else if n =? 16 then idM16 else if n =? 32 then idM32
  else if n =? 64 then idM64 else idM128.

(** ** Internal xor and Hamming weight *)
(** WBMatrix.c:1261-1265 xorU4, :1267-1271 xorU8 *)
Definition xorU8 (x : N) : bool := negb (get xor_table (N.to_nat x) =? 0)%N.
(** WBMatrix.c:1273-1280, :1282-1289, :1291-1298 *)
Definition xorU16 (x : N) : bool := xorU8 (N.lxor (x mod 256) (x / 256))%N.
Definition xorU32 (x : N) : bool := xorU16 (N.lxor (x mod 65536) (x / 65536))%N.
Definition xorU64 (x : N) : bool := xorU32 (N.lxor (x mod 4294967296) (x / 4294967296))%N.
Definition xorU128n (x : N) : bool := xorU64 (N.lxor (x mod 18446744073709551616) (x / 18446744073709551616))%N.
Definition xorU (n : nat) : N -> bool :=
  if n =? 4 then xorU8 else if n =? 8 then xorU8 else if n =? 16 then xorU16 else if n =? 32 then xorU32
  else if n =? 64 then xorU64 else xorU128n.
(** WBMatrix.c:1308-1334 HWU4, HWU8, HWU16, HWU32, HWU64 *)
Definition HWU8 (x : N) : N := get HW_table (N.to_nat x).
Definition HWU16 (x : N) : N := (HWU8 (x mod 256) + HWU8 (x / 256))%N.
Definition HWU32 (x : N) : N := (HWU16 (x mod 65536) + HWU16 (x / 65536))%N.
Definition HWU64 (x : N) : N := (HWU32 (x mod 4294967296) + HWU32 (x / 4294967296))%N.
Definition HWU128n (x : N) : N := (HWU64 (x mod 18446744073709551616) + HWU64 (x / 18446744073709551616))%N.
Definition HWU (n : nat) : N -> N :=
  if n =? 4 then HWU8 else if n =? 8 then HWU8 else if n =? 16 then HWU16 else if n =? 32 then HWU32
  else if n =? 64 then HWU64 else HWU128n.

(** ** Bits *)
(** WBMatrix.c:80-86 initM32 *)
Definition initM (n : nat) : list N := repeat 0%N n.
(** WBMatrix.c:223-229 identityM32 *)
Definition identityM (n : nat) : list N := map (fun i => get (idM n) i) (seq 0 n).
(** WBMatrix.c:551-555 readbitM32 *)
Definition readbit (n : nat) (A : list N) (i j : nat) : bool := (N.land (get A i) (get (idM n) j) =? get (idM n) j)%N.
(** WBMatrix.c:589-592 flipbitM32 *)
Definition flipbit (n : nat) (A : list N) (i j : nat) : list N := set A i (N.lxor (get A i) (get (idM n) j)).
(** WBMatrix.c:626-630 setbitM32 *)
Definition setbit (n : nat) (A : list N) (i j : nat) (b : bool) : list N :=
  if Bool.eqb (readbit n A i j) b then A else flipbit n A i j.
(** WBMatrix.c:420-430, :432-442, :444-454, :456-466, :468-478 isequalM4/8/16/32/64 *)
Definition isequalM (n : nat) (A B : list N) : bool := forallb (fun i => (get A i =? get B i)%N) (seq 0 n).

(** ** Algebra *)
(** the masking with 0x0f in the functions of size 4 (WBMatrix.c:1494, :1544, :3153) *)
Definition mask4 (n : nat) (x : N) : N := if n =? 4 then N.land x 0x0f else x.
(** WBMatrix.c:1519-1527 MatMulNumM32 *)
Definition MatMulNum (n : nat) (A : list N) (x : N) : N :=
  fold_left (fun temp i => if xorU n (mask4 n (N.land (get A i) x)) then N.lxor temp (get (idM n) i) else temp) (seq 0 n) 0%N.
(** WBMatrix.c:1566-1573 MatMulVecM32 *)
Definition MatMulVec (n : nat) (A : list N) (v : N) : N :=
  fold_left (fun ans i => if xorU n (mask4 n (N.land (get A i) v)) then N.lxor ans (get (idM n) i) else ans) (seq 0 n) 0%N.
(** WBMatrix.c:3062-3071 MattransM32 *)
Definition Mattrans (n : nat) (A : list N) : list N :=
  fold_left (fun T i => fold_left (fun T j =>
      if (N.land (get A i) (get (idM n) j) =? 0)%N then T else set T j (N.lxor (get T j) (get (idM n) i)))
    (seq 0 n) T) (seq 0 n) (initM n).
(** WBMatrix.c:3102-3107, :3109-3114, :3116-3121, :3123-3128, :3130-3135 MatAddMatM4/8/16/32/64 *)
Definition MatAddMat (n : nat) (A B : list N) : list N := map (fun i => N.lxor (get A i) (get B i)) (seq 0 n).
(** WBMatrix.c:3184-3195 MatMulMatM32 *)
Definition MatMulMat (n : nat) (A B : list N) : list N :=
  let T := Mattrans n B in
  fold_left (fun M i => fold_left (fun M j =>
      if xorU n (mask4 n (N.land (get A i) (get T j))) then set M i (N.lxor (get M i) (get (idM n) j)) else M)
    (seq 0 n) M) (seq 0 n) (initM n).

(** structure.h: Aff4 .. Aff64 *)
Record aff := mkaff { a_mat : list N; a_vec : N }.
(** WBMatrix.c:1235-1241 affineU32 *)
Definition affineU (n : nat) (a : aff) (x : N) : N := N.lxor (MatMulVec n (a_mat a) x) (a_vec a).
(** WBMatrix.c:3255-3261 affinemixM32 *)
Definition affinemix (n : nat) (a pre_inv : aff) : aff :=
  mkaff (MatMulMat n (a_mat a) (a_mat pre_inv)) (N.lxor (MatMulVec n (a_mat a) (a_vec pre_inv)) (a_vec a)).

(** ** Concatenation *)
(** WBMatrix.c:2626-2652 MatrixcomM8to32 (w = 8), :2671-2697 MatrixcomM16to64 (w = 16): byte or half-word 3 of a
    number is its most significant one *)
Definition Matrixcom4 (w : nat) (m1 m2 m3 m4 : list N) : list N :=
  let b := N.of_nat w in
  map (fun i => N.shiftl (get m1 i) (3 * b)) (seq 0 w) ++ map (fun i => N.shiftl (get m2 i) (2 * b)) (seq 0 w) ++
  map (fun i => N.shiftl (get m3 i) b) (seq 0 w) ++ map (fun i => get m4 i) (seq 0 w).
(** WBMatrix.c:2654-2662 VectorcomV8to32, :2699-2707 VectorcomV16to64 *)
Definition Vectorcom4 (w : nat) (v1 v2 v3 v4 : N) : N :=
  let b := N.of_nat w in N.lor (N.shiftl v1 (3 * b)) (N.lor (N.shiftl v2 (2 * b)) (N.lor (N.shiftl v3 b) v4)).
(** WBMatrix.c:2664-2669 affinecomM8to32, :2709-2714 affinecomM16to64 *)
Definition affinecom4 (w : nat) (a1 a2 a3 a4 : aff) : aff :=
  mkaff (Matrixcom4 w (a_mat a1) (a_mat a2) (a_mat a3) (a_mat a4)) (Vectorcom4 w (a_vec a1) (a_vec a2) (a_vec a3) (a_vec a4)).
(** WBMatrix.c:3314-3328 MatrixcomM4to8 *)
Definition MatrixcomM4to8 (m1 m2 : list N) : list N :=
  map (fun i => N.shiftl (N.land (get m1 i) 0x0f) 4) (seq 0 4) ++ map (fun i => get m2 i) (seq 0 4).

(** ** Elimination *)
(** a row operation: row j += row i, or rows i and j exchanged (the statements at WBMatrix.c:2036-2038,
    :2051-2059 and the others like them, and an entry of the array [trail]) *)
Inductive op := OAdd (j i : nat) | OSwap (j i : nat).
Definition applyop (o : op) (A : list N) : list N :=
  match o with
  | OAdd j i => set A j (N.lxor (get A j) (get A i))
  | OSwap j i => let temp := get A i in set (set A i (get A j)) j temp
  end.
(** The loops that isinvertM32, invsM32 and genMatpairM32 have in common.  [temp] is the matrix that is tested;
    [step] is what the function does when it performs a row operation. *)
Section Loops.
  Context {S : Type} (n : nat) (temp : S -> list N) (step : op -> S -> S).
  (** WBMatrix.c:756-760, :1025-1030, :2034-2045: for (j = i + 1; j < n; j++) *)
  Definition elim_below (i : nat) (s : S) : S :=
    fold_left (fun s j => if readbit n (temp s) j i then step (OAdd j i) s else s) (seq (i + 1) (n - 1 - i)) s.
  (** WBMatrix.c:763-771, :1032-1043, :2049-2067: the first row below row i with a one in column i *)
  Definition find_pivot (i : nat) (s : S) : option nat :=
    find (fun j => readbit n (temp s) j i) (seq (i + 1) (n - 1 - i)).
  (** WBMatrix.c:1052-1059, :2113-2124, :2140-2148 *)
  Definition elim_above (s : S) : S :=
    fold_left (fun s i =>
      fold_left (fun s j => if readbit n (temp s) j i then step (OAdd j i) s else s) (rev (seq 0 i)) s) (rev (seq 0 n)) s.
End Loops.

(** WBMatrix.c:754-779: [None] is return 0 from the loop *)
Fixpoint isinvert_loop (n : nat) (is : list nat) (A : list N) : option (list N) :=
  match is with
  | [] => Some A
  | i :: is' =>
      if readbit n A i i then isinvert_loop n is' (elim_below n (fun A => A) applyop i A)
      else match find_pivot n (fun A => A) i A with
           | None => None
           | Some j => isinvert_loop n is' (elim_below n (fun A => A) applyop i (applyop (OSwap j i) A))
           end
  end.
(** WBMatrix.c:749-782 isinvertM32 *)
Definition isinvert (n : nat) (A : list N) : bool :=
  match isinvert_loop n (seq 0 n) A with
  | None => false
  | Some A' => (get A' (n - 1) =? get (idM n) (n - 1))%N
  end.

(** WBMatrix.c:1018-1060 invsM32; the state is (Mat, *Mat_inv) *)
Definition step2 (o : op) (s : list N * list N) : list N * list N := (applyop o (fst s), applyop o (snd s)).
Definition invs_forward (n : nat) (s : list N * list N) (i : nat) : list N * list N :=
  if readbit n (fst s) i i then elim_below n fst step2 i s
  else elim_below n fst step2 i (match find_pivot n fst i s with None => s | Some j => step2 (OSwap j i) s end).
Definition invs (n : nat) (A : list N) : list N :=
  snd (elim_above n fst step2 (fold_left (invs_forward n) (seq 0 n) (A, identityM n))).

(** ** Random numbers
    Successive values of cus_random (random.c:22-25), after whatever calls of InitRandom: any sequence [rnd] of
    32-bit numbers; a function that draws takes the number of the next draw and returns the new one. *)
Definition draw (rnd : nat -> N) (pos : nat) : N := (rnd pos mod 4294967296)%N.
(** WBMatrix.c:136-143, :145-152, :154-161, :163-170 (one draw for each row), :172-182 (two) *)
Definition randM (n : nat) (rnd : nat -> N) (pos : nat) : list N * nat :=
  if n =? 128 then (map (fun i => ((draw rnd (pos + 4 * i) * 4294967296 + draw rnd (pos + 4 * i + 1)) * 4294967296
                                    + draw rnd (pos + 4 * i + 2)) * 4294967296 + draw rnd (pos + 4 * i + 3))%N (seq 0 n), pos + 512)
  else if n =? 64 then (map (fun i => draw rnd (pos + 2 * i) * 4294967296 + draw rnd (pos + 2 * i + 1))%N (seq 0 n), pos + 128)
  else (map (fun i => (draw rnd (pos + i) mod 2 ^ N.of_nat n)%N) (seq 0 n), pos + n).
(** WBMatrix.c:252-256, :258-262, :264-268 (one draw), :270-276 (two of 16 bits), :278-286 (four of 16 bits) *)
Definition randV (n : nat) (rnd : nat -> N) (pos : nat) : N * nat :=
  let h k := (draw rnd (pos + k) mod 65536)%N in
  if n =? 128 then ((((((((h 0%nat * 65536 + h 1%nat) * 65536 + h 2%nat) * 65536 + h 3%nat) * 65536 + h 4%nat) * 65536 + h 5%nat) * 65536
                       + h 6%nat) * 65536 + h 7%nat)%N, pos + 8)
  else if n =? 64 then ((((h 0%nat * 65536 + h 1%nat) * 65536 + h 2%nat) * 65536 + h 3%nat)%N, pos + 4)
  else if n =? 32 then ((h 0%nat * 65536 + h 1%nat)%N, pos + 2)
  else ((draw rnd pos mod 2 ^ N.of_nat n)%N, pos + 1).

(** WBMatrix.c:2015-2151 genMatpairM32.  [g_ok] becomes false when an entry is written past the end of [trail]
    (:2022, n * n entries); the entries are listed latest first. *)
Record gst := mkgst { g_temp : list N; g_inv : list N; g_trail : list op; g_ok : bool }.
(** WBMatrix.c:2036-2043 and the like *)
Definition gstep (n : nat) (o : op) (s : gst) : gst :=
  mkgst (applyop o (g_temp s)) (applyop o (g_inv s)) (o :: g_trail s) (g_ok s && (length (g_trail s) <? n * n)).
(** WBMatrix.c:2143-2145: the same without recording *)
Definition gstep_norec (o : op) (s : gst) : gst :=
  mkgst (applyop o (g_temp s)) (applyop o (g_inv s)) (g_trail s) (g_ok s).
(** WBMatrix.c:2071-2093: no pivot *)
Definition gen_scramble (n : nat) (rnd : nat -> N) (i : nat) (s : gst) (pos : nat) : gst * nat :=
  if i <? n - 1 then
    let p := i + 1 + N.to_nat (draw rnd pos mod N.of_nat (n - 1 - i))%N in
    fold_left (fun sp t => let '(s, pos) := sp in
                 (if (draw rnd pos mod 2 =? 0)%N then s else gstep n (OAdd t i) s, pos + 1))
      (seq (i + 1) (n - 1 - i)) (gstep n (OSwap p i) s, pos + 1)
  else (s, pos).
(** WBMatrix.c:2031-2110; state: matrices and trail, [invertible], next draw *)
Definition gen_forward (n : nat) (rnd : nat -> N) (st : gst * bool * nat) (i : nat) : gst * bool * nat :=
  let '(s, invertible, pos) := st in
  if readbit n (g_temp s) i i then (elim_below n g_temp (gstep n) i s, invertible, pos)
  else match find_pivot n g_temp i s with
       | Some j => (elim_below n g_temp (gstep n) i (gstep n (OSwap j i) s), invertible, pos)
       | None => let '(s', pos') := gen_scramble n rnd i s pos in (s', false, pos')
       end.
Definition genMatpair (n : nat) (rnd : nat -> N) (pos : nat) : outcome (list N * list N * nat) :=
  let '(A, pos) := randM n rnd pos in
  let '(s, invertible, pos) := fold_left (gen_forward n rnd) (seq 0 n) (mkgst A (identityM n) [] true, true, pos) in
  if (invertible : bool) then
    let s := elim_above n g_temp gstep_norec s in
    if g_ok s then Ret (A, g_inv s, pos) else Undef
  else
    let s := elim_above n g_temp (gstep n) s in
    if g_ok s then Ret (fold_left (fun M o => applyop o M) (g_trail s) (identityM n), g_inv s, pos) else Undef.
(** WBMatrix.c:2605-2610 genaffinepairM32 *)
Definition genaffinepair (n : nat) (rnd : nat -> N) (pos : nat) : outcome (aff * aff * nat) :=
  obind (genMatpair n rnd pos) (fun '(A, B, pos) =>
    let '(v, pos) := randV n rnd pos in
    Ret (mkaff A v, mkaff B (MatMulVec n B v), pos)).

(** ** Permutations *)
(** WBMatrix.c:3280-3295 genPermutation4 (size 16), :3297-3312 genPermutation8 (size 256); [ji]: initial contents of
    inverse *)
Definition genPermutation (size : nat) (rnd : nat -> N) (pos : nat) (ji : list N) : list N * list N * nat :=
  let permutation := map N.of_nat (seq 0 size) in
  let permutation := fold_left (fun P i =>
      let j := N.to_nat (draw rnd (pos + i) mod N.of_nat (size - i))%N in
      let temp := get P i in set (set P i (get P (i + j))) (i + j) temp) (seq 0 (size - 1)) permutation in
  let inverse := fold_left (fun Q i => set Q (N.to_nat (get permutation i)) (N.of_nat i)) (seq 0 size) ji in
  (permutation, inverse, pos + (size - 1)).

(** ** src/utils/wrandom.c *)
(** wrandom.c:57-74 wRandomShuffleU8.  The array randNumbers has len + 10 entries: zeros, of which the first len
    are overwritten by [rs] (:43-52 wRandomList, :17-23 wRand31); the loop reads the entries len, len - 1, .., 1. *)
Fixpoint shuffle_loop (len : nat) (randNumbers : list N) (l : list N) : list N :=
  match len with
  | O => l
  | S len' =>
      let r := N.to_nat (get randNumbers len mod N.of_nat len)%N in
      let tmp := get l len' in
      shuffle_loop len' randNumbers (set (set l len' (get l r)) r tmp)
  end.
Definition wRandomShuffleU8 (rs : list N) (l : list N) : list N :=
  shuffle_loop (length l) (firstn (length l) rs ++ repeat 0%N 10) l.
