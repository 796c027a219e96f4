(** * Model of the 128-bit functions of the matrix library, and of its remaining concatenation functions
    WBMatrix/include/WBMatrix/structure.h:85-103: a row of an M128 and a V128 are arrays of two uint64_t, of which the
    first holds components 0..63.  A row is a pair of numbers here, a matrix the list of its 128 rows. *)
From Verif Require Import Base FpeModel MatModel.
Local Open Scope nat_scope.

Definition row := (N * N)%type.
(** Mat.M[i] *)
Definition grow (M : list row) (i : nat) : row := nth i M (0%N, 0%N).
Definition radd (a b : row) : row := (N.lxor (fst a) (fst b), N.lxor (snd a) (snd b)).
Definition rand2 (a b : row) : row := (N.land (fst a) (fst b), N.land (snd a) (snd b)).

(** WBMatrix.c:96-103 initM128; :130-134 initV128 is (0, 0) *)
Definition initM128 : list row := repeat (0%N, 0%N) 128.
(** WBMatrix.c:239-250 identityM128: the loop for i < 64 and the one for i >= 64 *)
Definition identityM128 : list row :=
  map (fun i => (get idM64 i, 0%N)) (seq 0 64) ++ map (fun i => (0%N, get idM64 (i - 64))) (seq 64 64).
(** WBMatrix.c:480-494 isequalM128 *)
Definition isequalM128 (A B : list row) : bool :=
  forallb (fun i => (fst (grow A i) =? fst (grow B i))%N && (snd (grow A i) =? snd (grow B i))%N) (seq 0 128).
(** WBMatrix.c:526-531 isequalV128 *)
Definition isequalV128 (a b : row) : bool := (fst a =? fst b)%N && (snd a =? snd b)%N.
(** WBMatrix.c:563-572 readbitM128; the tests on bit (i, j) in the elimination loops are the same *)
Definition readbit128 (A : list row) (i j : nat) : bool :=
  if j <? 64 then (N.land (fst (grow A i)) (get idM64 j) =? get idM64 j)%N
  else (N.land (snd (grow A i)) (get idM64 (j - 64)) =? get idM64 (j - 64))%N.
(** v.V[0] ^= idM64[i] for i < 64, v.V[1] ^= idM64[i - 64] otherwise *)
Definition flip (v : row) (i : nat) : row :=
  if i <? 64 then (N.lxor (fst v) (get idM64 i), snd v) else (fst v, N.lxor (snd v) (get idM64 (i - 64))).
(** WBMatrix.c:599-606 flipbitM128 *)
Definition flipbit128 (A : list row) (i j : nat) : list row := set A i (flip (grow A i) j).
(** WBMatrix.c:638-642 setbitM128 *)
Definition setbit128 (A : list row) (i j : nat) (b : bool) : list row :=
  if Bool.eqb (readbit128 A i j) b then A else flipbit128 A i j.

(** ** Algebra *)
(** WBMatrix.c:1300-1306 xorU128 *)
Definition xorU128 (n : row) : bool := xorU64 (N.lxor (fst n) (snd n)).
(** WBMatrix.c:1336-1339 HWU128 *)
Definition HWU128 (n : row) : N := (HWU64 (fst n) + HWU64 (snd n))%N.
(** WBMatrix.c:1484-1487 VecAddVecV128 *)
Definition VecAddVec128 (a b : row) : row := radd a b.
(** WBMatrix.c:1584-1599 MatMulVecM128 *)
Definition MatMulVec128 (A : list row) (v : row) : row :=
  let ans := fold_left (fun ans i => if xorU128 (rand2 (grow A i) v) then flip ans i else ans) (seq 0 64) (0%N, 0%N) in
  fold_left (fun ans i => if xorU128 (rand2 (grow A i) v) then flip ans i else ans) (seq 64 64) ans.
(** Mat->M[i][..] ^= idM64[..], bit (i, j) *)
Definition flip_entry (M : list row) (i j : nat) : list row := set M i (flip (grow M i) j).
(** WBMatrix.c:3084-3100 MattransM128: both halves of the outer loop have this body, writing word 0 or word 1 *)
Definition trans_row (A : list row) (T : list row) (i : nat) : list row :=
  fold_left (fun T j =>
    let T := if (N.land (fst (grow A i)) (get idM64 j) =? 0)%N then T else flip_entry T j i in
    if (N.land (snd (grow A i)) (get idM64 j) =? 0)%N then T else flip_entry T (j + 64) i) (seq 0 64) T.
Definition Mattrans128 (A : list row) : list row :=
  fold_left (trans_row A) (seq 64 64) (fold_left (trans_row A) (seq 0 64) initM128).
(** WBMatrix.c:3137-3143 MatAddMatM128 *)
Definition MatAddMat128 (A B : list row) : list row := map (fun i => radd (grow A i) (grow B i)) (seq 0 128).
(** WBMatrix.c:3210-3229 MatMulMatM128 *)
Definition MatMulMat128 (A B : list row) : list row :=
  let T := Mattrans128 B in
  fold_left (fun M i =>
    let M := fold_left (fun M j => if xorU128 (rand2 (grow A i) (grow T j)) then flip_entry M i j else M) (seq 0 64) M in
    fold_left (fun M j => if xorU128 (rand2 (grow A i) (grow T j)) then flip_entry M i j else M) (seq 64 64) M)
    (seq 0 128) initM128.
(** structure.h: Aff128 *)
Record aff128 := mkaff128 { a_mat128 : list row; a_vec128 : row }.
(** WBMatrix.c:1251-1259 affineU128 *)
Definition affineU128 (a : aff128) (x : row) : row := radd (MatMulVec128 (a_mat128 a) x) (a_vec128 a).
(** WBMatrix.c:3271-3278 affinemixM128 *)
Definition affinemix128 (a pre_inv : aff128) : aff128 :=
  mkaff128 (MatMulMat128 (a_mat128 a) (a_mat128 pre_inv)) (radd (MatMulVec128 (a_mat128 a) (a_vec128 pre_inv)) (a_vec128 a)).

(** ** Elimination *)
(** The words of a row on which a row operation acts: depending on the loop it is in, the code operates on both words
    of the rows, on word 1 only or on word 0 only. *)
Inductive part := Both | Word0 | Word1.
Definition merge (p : part) (old new : row) : row :=
  match p with Both => new | Word0 => (fst new, snd old) | Word1 => (fst old, snd new) end.
(** WBMatrix.c:2312-2313, :2329-2335 (both), :2417, :2433-2435 (word 1), :2529 and :2548-2550 (word 0 or 1), .. *)
Definition applyop128 (p : part) (o : op) (A : list row) : list row :=
  match o with
  | OAdd j i => set A j (merge p (grow A j) (radd (grow A j) (grow A i)))
  | OSwap j i => let ri := grow A i in let rj := grow A j in set (set A i (merge p ri rj)) j (merge p rj ri)
  end.
(** forward elimination: both words in the loop for i < 64, word 1 in the loop for i >= 64
    (WBMatrix.c:824-855 and :856-883, :1111-1153 and :1154-1190, :2307-2411 and :2412-2508) *)
Definition fwd (i : nat) : part := if i <? 64 then Both else Word1.
(** backward elimination: word 1 in the loop for i >= 64, word 0 in the one for i < 64
    (WBMatrix.c:1191-1199 and :1200-1208, :2511-2525 and :2526-2540, :2560-2569 and :2570-2579) *)
Definition bwd (i : nat) : part := if i <? 64 then Word0 else Word1.
Section Loops128.
  Context {S : Type} (temp : S -> list row) (step : part -> op -> S -> S).
  (** for (j = i + 1; j < 128; j++) *)
  Definition elim_below128 (i : nat) (s : S) : S :=
    fold_left (fun s j => if readbit128 (temp s) j i then step (fwd i) (OAdd j i) s else s) (seq (i + 1) (127 - i)) s.
  (** the first row below row i with a one in column i *)
  Definition find_pivot128 (i : nat) (s : S) : option nat :=
    find (fun j => readbit128 (temp s) j i) (seq (i + 1) (127 - i)).
  (** for (j = i - 1; j >= 0; j--) *)
  Definition elim_row_above128 (s : S) (i : nat) : S :=
    fold_left (fun s j => if readbit128 (temp s) j i then step (bwd i) (OAdd j i) s else s) (rev (seq 0 i)) s.
  (** i from 127 down to 64, then from 63 down to 0 *)
  Definition elim_above128 (s : S) : S :=
    fold_left elim_row_above128 (rev (seq 0 64)) (fold_left elim_row_above128 (rev (seq 64 64)) s).
End Loops128.

(** WBMatrix.c:824-883: [None] is return 0 from the loops *)
Fixpoint isinvert_loop128 (is : list nat) (A : list row) : option (list row) :=
  match is with
  | [] => Some A
  | i :: is' =>
      if readbit128 A i i then isinvert_loop128 is' (elim_below128 (fun A => A) applyop128 i A)
      else match find_pivot128 (fun A => A) i A with
           | None => None
           | Some j => isinvert_loop128 is' (elim_below128 (fun A => A) applyop128 i (applyop128 (fwd i) (OSwap j i) A))
           end
  end.
(** WBMatrix.c:819-884 isinvertM128 *)
Definition isinvert128 (A : list row) : bool :=
  match isinvert_loop128 (seq 0 64) A with
  | None => false
  | Some A =>
      match isinvert_loop128 (seq 64 64) A with
      | None => false
      | Some A => (snd (grow A 127) =? get idM64 63)%N
      end
  end.

(** WBMatrix.c:1106-1209 invsM128; the operations on *Mat_inv are always on both words *)
Definition step2_128 (p : part) (o : op) (s : list row * list row) : list row * list row :=
  (applyop128 p o (fst s), applyop128 Both o (snd s)).
Definition invs_forward128 (s : list row * list row) (i : nat) : list row * list row :=
  if readbit128 (fst s) i i then elim_below128 fst step2_128 i s
  else elim_below128 fst step2_128 i (match find_pivot128 fst i s with None => s | Some j => step2_128 (fwd i) (OSwap j i) s end).
Definition invs128 (A : list row) : list row :=
  let s := fold_left invs_forward128 (seq 0 64) (A, identityM128) in
  let s := fold_left invs_forward128 (seq 64 64) s in
  snd (elim_above128 fst step2_128 s).

(** ** Random matrices *)
(** WBMatrix.c:184-197 randM128: four draws for each row *)
Definition randM128 (rnd : nat -> N) (pos : nat) : list row * nat :=
  (map (fun i => ((draw rnd (pos + 4 * i) * 4294967296 + draw rnd (pos + 4 * i + 1))%N,
                  (draw rnd (pos + 4 * i + 2) * 4294967296 + draw rnd (pos + 4 * i + 3))%N)) (seq 0 128), pos + 512).
(** WBMatrix.c:288-301 randV128: eight draws of 16 bits *)
Definition randV128 (rnd : nat -> N) (pos : nat) : row * nat :=
  let h k := (draw rnd (pos + k) mod 65536)%N in
  (((((h 0%nat * 65536 + h 1%nat) * 65536 + h 2%nat) * 65536 + h 3%nat)%N,
    (((h 4%nat * 65536 + h 5%nat) * 65536 + h 6%nat) * 65536 + h 7%nat)%N), pos + 8).

(** WBMatrix.c:2291-2582 genMatpairM128.  [h_ok] becomes false when an entry is written past the end of [trail]
    (:2298, 16384 entries of three bytes); the entries are listed latest first. *)
Record gst128 := mkgst128 { h_temp : list row; h_inv : list row; h_trail : list op; h_ok : bool }.
Definition gstep128 (p : part) (o : op) (s : gst128) : gst128 :=
  mkgst128 (applyop128 p o (h_temp s)) (applyop128 Both o (h_inv s)) (o :: h_trail s) (h_ok s && (length (h_trail s) <? 128 * 128)).
Definition gstep_norec128 (p : part) (o : op) (s : gst128) : gst128 :=
  mkgst128 (applyop128 p o (h_temp s)) (applyop128 Both o (h_inv s)) (h_trail s) (h_ok s).
(** WBMatrix.c:2352-2392 (i < 64), :2451-2489 (i >= 64): no pivot.  The first has no test for i < 127 and needs none. *)
Definition gen_scramble128 (rnd : nat -> N) (i : nat) (s : gst128) (pos : nat) : gst128 * nat :=
  if (i <? 64) || (i <? 127) then
    let p := i + 1 + N.to_nat (draw rnd pos mod N.of_nat (127 - i))%N in
    fold_left (fun sp t => let '(s, pos) := sp in
                 (if (draw rnd pos mod 2 =? 0)%N then s else gstep128 (fwd i) (OAdd t i) s, pos + 1))
      (seq (i + 1) (127 - i)) (gstep128 (fwd i) (OSwap p i) s, pos + 1)
  else (s, pos).
Definition gen_forward128 (rnd : nat -> N) (st : gst128 * bool * nat) (i : nat) : gst128 * bool * nat :=
  let '(s, invertible, pos) := st in
  if readbit128 (h_temp s) i i then (elim_below128 h_temp gstep128 i s, invertible, pos)
  else match find_pivot128 h_temp i s with
       | Some j => (elim_below128 h_temp gstep128 i (gstep128 (fwd i) (OSwap j i) s), invertible, pos)
       | None => let '(s', pos') := gen_scramble128 rnd i s pos in (s', false, pos')
       end.
Definition genMatpair128 (rnd : nat -> N) (pos : nat) : outcome (list row * list row * nat) :=
  let '(A, pos) := randM128 rnd pos in
  let st := fold_left (gen_forward128 rnd) (seq 0 64) (mkgst128 A identityM128 [] true, true, pos) in
  let '(s, invertible, pos) := fold_left (gen_forward128 rnd) (seq 64 64) st in
  if (invertible : bool) then
    let s := elim_above128 h_temp gstep_norec128 s in
    if h_ok s then Ret (A, h_inv s, pos) else Undef
  else
    let s := elim_above128 h_temp gstep128 s in
    if h_ok s then Ret (fold_left (fun M o => applyop128 Both o M) (h_trail s) identityM128, h_inv s, pos) else Undef.
(** WBMatrix.c:2619-2624 genaffinepairM128 *)
Definition genaffinepair128 (rnd : nat -> N) (pos : nat) : outcome (aff128 * aff128 * nat) :=
  obind (genMatpair128 rnd pos) (fun '(A, B, pos) =>
    let '(v, pos) := randV128 rnd pos in
    Ret (mkaff128 A v, mkaff128 B (MatMulVec128 B v), pos)).

(** ** Concatenation
    The arguments m1, m2, .. of the C functions are the list [ms]; the code has one loop for each of them, writing
    byte, half-word or word number count - 1, count - 2, .., 0 of the row (little-endian). *)
(** WBMatrix.c:2716-2763 MatrixcomM8to64 (count = 8, w = 8) *)
Definition Matrixcom (count w : nat) (ms : list (list N)) : list N :=
  flat_map (fun k => map (fun i => N.shiftl (get (nth k ms []) i) (N.of_nat (w * (count - 1 - k)))) (seq 0 w)) (seq 0 count).
(** WBMatrix.c:2765-2777 VectorcomV8to64 *)
Definition Vectorcom (count w : nat) (vs : list N) : N :=
  fold_left (fun v k => N.lor v (N.shiftl (nth k vs 0%N) (N.of_nat (w * (count - 1 - k))))) (seq 0 count) 0%N.
(** WBMatrix.c:2779-2784 affinecomM8to64 *)
Definition affinecom (count w : nat) (l : list aff) : aff :=
  mkaff (Matrixcom count w (map a_mat l)) (Vectorcom count w (map a_vec l)).
(** WBMatrix.c:2786-2812 MatrixcomM32to128 (half = 2, w = 32), :2832-2920 MatrixcomM8to128 (half = 8, w = 8), :2957-3004
    MatrixcomM16to128 (half = 4, w = 16): the first half of the matrices goes to word 0, the second to word 1 *)
Definition Matrixcom128 (half w : nat) (ms : list (list N)) : list row :=
  map (fun x => (x, 0%N)) (Matrixcom half w (firstn half ms)) ++ map (fun x => (0%N, x)) (Matrixcom half w (skipn half ms)).
(** WBMatrix.c:2814-2823 VectorcomV32to128, :2922-2945 VectorcomV8to128, :3006-3020 VectorcomV16to128 *)
Definition Vectorcom128 (half w : nat) (vs : list N) : row :=
  (Vectorcom half w (firstn half vs), Vectorcom half w (skipn half vs)).
(** WBMatrix.c:2825-2830 affinecomM32to128, :2947-2955 affinecomM8to128, :3022-3027 affinecomM16to128 *)
Definition affinecom128 (half w : nat) (l : list aff) : aff128 :=
  mkaff128 (Matrixcom128 half w (map a_mat l)) (Vectorcom128 half w (map a_vec l)).
