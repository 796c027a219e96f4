(** * Model of the small functions on vectors and matrices of WBMatrix.c that MatModel and Mat128Model leave out *)
From Verif Require Import Base MatModel Mat128Model.
Local Open Scope nat_scope.

(** WBMatrix.c:496-524 isequalV4 .. isequalV64 *)
Definition isequalV (a b : N) : bool := (a =? b)%N.
(** WBMatrix.c:377-410 copyM4 .. copyM64: one row after the other into the destination [old] *)
Definition copyM (n : nat) (A old : list N) : list N := fold_left (fun B i => set B i (get A i)) (seq 0 n) old.
(** WBMatrix.c:412-418 copyM128 *)
Definition copyM128 (A old : list row) : list row := fold_left (fun B i => set B i (grow A i)) (seq 0 128) old.
(** WBMatrix.c:1464-1482 VecAddVecV4 .. VecAddVecV64 *)
Definition VecAddVec (a b : N) : N := N.lxor a b.
(** WBMatrix.c:1484-1487 VecAddVecV128 *)
Definition VecAddVec128 (a b : row) : row := (N.lxor (fst a) (fst b), N.lxor (snd a) (snd b)).
