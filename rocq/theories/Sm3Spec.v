(** * GM/T 0004-2012 (SM3), written from the standard *)
From Verif Require Import Base.
Local Open Scope nat_scope.

(** 32-bit words: rotation, addition, complement *)
Definition rol (x n : N) : N := ((x * 2 ^ n) mod 2 ^ 32 + x / 2 ^ (32 - n))%N.
Definition add (a b : N) : N := ((a + b) mod 2 ^ 32)%N.
Definition compl (x : N) : N := N.lxor x (2 ^ 32 - 1).
(** 4.1-4.4 *)
Definition IV : list N := [0x7380166f; 0x4914b2b9; 0x172442d7; 0xda8a0600; 0xa96f30bc; 0x163138aa; 0xe38dee4d; 0xb0fb0e4e]%N.
Definition Tj (j : nat) : N := if j <? 16 then 0x79cc4519%N else 0x7a879d8a%N.
Definition FF (j : nat) (x y z : N) : N :=
  if j <? 16 then N.lxor (N.lxor x y) z else N.lor (N.lor (N.land x y) (N.land x z)) (N.land y z).
Definition GG (j : nat) (x y z : N) : N :=
  if j <? 16 then N.lxor (N.lxor x y) z else N.lor (N.land x y) (N.land (compl x) z).
Definition P0 (x : N) : N := N.lxor (N.lxor x (rol x 9)) (rol x 17).
Definition P1 (x : N) : N := N.lxor (N.lxor x (rol x 15)) (rol x 23).
(** 5.2 padding to a multiple of 64 bytes *)
Definition pad_zeros (n : nat) : nat := (119 - n mod 64) mod 64.
Definition padded (m : list N) : list N :=
  m ++ [0x80%N] ++ repeat 0%N (pad_zeros (length m)) ++ N_to_be 8 (8 * N.of_nat (length m)).
(** 5.3.2 message expansion: W_0..W_67; W'_j = W_j xor W_(j+4) *)
Definition W_next (W : list N) : N :=
  let j := length W in
  N.lxor (N.lxor (P1 (N.lxor (N.lxor (get W (j - 16)) (get W (j - 9))) (rol (get W (j - 3)) 15)))
                 (rol (get W (j - 13)) 7)) (get W (j - 6)).
Fixpoint extend (n : nat) (W : list N) : list N :=
  match n with O => W | S n' => extend n' (W ++ [W_next W]) end.
Definition expanded (B : list N) : list N := extend 52 (map be_to_N (chunks 4 B)).
(** 5.3.3 compression *)
Definition regs := (N * N * N * N * N * N * N * N)%type.
Definition round (W : list N) (s : regs) (j : nat) : regs :=
  let '(A, B, C, D, E, F, G, H) := s in
  let SS1 := rol (add (add (rol A 12) E) (rol (Tj j) (N.of_nat (j mod 32)))) 7 in
  let SS2 := N.lxor SS1 (rol A 12) in
  let TT1 := add (add (add (FF j A B C) D) SS2) (N.lxor (get W j) (get W (j + 4))) in
  let TT2 := add (add (add (GG j E F G) H) SS1) (get W j) in
  (TT1, A, rol B 9, C, P0 TT2, E, rol F 19, G).
Definition to_regs (h : list N) : regs :=
  (get h 0, get h 1, get h 2, get h 3, get h 4, get h 5, get h 6, get h 7).
Definition of_regs (r : regs) : list N :=
  let '(A, B, C, D, E, F, G, H) := r in [A; B; C; D; E; F; G; H].
Definition CF (V B : list N) : list N :=
  xorl (of_regs (fold_left (round (expanded B)) (seq 0 64) (to_regs V))) V.
(** 5.3.1, 5.4 *)
Definition std_sm3 (m : list N) : list N :=
  concat (map (N_to_be 4) (fold_left CF (chunks 64 (padded m)) IV)).
