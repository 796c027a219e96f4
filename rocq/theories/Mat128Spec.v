(** * What two-word rows and vectors denote, for the statements about the 128-bit functions of WBMatrix.c *)
From Verif Require Import Base MatModel MatSpec Mat128Model.
Local Open Scope nat_scope.

(** the number denoted by two words *)
Definition pack (r : row) : N := (fst r * 18446744073709551616 + snd r)%N.
(** the 128-bit matrix denoted by rows of two words *)
Definition val (A : list row) : list N := map pack A.
(** two 64-bit words *)
Definition words (r : row) : Prop := vector 64 (fst r) /\ vector 64 (snd r).
Definition matrix128 (A : list row) : Prop := length A = 128 /\ Forall words A.
Definition affine128 (a : aff128) : Prop := matrix128 (a_mat128 a) /\ words (a_vec128 a).
Definition aval (a : aff128) : aff := mkaff (val (a_mat128 a)) (pack (a_vec128 a)).
