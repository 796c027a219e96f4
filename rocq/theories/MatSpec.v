(** * Linear algebra over GF(2), for the statements about WBMatrix.c *)
From Verif Require Import Base MatModel.
Local Open Scope nat_scope.

(** the sizes of the library modelled in MatModel *)
Definition size (n : nat) : Prop := n = 4 \/ n = 8 \/ n = 16 \/ n = 32 \/ n = 64 \/ n = 128.
(** component i of the n-bit vector held in a number; component 0 is the most significant bit *)
Definition bit (n : nat) (x : N) (i : nat) : bool := N.testbit x (N.of_nat (n - 1 - i)).
(** entry in row i and column j *)
Definition entry (n : nat) (A : list N) (i j : nat) : bool := bit n (nth i A 0%N) j.
(** f 0 + .. + f (k - 1) in GF(2) *)
Fixpoint xsum (k : nat) (f : nat -> bool) : bool := match k with O => false | S k' => xorb (xsum k' f) (f k') end.
(** number of i < k with f i *)
Fixpoint count (k : nat) (f : nat -> bool) : N := match k with O => 0%N | S k' => (count k' f + (if f k' then 1 else 0))%N end.

Definition vector (n : nat) (x : N) : Prop := (x < 2 ^ N.of_nat n)%N.
Definition matrix (n : nat) (A : list N) : Prop := length A = n /\ Forall (vector n) A.
Definition affine (n : nat) (a : aff) : Prop := matrix n (a_mat a) /\ vector n (a_vec a).

(** y = A x *)
Definition is_image (n : nat) (A : list N) (x y : N) : Prop :=
  vector n y /\ forall i, i < n -> bit n y i = xsum n (fun j => entry n A i j && bit n x j).
(** C = A B *)
Definition is_product (n : nat) (A B C : list N) : Prop :=
  matrix n C /\ forall i j, i < n -> j < n -> entry n C i j = xsum n (fun k => entry n A i k && entry n B k j).
Definition is_identity (n : nat) (A : list N) : Prop :=
  matrix n A /\ forall i j, i < n -> j < n -> entry n A i j = (i =? j).
(** A B = 1 and B A = 1 *)
Definition mutually_inverse (n : nat) (A B : list N) : Prop :=
  matrix n A /\ matrix n B /\ forall i j, i < n -> j < n ->
    xsum n (fun k => entry n A i k && entry n B k j) = (i =? j) /\
    xsum n (fun k => entry n B i k && entry n A k j) = (i =? j).
Definition invertible (n : nat) (A : list N) : Prop := exists B, mutually_inverse n A B.
(** A x = 0 for some x other than 0 *)
Definition singular (n : nat) (A : list N) : Prop := exists x, vector n x /\ x <> 0%N /\ is_image n A x 0%N.

(** a list that contains each of 0 .. size - 1 once, and its inverse *)
Definition permutation_of (k : nat) (P : list N) : Prop := length P = k /\ NoDup P /\ Forall (fun x => x < N.of_nat k)%N P.
Definition inverse_of (k : nat) (P Q : list N) : Prop :=
  length Q = k /\ forall i, i < k -> get Q (N.to_nat (get P i)) = N.of_nat i /\ get P (N.to_nat (get Q i)) = N.of_nat i.
(** the k-th of the m blocks of w bits of a number, most significant first *)
Definition block (m w k : nat) (x : N) : N := ((x / 2 ^ N.of_nat (w * (m - 1 - k))) mod 2 ^ N.of_nat w)%N.
