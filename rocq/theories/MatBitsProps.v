(** * Properties of the small functions on vectors and matrices (C40) *)
From Verif Require Import Base MatModel MatSpec Mat128Model Mat128Spec MatBitsModel MatBitsProofs.
Local Open Scope nat_scope.

(** ** C40: reading, flipping and setting an entry; equality, copies and sums *)
Theorem C40_entries : forall n A i j b, size n -> matrix n A -> i < n -> j < n ->
  readbit n A i j = entry n A i j /\
  matrix n (flipbit n A i j) /\ matrix n (setbit n A i j b) /\
  (forall r c, r < n -> c < n -> entry n (flipbit n A i j) r c = xorb (entry n A r c) ((r =? i) && (c =? j))) /\
  (forall r c, r < n -> c < n -> entry n (setbit n A i j b) r c = if (r =? i) && (c =? j) then b else entry n A r c).
Proof. exact bits_lemma. Qed.
Print Assumptions C40_entries.
Example C40_entries_case : let A := [0x3; 0x8; 0x6; 0x2]%N in
  readbit 4 A 1 0 = true /\ setbit 4 A 1 0 true = A /\ setbit 4 A 1 0 false = [0x3; 0; 0x6; 0x2]%N /\ flipbit 4 A 3 3 = [0x3; 0x8; 0x6; 0x3]%N.
Proof. vm_compute. auto. Qed.
Theorem C40_equality : forall n A B a b, matrix n A -> matrix n B ->
  (isequalM n A B = true <-> A = B) /\ (isequalV a b = true <-> a = b).
Proof. exact equal_lemma. Qed.
Print Assumptions C40_equality.
Theorem C40_128_bit_vector_equality : forall a b, isequalV128 a b = true <-> a = b.
Proof. exact equal128_lemma. Qed.
Print Assumptions C40_128_bit_vector_equality.
Example C40_equality_case : isequalM 4 [1; 2; 3; 4]%N [1; 2; 3; 5]%N = false /\ isequalM 4 [1; 2; 3; 4]%N [1; 2; 3; 4]%N = true /\
  isequalV128 (1, 2)%N (1, 3)%N = false /\ isequalV128 (1, 2)%N (1, 2)%N = true.
Proof. vm_compute. auto. Qed.
Theorem C40_copies : forall n A old B old', length A = n -> length old = n -> length B = 128 -> length old' = 128 ->
  copyM n A old = A /\ copyM128 B old' = B.
Proof. intros n A old B old' L1 L2 L3 L4. exact (conj (copy_lemma n A old L1 L2) (copy128_lemma B old' L3 L4)). Qed.
Print Assumptions C40_copies.
Example C40_copies_case : copyM 4 [1; 2; 3; 4]%N [9; 9; 9; 9]%N = [1; 2; 3; 4]%N.
Proof. reflexivity. Qed.
Theorem C40_vector_sums : forall n a b, vector n a -> vector n b ->
  vector n (VecAddVec a b) /\ forall i, bit n (VecAddVec a b) i = xorb (bit n a i) (bit n b i).
Proof. exact vecadd_lemma. Qed.
Print Assumptions C40_vector_sums.
Theorem C40_128_bit_vector_sums : forall a b, words a -> words b ->
  words (VecAddVec128 a b) /\ forall i, bit 128 (pack (VecAddVec128 a b)) i = xorb (bit 128 (pack a) i) (bit 128 (pack b) i).
Proof. exact vecadd128_lemma. Qed.
Print Assumptions C40_128_bit_vector_sums.
Example C40_vector_sums_case : VecAddVec 0xa5 0x3c = 0x99%N /\ VecAddVec128 (1, 2)%N (3, 2)%N = (2, 0)%N.
Proof. vm_compute. auto. Qed.
