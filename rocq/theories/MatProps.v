(** * Properties of WBMatrix and wrandom (C37 - C40, C60) *)
From Verif Require Import Base FpeModel MatModel MatSpec MatProofs GaussProofs ComProofs.
From Coq Require Import Sorting.Permutation.
Local Open Scope nat_scope.

(** ** C37: generated pairs are mutually inverse, whatever the random numbers are; no write past the trail *)
Theorem C37_generated_matrices_are_inverse : forall n rnd pos, size n ->
  exists A B pos', genMatpair n rnd pos = Ret (A, B, pos') /\ mutually_inverse n A B.
Proof. exact genMatpair_lemma. Qed.
Print Assumptions C37_generated_matrices_are_inverse.
(** all rows of the random matrix equal: not invertible, so the scrambling branch is taken *)
Example C37_scrambled : match genMatpair 8 (fun i => N.of_nat (0x5a + 3 * (i / 8))) 0 with
  | Ret (A, B, _) => (isequalM 8 (MatMulMat 8 A B) (identityM 8) && negb (get A 0 =? get A 1)%N)%bool = true | _ => False end.
Proof. vm_compute. reflexivity. Qed.

Theorem C37_generated_affine_maps_are_inverse : forall n rnd pos, size n ->
  exists a b pos', genaffinepair n rnd pos = Ret (a, b, pos') /\
    forall x, vector n x -> affineU n a (affineU n b x) = x /\ affineU n b (affineU n a x) = x.
Proof. exact C37_generated_affine_maps_are_inverse_lemma. Qed.
Print Assumptions C37_generated_affine_maps_are_inverse.
Example C37_affine : match genaffinepair 32 (fun i => N.of_nat i * N.of_nat i * 7919 + 13)%N 0 with
  | Ret (a, b, _) => affineU 32 b (affineU 32 a 0xdeadbeef) = 0xdeadbeef%N /\ affineU 32 a 0xdeadbeef <> 0xdeadbeef%N | _ => False end.
Proof. vm_compute. split; [reflexivity|discriminate]. Qed.

(** ** C38: the test and the inverse *)
Theorem C38_test_accepts_exactly_the_invertible : forall n A, size n -> matrix n A -> (isinvert n A = true <-> invertible n A).
Proof. exact C38_test_accepts_exactly_the_invertible_lemma. Qed.
Print Assumptions C38_test_accepts_exactly_the_invertible.
Theorem C38_rejected_matrices_are_singular : forall n A, size n -> matrix n A -> isinvert n A = false -> singular n A.
Proof. exact isinvert_false. Qed.
Print Assumptions C38_rejected_matrices_are_singular.
Theorem C38_inverse : forall n A, size n -> matrix n A -> isinvert n A = true -> mutually_inverse n A (invs n A).
Proof. exact C38_inverse_lemma. Qed.
Print Assumptions C38_inverse.
Example C38_invertible : isinvert 4 [0x3; 0x8; 0x6; 0x2]%N = true /\ invs 4 [0x3; 0x8; 0x6; 0x2]%N = [0x4; 0x3; 0x1; 0x9]%N.
Proof. vm_compute. split; reflexivity. Qed.
Example C38_singular : isinvert 4 [0x3; 0x8; 0x6; 0xd]%N = false.
Proof. vm_compute. reflexivity. Qed.

(** ** C39: permutations *)
Theorem C39_generated_permutations : forall size rnd pos ji P Q pos', length ji = size -> genPermutation size rnd pos ji = (P, Q, pos') ->
  permutation_of size P /\ inverse_of size P Q.
Proof. exact C39_generated_permutations_lemma. Qed.
Print Assumptions C39_generated_permutations.
Example C39_generated : let '(P, Q, _) := genPermutation 16 (fun i => N.of_nat (i * 5 + 2)) 0 (repeat 9%N 16) in P <> Q /\ get Q (N.to_nat (get P 3)) = 3%N.
Proof. vm_compute. split; [discriminate|reflexivity]. Qed.
Theorem C39_shuffle_permutes : forall rs l, Permutation (wRandomShuffleU8 rs l) l.
Proof. exact wRandomShuffleU8_perm. Qed.
Print Assumptions C39_shuffle_permutes.
Example C39_shuffle : wRandomShuffleU8 [7; 5; 3; 2]%N [1; 2; 3; 4]%N = [4; 2; 3; 1]%N.
Proof. vm_compute. reflexivity. Qed.

(** ** C60: not every arrangement is reachable: the shuffle always moves the first element to the end *)
Theorem C60_shuffle_reaches_every_arrangement_refuted :
  forall rs a l, length rs = length (a :: l) -> last (wRandomShuffleU8 rs (a :: l)) 0%N = a.
Proof. exact wRandomShuffleU8_last. Qed.
Print Assumptions C60_shuffle_reaches_every_arrangement_refuted.
Example C60_arrangement : forall rs, length rs = 3 -> wRandomShuffleU8 rs [1; 2; 3]%N <> [1; 2; 3]%N.
Proof. intros rs L E. pose proof (wRandomShuffleU8_last rs 1%N [2; 3]%N L) as H. rewrite E in H. discriminate H. Qed.

(** ** C40: algebra over GF(2) *)
Theorem C40_matrix_times_vector : forall n A x, size n -> matrix n A -> is_image n A x (MatMulVec n A x) /\ MatMulNum n A x = MatMulVec n A x.
Proof. exact C40_matrix_times_vector_lemma. Qed.
Print Assumptions C40_matrix_times_vector.
Theorem C40_linear : forall n A x y, size n -> matrix n A ->
  MatMulNum n A (N.lxor x y) = N.lxor (MatMulNum n A x) (MatMulNum n A y).
Proof. exact C40_linear_lemma. Qed.
Print Assumptions C40_linear.
Example C40_vector : MatMulNum 4 [0x3; 0x8; 0x6; 0x2]%N 0xb = 0x7%N.
Proof. vm_compute. reflexivity. Qed.
Theorem C40_matrix_product : forall n A B, size n -> matrix n A -> matrix n B -> is_product n A B (MatMulMat n A B).
Proof. exact MatMulMat_spec. Qed.
Print Assumptions C40_matrix_product.
Theorem C40_product_is_composition : forall n A B x, size n -> matrix n A -> matrix n B ->
  MatMulVec n (MatMulMat n A B) x = MatMulVec n A (MatMulVec n B x).
Proof. exact mulv_mulm. Qed.
Print Assumptions C40_product_is_composition.
Example C40_product : MatMulMat 4 [0x3; 0x8; 0x6; 0x2]%N [0x1; 0x4; 0x9; 0x2]%N = [0xb; 0x1; 0xd; 0x9]%N.
Proof. vm_compute. reflexivity. Qed.
Theorem C40_transpose : forall n A, size n -> matrix n A ->
  matrix n (Mattrans n A) /\ forall i j, i < n -> j < n -> entry n (Mattrans n A) i j = entry n A j i.
Proof. exact Mattrans_spec. Qed.
Print Assumptions C40_transpose.
Theorem C40_sum : forall n A B, matrix n A -> matrix n B ->
  matrix n (MatAddMat n A B) /\ forall i j, i < n -> entry n (MatAddMat n A B) i j = xorb (entry n A i j) (entry n B i j).
Proof. exact MatAddMat_spec. Qed.
Print Assumptions C40_sum.
Theorem C40_affine_composition : forall n a b x, size n -> affine n a -> affine n b ->
  affineU n (affinemix n a b) x = affineU n a (affineU n b x).
Proof. exact affinemix_spec. Qed.
Print Assumptions C40_affine_composition.
Example C40_affine : affineU 4 (affinemix 4 (mkaff [3; 8; 6; 2]%N 5) (mkaff [1; 4; 9; 2]%N 7)) 0xa = affineU 4 (mkaff [3; 8; 6; 2]%N 5) (affineU 4 (mkaff [1; 4; 9; 2]%N 7) 0xa).
Proof. vm_compute. reflexivity. Qed.
Theorem C40_parity : forall n x, size n -> vector n x -> xorU n x = xsum n (fun i => bit n x i).
Proof. exact xorU_spec. Qed.
Print Assumptions C40_parity.
Theorem C40_weight : forall n x, size n -> vector n x -> HWU n x = count n (fun i => bit n x i).
Proof. exact HWU_spec. Qed.
Print Assumptions C40_weight.
Example C40_parity_weight : xorU 64 0x123456789abcdef1 = true /\ HWU 64 0x123456789abcdef1 = 33%N.
Proof. vm_compute. split; reflexivity. Qed.

(** block-diagonal combinations act block by block *)
Theorem C40_combined_matrices_act_blockwise : forall w m1 m2 m3 m4 x k, w = 8 \/ w = 16 ->
  matrix w m1 -> matrix w m2 -> matrix w m3 -> matrix w m4 -> k < 4 ->
  block 4 w k (MatMulVec (4 * w) (Matrixcom4 w m1 m2 m3 m4) x) =
    MatMulVec w (match k with 0 => m1 | 1 => m2 | 2 => m3 | _ => m4 end) (block 4 w k x).
Proof. exact C40_combined_matrices_act_blockwise_lemma. Qed.
Print Assumptions C40_combined_matrices_act_blockwise.
Theorem C40_combined_affine_maps_act_blockwise : forall w a1 a2 a3 a4 x k, w = 8 \/ w = 16 ->
  affine w a1 -> affine w a2 -> affine w a3 -> affine w a4 -> k < 4 ->
  block 4 w k (affineU (4 * w) (affinecom4 w a1 a2 a3 a4) x) =
    affineU w (match k with 0 => a1 | 1 => a2 | 2 => a3 | _ => a4 end) (block 4 w k x).
Proof. exact affinecom4_block. Qed.
Print Assumptions C40_combined_affine_maps_act_blockwise.
Theorem C40_combined_nibble_matrices_act_blockwise : forall m1 m2 x k, matrix 4 m1 -> matrix 4 m2 -> k < 2 ->
  block 2 4 k (MatMulVec 8 (MatrixcomM4to8 m1 m2) x) = MatMulVec 4 (match k with 0 => m1 | _ => m2 end) (block 2 4 k x).
Proof. exact C40_combined_nibble_matrices_act_blockwise_lemma. Qed.
Print Assumptions C40_combined_nibble_matrices_act_blockwise.
Example C40_blocks : let m := map (fun i => N.of_nat (i * 29 + 7)) (seq 0 8) in
  block 4 8 1 (MatMulVec 32 (Matrixcom4 8 (identityM 8) m (identityM 8) m) 0xdeadbeef) = MatMulVec 8 m 0xad /\ MatMulVec 8 m 0xad = 0x29%N.
Proof. vm_compute. split; reflexivity. Qed.
