(** * Properties of the 128-bit functions of WBMatrix and of its concatenation functions (C37, C38, C40) *)
From Verif Require Import Base FpeModel MatModel MatSpec Mat128Model Mat128Spec Mat128Com.
Local Open Scope nat_scope.

(** ** C37: generated pairs, whatever the random numbers are; no write past the trail *)
Theorem C37_generated_128_bit_matrices_are_inverse : forall rnd pos, exists A B pos', genMatpair128 rnd pos = Ret (A, B, pos') /\
  mutually_inverse 128 (val A) (val B) /\
  forall x, words x -> MatMulVec128 A (MatMulVec128 B x) = x /\ MatMulVec128 B (MatMulVec128 A x) = x.
Proof. exact C37_128_matrices. Qed.
Print Assumptions C37_generated_128_bit_matrices_are_inverse.
(** the unit matrix is drawn with a one more and with zeros in row 70: not invertible, so the scrambling branch is taken *)
Definition near_identity (i : nat) : N :=
  if i <? 512 then if i / 4 =? 70 then 0%N
    else N.add (if i mod 4 =? i / 4 / 32 then N.pow 2 (N.of_nat (31 - i / 4 mod 32)) else 0%N) (if i =? 15 then 1024%N else 0%N)
  else N.of_nat i.
Example C37_128_scrambled : match genMatpair128 near_identity 0 with
  | Ret (A, B, p) => let x := (0xdeadbeef, 0x12345678)%N in
      MatMulVec128 A (MatMulVec128 B x) = x /\ MatMulVec128 B x <> x /\ p <> 512 | _ => False end.
Proof. vm_compute. repeat split; try reflexivity; discriminate. Qed.

Theorem C37_generated_128_bit_affine_maps_are_inverse : forall rnd pos, exists a b pos', genaffinepair128 rnd pos = Ret (a, b, pos') /\
  affine128 a /\ affine128 b /\
  forall x, words x -> affineU128 a (affineU128 b x) = x /\ affineU128 b (affineU128 a x) = x.
Proof. exact C37_128_affine. Qed.
Print Assumptions C37_generated_128_bit_affine_maps_are_inverse.
Example C37_128_affine_instance : match genaffinepair128 near_identity 0 with
  | Ret (a, b, _) => affineU128 b (affineU128 a (0xdeadbeef, 7)%N) = (0xdeadbeef, 7)%N /\ fst (affineU128 a (0xdeadbeef, 7)%N) <> 0xdeadbeef%N | _ => False end.
Proof. vm_compute. split; [reflexivity|discriminate]. Qed.

(** ** C38 *)
Theorem C38_128_bit_test : forall A, matrix128 A ->
  (isinvert128 A = true <-> invertible 128 (val A)) /\ (isinvert128 A = false -> singular 128 (val A)).
Proof. exact C38_128_test. Qed.
Print Assumptions C38_128_bit_test.
Theorem C38_128_bit_inverse : forall A, matrix128 A -> isinvert128 A = true -> mutually_inverse 128 (val A) (val (invs128 A)).
Proof. exact C38_128_inverse. Qed.
Print Assumptions C38_128_bit_inverse.
(** exchanging rows across the two halves and adding one row to another *)
Definition some_matrix : list row := flipbit128 (set (set identityM128 3 (grow identityM128 100)) 100 (grow identityM128 3)) 5 90.
Example C38_128_instance : isinvert128 some_matrix = true /\ invs128 some_matrix = some_matrix /\ MatMulVec128 some_matrix (1, 2 ^ 37)%N <> (1, 2 ^ 37)%N /\
  isinvert128 (set some_matrix 70 (0, 0)%N) = false.
Proof. vm_compute. repeat split; try reflexivity; discriminate. Qed.

(** ** C40: algebra *)
Theorem C40_128_bit_matrix_times_vector : forall A x, matrix128 A -> words x ->
  words (MatMulVec128 A x) /\ is_image 128 (val A) (pack x) (pack (MatMulVec128 A x)).
Proof. exact C40_128_image. Qed.
Print Assumptions C40_128_bit_matrix_times_vector.
Theorem C40_128_bit_matrices : forall A B, matrix128 A -> matrix128 B ->
  is_product 128 (val A) (val B) (val (MatMulMat128 A B)) /\
  (forall i j, i < 128 -> j < 128 -> entry 128 (val (Mattrans128 A)) i j = entry 128 (val A) j i /\
    entry 128 (val (MatAddMat128 A B)) i j = xorb (entry 128 (val A) i j) (entry 128 (val B) i j)).
Proof. exact C40_128_matrices. Qed.
Print Assumptions C40_128_bit_matrices.
Theorem C40_128_bit_product_is_composition : forall A B x, matrix128 A -> matrix128 B -> words x ->
  MatMulVec128 (MatMulMat128 A B) x = MatMulVec128 A (MatMulVec128 B x).
Proof. exact C40_128_composition. Qed.
Print Assumptions C40_128_bit_product_is_composition.
Theorem C40_128_bit_affine_composition : forall a b x, affine128 a -> affine128 b -> words x ->
  affineU128 (affinemix128 a b) x = affineU128 a (affineU128 b x).
Proof. exact C40_128_affine. Qed.
Print Assumptions C40_128_bit_affine_composition.
Theorem C40_128_bit_parity_and_weight : forall x, words x ->
  xorU128 x = xsum 128 (fun i => bit 128 (pack x) i) /\ HWU128 x = count 128 (fun i => bit 128 (pack x) i).
Proof. exact C40_128_parity. Qed.
Print Assumptions C40_128_bit_parity_and_weight.
Theorem C40_128_bit_entries : forall A i j b, matrix128 A -> i < 128 -> j < 128 ->
  readbit128 A i j = entry 128 (val A) i j /\
  (forall r c, r < 128 -> c < 128 -> entry 128 (val (flipbit128 A i j)) r c = xorb (entry 128 (val A) r c) ((r =? i) && (c =? j))) /\
  (forall r c, r < 128 -> c < 128 -> entry 128 (val (setbit128 A i j b)) r c = if (r =? i) && (c =? j) then b else entry 128 (val A) r c).
Proof. exact C40_128_bits. Qed.
Print Assumptions C40_128_bit_entries.
Theorem C40_128_bit_equality : forall A B, matrix128 A -> matrix128 B -> (isequalM128 A B = true <-> A = B).
Proof. exact C40_128_equality. Qed.
Print Assumptions C40_128_bit_equality.
Example C40_128_instance : let A := map (fun i => (N.of_nat i * 0x123456789abcdef mod 2 ^ 64, N.of_nat i * 0xfedcba987654321 mod 2 ^ 64)%N) (seq 0 128) in
  let x := (0x0123456789abcdef, 0xfedcba9876543210)%N in
  MatMulVec128 A (MatMulVec128 some_matrix x) = MatMulVec128 (MatMulMat128 A some_matrix) x /\ MatMulVec128 A x <> (0, 0)%N /\
  xorU128 (7, 1)%N = false /\ HWU128 (7, 1)%N = 4%N.
Proof. vm_compute. repeat split; try reflexivity. discriminate. Qed.

(** ** C40: block-diagonal combinations act block by block: eight 8-bit maps to 64 bits; four of 32, eight of 16 or sixteen of 8 bits
    to 128 bits *)
Theorem C40_eight_bytes_act_blockwise : forall l x k, length l = 8 -> Forall (affine 8) l -> k < 8 ->
  affine 64 (affinecom 8 8 l) /\
  block 8 8 k (affineU 64 (affinecom 8 8 l) x) = affineU 8 (nth k l (mkaff [] 0)) (block 8 8 k x) /\
  block 8 8 k (MatMulVec 64 (Matrixcom 8 8 (map a_mat l)) x) = MatMulVec 8 (nth k (map a_mat l) []) (block 8 8 k x).
Proof. exact C40_eight_bytes. Qed.
Print Assumptions C40_eight_bytes_act_blockwise.
Theorem C40_128_bit_combinations_act_blockwise : forall half w l x k, (half = 2 /\ w = 32) \/ (half = 4 /\ w = 16) \/ (half = 8 /\ w = 8) ->
  length l = 2 * half -> Forall (affine w) l -> words x -> k < 2 * half ->
  affine128 (affinecom128 half w l) /\
  block (2 * half) w k (pack (affineU128 (affinecom128 half w l) x)) = affineU w (nth k l (mkaff [] 0)) (block (2 * half) w k (pack x)) /\
  block (2 * half) w k (pack (MatMulVec128 (Matrixcom128 half w (map a_mat l)) x)) = MatMulVec w (nth k (map a_mat l) []) (block (2 * half) w k (pack x)).
Proof. exact C40_128_combined. Qed.
Print Assumptions C40_128_bit_combinations_act_blockwise.
Example C40_combined_instance :
  let m k := map (fun i => N.of_nat ((i * 29 + k) mod 256)) (seq 0 8) in
  let l := map (fun k => mkaff (m k) (N.of_nat (13 * k + 5))) (seq 0 16) in
  let x := (0x0123456789abcdef, 0xfedcba9876543210)%N in
  block 16 8 10 (pack (affineU128 (affinecom128 8 8 l) x)) = affineU 8 (nth 10 l (mkaff [] 0)) 0xba /\
  block 16 8 10 (pack x) = 0xba%N /\ affineU 8 (nth 10 l (mkaff [] 0)) 0xba <> 0xba%N /\
  block 8 8 3 (affineU 64 (affinecom 8 8 (firstn 8 l)) 0x0123456789abcdef) = affineU 8 (nth 3 l (mkaff [] 0)) 0x67.
Proof. vm_compute. repeat split; try reflexivity. discriminate. Qed.
