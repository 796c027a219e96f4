(** * What the generators of encodings can produce (C60, C98) *)
From Verif Require Import Base FpeModel MatModel MatSpec MatProofs GaussProofs ComProofs Reach Wbsm4Model.
From Coq Require Import Sorting.Permutation.
Local Open Scope nat_scope.

(** ** C60: the shuffle produces exactly the arrangements that end in the first element of the argument *)
Theorem C60_shuffle_reaches_exactly_partial : forall a l p,
  (exists rs, length rs = length (a :: l) /\ wRandomShuffleU8 rs (a :: l) = p) <-> Permutation p (a :: l) /\ last p 0%N = a.
Proof. exact shuffle_reach_lemma. Qed.
Print Assumptions C60_shuffle_reaches_exactly_partial.
Example C60_reached : exists rs, length rs = 4 /\ wRandomShuffleU8 rs [1; 2; 3; 4]%N = [3; 4; 2; 1]%N.
Proof. exists [5; 9; 4; 4]%N. vm_compute. split; reflexivity. Qed.

(** white-box SM4: the real rounds (0) and groups of four dummy rounds (1) come in every order that ends in a real round *)
Theorem wbsm4_dummy_positions : forall d w,
  (exists rs, length rs = 32 + d /\ wbsm4_gen_dummyround_array rs 32 d = w) <->
  (exists p, Permutation p (repeat 0%N 32 ++ repeat 1%N d) /\ last p 0%N = 0%N /\ w = flat_map (fun x => if (x =? 0)%N then [0%N] else [1; 1; 1; 1]%N) p).
Proof.
  assert (E : forall p, flat_map (fun d => if (d =? 0)%N then [d] else repeat 1%N 4) p = flat_map (fun x => if (x =? 0)%N then [0%N] else [1; 1; 1; 1]%N) p).
  { induction p as [|x p IH]; [reflexivity|]. cbn [flat_map]. rewrite IH. destruct (N.eqb_spec x 0) as [->|]; reflexivity. }
  intros d w. unfold wbsm4_gen_dummyround_array. set (da := repeat 0%N 32 ++ repeat 1%N d).
  assert (Q : da = 0%N :: (repeat 0%N 31 ++ repeat 1%N d)) by reflexivity.
  assert (L : length da = 32 + d) by (unfold da; now rewrite app_length, !repeat_length).
  split.
  - intros (rs & LR & <-). exists (wRandomShuffleU8 rs da). rewrite E.
    assert (H : exists rs', length rs' = length (0%N :: (repeat 0%N 31 ++ repeat 1%N d)) /\ wRandomShuffleU8 rs' (0%N :: (repeat 0%N 31 ++ repeat 1%N d)) = wRandomShuffleU8 rs da).
    { exists rs. rewrite <- Q. split; [lia|reflexivity]. }
    apply shuffle_reach_lemma in H. rewrite <- Q in H. destruct H as [P La]. auto.
  - intros (p & P & La & ->). destruct (proj2 (shuffle_reach_lemma 0%N (repeat 0%N 31 ++ repeat 1%N d) p)) as (rs & LR & H).
    + split; [exact P|exact La].
    + exists rs. rewrite <- Q in LR, H. split; [lia|]. rewrite H. apply E.
Qed.
Print Assumptions wbsm4_dummy_positions.
Example wbsm4_dummy_positions_case : wbsm4_gen_dummyround_array (repeat 0%N 33) 32 1 = repeat 0%N 31 ++ [1; 1; 1; 1; 0]%N /\
  wbsm4_gen_dummyround_array (repeat 30%N 33) 32 1 = repeat 0%N 29 ++ [1; 1; 1; 1; 0; 0; 0]%N.
Proof. vm_compute. split; reflexivity. Qed.

(** ** C98: every permutation, with its inverse, comes from some random numbers *)
Theorem every_permutation_can_be_generated : forall size pos ji P Q, 1 <= size -> (N.of_nat size <= 4294967296)%N -> length ji = size ->
  permutation_of size P -> inverse_of size P Q -> exists rnd pos', genPermutation size rnd pos ji = (P, Q, pos').
Proof. exact genPermutation_reach_lemma. Qed.
Print Assumptions every_permutation_can_be_generated.
Example every_permutation_case : permutation_of 4 [2; 0; 3; 1]%N /\ inverse_of 4 [2; 0; 3; 1]%N [1; 3; 0; 2]%N /\
  fst (genPermutation 4 (fun i => nth i [2; 1; 1]%N 0%N) 0 (repeat 9%N 4)) = ([2; 0; 3; 1]%N, [1; 3; 0; 2]%N).
Proof.
  split; [|split; [|vm_compute; reflexivity]].
  - split; [reflexivity|]. split; [repeat constructor; cbn; intuition discriminate|repeat constructor].
  - split; [reflexivity|]. intros i I. do 4 (destruct i as [|i]; [vm_compute; split; reflexivity|]). lia.
Qed.

(** every invertible matrix of the six sizes, and every affine map with one *)
Theorem every_matrix_can_be_generated : forall n A pos, size n -> invertible n A ->
  exists rnd B pos', genMatpair n rnd pos = Ret (A, B, pos') /\ mutually_inverse n A B.
Proof. exact genMatpair_reach_lemma. Qed.
Print Assumptions every_matrix_can_be_generated.
Theorem every_affine_map_can_be_generated : forall n a pos, size n -> invertible n (a_mat a) -> vector n (a_vec a) ->
  exists rnd b pos', genaffinepair n rnd pos = Ret (a, b, pos').
Proof. exact genaffinepair_reach_lemma. Qed.
Print Assumptions every_affine_map_can_be_generated.
Example every_affine_map_case : invertible 4 [0x3; 0x8; 0x6; 0x2]%N /\
  genaffinepair 4 (fun i => nth i [0x3; 0x8; 0x6; 0x2; 0xb]%N 0%N) 0 = Ret (mkaff [0x3; 0x8; 0x6; 0x2]%N 0xb%N, mkaff [0x4; 0x3; 0x1; 0x9]%N 0x2%N, 5).
Proof.
  split; [|vm_compute; reflexivity]. apply isinvert_true; [left; reflexivity|split; [reflexivity|repeat constructor]|vm_compute; reflexivity].
Qed.
