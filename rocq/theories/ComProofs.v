(** * Proofs: permutations, shuffling and block-diagonal matrices *)
From Verif Require Import Base FpeModel MatModel MatSpec MatProofs GaussProofs.
From Coq Require Import Sorting.Permutation.
Local Open Scope nat_scope.

(** ** Exchanging two elements *)
Lemma set_perm l : forall i (v : N), i < length l -> Permutation (get l i :: set l i v) (v :: l).
Proof.
  induction l as [|a l IH]; intros [|i] v H; cbn [length] in H; try lia.
  - cbn. apply perm_swap.
  - cbn [set]. change (get (a :: l) (S i)) with (get l i). rewrite perm_swap, (IH i v ltac:(lia)). apply perm_swap.
Qed.
Lemma swap_perm l i j : i < length l -> j < length l -> Permutation (set (set l i (get l j)) j (get l i)) l.
Proof.
  intros I J. apply (Permutation_cons_inv (a := get (set l i (get l j)) j)). rewrite set_perm by now rewrite length_set.
  rewrite (set_perm l i (get l j) I). rewrite get_set by auto. destruct (Nat.eqb_spec j i); reflexivity.
Qed.
Lemma swap_perm' l i j : i < length l -> j < length l -> Permutation (set (set l i (get l j)) j (get l i)) l.
Proof. apply swap_perm. Qed.

Lemma shuffle_loop_perm rn k : forall l, k <= length l -> Permutation (shuffle_loop k rn l) l.
Proof.
  induction k as [|k IH]; intros l H; [reflexivity|]. cbn [shuffle_loop]. cbv zeta.
  set (r := N.to_nat (get rn (S k) mod N.of_nat (S k))%N).
  assert (R : r <= k) by (unfold r; pose proof (N.mod_lt (get rn (S k)) (N.of_nat (S k)) ltac:(lia)); lia). clearbody r.
  rewrite IH by (rewrite !length_set; lia). apply swap_perm; lia.
Qed.
Lemma shuffle_loop_above rn k : forall l j, k <= j -> get (shuffle_loop k rn l) j = get l j.
Proof.
  induction k as [|k IH]; intros l j H; [reflexivity|]. cbn [shuffle_loop]. cbv zeta.
  set (r := N.to_nat (get rn (S k) mod N.of_nat (S k))%N).
  assert (R : r <= k) by (unfold r; pose proof (N.mod_lt (get rn (S k)) (N.of_nat (S k)) ltac:(lia)); lia). clearbody r.
  rewrite IH by lia. unfold get. rewrite !nth_set. destruct (Nat.eqb_spec j r); [lia|]. destruct (Nat.eqb_spec j k); [lia|]. reflexivity.
Qed.
Lemma wRandomShuffleU8_perm rs l : Permutation (wRandomShuffleU8 rs l) l.
Proof. apply shuffle_loop_perm. lia. Qed.
Lemma wRandomShuffleU8_last rs a l : length rs = length (a :: l) -> last (wRandomShuffleU8 rs (a :: l)) 0%N = a.
Proof.
  intros E. pose proof (Permutation_length (wRandomShuffleU8_perm rs (a :: l))) as L. cbn [length] in *.
  assert (LN : last (wRandomShuffleU8 rs (a :: l)) 0%N = get (wRandomShuffleU8 rs (a :: l)) (length l)).
  { destruct (@exists_last _ (wRandomShuffleU8 rs (a :: l))) as (l' & z & Q); [intros Q; rewrite Q in L; discriminate|].
    rewrite Q in *. rewrite last_last. rewrite app_length in L. cbn [length] in L. unfold get. rewrite app_nth2 by lia.
    replace (length l - length l') with 0 by lia. reflexivity. }
  rewrite LN. unfold wRandomShuffleU8. cbn [length shuffle_loop]. cbv zeta. rewrite shuffle_loop_above by lia.
  assert (Z : get (firstn (S (length l)) rs ++ repeat 0%N 10) (S (length l)) = 0%N).
  { unfold get. rewrite app_nth2; rewrite firstn_length_le by lia; [|lia]. now rewrite Nat.sub_diag. }
  rewrite Z. rewrite N.mod_0_l by lia. change (N.to_nat 0) with 0. rewrite get_set by (rewrite length_set; cbn; lia).
  destruct (Nat.eqb_spec (length l) 0) as [E0|].
  - destruct l; [reflexivity|discriminate].
  - rewrite get_set by (cbn; lia). rewrite Nat.eqb_refl. reflexivity.
Qed.

(** ** genPermutation *)
Lemma perm_loop size rnd pos k : k <= size - 1 -> forall P, length P = size ->
  Permutation (fold_left (fun P i => let j := N.to_nat (draw rnd (pos + i) mod N.of_nat (size - i))%N in
      let temp := get P i in set (set P i (get P (i + j))) (i + j) temp) (seq 0 k) P) P.
Proof.
  induction k as [|k IH]; intros K P L; [reflexivity|]. rewrite seq_S, fold_left_app. cbn [fold_left plus]. cbv zeta.
  specialize (IH ltac:(lia) P L). match goal with |- Permutation (set (set ?X _ _) _ _) _ => set (P' := X) in * end. clearbody P'.
  set (j := N.to_nat (draw rnd (pos + k) mod N.of_nat (size - k))%N).
  assert (J : k + j < size) by (unfold j; pose proof (N.mod_lt (draw rnd (pos + k)) (N.of_nat (size - k)) ltac:(lia)); lia). clearbody j.
  pose proof (Permutation_length IH). rewrite swap_perm by lia. exact IH.
Qed.
Lemma iota_perm k : permutation_of k (map N.of_nat (seq 0 k)).
Proof.
  split; [now rewrite map_length, seq_length|]. split.
  - apply FinFun.Injective_map_NoDup; [intros a b; apply Nat2N.inj|apply seq_NoDup].
  - apply Forall_forall. intros x H. apply in_map_iff in H. destruct H as (i & <- & I). apply in_seq in I. lia.
Qed.
Lemma permutation_of_perm k P Q : Permutation P Q -> permutation_of k Q -> permutation_of k P.
Proof.
  intros H (L & N & F). split; [rewrite (Permutation_length H); exact L|]. split; [apply (Permutation_NoDup (l := Q)); [now symmetry|exact N]|].
  rewrite Forall_forall in *. intros x X. apply F. now rewrite H in X.
Qed.
Lemma perm_inj k P i j : permutation_of k P -> i < k -> j < k -> get P i = get P j -> i = j.
Proof. intros (L & N & _) I J E. apply (proj1 (NoDup_nth P 0%N) N); rewrite ?L; auto. Qed.
Lemma perm_lt k P i : permutation_of k P -> i < k -> N.to_nat (get P i) < k.
Proof. intros (L & _ & F) I. rewrite Forall_forall in F. specialize (F (get P i) (@nth_In _ i P 0%N ltac:(lia))). cbn beta in F. lia. Qed.
Lemma perm_surj k P v : permutation_of k P -> (v < N.of_nat k)%N -> exists i, i < k /\ get P i = v.
Proof.
  intros (L & N & F) V.
  assert (I : incl (map N.of_nat (seq 0 k)) P).
  { apply NoDup_length_incl; [exact N|rewrite map_length, seq_length; lia|]. intros x X. rewrite Forall_forall in F. specialize (F x X). cbn beta in F.
    apply in_map_iff. exists (N.to_nat x). split; [lia|apply in_seq; lia]. }
  assert (X : In v P) by (apply I, in_map_iff; exists (N.to_nat v); split; [lia|apply in_seq; lia]).
  destruct (In_nth P v 0%N X) as (i & Hi & E). exists i. split; [lia|exact E].
Qed.
Lemma inverse_loop size P ji k : permutation_of size P -> length ji = size -> k <= size ->
  let Q := fold_left (fun Q i => set Q (N.to_nat (get P i)) (N.of_nat i)) (seq 0 k) ji in
  length Q = size /\ forall i, i < k -> get Q (N.to_nat (get P i)) = N.of_nat i.
Proof.
  intros HP L. induction k as [|k IH]; intros K; [split; [exact L|lia]|]. cbv zeta in *. rewrite seq_S, fold_left_app. cbn [fold_left plus].
  destruct (IH ltac:(lia)) as [L' G]. split; [now rewrite length_set|]. intros i I. rewrite get_set by (rewrite L'; apply (perm_lt size); auto; lia).
  destruct (Nat.eq_dec i k) as [->|Ne]; [now rewrite Nat.eqb_refl|].
  destruct (Nat.eqb_spec (N.to_nat (get P i)) (N.to_nat (get P k))) as [E|_]; [|apply G; lia].
  exfalso. apply Ne. apply (perm_inj size P); auto; lia.
Qed.
Lemma genPermutation_lemma size rnd pos ji : length ji = size ->
  let '(P, Q, _) := genPermutation size rnd pos ji in permutation_of size P /\ inverse_of size P Q.
Proof.
  intros L. unfold genPermutation. cbv zeta. match goal with |- permutation_of _ ?X /\ _ => set (P := X) end.
  assert (HP : permutation_of size P).
  { apply (permutation_of_perm _ _ _ (perm_loop size rnd pos (size - 1) (le_n _) _ ltac:(now rewrite map_length, seq_length))). apply iota_perm. }
  clearbody P. split; [exact HP|]. destruct (inverse_loop size P ji size HP L (le_n _)) as [L' G]. split; [exact L'|]. intros i I.
  split; [now apply G|]. destruct (perm_surj size P (N.of_nat i) HP ltac:(lia)) as (j & J & E).
  pose proof (G j J) as Gj. rewrite E, Nat2N.id in Gj. rewrite Gj, Nat2N.id. exact E.
Qed.

(** ** Block-diagonal matrices *)
Lemma bit_block m w k x i : k < m -> i < w -> bit w (block m w k x) i = bit (m * w) x (k * w + i).
Proof.
  intros K I. unfold bit, block. rewrite N.mod_pow2_bits_low by lia. rewrite N.div_pow2_bits. f_equal.
  enough (m * w - 1 - (k * w + i) = (w - 1 - i) + w * (m - 1 - k)) by lia.
  set (d := m - 1 - k). replace m with (d + 1 + k) by (unfold d; lia). clearbody d. rewrite !Nat.mul_add_distr_r, (Nat.mul_comm w d). lia.
Qed.
Lemma vector_block m w k x : vector w (block m w k x).
Proof. apply N.mod_lt, N.pow_nonzero. discriminate. Qed.
Lemma bit_shift m w k a k' j : k < m -> k' < m -> j < w -> vector w a ->
  bit (m * w) (N.shiftl a (N.of_nat ((m - 1 - k) * w))) (k' * w + j) = if k =? k' then bit w a j else false.
Proof.
  intros K K' J V. unfold bit. set (pos := m * w - 1 - (k' * w + j)).
  assert (P : pos = (w - 1 - j) + (m - 1 - k') * w).
  { unfold pos. set (d := m - 1 - k'). replace m with (d + 1 + k') by (unfold d; lia). clearbody d. rewrite !Nat.mul_add_distr_r. lia. }
  clearbody pos. subst pos. destruct (Nat.eqb_spec k k') as [<-|Ne].
  - rewrite N.shiftl_spec_high' by lia. f_equal. lia.
  - destruct (Nat.lt_ge_cases k k').
    + assert (Q : (m - 1 - k' + 1) * w <= (m - 1 - k) * w) by (apply Nat.mul_le_mono_r; lia). rewrite Nat.mul_add_distr_r, Nat.mul_1_l in Q.
      set (p := (m - 1 - k') * w) in *. set (q := (m - 1 - k) * w) in *. clearbody p q. apply N.shiftl_spec_low. lia.
    + assert (Q : (m - 1 - k + 1) * w <= (m - 1 - k') * w) by (apply Nat.mul_le_mono_r; lia). rewrite Nat.mul_add_distr_r, Nat.mul_1_l in Q.
      set (p := (m - 1 - k') * w) in *. set (q := (m - 1 - k) * w) in *. clearbody p q.
      rewrite N.shiftl_spec_high' by lia. apply testbit_high with (n := N.of_nat w); [exact V|lia].
Qed.
Lemma xsum_blocks m w f : xsum (m * w) f = xsum m (fun k => xsum w (fun j => f (k * w + j))).
Proof.
  induction m as [|m IH]; [reflexivity|]. cbn [xsum]. rewrite <- IH. replace (S m * w) with (m * w + w) by lia. apply xsum_add.
Qed.
Lemma vector_ext_block m w x y : vector (m * w) x -> vector (m * w) y -> (forall k, k < m -> block m w k x = block m w k y) -> x = y.
Proof.
  intros X Y H. apply (bit_ext (m * w)); auto. intros i I. assert (W : w <> 0) by (intros ->; lia).
  assert (K : i / w < m) by (apply Nat.div_lt_upper_bound; lia). pose proof (Nat.mod_upper_bound i w W) as R.
  rewrite (Nat.div_mod_eq i w), (Nat.mul_comm w). rewrite <- !(bit_block m w (i / w)) by auto. now rewrite H.
Qed.
(** a matrix whose rows k w .. k w + w - 1 hold the rows of a matrix ms k, shifted to block k *)
Definition diagonal (m w : nat) (ms : nat -> list N) (A : list N) : Prop :=
  length A = m * w /\ forall k i, k < m -> i < w -> get A (k * w + i) = N.shiftl (get (ms k) i) (N.of_nat ((m - 1 - k) * w)).
Lemma vector_shift m w k a : k < m -> vector w a -> vector (m * w) (N.shiftl a (N.of_nat ((m - 1 - k) * w))).
Proof.
  intros K V. unfold vector in *. rewrite N.shiftl_mul_pow2. apply N.lt_le_trans with (2 ^ N.of_nat w * 2 ^ N.of_nat ((m - 1 - k) * w))%N.
  - apply N.mul_lt_mono_pos_r; [|exact V]. apply N.neq_0_lt_0, N.pow_nonzero. discriminate.
  - rewrite <- N.pow_add_r. apply N.pow_le_mono_r; [discriminate|]. assert (Q : (m - 1 - k + 1) * w <= m * w) by (apply Nat.mul_le_mono_r; lia).
    rewrite Nat.mul_add_distr_r, Nat.mul_1_l in Q. set (p := (m - 1 - k) * w) in *. lia.
Qed.
Lemma matrix_diagonal m w ms A : 0 < w -> diagonal m w ms A -> (forall k, k < m -> matrix w (ms k)) -> matrix (m * w) A.
Proof.
  intros W [L H] M. apply matrix_intro; [exact L|]. intros i I.
  assert (K : i / w < m) by (apply Nat.div_lt_upper_bound; lia). pose proof (Nat.mod_upper_bound i w ltac:(lia)) as R.
  rewrite (Nat.div_mod_eq i w), (Nat.mul_comm w), H by auto. apply vector_shift; [exact K|]. apply matrix_get. auto.
Qed.
Lemma mulv_diagonal m w ms A x k : size w -> size (m * w) -> diagonal m w ms A -> (forall k, k < m -> matrix w (ms k)) -> k < m ->
  block m w k (MatMulVec (m * w) A x) = MatMulVec w (ms k) (block m w k x).
Proof.
  intros S S' D M K. pose proof (matrix_diagonal m w ms A (size_pos w S) D M) as MA. destruct D as [L H].
  apply (bit_ext w); [apply vector_block|now apply vector_mulv; auto|]. intros i I.
  rewrite bit_block by auto. rewrite bit_mulv; auto.
  2:{ assert (Q : (k + 1) * w <= m * w) by (apply Nat.mul_le_mono_r; lia). rewrite Nat.mul_add_distr_r in Q. lia. }
  rewrite bit_mulv by auto. rewrite xsum_blocks. rewrite (xsum_one m k).
  - apply xsum_ext. intros j J. rewrite bit_block by auto. f_equal. unfold entry. change (nth (k * w + i) A 0%N) with (get A (k * w + i)).
    rewrite H by auto. rewrite bit_shift by (auto; apply matrix_get; auto). now rewrite Nat.eqb_refl.
  - exact K.
  - intros k' K' Ne. apply xsum_zero. intros j J. unfold entry. change (nth (k * w + i) A 0%N) with (get A (k * w + i)).
    rewrite H by auto. rewrite bit_shift by (auto; apply matrix_get; auto). destruct (Nat.eqb_spec k k'); [congruence|reflexivity].
Qed.
Definition sel4 {A} (a b c d : A) (k : nat) : A := match k with 0 => a | 1 => b | 2 => c | _ => d end.
Lemma diagonal4 w m1 m2 m3 m4 : diagonal 4 w (sel4 m1 m2 m3 m4) (Matrixcom4 w m1 m2 m3 m4).
Proof.
  unfold Matrixcom4. cbv zeta. split; [rewrite !app_length, !map_length, !seq_length; lia|]. intros k i K I.
  assert (G : forall f, nth i (map f (seq 0 w)) 0%N = f i) by (intros f; exact (get_map_seq f w i I)).
  unfold get at 1. destruct k as [|[|[|[|]]]]; [| | | |lia]; cbn [sel4].
  - rewrite app_nth1 by (rewrite map_length, seq_length; lia). rewrite Nat.mul_0_l, Nat.add_0_l. rewrite G. f_equal. lia.
  - rewrite app_nth2 by (rewrite map_length, seq_length; lia). rewrite map_length, seq_length. rewrite app_nth1 by (rewrite map_length, seq_length; lia).
    replace (1 * w + i - w) with i by lia. rewrite G. f_equal. lia.
  - do 2 (rewrite app_nth2 by (rewrite ?map_length, ?seq_length; lia)). rewrite !map_length, !seq_length. rewrite app_nth1 by (rewrite map_length, seq_length; lia).
    replace (2 * w + i - w - w) with i by lia. rewrite G. f_equal. lia.
  - do 3 (rewrite app_nth2 by (rewrite ?map_length, ?seq_length; lia)). rewrite !map_length, !seq_length.
    replace (3 * w + i - w - w - w) with i by lia. rewrite G. cbn. now rewrite N.shiftl_0_r.
Qed.
Lemma diagonal2 m1 m2 : matrix 4 m1 -> diagonal 2 4 (fun k => match k with 0 => m1 | _ => m2 end) (MatrixcomM4to8 m1 m2).
Proof.
  intros M. split; [reflexivity|]. intros k i K I.
  assert (L : forall i, N.land (get m1 i) 0x0f = get m1 i).
  { intros r. change 0x0f%N with (N.ones 4). rewrite N.land_ones. apply N.mod_small. exact (matrix_get 4 m1 r M). }
  destruct k as [|[|]]; [| |lia]; do 4 (destruct i as [|i]; [cbn; rewrite ?L, ?N.shiftl_0_r; reflexivity|]); lia.
Qed.
Lemma Vectorcom4_block w v1 v2 v3 v4 k : k < 4 -> vector w v1 -> vector w v2 -> vector w v3 -> vector w v4 ->
  block 4 w k (Vectorcom4 w v1 v2 v3 v4) = sel4 v1 v2 v3 v4 k.
Proof.
  intros K V1 V2 V3 V4. apply (bit_ext w); [apply vector_block|destruct k as [|[|[|[|]]]]; cbn; auto|]. intros i I. rewrite bit_block by auto.
  unfold Vectorcom4. cbv zeta. unfold bit at 1. rewrite !N.lor_spec. fold (bit (4 * w) v4 (k * w + i)).
  pose proof (bit_shift 4 w 0 v1 k i ltac:(lia) K I V1) as E1. pose proof (bit_shift 4 w 1 v2 k i ltac:(lia) K I V2) as E2.
  pose proof (bit_shift 4 w 2 v3 k i ltac:(lia) K I V3) as E3. pose proof (bit_shift 4 w 3 v4 k i ltac:(lia) K I V4) as E4.
  change (4 - 1 - 0) with 3 in E1. change (4 - 1 - 1) with 2 in E2. change (4 - 1 - 2) with 1 in E3. change (4 - 1 - 3) with 0 in E4.
  rewrite Nat.mul_0_l, N.shiftl_0_r in E4. rewrite Nat.mul_1_l in E3. rewrite E4. unfold bit in E1, E2, E3.
  replace (N.of_nat (3 * w)) with (3 * N.of_nat w)%N in E1 by lia. replace (N.of_nat (2 * w)) with (2 * N.of_nat w)%N in E2 by lia.
  rewrite E1, E2, E3. destruct k as [|[|[|[|]]]]; [| | | |lia]; cbn [Nat.eqb sel4]; rewrite ?orb_false_r; reflexivity.
Qed.
Lemma vector_Vectorcom4 w v1 v2 v3 v4 : vector w v1 -> vector w v2 -> vector w v3 -> vector w v4 -> vector (4 * w) (Vectorcom4 w v1 v2 v3 v4).
Proof.
  intros V1 V2 V3 V4. pose proof (vector_shift 4 w 0 v1 ltac:(lia) V1) as E1. pose proof (vector_shift 4 w 1 v2 ltac:(lia) V2) as E2.
  pose proof (vector_shift 4 w 2 v3 ltac:(lia) V3) as E3. pose proof (vector_shift 4 w 3 v4 ltac:(lia) V4) as E4.
  change (4 - 1 - 0) with 3 in E1. change (4 - 1 - 1) with 2 in E2. change (4 - 1 - 2) with 1 in E3. change (4 - 1 - 3) with 0 in E4.
  rewrite Nat.mul_0_l, N.shiftl_0_r in E4. rewrite Nat.mul_1_l in E3.
  replace (N.of_nat (3 * w)) with (3 * N.of_nat w)%N in E1 by lia. replace (N.of_nat (2 * w)) with (2 * N.of_nat w)%N in E2 by lia.
  apply vector_bits. intros i I. unfold Vectorcom4. rewrite !N.lor_spec.
  rewrite !(fun a H => testbit_high a (N.of_nat (4 * w)) i H I); auto.
Qed.
Lemma block_lxor m w k x y : block m w k (N.lxor x y) = N.lxor (block m w k x) (block m w k y).
Proof.
  unfold block. rewrite <- !N.land_ones, <- !N.shiftr_div_pow2, N.shiftr_lxor. apply N.bits_inj. intros i.
  rewrite N.lxor_spec, !N.land_spec, N.lxor_spec. destruct (N.testbit (N.ones (N.of_nat w)) i); rewrite ?andb_true_r, ?andb_false_r; reflexivity.
Qed.
Lemma affinecom4_block w a1 a2 a3 a4 x k : w = 8 \/ w = 16 -> affine w a1 -> affine w a2 -> affine w a3 -> affine w a4 -> k < 4 ->
  block 4 w k (affineU (4 * w) (affinecom4 w a1 a2 a3 a4) x) = affineU w (sel4 a1 a2 a3 a4 k) (block 4 w k x).
Proof.
  intros W [M1 V1] [M2 V2] [M3 V3] [M4 V4] K. assert (S : size w) by (destruct W; subst; unfold size; lia). assert (S' : size (4 * w)) by (destruct W; subst; unfold size; lia).
  unfold affineU, affinecom4. cbn [a_mat a_vec]. rewrite block_lxor, Vectorcom4_block by auto.
  rewrite (mulv_diagonal 4 w _ _ x k S S' (diagonal4 w _ _ _ _)); auto.
  - destruct k as [|[|[|[|]]]]; [| | | |lia]; reflexivity.
  - intros j J. destruct j as [|[|[|[|]]]]; [| | | |lia]; auto.
Qed.
Lemma affine_affinecom4 w a1 a2 a3 a4 : w = 8 \/ w = 16 -> affine w a1 -> affine w a2 -> affine w a3 -> affine w a4 -> affine (4 * w) (affinecom4 w a1 a2 a3 a4).
Proof.
  intros W [M1 V1] [M2 V2] [M3 V3] [M4 V4]. split.
  - apply (matrix_diagonal 4 w (sel4 (a_mat a1) (a_mat a2) (a_mat a3) (a_mat a4))); [lia|apply diagonal4|]. intros j J. destruct j as [|[|[|[|]]]]; [| | | |lia]; auto.
  - now apply vector_Vectorcom4.
Qed.

Local Open Scope nat_scope.
Lemma C37_generated_affine_maps_are_inverse_lemma : forall n rnd pos, size n ->
  exists a b pos', genaffinepair n rnd pos = Ret (a, b, pos') /\
    forall x, vector n x -> affineU n a (affineU n b x) = x /\ affineU n b (affineU n a x) = x.
Proof. intros n rnd pos. intros S. destruct (genaffinepair_lemma n rnd pos S) as (a & b & p & E & A & B & H & V). exists a, b, p. split; [exact E|].
  intros x X. now apply affine_pair. Qed.

Lemma C38_test_accepts_exactly_the_invertible_lemma : forall n A, size n -> matrix n A -> (isinvert n A = true <-> invertible n A).
Proof. intros n A. intros S M. split; [now apply isinvert_true|]. intros H. destruct (isinvert n A) eqn:E; [reflexivity|].
  exfalso. exact (not_both n A S H (isinvert_false n A S M E)). Qed.

Lemma C38_inverse_lemma : forall n A, size n -> matrix n A -> isinvert n A = true -> mutually_inverse n A (invs n A).
Proof. intros n A. intros S M H. now apply invs_spec, isinvert_true. Qed.

Lemma C39_generated_permutations_lemma : forall size rnd pos ji P Q pos', length ji = size -> genPermutation size rnd pos ji = (P, Q, pos') ->
  permutation_of size P /\ inverse_of size P Q.
Proof. intros size rnd pos ji P Q pos'. intros L E. pose proof (genPermutation_lemma size rnd pos ji L) as H. now rewrite E in H. Qed.

Lemma C40_matrix_times_vector_lemma : forall n A x, size n -> matrix n A -> is_image n A x (MatMulVec n A x) /\ MatMulNum n A x = MatMulVec n A x.
Proof. intros n A x. intros S M. split; [now apply image_MatMulVec|apply MatMulNum_eq]. Qed.

Lemma C40_linear_lemma : forall n A x y, size n -> matrix n A ->
  MatMulNum n A (N.lxor x y) = N.lxor (MatMulNum n A x) (MatMulNum n A y).
Proof. intros n A x y. intros S M. rewrite !MatMulNum_eq. now apply mulv_lxor. Qed.

Lemma C40_combined_matrices_act_blockwise_lemma : forall w m1 m2 m3 m4 x k, w = 8 \/ w = 16 ->
  matrix w m1 -> matrix w m2 -> matrix w m3 -> matrix w m4 -> k < 4 ->
  block 4 w k (MatMulVec (4 * w) (Matrixcom4 w m1 m2 m3 m4) x) =
    MatMulVec w (match k with 0 => m1 | 1 => m2 | 2 => m3 | _ => m4 end) (block 4 w k x).
Proof. intros w m1 m2 m3 m4 x k. intros W M1 M2 M3 M4 K. assert (S : size w) by (destruct W; subst; unfold size; lia). assert (S' : size (4 * w)) by (destruct W; subst; unfold size; lia).
  rewrite (mulv_diagonal 4 w _ _ x k S S' (diagonal4 w _ _ _ _)); auto. intros j J. destruct j as [|[|[|[|]]]]; [| | | |lia]; auto. Qed.

Lemma C40_combined_nibble_matrices_act_blockwise_lemma : forall m1 m2 x k, matrix 4 m1 -> matrix 4 m2 -> k < 2 ->
  block 2 4 k (MatMulVec 8 (MatrixcomM4to8 m1 m2) x) = MatMulVec 4 (match k with 0 => m1 | _ => m2 end) (block 2 4 k x).
Proof. intros m1 m2 x k. intros M1 M2 K. apply (mulv_diagonal 2 4 (fun k => match k with 0 => m1 | _ => m2 end)); auto; [unfold size; lia|unfold size; lia|now apply diagonal2|].
  intros j J. destruct j as [|[|]]; [| |lia]; auto. Qed.
