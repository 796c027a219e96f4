(** * Proofs about the matrix library *)
From Verif Require Import Base Word32 FpeModel MatModel MatSpec.
Local Open Scope nat_scope.

(** ** Sums *)
Lemma xsum_ext k f g : (forall i, i < k -> f i = g i) -> xsum k f = xsum k g.
Proof. induction k as [|k IH]; intros H; [reflexivity|]. cbn [xsum]. rewrite IH, H by auto. reflexivity. Qed.
Lemma xsum_false k : xsum k (fun _ => false) = false.
Proof. induction k as [|k IH]; [reflexivity|]. cbn [xsum]. now rewrite IH. Qed.
Lemma xsum_zero k f : (forall i, i < k -> f i = false) -> xsum k f = false.
Proof. intros H. rewrite (xsum_ext k f (fun _ => false)) by exact H. apply xsum_false. Qed.
Lemma xsum_xor k f g : xsum k (fun i => xorb (f i) (g i)) = xorb (xsum k f) (xsum k g).
Proof.
  induction k as [|k IH]; [reflexivity|]. cbn [xsum]. rewrite IH.
  destruct (xsum k f), (xsum k g), (f k), (g k); reflexivity.
Qed.
Lemma xsum_and k b f : xsum k (fun i => b && f i) = b && xsum k f.
Proof. destruct b; cbn; [reflexivity|apply xsum_false]. Qed.
Lemma xsum_and_r k b f : xsum k (fun i => f i && b) = xsum k f && b.
Proof. rewrite (xsum_ext _ _ (fun i => b && f i)) by (intros; apply andb_comm). rewrite xsum_and. apply andb_comm. Qed.
Lemma xsum_swap m k f : xsum m (fun i => xsum k (fun j => f i j)) = xsum k (fun j => xsum m (fun i => f i j)).
Proof.
  induction m as [|m IH]; cbn [xsum]; [now rewrite xsum_false|]. rewrite IH. now rewrite <- xsum_xor.
Qed.
Lemma xsum_one k j f : j < k -> (forall i, i < k -> i <> j -> f i = false) -> xsum k f = f j.
Proof.
  revert j; induction k as [|k IH]; intros j J H; [lia|]. cbn [xsum]. destruct (Nat.eq_dec j k) as [->|N].
  - rewrite xsum_zero; [apply xorb_false_l|]. intros i I. apply H; lia.
  - rewrite (IH j) by (try lia; intros; apply H; lia). rewrite (H k) by lia. apply xorb_false_r.
Qed.
Lemma xsum_unit k j f : j < k -> xsum k (fun i => f i && (i =? j)) = f j.
Proof.
  intros J. rewrite (xsum_one k j) by (auto; intros i _ I; apply Nat.eqb_neq in I; now rewrite I, andb_false_r).
  now rewrite Nat.eqb_refl, andb_true_r.
Qed.
Lemma xsum_unit_l k j f : j < k -> xsum k (fun i => (j =? i) && f i) = f j.
Proof.
  intros J. rewrite (xsum_one k j); [now rewrite Nat.eqb_refl|auto|].
  intros i _ I. apply not_eq_sym, Nat.eqb_neq in I. now rewrite I.
Qed.
Lemma xsum_add a b f : xsum (a + b) f = xorb (xsum a f) (xsum b (fun i => f (a + i))).
Proof.
  induction b as [|b IH]; [cbn [xsum]; now rewrite Nat.add_0_r, xorb_false_r|].
  rewrite Nat.add_succ_r. cbn [xsum]. rewrite IH. now rewrite xorb_assoc.
Qed.
Lemma xsum_S k f : xsum (S k) f = xorb (f 0) (xsum k (fun i => f (S i))).
Proof. change (S k) with (1 + k). rewrite xsum_add. cbn [xsum]. rewrite xorb_false_l. reflexivity. Qed.
Lemma xsum_rev k f : xsum k f = xsum k (fun i => f (k - 1 - i)).
Proof.
  revert f; induction k as [|k IH]; intros f; [reflexivity|].
  rewrite xsum_S, (IH (fun i => f (S i))). cbn [xsum]. replace (S k - 1 - k) with 0 by lia. rewrite xorb_comm. f_equal.
  apply xsum_ext. intros i I. f_equal. lia.
Qed.

(** ** Bits *)
Lemma size_pos n : size n -> 0 < n.
Proof. unfold size. lia. Qed.
Lemma idM_sweep n : size n -> forallb (fun i => (get (idM n) i =? 2 ^ N.of_nat (n - 1 - i))%N) (seq 0 n) = true.
Proof. intros [-> | [-> | [-> | [-> | [-> | ->]]]]]; vm_compute; reflexivity. Qed.
Lemma idM_spec n i : size n -> i < n -> get (idM n) i = (2 ^ N.of_nat (n - 1 - i))%N.
Proof.
  intros S I. pose proof (idM_sweep n S) as Q. rewrite forallb_forall in Q. apply N.eqb_eq, Q, in_seq. lia.
Qed.
Lemma bit_ext n x y : vector n x -> vector n y -> (forall i, i < n -> bit n x i = bit n y i) -> x = y.
Proof.
  intros X Y H. apply N.bits_inj. intros i. destruct (N.lt_ge_cases i (N.of_nat n)) as [L|L].
  - specialize (H (n - 1 - N.to_nat i)). unfold bit in H. replace (N.of_nat (n - 1 - (n - 1 - N.to_nat i))) with i in H by lia. apply H. lia.
  - now rewrite !(testbit_high _ (N.of_nat n)) by auto.
Qed.
Lemma bit_lxor n x y i : bit n (N.lxor x y) i = xorb (bit n x i) (bit n y i).
Proof. apply N.lxor_spec. Qed.
Lemma bit_land n x y i : bit n (N.land x y) i = bit n x i && bit n y i.
Proof. apply N.land_spec. Qed.
Lemma bit_0 n i : bit n 0 i = false.
Proof. apply N.bits_0. Qed.
Lemma bit_id n i j : size n -> i < n -> j < n -> bit n (get (idM n) i) j = (i =? j).
Proof.
  intros S I J. rewrite idM_spec by auto. unfold bit. rewrite N.pow2_bits_eqb.
  destruct (N.eqb_spec (N.of_nat (n - 1 - i)) (N.of_nat (n - 1 - j))), (Nat.eqb_spec i j); try reflexivity; lia.
Qed.
Lemma vector_0 n : vector n 0.
Proof. unfold vector. apply N.neq_0_lt_0, N.pow_nonzero. discriminate. Qed.
Lemma vector_lxor n x y : vector n x -> vector n y -> vector n (N.lxor x y).
Proof. apply lxor_lt. Qed.
Lemma vector_id n i : size n -> i < n -> vector n (get (idM n) i).
Proof. intros S I. rewrite idM_spec by auto. apply N.pow_lt_mono_r; lia. Qed.
Lemma vector_bits n x : (forall i, (N.of_nat n <= i)%N -> N.testbit x i = false) -> vector n x.
Proof.
  intros H. unfold vector. destruct (N.lt_ge_cases x (2 ^ N.of_nat n)) as [L|L]; [exact L|exfalso].
  assert (x <> 0%N) by (intros ->; pose proof (vector_0 n); unfold vector in *; lia).
  pose proof (N.bit_log2 x ltac:(assumption)) as B. rewrite H in B; [discriminate|]. apply N.log2_le_pow2 in L; lia.
Qed.
Lemma vector_land n x y : vector n x -> vector n (N.land x y).
Proof. intros X. apply vector_bits. intros i I. rewrite N.land_spec, (testbit_high x (N.of_nat n)) by auto. reflexivity. Qed.
Lemma readbit_spec n A i j : size n -> j < n -> readbit n A i j = entry n A i j.
Proof.
  intros S J. unfold readbit, entry, bit. change (nth i A 0%N) with (get A i). rewrite idM_spec by auto. set (k := N.of_nat (n - 1 - j)). set (a := get A i).
  destruct (N.eqb_spec (N.land a (2 ^ k)) (2 ^ k)) as [E|E].
  - symmetry. assert (Q : N.testbit (N.land a (2 ^ k)) k = true) by (rewrite E, N.pow2_bits_eqb; apply N.eqb_refl).
    rewrite N.land_spec in Q. now apply andb_true_iff in Q.
  - destruct (N.testbit a k) eqn:T; [|reflexivity]. exfalso. apply E. apply N.bits_inj. intros i'. rewrite N.land_spec, N.pow2_bits_eqb.
    destruct (N.eqb_spec k i') as [->|]; [now rewrite T|apply andb_false_r].
Qed.
Lemma land_id_zero n a j : size n -> j < n -> (N.land a (get (idM n) j) =? 0)%N = negb (bit n a j).
Proof.
  intros S J. rewrite idM_spec by auto. unfold bit. set (k := N.of_nat (n - 1 - j)).
  destruct (N.testbit a k) eqn:T.
  - apply N.eqb_neq. intros E. assert (Q : N.testbit (N.land a (2 ^ k)) k = true) by (rewrite N.land_spec, N.pow2_bits_eqb, T, N.eqb_refl; reflexivity).
    rewrite E, N.bits_0 in Q. discriminate.
  - apply N.eqb_eq. apply N.bits_inj. intros i'. rewrite N.land_spec, N.pow2_bits_eqb, N.bits_0.
    destruct (N.eqb_spec k i') as [->|]; [now rewrite T|apply andb_false_r].
Qed.
Lemma matrix_get n A i : matrix n A -> vector n (get A i).
Proof.
  intros [L F]. unfold get. destruct (Nat.lt_ge_cases i (length A)) as [H|H].
  - rewrite Forall_forall in F. apply F, nth_In, H.
  - rewrite nth_overflow by auto. apply vector_0.
Qed.
Lemma matrix_ext n A B : matrix n A -> matrix n B -> (forall i j, i < n -> j < n -> entry n A i j = entry n B i j) -> A = B.
Proof.
  intros MA MB H. apply list_ext_get; [destruct MA, MB; congruence|]. destruct MA as [LA FA] eqn:?. intros i I. rewrite LA in I.
  apply (bit_ext n); [apply matrix_get; auto|apply matrix_get; auto|]. intros j J. apply (H i j); auto.
Qed.
Lemma matrix_intro n A : length A = n -> (forall i, i < n -> vector n (get A i)) -> matrix n A.
Proof.
  intros L H. split; [exact L|]. apply Forall_forall. intros x X. apply In_nth with (d := 0%N) in X. destruct X as (i & I & <-). apply H. lia.
Qed.
Lemma matrix_set n A i v : matrix n A -> vector n v -> matrix n (set A i v).
Proof.
  intros [L F] V. split; [now rewrite length_set|]. apply Forall_forall. intros x X. apply In_nth with (d := 0%N) in X. destruct X as (k & K & <-).
  rewrite length_set in K. rewrite nth_set. destruct (_ && _); [exact V|]. rewrite Forall_forall in F. now apply F, nth_In.
Qed.
Lemma entry_set n A k v i j : k < length A -> entry n (set A k v) i j = if i =? k then bit n v j else entry n A i j.
Proof. intros K. unfold entry. change (nth i (set A k v) 0%N) with (get (set A k v) i). rewrite get_set by auto. destruct (i =? k); reflexivity. Qed.
Lemma get_map_seq (f : nat -> N) n i : i < n -> get (map f (seq 0 n)) i = f i.
Proof. intros I. unfold get. rewrite (nth_indep _ 0%N (f 0)) by (rewrite map_length, seq_length; auto). rewrite map_nth, seq_nth by auto. reflexivity. Qed.

(** ** Parity and weight *)
Definition parity (k : nat) (x : N) : bool := xsum k (fun i => N.testbit x (N.of_nat i)).
Lemma parity_fold k x : parity (k + k) x = parity k (N.lxor (x mod 2 ^ N.of_nat k) (x / 2 ^ N.of_nat k))%N.
Proof.
  unfold parity. rewrite xsum_add, <- xsum_xor. apply xsum_ext. intros i I. rewrite N.lxor_spec, N.mod_pow2_bits_low by lia.
  rewrite N.div_pow2_bits. do 2 f_equal. lia.
Qed.
Lemma xor_sweep : forallb (fun i => Bool.eqb (xorU8 (N.of_nat i)) (parity 8 (N.of_nat i))) (seq 0 256) = true.
Proof. vm_compute. reflexivity. Qed.
Lemma xorU8_spec x : byte x -> xorU8 x = parity 8 x.
Proof.
  intros B. pose proof xor_sweep as Q. rewrite forallb_forall in Q. specialize (Q (N.to_nat x)). rewrite N2Nat.id in Q.
  apply eqb_prop, Q, in_seq. unfold byte in B. lia.
Qed.
Lemma half_lt x a b : (x < a * b -> b <> 0 -> x / b < a)%N.
Proof. intros H B. apply N.div_lt_upper_bound; [exact B|lia]. Qed.
Lemma xorU16_spec x : (x < 65536)%N -> xorU16 x = parity 16 x.
Proof.
  intros B. unfold xorU16. rewrite xorU8_spec; [symmetry; exact (parity_fold 8 x)|].
  apply (lxor_lt 8); [apply N.mod_lt; discriminate|apply half_lt; [exact B|discriminate]].
Qed.
Lemma xorU32_spec x : (x < 4294967296)%N -> xorU32 x = parity 32 x.
Proof.
  intros B. unfold xorU32. rewrite xorU16_spec; [symmetry; exact (parity_fold 16 x)|].
  apply (lxor_lt 16); [apply N.mod_lt; discriminate|apply half_lt; [exact B|discriminate]].
Qed.
Lemma xorU64_spec x : (x < 18446744073709551616)%N -> xorU64 x = parity 64 x.
Proof.
  intros B. unfold xorU64. rewrite xorU32_spec; [symmetry; exact (parity_fold 32 x)|].
  apply (lxor_lt 32); [apply N.mod_lt; discriminate|apply half_lt; [exact B|discriminate]].
Qed.
Lemma xorU128_spec x : (x < 18446744073709551616 * 18446744073709551616)%N -> xorU128n x = parity 128 x.
Proof.
  intros B. unfold xorU128n. rewrite xorU64_spec; [symmetry; exact (parity_fold 64 x)|].
  apply (lxor_lt 64); [apply N.mod_lt; discriminate|apply half_lt; [exact B|discriminate]].
Qed.
Lemma parity_bits n x : parity n x = xsum n (fun i => bit n x i).
Proof. unfold parity, bit. rewrite xsum_rev. reflexivity. Qed.
Lemma xorU_spec n x : size n -> vector n x -> xorU n x = xsum n (fun i => bit n x i).
Proof.
  intros S V. rewrite <- parity_bits. destruct S as [-> | [-> | [-> | [-> | [-> | ->]]]]]; unfold xorU; cbn [Nat.eqb].
  - assert (B : byte x) by (unfold vector, byte in *; change (2 ^ N.of_nat 4)%N with 16%N in V; lia).
    rewrite xorU8_spec by exact B. unfold parity. rewrite (xsum_add 4 4). rewrite (xsum_zero 4 (fun i => N.testbit x (N.of_nat (4 + i)))); [apply xorb_false_r|].
    intros i I. apply (testbit_high x (N.of_nat 4)); [exact V|lia].
  - apply xorU8_spec. exact V.
  - apply xorU16_spec. exact V.
  - apply xorU32_spec. exact V.
  - apply xorU64_spec. exact V.
  - apply xorU128_spec. exact V.
Qed.
Definition weight (k : nat) (x : N) : N := count k (fun i => N.testbit x (N.of_nat i)).
Lemma count_ext k f g : (forall i, i < k -> f i = g i) -> count k f = count k g.
Proof. induction k as [|k IH]; intros H; [reflexivity|]. cbn [count]. rewrite IH, H by auto. reflexivity. Qed.
Lemma count_add a b f : count (a + b) f = (count a f + count b (fun i => f (a + i)%nat))%N.
Proof.
  induction b as [|b IH]; [cbn [count]; rewrite Nat.add_0_r; lia|].
  rewrite Nat.add_succ_r. cbn [count]. rewrite IH. lia.
Qed.
Lemma count_rev k f : count k f = count k (fun i => f (k - 1 - i)).
Proof.
  revert f; induction k as [|k IH]; intros f; [reflexivity|].
  change (S k) with (1 + k) at 1. rewrite count_add, (IH (fun i => f (1 + i))). cbn [count]. replace (S k - 1 - k) with 0 by lia. rewrite N.add_0_l, N.add_comm. f_equal.
  apply count_ext. intros i I. f_equal. lia.
Qed.
Lemma weight_fold k x : weight (k + k) x = (weight k (x mod 2 ^ N.of_nat k) + weight k (x / 2 ^ N.of_nat k))%N.
Proof.
  unfold weight. rewrite count_add. f_equal; apply count_ext; intros i I.
  - rewrite N.mod_pow2_bits_low by lia. reflexivity.
  - rewrite N.div_pow2_bits. f_equal. lia.
Qed.
Lemma HW_sweep : forallb (fun i => (HWU8 (N.of_nat i) =? weight 8 (N.of_nat i))%N) (seq 0 256) = true.
Proof. vm_compute. reflexivity. Qed.
Lemma HWU8_spec x : byte x -> HWU8 x = weight 8 x.
Proof.
  intros B. pose proof HW_sweep as Q. rewrite forallb_forall in Q. specialize (Q (N.to_nat x)). rewrite N2Nat.id in Q.
  apply N.eqb_eq, Q, in_seq. unfold byte in B. lia.
Qed.
Lemma HWU16_spec x : (x < 65536)%N -> HWU16 x = weight 16 x.
Proof.
  intros B. unfold HWU16. rewrite !HWU8_spec; [symmetry; exact (weight_fold 8 x)|apply half_lt; [exact B|discriminate]|apply N.mod_lt; discriminate].
Qed.
Lemma HWU32_spec x : (x < 4294967296)%N -> HWU32 x = weight 32 x.
Proof.
  intros B. unfold HWU32. rewrite !HWU16_spec; [symmetry; exact (weight_fold 16 x)|apply half_lt; [exact B|discriminate]|apply N.mod_lt; discriminate].
Qed.
Lemma HWU64_spec x : (x < 18446744073709551616)%N -> HWU64 x = weight 64 x.
Proof.
  intros B. unfold HWU64. rewrite !HWU32_spec; [symmetry; exact (weight_fold 32 x)|apply half_lt; [exact B|discriminate]|apply N.mod_lt; discriminate].
Qed.
Lemma HWU128_spec x : (x < 18446744073709551616 * 18446744073709551616)%N -> HWU128n x = weight 128 x.
Proof.
  intros B. unfold HWU128n. rewrite !HWU64_spec; [symmetry; exact (weight_fold 64 x)|apply half_lt; [exact B|discriminate]|apply N.mod_lt; discriminate].
Qed.
Lemma HWU_spec n x : size n -> vector n x -> HWU n x = count n (fun i => bit n x i).
Proof.
  intros S V. unfold bit. rewrite <- count_rev with (f := fun i => N.testbit x (N.of_nat i)). change (HWU n x = weight n x).
  destruct S as [-> | [-> | [-> | [-> | [-> | ->]]]]]; unfold HWU; cbn [Nat.eqb].
  - assert (B : byte x) by (unfold vector, byte in *; change (2 ^ N.of_nat 4)%N with 16%N in V; lia).
    rewrite HWU8_spec by exact B. unfold weight. rewrite (count_add 4 4). rewrite (count_ext 4 (fun i => N.testbit x (N.of_nat (4 + i))) (fun _ => false)); [cbn; lia|].
    intros i I. apply (testbit_high x (N.of_nat 4)); [exact V|lia].
  - apply HWU8_spec. exact V.
  - apply HWU16_spec. exact V.
  - apply HWU32_spec. exact V.
  - apply HWU64_spec. exact V.
  - apply HWU128_spec. exact V.
Qed.

(** ** Algebra *)
Lemma mask4_id n x : size n -> vector n x -> mask4 n x = x.
Proof.
  intros S V. unfold mask4. destruct (Nat.eqb_spec n 4) as [->|]; [|reflexivity].
  change 0x0f%N with (N.ones 4). rewrite N.land_ones. apply N.mod_small. exact V.
Qed.
Lemma dot_spec n a x : size n -> vector n a -> xorU n (mask4 n (N.land a x)) = xsum n (fun j => bit n a j && bit n x j).
Proof.
  intros S V. rewrite mask4_id by (auto using vector_land). rewrite xorU_spec by (auto using vector_land).
  apply xsum_ext. intros j _. apply bit_land.
Qed.
(** a loop that sets bits *)
Lemma set_bits n (f : nat -> bool) k a : size n -> k <= n -> vector n a ->
  let r := fold_left (fun acc i => if f i then N.lxor acc (get (idM n) i) else acc) (seq 0 k) a in
  vector n r /\ forall j, j < n -> bit n r j = xorb (bit n a j) ((j <? k) && f j).
Proof.
  intros S. revert a. induction k as [|k IH]; intros a K V; cbv zeta.
  - cbn [seq fold_left]. split; [exact V|]. intros j _. cbn [Nat.ltb Nat.leb]. now rewrite andb_false_l, xorb_false_r.
  - rewrite seq_S, fold_left_app. cbn [fold_left plus]. destruct (IH a ltac:(lia) V) as [V' B].
    set (r := fold_left _ (seq 0 k) a) in *. split; [destruct (f k); [apply vector_lxor, vector_id; auto; lia|exact V']|].
    intros j J. assert (E : (j <? Datatypes.S k) = ((j =? k) || (j <? k))).
    { destruct (Nat.ltb_spec j (Datatypes.S k)), (Nat.eqb_spec j k), (Nat.ltb_spec j k); try reflexivity; lia. }
    rewrite E. destruct (Nat.eqb_spec j k) as [->|N].
    + cbn [orb andb]. specialize (B k J). destruct (Nat.ltb_spec k k); [lia|]. rewrite andb_false_l, xorb_false_r in B.
      destruct (f k); [rewrite bit_lxor, bit_id, Nat.eqb_refl by (auto; lia)|]; now rewrite B, ?xorb_false_r.
    + cbn [orb]. rewrite <- (B j J). destruct (f k); [|reflexivity]. rewrite bit_lxor, bit_id by (auto; lia).
      destruct (Nat.eqb_spec k j); [lia|]. apply xorb_false_r.
Qed.
Lemma image_MatMulVec n A x : size n -> matrix n A -> is_image n A x (MatMulVec n A x).
Proof.
  intros S M. unfold MatMulVec. destruct (set_bits n (fun i => xorU n (mask4 n (N.land (get A i) x))) n 0%N S (le_n n) (vector_0 n)) as [V B].
  split; [exact V|]. intros i I. rewrite B by exact I. destruct (Nat.ltb_spec i n); [|lia]. rewrite bit_0, xorb_false_l. cbn [andb].
  apply dot_spec; [exact S|]. now apply matrix_get.
Qed.
Lemma image_unique n A x y z : is_image n A x y -> is_image n A x z -> y = z.
Proof. intros [V B] [V' B']. apply (bit_ext n); auto. intros i I. now rewrite B, B'. Qed.
Lemma vector_mulv n A x : size n -> matrix n A -> vector n (MatMulVec n A x).
Proof. intros S M. apply (image_MatMulVec n A x S M). Qed.
Lemma bit_mulv n A x i : size n -> matrix n A -> i < n -> bit n (MatMulVec n A x) i = xsum n (fun j => entry n A i j && bit n x j).
Proof. intros S M. apply (image_MatMulVec n A x S M). Qed.
Lemma mulv_lxor n A x y : size n -> matrix n A -> MatMulVec n A (N.lxor x y) = N.lxor (MatMulVec n A x) (MatMulVec n A y).
Proof.
  intros S M. apply (bit_ext n); auto using vector_lxor, vector_mulv. intros i I. rewrite bit_lxor, !bit_mulv by auto. rewrite <- xsum_xor.
  apply xsum_ext. intros j _. rewrite bit_lxor. destruct (entry n A i j); reflexivity.
Qed.
Lemma mulv_0 n A : size n -> matrix n A -> MatMulVec n A 0 = 0%N.
Proof.
  intros S M. apply (bit_ext n); auto using vector_0, vector_mulv. intros i I. rewrite bit_mulv, bit_0 by auto. apply xsum_zero. intros. now rewrite bit_0, andb_false_r.
Qed.
Lemma mulv_id n A i j : size n -> matrix n A -> i < n -> j < n -> bit n (MatMulVec n A (get (idM n) j)) i = entry n A i j.
Proof.
  intros S M I J. rewrite bit_mulv by auto. rewrite (xsum_ext _ _ (fun k => entry n A i k && (k =? j))).
  - now apply xsum_unit.
  - intros k K. rewrite bit_id by auto. now rewrite Nat.eqb_sym.
Qed.
Lemma MatMulNum_eq n A x : MatMulNum n A x = MatMulVec n A x.
Proof. reflexivity. Qed.

Lemma identity_spec n : size n -> is_identity n (identityM n).
Proof.
  intros S. assert (M : matrix n (identityM n)).
  { apply matrix_intro; [unfold identityM; now rewrite map_length, seq_length|]. intros i I. unfold identityM. rewrite get_map_seq by auto. now apply vector_id. }
  split; [exact M|]. intros i j I J. unfold entry. change (nth i (identityM n) 0%N) with (get (identityM n) i). unfold identityM. rewrite get_map_seq by auto. now apply bit_id.
Qed.
Lemma mulv_identity n A x : size n -> is_identity n A -> vector n x -> MatMulVec n A x = x.
Proof.
  intros S [M E] V. apply (bit_ext n); auto using vector_mulv. intros i I. rewrite bit_mulv by auto.
  rewrite (xsum_ext _ _ (fun j => (i =? j) && bit n x j)) by (intros; rewrite E; auto). now apply xsum_unit_l with (f := bit n x).
Qed.

Lemma initM_spec n : matrix n (initM n) /\ forall i j, entry n (initM n) i j = false.
Proof.
  unfold initM. split.
  - split; [apply repeat_length|]. apply Forall_forall. intros x X. apply repeat_spec in X. subst. apply vector_0.
  - intros i j. unfold entry. rewrite nth_repeat. apply bit_0.
Qed.
Lemma Mattrans_spec n A : size n -> matrix n A -> matrix n (Mattrans n A) /\ forall i j, i < n -> j < n -> entry n (Mattrans n A) i j = entry n A j i.
Proof.
  intros S M. unfold Mattrans. destruct (initM_spec n) as [M0 E0].
  assert (Inner : forall i k T, i < n -> k <= n -> matrix n T ->
    let T' := fold_left (fun T j => if (N.land (get A i) (get (idM n) j) =? 0)%N then T else set T j (N.lxor (get T j) (get (idM n) i))) (seq 0 k) T in
    matrix n T' /\ forall r c, r < n -> c < n -> entry n T' r c = xorb (entry n T r c) ((r <? k) && (i =? c) && entry n A i r)).
  { intros i k T I. revert T. induction k as [|k IH]; intros T K MT; cbv zeta.
    - cbn [seq fold_left]. split; [exact MT|]. intros. cbn [Nat.ltb Nat.leb andb]. now rewrite xorb_false_r.
    - rewrite seq_S, fold_left_app. cbn [fold_left plus]. destruct (IH T ltac:(lia) MT) as [MT' B]. set (T1 := fold_left _ (seq 0 k) T) in *.
      rewrite land_id_zero by (auto; lia).
      assert (E : forall r, (r <? Datatypes.S k) = ((r =? k) || (r <? k))).
      { intros r. destruct (Nat.ltb_spec r (Datatypes.S k)), (Nat.eqb_spec r k), (Nat.ltb_spec r k); try reflexivity; lia. }
      destruct (bit n (get A i) k) eqn:T0; cbn [negb].
      + assert (MS : matrix n (set T1 k (N.lxor (get T1 k) (get (idM n) i)))) by (apply matrix_set; auto using vector_lxor, matrix_get, vector_id).
        split; [exact MS|]. intros r c R C. rewrite entry_set by (destruct MT' as [-> _]; lia). rewrite E.
        destruct (Nat.eqb_spec r k) as [->|N].
        * rewrite bit_lxor, bit_id by auto. change (bit n (get T1 k) c) with (entry n T1 k c). rewrite B by auto.
          destruct (Nat.ltb_spec k k); [lia|]. cbn [orb andb]. rewrite xorb_false_r.
          change (entry n A i k) with (bit n (get A i) k). rewrite T0, andb_true_r. reflexivity.
        * cbn [orb]. apply B; auto.
      + split; [exact MT'|]. intros r c R C. rewrite E, B by auto. destruct (Nat.eqb_spec r k) as [->|N]; [|reflexivity].
        destruct (Nat.ltb_spec k k); [lia|]. cbn [orb andb]. change (entry n A i k) with (bit n (get A i) k). rewrite T0. now rewrite andb_false_r. }
  assert (Outer : forall k, k <= n -> 
    let T' := fold_left (fun T i => fold_left (fun T j => if (N.land (get A i) (get (idM n) j) =? 0)%N then T else set T j (N.lxor (get T j) (get (idM n) i))) (seq 0 n) T) (seq 0 k) (initM n) in
    matrix n T' /\ forall r c, r < n -> c < n -> entry n T' r c = (c <? k) && entry n A c r).
  { induction k as [|k IH]; intros K; cbv zeta.
    - cbn [seq fold_left]. split; [exact M0|]. intros. rewrite E0. reflexivity.
    - rewrite seq_S, fold_left_app. cbn [fold_left plus]. destruct (IH ltac:(lia)) as [MT' B]. set (T1 := fold_left _ (seq 0 k) (initM n)) in *.
      destruct (Inner k n T1 ltac:(lia) (le_n n) MT') as [MI BI]. split; [exact MI|]. intros r c R C. rewrite BI, B by auto.
      destruct (Nat.ltb_spec r n); [|lia]. cbn [andb].
      destruct (Nat.ltb_spec c (Datatypes.S k)), (Nat.ltb_spec c k), (Nat.eqb_spec k c); try lia; subst; cbn [andb]; now rewrite ?xorb_false_l, ?xorb_false_r. }
  destruct (Outer n (le_n n)) as [MO BO]. split; [exact MO|]. intros i j I J. rewrite BO by auto. destruct (Nat.ltb_spec j n); [reflexivity|lia].
Qed.
Lemma MatMulMat_spec n A B : size n -> matrix n A -> matrix n B -> is_product n A B (MatMulMat n A B).
Proof.
  intros S MA MB. unfold MatMulMat. destruct (Mattrans_spec n B S MB) as [MT ET]. set (T := Mattrans n B) in *. cbv zeta. destruct (initM_spec n) as [M0 E0].
  assert (Inner : forall i k M, i < n -> k <= n -> matrix n M ->
    let M' := fold_left (fun M j => if xorU n (mask4 n (N.land (get A i) (get T j))) then set M i (N.lxor (get M i) (get (idM n) j)) else M) (seq 0 k) M in
    matrix n M' /\ forall r c, r < n -> c < n -> entry n M' r c = xorb (entry n M r c) ((r =? i) && (c <? k) && xsum n (fun k => entry n A i k && entry n B k c))).
  { intros i k M I. revert M. induction k as [|k IH]; intros M K MM; cbv zeta.
    - cbn [seq fold_left]. split; [exact MM|]. intros. cbn [Nat.ltb Nat.leb]. now rewrite andb_false_r, andb_false_l, xorb_false_r.
    - rewrite seq_S, fold_left_app. cbn [fold_left plus]. destruct (IH M ltac:(lia) MM) as [MM' Q]. set (M1 := fold_left _ (seq 0 k) M) in *.
      rewrite dot_spec by auto using matrix_get.
      assert (D : xsum n (fun j => bit n (get A i) j && bit n (get T k) j) = xsum n (fun j => entry n A i j && entry n B j k)).
      { apply xsum_ext. intros j J. change (bit n (get T k) j) with (entry n T k j). rewrite ET by (auto; lia). reflexivity. }
      rewrite D. clear D.
      assert (E : forall r, (r <? Datatypes.S k) = ((r =? k) || (r <? k))).
      { intros r. destruct (Nat.ltb_spec r (Datatypes.S k)), (Nat.eqb_spec r k), (Nat.ltb_spec r k); try reflexivity; lia. }
      destruct (xsum n (fun j => entry n A i j && entry n B j k)) eqn:D.
      + assert (MS : matrix n (set M1 i (N.lxor (get M1 i) (get (idM n) k)))) by (apply matrix_set; auto using vector_lxor, matrix_get, vector_id).
        split; [exact MS|]. intros r c R C. rewrite entry_set by (destruct MM' as [-> _]; lia). rewrite E.
        destruct (Nat.eqb_spec r i) as [->|N].
        * rewrite bit_lxor, bit_id by auto. change (bit n (get M1 i) c) with (entry n M1 i c). rewrite Q by auto. rewrite Nat.eqb_refl. cbn [andb].
          rewrite (Nat.eqb_sym c k). destruct (Nat.eqb_spec k c) as [<-|NC]; cbn [orb andb]; [|now rewrite xorb_false_r].
          destruct (Nat.ltb_spec k k); [lia|]. cbn [andb]. now rewrite D, xorb_false_r.
        * cbn [andb]. rewrite Q by auto. destruct (Nat.eqb_spec r i); [lia|reflexivity].
      + split; [exact MM'|]. intros r c R C. rewrite E, Q by auto. destruct (Nat.eqb_spec c k) as [->|N]; [|reflexivity].
        destruct (Nat.ltb_spec k k); [lia|]. cbn [orb andb]. rewrite D. now rewrite !andb_false_r. }
  assert (Outer : forall k, k <= n -> 
    let M' := fold_left (fun M i => fold_left (fun M j => if xorU n (mask4 n (N.land (get A i) (get T j))) then set M i (N.lxor (get M i) (get (idM n) j)) else M) (seq 0 n) M) (seq 0 k) (initM n) in
    matrix n M' /\ forall r c, r < n -> c < n -> entry n M' r c = (r <? k) && xsum n (fun k => entry n A r k && entry n B k c)).
  { induction k as [|k IH]; intros K; cbv zeta.
    - cbn [seq fold_left]. split; [exact M0|]. intros. rewrite E0. reflexivity.
    - rewrite seq_S, fold_left_app. cbn [fold_left plus]. destruct (IH ltac:(lia)) as [MT' Q]. set (T1 := fold_left _ (seq 0 k) (initM n)) in *.
      destruct (Inner k n T1 ltac:(lia) (le_n n) MT') as [MI BI]. split; [exact MI|]. intros r c R C. rewrite BI, Q by auto.
      destruct (Nat.ltb_spec c n); [|lia]. rewrite andb_true_r.
      destruct (Nat.ltb_spec r (Datatypes.S k)), (Nat.ltb_spec r k), (Nat.eqb_spec r k); try lia; subst; cbn [andb]; now rewrite ?xorb_false_l, ?xorb_false_r. }
  destruct (Outer n (le_n n)) as [MO BO]. split; [exact MO|]. intros i j I J. rewrite BO by auto. destruct (Nat.ltb_spec i n); [reflexivity|lia].
Qed.
Lemma matrix_mulm n A B : size n -> matrix n A -> matrix n B -> matrix n (MatMulMat n A B).
Proof. intros S MA MB. apply (MatMulMat_spec n A B S MA MB). Qed.
Lemma mulv_product n A B C x : size n -> matrix n A -> matrix n B -> is_product n A B C -> MatMulVec n C x = MatMulVec n A (MatMulVec n B x).
Proof.
  intros S MA MB [MC EC]. apply (bit_ext n); auto using vector_mulv. intros i I. rewrite !bit_mulv by auto.
  rewrite (xsum_ext _ _ (fun j => xsum n (fun k => entry n A i k && entry n B k j && bit n x j))) by (intros j J; rewrite EC by auto; now rewrite xsum_and_r).
  rewrite xsum_swap. apply xsum_ext. intros k K. rewrite bit_mulv by auto. rewrite <- xsum_and. apply xsum_ext. intros. now rewrite andb_assoc.
Qed.
Lemma mulv_mulm n A B x : size n -> matrix n A -> matrix n B -> MatMulVec n (MatMulMat n A B) x = MatMulVec n A (MatMulVec n B x).
Proof. intros S MA MB. apply mulv_product; auto. now apply MatMulMat_spec. Qed.
Lemma MatAddMat_spec n A B : matrix n A -> matrix n B -> matrix n (MatAddMat n A B) /\ forall i j, i < n -> entry n (MatAddMat n A B) i j = xorb (entry n A i j) (entry n B i j).
Proof.
  intros MA MB. split.
  - apply matrix_intro; [unfold MatAddMat; now rewrite map_length, seq_length|]. intros i I. unfold MatAddMat. rewrite get_map_seq by auto. auto using vector_lxor, matrix_get.
  - intros i j I. unfold entry. change (nth i (MatAddMat n A B) 0%N) with (get (MatAddMat n A B) i). unfold MatAddMat. rewrite get_map_seq by auto. apply bit_lxor.
Qed.
Lemma affine_affinemix n a b : size n -> affine n a -> affine n b -> affine n (affinemix n a b).
Proof. intros S [MA VA] [MB VB]. split; cbn; auto using matrix_mulm, vector_lxor, vector_mulv. Qed.
Lemma affinemix_spec n a b x : size n -> affine n a -> affine n b -> affineU n (affinemix n a b) x = affineU n a (affineU n b x).
Proof.
  intros S [MA VA] [MB VB]. unfold affineU, affinemix. cbn [a_mat a_vec]. rewrite mulv_mulm, mulv_lxor by auto. now rewrite !N.lxor_assoc.
Qed.
Lemma vector_affineU n a x : size n -> affine n a -> vector n (affineU n a x).
Proof. intros S [MA VA]. unfold affineU. auto using vector_lxor, vector_mulv. Qed.
