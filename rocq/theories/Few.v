(** * Lemmas: how many matrices the generator's 2^32 seeds can give (C99) *)
From Verif Require Import Base Word32 FpeModel MatModel MatSpec MatProofs GaussProofs RandModel RandProofs WrandModel.
Local Open Scope nat_scope.

(** ** Matrices from their entries *)
Fixpoint rowof (k : nat) (f : nat -> bool) : N :=
  match k with O => 0%N | S k' => (2 * rowof k' f + (if f k' then 1 else 0))%N end.
Lemma rowof_lt k f : (rowof k f < 2 ^ N.of_nat k)%N.
Proof.
  induction k as [|k IH]; [reflexivity|]. cbn [rowof]. rewrite Nat2N.inj_succ, N.pow_succ_r'. destruct (f k); lia.
Qed.
Lemma rowof_bit k f : forall i, i < k -> bit k (rowof k f) i = f i.
Proof.
  induction k as [|k IH]; intros i I; [lia|]. unfold bit. cbn [rowof]. destruct (Nat.eq_dec i k) as [->|Q].
  - replace (S k - 1 - k) with 0 by lia. change (N.of_nat 0) with 0%N. destruct (f k).
    + rewrite N.testbit_odd_0. reflexivity.
    + rewrite N.add_0_r, N.testbit_even_0. reflexivity.
  - replace (S k - 1 - i) with (S (k - 1 - i)) by lia. rewrite Nat2N.inj_succ. destruct (f k).
    + rewrite N.testbit_odd_succ by apply N.le_0_l. apply IH. lia.
    + rewrite N.add_0_r, N.testbit_even_succ by apply N.le_0_l. apply IH. lia.
Qed.
Definition mkM (n : nat) (e : nat -> nat -> bool) : list N := map (fun i => rowof n (e i)) (seq 0 n).
Lemma mkM_matrix n e : matrix n (mkM n e).
Proof.
  split; [unfold mkM; now rewrite map_length, seq_length|]. unfold mkM. apply Forall_forall. intros x I.
  apply in_map_iff in I. destruct I as (i & <- & _). apply rowof_lt.
Qed.
Lemma mkM_entry n e i j : i < n -> j < n -> entry n (mkM n e) i j = e i j.
Proof.
  intros I J. unfold entry, mkM. rewrite (nth_indep _ 0%N (rowof n (e 0))) by (rewrite map_length, seq_length; exact I).
  rewrite (map_nth (fun i => rowof n (e i)) (seq 0 n) 0 i), seq_nth by exact I. now apply rowof_bit.
Qed.

(** ** Products *)
Definition mul (n : nat) (f g : nat -> nat -> bool) (i j : nat) : bool := xsum n (fun k => f i k && g k j).
Lemma mul_assoc n f g h i j : mul n f (mul n g h) i j = mul n (mul n f g) h i j.
Proof.
  unfold mul. transitivity (xsum n (fun k => xsum n (fun l => f i k && g k l && h l j))).
  - apply xsum_ext. intros k _. rewrite <- xsum_and. apply xsum_ext. intros l _. now rewrite andb_assoc.
  - rewrite xsum_swap. apply xsum_ext. intros l _. now rewrite xsum_and_r.
Qed.
Lemma mul_ext n f g f' g' i j : (forall k, k < n -> f i k = f' i k) -> (forall k, k < n -> g k j = g' k j) -> mul n f g i j = mul n f' g' i j.
Proof. intros F G. apply xsum_ext. intros k K. now rewrite F, G. Qed.
Lemma mul_id_l n g i j : i < n -> mul n Nat.eqb g i j = g i j.
Proof. intro I. unfold mul. exact (xsum_unit_l n i (fun k => g k j) I). Qed.

Lemma invertible_product n A B : size n -> invertible n A -> invertible n B -> invertible n (MatMulMat n A B).
Proof.
  intros S (A' & MA & MA' & IA) (B' & MB & MB' & IB).
  destruct (MatMulMat_spec n A B S MA MB) as [M P]. destruct (MatMulMat_spec n B' A' S MB' MA') as [M' P'].
  exists (MatMulMat n B' A'). split; [exact M|]. split; [exact M'|]. intros i j I J. split.
  - transitivity (mul n (mul n (entry n A) (entry n B)) (mul n (entry n B') (entry n A')) i j).
    + apply mul_ext; intros k K; [now apply P|now apply P'].
    + rewrite mul_assoc. transitivity (mul n (entry n A) (entry n A') i j); [|exact (proj1 (IA i j I J))].
      apply mul_ext; [|reflexivity]. intros k K. rewrite <- mul_assoc.
      transitivity (mul n (entry n A) Nat.eqb i k); [|exact (xsum_unit n k (entry n A i) K)].
      apply mul_ext; [reflexivity|]. intros l L. exact (proj1 (IB l k L K)).
  - transitivity (mul n (mul n (entry n B') (entry n A')) (mul n (entry n A) (entry n B)) i j).
    + apply mul_ext; intros k K; [now apply P'|now apply P].
    + rewrite mul_assoc. transitivity (mul n (entry n B') (entry n B) i j); [|exact (proj2 (IB i j I J))].
      apply mul_ext; [|reflexivity]. intros k K. rewrite <- mul_assoc.
      transitivity (mul n (entry n B') Nat.eqb i k); [|exact (xsum_unit n k (entry n B' i) K)].
      apply mul_ext; [reflexivity|]. intros l L. exact (proj2 (IA l k L K)).
Qed.

(** ** More than 2^32 invertible matrices *)
(** entries of rows 0 .. 3 in the last four columns, and of the last four rows in columns 0 .. 3 *)
Definition upper (n : nat) (x : N) (i j : nat) : bool :=
  xorb (i =? j) ((i <? 4) && (n - 4 <=? j) && N.testbit x (N.of_nat (4 * i + (j - (n - 4))))).
Definition lower (n : nat) (x : N) (i j : nat) : bool :=
  xorb (i =? j) ((n - 4 <=? i) && (j <? 4) && N.testbit x (N.of_nat (4 * (i - (n - 4)) + j))).
Lemma involution n e : (forall i j, i < n -> j < n -> mul n e e i j = (i =? j)) -> invertible n (mkM n e).
Proof.
  intros H. exists (mkM n e). split; [apply mkM_matrix|]. split; [apply mkM_matrix|]. intros i j I J.
  assert (E : xsum n (fun k => entry n (mkM n e) i k && entry n (mkM n e) k j) = (i =? j)).
  { rewrite <- (H i j I J). apply xsum_ext. intros k K. now rewrite !mkM_entry by assumption. }
  split; exact E.
Qed.
Lemma nilpotent n (d : nat -> nat -> bool) :
  (forall i k j, d i k && d k j = false) -> forall i j, i < n -> j < n -> mul n (fun i j => xorb (i =? j) (d i j)) (fun i j => xorb (i =? j) (d i j)) i j = (i =? j).
Proof.
  intros Z i j I J. unfold mul.
  transitivity (xsum n (fun k => xorb (xorb ((i =? k) && xorb (k =? j) (d k j)) (d i k && (k =? j))) (d i k && d k j))).
  - apply xsum_ext. intros k _. destruct (i =? k), (k =? j), (d i k), (d k j); reflexivity.
  - rewrite !xsum_xor. rewrite (xsum_unit_l n i (fun k => xorb (k =? j) (d k j)) I), (xsum_unit n j (d i) J).
    rewrite (xsum_zero n (fun k => d i k && d k j)) by (intros; apply Z). destruct (i =? j), (d i j); reflexivity.
Qed.
Lemma upper_invertible n x : 8 <= n -> invertible n (mkM n (upper n x)).
Proof.
  intro L. apply involution. intros i j. apply (nilpotent n (fun i j => (i <? 4) && (n - 4 <=? j) && N.testbit x (N.of_nat (4 * i + (j - (n - 4)))))).
  intros a k b. destruct (Nat.ltb_spec a 4), (Nat.leb_spec (n - 4) k), (Nat.ltb_spec k 4); cbn [andb]; rewrite ?andb_false_r; try reflexivity. lia.
Qed.
Lemma lower_invertible n x : 8 <= n -> invertible n (mkM n (lower n x)).
Proof.
  intro L. apply involution. intros i j. apply (nilpotent n (fun i j => (n - 4 <=? i) && (j <? 4) && N.testbit x (N.of_nat (4 * (i - (n - 4)) + j)))).
  intros a k b. destruct (Nat.leb_spec (n - 4) a), (Nat.ltb_spec k 4), (Nat.leb_spec (n - 4) k); cbn [andb]; rewrite ?andb_false_r; try reflexivity. lia.
Qed.
Definition family (n : nat) (k : N) : list N := MatMulMat n (mkM n (upper n (k / 65536))) (mkM n (lower n (k mod 65536))).
Definition flip (n : nat) : list N := mkM n (fun i j => i + j =? n - 1).
Lemma family_invertible n k : size n -> 8 <= n -> invertible n (family n k).
Proof. intros S L. apply invertible_product; [exact S|now apply upper_invertible|now apply lower_invertible]. Qed.
Lemma flip_invertible n : invertible n (flip n).
Proof.
  apply involution. intros i j I J. unfold mul. rewrite (xsum_one n (n - 1 - i)).
  - destruct (Nat.eqb_spec (i + (n - 1 - i)) (n - 1)), (Nat.eqb_spec (n - 1 - i + j) (n - 1)), (Nat.eqb_spec i j); reflexivity || lia.
  - lia.
  - intros k K Q. destruct (Nat.eqb_spec (i + k) (n - 1)); [lia|reflexivity].
Qed.
(** what can be read off the product *)
Lemma family_right n k i j : size n -> 8 <= n -> i < 4 -> n - 4 <= j < n -> entry n (family n k) i j = N.testbit (k / 65536) (N.of_nat (4 * i + (j - (n - 4)))).
Proof.
  intros S L I J. destruct (MatMulMat_spec n (mkM n (upper n (k / 65536))) (mkM n (lower n (k mod 65536))) S (mkM_matrix _ _) (mkM_matrix _ _)) as [_ P].
  unfold family. rewrite P by lia. rewrite (xsum_one n j).
  - rewrite !mkM_entry by lia. unfold upper, lower. destruct (Nat.eqb_spec i j); [lia|]. rewrite Nat.eqb_refl.
    destruct (Nat.ltb_spec i 4); [|lia]. destruct (Nat.leb_spec (n - 4) j); [|lia]. destruct (Nat.ltb_spec j 4); [lia|].
    cbn [andb xorb]. destruct (N.testbit _ _); reflexivity.
  - lia.
  - intros l Ll Q. rewrite !mkM_entry by lia. unfold lower. destruct (Nat.eqb_spec l j); [contradiction|]. destruct (Nat.ltb_spec j 4); [lia|].
    rewrite andb_false_r. cbn [andb xorb]. now rewrite andb_false_r.
Qed.
Lemma family_left n k i j : size n -> 8 <= n -> n - 4 <= i < n -> j < 4 -> entry n (family n k) i j = N.testbit (k mod 65536) (N.of_nat (4 * (i - (n - 4)) + j)).
Proof.
  intros S L I J. destruct (MatMulMat_spec n (mkM n (upper n (k / 65536))) (mkM n (lower n (k mod 65536))) S (mkM_matrix _ _) (mkM_matrix _ _)) as [_ P].
  unfold family. rewrite P by lia. rewrite (xsum_one n i).
  - rewrite !mkM_entry by lia. unfold upper, lower. destruct (Nat.eqb_spec i j); [lia|]. rewrite Nat.eqb_refl.
    destruct (Nat.ltb_spec i 4); [lia|]. destruct (Nat.leb_spec (n - 4) i); [|lia]. destruct (Nat.ltb_spec j 4); [|lia].
    cbn [andb xorb]. destruct (N.testbit _ _); reflexivity.
  - lia.
  - intros l Ll Q. rewrite !mkM_entry by lia. unfold upper. destruct (Nat.eqb_spec i l); [congruence|]. destruct (Nat.ltb_spec i 4); [lia|]. reflexivity.
Qed.
Lemma family_corner n k : size n -> 8 <= n -> entry n (family n k) (n - 1) (n - 1) = true.
Proof.
  intros S L. destruct (MatMulMat_spec n (mkM n (upper n (k / 65536))) (mkM n (lower n (k mod 65536))) S (mkM_matrix _ _) (mkM_matrix _ _)) as [_ P].
  unfold family. rewrite P by lia. rewrite (xsum_one n (n - 1)).
  - rewrite !mkM_entry by lia. unfold upper, lower. rewrite Nat.eqb_refl. destruct (Nat.ltb_spec (n - 1) 4); [lia|]. rewrite andb_false_r. reflexivity.
  - lia.
  - intros l Ll Q. rewrite !mkM_entry by lia. unfold upper. destruct (Nat.eqb_spec (n - 1) l); [congruence|]. destruct (Nat.ltb_spec (n - 1) 4); [lia|]. reflexivity.
Qed.
Lemma flip_corner n : 8 <= n -> entry n (flip n) (n - 1) (n - 1) = false.
Proof. intro L. unfold flip. rewrite mkM_entry by lia. destruct (Nat.eqb_spec (n - 1 + (n - 1)) (n - 1)); [lia|reflexivity]. Qed.
Lemma testbits16 (x y : N) : (x < 65536)%N -> (y < 65536)%N -> (forall i j, i < 4 -> j < 4 -> N.testbit x (N.of_nat (4 * i + j)) = N.testbit y (N.of_nat (4 * i + j))) -> x = y.
Proof.
  intros X Y H. apply N.bits_inj. intro m. destruct (N.lt_ge_cases m 16) as [M|M].
  - specialize (H (N.to_nat m / 4) (N.to_nat m mod 4)).
    assert (E : N.of_nat (4 * (N.to_nat m / 4) + N.to_nat m mod 4) = m) by (rewrite <- Nat.div_mod_eq; apply N2Nat.id).
    rewrite E in H. apply H; [|apply Nat.mod_upper_bound; discriminate]. apply Nat.div_lt_upper_bound; lia.
  - rewrite !(testbit_high _ 16%N) by assumption. reflexivity.
Qed.
Lemma family_inj n k l : size n -> 8 <= n -> (k < 2 ^ 32)%N -> (l < 2 ^ 32)%N -> family n k = family n l -> k = l.
Proof.
  intros S L K K' E. change (2 ^ 32)%N with 4294967296%N in *.
  assert (Q : (k / 65536 = l / 65536)%N).
  { apply testbits16; [apply N.div_lt_upper_bound; lia|apply N.div_lt_upper_bound; lia|]. intros i j I J.
    pose proof (family_right n k i (n - 4 + j) S L I ltac:(lia)) as H. rewrite E, family_right in H by (assumption || lia).
    replace (n - 4 + j - (n - 4)) with j in H by lia. now symmetry. }
  assert (R : (k mod 65536 = l mod 65536)%N).
  { apply testbits16; [apply N.mod_lt; discriminate|apply N.mod_lt; discriminate|]. intros i j I J.
    pose proof (family_left n k (n - 4 + i) j S L ltac:(lia) J) as H. rewrite E, family_left in H by (assumption || lia).
    replace (n - 4 + i - (n - 4)) with i in H by lia. now symmetry. }
  rewrite (N.div_mod k 65536), (N.div_mod l 65536), Q, R by discriminate. reflexivity.
Qed.
Lemma family_flip n k : size n -> 8 <= n -> family n k <> flip n.
Proof. intros S L E. pose proof (family_corner n k S L) as H. rewrite E, flip_corner in H by exact L. discriminate. Qed.

(** ** Pigeonhole *)
Lemma missing {A} (dec : forall x y : A, {x = y} + {x <> y}) (l m : list A) : NoDup l -> length m < length l -> exists x, In x l /\ ~ In x m.
Proof.
  intros D H. destruct (Exists_dec (fun x => ~ In x m) l) as [E|E].
  - intro x. destruct (in_dec dec x m) as [I|I]; [right; intro C; exact (C I)|left; exact I].
  - apply Exists_exists in E. exact E.
  - exfalso. apply (Nat.lt_irrefl (length m)). eapply Nat.lt_le_trans; [exact H|]. apply NoDup_incl_length; [exact D|].
    intros x I. destruct (in_dec dec x m) as [J|J]; [exact J|]. exfalso. apply E. apply Exists_exists. now exists x.
Qed.
Definition matrix_of_seed (n : nat) (seed : N) : list N :=
  match genMatpair n (rng_stream (InitRandom seed rng0)) 0 with Ret (A, _, _) => A | _ => [] end.
Lemma stream_seed seed s k : rng_stream (InitRandom seed s) k = rng_stream (InitRandom seed rng0) k.
Proof. reflexivity. Qed.
Local Opaque genMatpair.
Local Opaque permuteQPR family flip.
Lemma generated_by_seed n clk s A B t : s_genMatpair n clk s = Ret (A, B, t) -> exists seed, (seed < 2 ^ 32)%N /\ A = matrix_of_seed n seed.
Proof.
  unfold s_genMatpair. set (s1 := reseed clk s). intro H. exists (N.lxor (r_seed s1) (w32 (clk (r_calls s1)))). split.
  - apply lxor_lt32; [apply w32_lt|apply w32_lt].
  - unfold matrix_of_seed.
    change (rng_stream (reseed clk s1)) with (rng_stream (InitRandom (N.lxor (r_seed s1) (w32 (clk (r_calls s1)))) rng0)) in H.
    destruct (genMatpair n _ 0) as [[[A' B'] p]| |]; [|discriminate|discriminate]. cbn [obind] in H. injection H as -> _ _. reflexivity.
Qed.
Lemma few_matrices (m : nat) n : N.of_nat m = (2 ^ 32)%N -> size n -> 8 <= n ->
  exists A, invertible n A /\ forall seed, (seed < 2 ^ 32)%N -> A <> matrix_of_seed n seed.
Proof.
  intros M S L.
  destruct (missing (list_eq_dec N.eq_dec) (flip n :: map (fun k => family n (N.of_nat k)) (seq 0 m)) (map (fun k => matrix_of_seed n (N.of_nat k)) (seq 0 m)))
    as (A & I & J).
  - constructor.
    + intro H. apply in_map_iff in H. destruct H as (k & E & _). exact (family_flip n _ S L E).
    + assert (G : forall k a, a + k <= m -> NoDup (map (fun k => family n (N.of_nat k)) (seq a k))).
      { induction k as [|k IH]; intros a H; cbn [seq map]; constructor.
        - intro C. apply in_map_iff in C. destruct C as (b & E & C). apply in_seq in C. apply family_inj in E; [lia|exact S|exact L|lia|lia].
        - apply IH. lia. }
      apply G. lia.
  - cbn [length]. rewrite !map_length, !seq_length. apply Nat.lt_succ_diag_r.
  - exists A. split.
    + destruct I as [<-|I]; [apply flip_invertible|]. apply in_map_iff in I. destruct I as (k & <- & _). now apply family_invertible.
    + intros seed H E. apply J. apply in_map_iff. exists (N.to_nat seed). rewrite N2Nat.id. split; [now symmetry|]. apply in_seq. lia.
Qed.
Lemma some_matrix_never n : size n -> n <> 4 -> exists A, invertible n A /\ forall clk s B t, s_genMatpair n clk s <> Ret (A, B, t).
Proof.
  intros S Q. destruct (few_matrices (N.to_nat (2 ^ 32)) n (N2Nat.id _) S) as (A & I & H).
  - destruct S as [->|[->|[->|[->|[->| ->]]]]]; lia.
  - exists A. split; [exact I|]. intros clk s B t E. destruct (generated_by_seed _ _ _ _ _ _ E) as (seed & Ls & EA). exact (H seed Ls EA).
Qed.
Lemma same_seed_same_matrix n clk s A B t clk' s' A' B' t' :
  s_genMatpair n clk s = Ret (A, B, t) -> s_genMatpair n clk' s' = Ret (A', B', t') ->
  N.lxor (w32 (r_seed s + 1)) (w32 (clk (S (r_calls s)))) = N.lxor (w32 (r_seed s' + 1)) (w32 (clk' (S (r_calls s')))) -> A = A' /\ B = B'.
Proof.
  unfold s_genMatpair. intros H H' E.
  change (rng_stream (reseed clk (reseed clk s))) with (rng_stream (InitRandom (N.lxor (w32 (r_seed s + 1)) (w32 (clk (S (r_calls s))))) rng0)) in H.
  change (rng_stream (reseed clk' (reseed clk' s'))) with (rng_stream (InitRandom (N.lxor (w32 (r_seed s' + 1)) (w32 (clk' (S (r_calls s'))))) rng0)) in H'.
  rewrite E in H. destruct (genMatpair n _ 0) as [[[A0 B0] p]| |]; [|discriminate|discriminate]. cbn [obind] in H, H'.
  injection H as -> -> _. injection H' as -> -> _. split; reflexivity.
Qed.

(** ** The wider random numbers of wrandom.c *)
Lemma lxor_shift a x k v : N.lxor a (N.shiftl x k) = v <-> (a mod 2 ^ k = v mod 2 ^ k)%N /\ x = N.lxor (v / 2 ^ k) (a / 2 ^ k).
Proof.
  rewrite <- !N.shiftr_div_pow2. split.
  - intros <-. split.
    + apply N.bits_inj. intro i. destruct (N.lt_ge_cases i k) as [I|I].
      * rewrite !N.mod_pow2_bits_low, N.lxor_spec, N.shiftl_spec_low by exact I. now rewrite xorb_false_r.
      * now rewrite !N.mod_pow2_bits_high by exact I.
    + apply N.bits_inj. intro i. rewrite N.lxor_spec, !N.shiftr_spec', N.lxor_spec, N.shiftl_spec_high' by apply N.le_add_l. rewrite N.add_sub.
      destruct (N.testbit a (i + k)), (N.testbit x i); reflexivity.
  - intros [E ->]. apply N.bits_inj. intro i. rewrite N.lxor_spec. destruct (N.lt_ge_cases i k) as [I|I].
    + rewrite N.shiftl_spec_low, xorb_false_r by exact I. rewrite <- (N.mod_pow2_bits_low a k i I), <- (N.mod_pow2_bits_low v k i I). now rewrite E.
    + rewrite N.shiftl_spec_high', N.lxor_spec, !N.shiftr_spec' by exact I. rewrite N.sub_add by exact I.
      destruct (N.testbit a i), (N.testbit v i); reflexivity.
Qed.
Lemma lxor_lt_pow a b k : (a < 2 ^ k)%N -> (b < 2 ^ k)%N -> (N.lxor a b < 2 ^ k)%N.
Proof.
  intros A B. destruct (N.eq_dec (N.lxor a b) 0) as [->|Q]; [apply N.neq_0_lt_0, N.pow_nonzero; discriminate|].
  apply N.log2_lt_pow2; [lia|]. destruct (N.le_gt_cases k (N.log2 (N.lxor a b))) as [C|C]; [exfalso|exact C].
  pose proof (N.bit_log2 _ Q) as T. rewrite N.lxor_spec, (testbit_high a k), (testbit_high b k) in T by assumption. discriminate.
Qed.
Lemma wRand32_lemma v f : (v < 2 ^ 32)%N -> (f < 2 ^ 30)%N ->
  exists! p : N * N, (fst p < 2 ^ 31)%N /\ (snd p < 2 ^ 31)%N /\ (fst p / 2 = f)%N /\ wRand32 (fst p) (snd p) = v.
Proof.
  intros V F. change (2 ^ 32)%N with 4294967296%N in V. change (2 ^ 30)%N with 1073741824%N in F.
  assert (W : forall r r', (r' < 2 ^ 31)%N -> (wRand32 r r' = v <-> (r mod 2 = v mod 2)%N /\ r' = N.lxor (v / 2) (r / 2))).
  { intros r r' R. unfold wRand32. rewrite (N.mod_small (N.shiftl r' 1)) by (rewrite N.shiftl_mul_pow2; change (2 ^ 31)%N with 2147483648%N in R; lia).
    exact (lxor_shift r r' 1 v). }
  exists ((2 * f + v mod 2)%N, N.lxor (v / 2) f). pose proof (N.mod_lt v 2 ltac:(discriminate)) as V2.
  assert (D : ((2 * f + v mod 2) / 2 = f)%N) by (symmetry; apply (N.div_unique _ 2 _ (v mod 2)); [exact V2|reflexivity]).
  assert (M : ((2 * f + v mod 2) mod 2 = v mod 2)%N) by (symmetry; apply (N.mod_unique _ 2 f _); [exact V2|reflexivity]).
  assert (X : (N.lxor (v / 2) f < 2 ^ 31)%N).
  { apply lxor_lt_pow; change (2 ^ 31)%N with 2147483648%N; [apply N.div_lt_upper_bound; lia|lia]. }
  split.
  - cbn [fst snd]. split; [change (2 ^ 31)%N with 2147483648%N; lia|]. split; [exact X|]. split; [exact D|]. apply W; [exact X|]. now rewrite D, M.
  - intros [r r'] (A & B & C & E). cbn [fst snd] in *. apply W in E; [|exact B]. destruct E as [E ->]. rewrite C. f_equal.
    rewrite (N.div_mod r 2), C, E by discriminate. reflexivity.
Qed.
Lemma wRand64_lemma v f g h : (v < 2 ^ 64)%N -> (f < 2 ^ 10)%N -> (g < 2 ^ 10)%N -> (h < 2 ^ 9)%N ->
  exists! p : N * N * N, let '(a, b, c) := p in (a < 2 ^ 31)%N /\ (b < 2 ^ 31)%N /\ (c < 2 ^ 31)%N /\
    (a / 2 ^ 21 = f)%N /\ (b / 2 ^ 21 = g)%N /\ (c / 2 ^ 22 = h)%N /\ wRand64 a b c = v.
Proof.
  intros V F G H.
  assert (W : forall a b c, (a < 2 ^ 31)%N -> (b < 2 ^ 31)%N -> (wRand64 a b c = v <->
     (a mod 2 ^ 21 = v mod 2 ^ 21)%N /\ let w := N.lxor (v / 2 ^ 21) (a / 2 ^ 21) in
     (b mod 2 ^ 21 = w mod 2 ^ 21)%N /\ (c mod 2 ^ 22 = N.lxor (w / 2 ^ 21) (b / 2 ^ 21))%N)).
  { intros a b c A B. unfold wRand64. rewrite (N.mod_small (N.shiftl b 21)) by (rewrite N.shiftl_mul_pow2; change (2 ^ 31)%N with 2147483648%N in B; change (2 ^ 21)%N with 2097152%N; lia).
    assert (C : (N.shiftl c 42 mod 18446744073709551616 = N.shiftl (N.shiftl (c mod 2 ^ 22) 21) 21)%N).
    { rewrite N.shiftl_shiftl, !N.shiftl_mul_pow2. change 18446744073709551616%N with (2 ^ 22 * 2 ^ (21 + 21))%N. change 42%N with (21 + 21)%N.
      rewrite N.mul_mod_distr_r by (apply N.pow_nonzero; discriminate). reflexivity. }
    rewrite C, N.lxor_assoc, <- N.shiftl_lxor, lxor_shift. cbv zeta.
    split.
    - intros [P Q]. split; [exact P|]. apply lxor_shift in Q. exact Q.
    - intros [P Q]. split; [exact P|]. apply lxor_shift. exact Q. }
  set (w := N.lxor (v / 2 ^ 21) f). set (u := N.lxor (w / 2 ^ 21) g).
  assert (WL : (w < 2 ^ 43)%N).
  { apply lxor_lt_pow; [apply N.div_lt_upper_bound; [discriminate|exact V]|eapply N.lt_trans; [exact F|reflexivity]]. }
  assert (UL : (u < 2 ^ 22)%N).
  { apply lxor_lt_pow; [apply N.div_lt_upper_bound; [discriminate|exact WL]|eapply N.lt_trans; [exact G|reflexivity]]. }
  assert (T : forall q r k : N, (r < 2 ^ k -> (2 ^ k * q + r) / 2 ^ k = q /\ (2 ^ k * q + r) mod 2 ^ k = r)%N).
  { intros q r k R. split; symmetry; [now apply (N.div_unique _ _ _ r)|now apply (N.mod_unique _ _ q)]. }
  pose proof (N.mod_lt v (2 ^ 21) ltac:(discriminate)) as VM. pose proof (N.mod_lt w (2 ^ 21) ltac:(discriminate)) as WM.
  destruct (T f _ _ VM) as [TA TA']. destruct (T g _ _ WM) as [TB TB']. destruct (T h _ _ UL) as [TC TC'].
  change (2 ^ 10)%N with 1024%N in *. change (2 ^ 9)%N with 512%N in *.
  exists ((2 ^ 21 * f + v mod 2 ^ 21)%N, (2 ^ 21 * g + w mod 2 ^ 21)%N, (2 ^ 22 * h + u)%N). split.
  - assert (A : (2 ^ 21 * f + v mod 2 ^ 21 < 2 ^ 31)%N) by (change (2 ^ 31)%N with 2147483648%N; change (2 ^ 21)%N with 2097152%N in *; lia).
    assert (B : (2 ^ 21 * g + w mod 2 ^ 21 < 2 ^ 31)%N) by (change (2 ^ 31)%N with 2147483648%N; change (2 ^ 21)%N with 2097152%N in *; lia).
    split; [exact A|]. split; [exact B|]. split; [change (2 ^ 31)%N with 2147483648%N; change (2 ^ 22)%N with 4194304%N in *; lia|].
    split; [exact TA|]. split; [exact TB|]. split; [exact TC|]. apply W; [exact A|exact B|]. split; [exact TA'|]. cbv zeta. rewrite TA. fold w.
    split; [exact TB'|]. rewrite TB. exact TC'.
  - intros [[a b] c] (A & B & C & QA & QB & QC & E). apply W in E; [|exact A|exact B]. destruct E as [EA E]. cbv zeta in E. rewrite QA in E. fold w in E.
    destruct E as [EB EC]. rewrite QB in EC. fold u in EC.
    rewrite (N.div_mod a (2 ^ 21)), (N.div_mod b (2 ^ 21)), (N.div_mod c (2 ^ 22)), QA, QB, QC, EA, EB, EC by discriminate. reflexivity.
Qed.
Lemma wRand_small_lemma a b c : (a < 2 ^ 15)%N -> (b < 2 ^ 15)%N -> (c < 2 ^ 15)%N -> (wRand32 a b < 2 ^ 16)%N /\ (wRand64 a b c < 2 ^ 57)%N.
Proof.
  intros A B C. unfold wRand32, wRand64. rewrite !N.shiftl_mul_pow2. change (2 ^ 15)%N with 32768%N in *.
  change (2 ^ 1)%N with 2%N. change (2 ^ 21)%N with 2097152%N. change (2 ^ 42)%N with 4398046511104%N.
  rewrite !N.mod_small by lia. split.
  - apply lxor_lt_pow; change (2 ^ 16)%N with 65536%N; lia.
  - apply lxor_lt_pow; [apply lxor_lt_pow|]; change (2 ^ 57)%N with 144115188075855872%N; lia.
Qed.
