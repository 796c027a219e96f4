(** * Proofs about the random generator *)
From Verif Require Import Base Word32 Sm4Model FpeModel MatModel RandNum RandModel.
From Coq Require Import Znumtheory Permutation.
Local Open Scope nat_scope.

(** ** permuteQPR permutes the 32-bit numbers *)
Lemma lt32_word x : (x < 2 ^ 32)%N -> w32 x = x.
Proof. intro H. unfold w32. apply N.mod_small, H. Qed.
Lemma w32_lt x : (w32 x < 2 ^ 32)%N.
Proof. unfold w32. apply N.mod_lt. discriminate. Qed.
Definition PN : N := 4294967291.
Lemma permuteQPR_eq x : permuteQPR x = (if PN <=? x then x else if x <=? 2147483645 then (x * x) mod PN else PN - (x * x) mod PN)%N.
Proof. reflexivity. Qed.
Lemma sq_lt x : ((x * x) mod PN < PN)%N.
Proof. apply N.mod_lt. discriminate. Qed.
Lemma permuteQPR_lt : forall x, (x < 2 ^ 32)%N -> (permuteQPR x < 2 ^ 32)%N.
Proof.
  intros x X. rewrite permuteQPR_eq. pose proof (sq_lt x). change (2 ^ 32)%N with 4294967296%N in *. unfold PN in *.
  destruct (N.leb_spec 4294967291 x); [exact X|]. destruct (N.leb_spec x 2147483645); lia.
Qed.
Lemma div_N : forall a b, ((a * a) mod PN = (b * b) mod PN)%N -> (P32 | (Z.of_N a - Z.of_N b) * (Z.of_N a + Z.of_N b))%Z.
Proof.
  intros a b E. apply (f_equal Z.of_N) in E. rewrite !N2Z.inj_mod, !N2Z.inj_mul in E. change (Z.of_N PN) with P32 in E.
  apply Z.mod_divide; [discriminate|].
  replace ((Z.of_N a - Z.of_N b) * (Z.of_N a + Z.of_N b))%Z with (Z.of_N a * Z.of_N a - Z.of_N b * Z.of_N b)%Z by ring.
  rewrite Zminus_mod, E, Z.sub_diag. reflexivity.
Qed.
Lemma sq_inj : forall a b, (a < PN)%N -> (b < PN)%N -> ((a * a) mod PN = (b * b) mod PN)%N -> a = b \/ (a + b = PN)%N.
Proof.
  intros a b A B E. apply div_N in E. apply (prime_mult _ P32_prime) in E. unfold PN, P32 in *.
  destruct E as [[q Q]|[q Q]].
  - left. assert (q = 0)%Z by lia. lia.
  - assert (q = 0 \/ q = 1)%Z as [->| ->] by lia; lia.
Qed.
Lemma sq_neg : forall a b, (a < PN)%N -> (0 < b < PN)%N -> ((a * a) mod PN = PN - (b * b) mod PN)%N -> False.
Proof.
  intros a b A B E.
  assert (V : (P32 | Z.of_N b)%Z).
  { apply (sum_of_squares P32 P32_prime eq_refl (Z.of_N a)). apply Z.mod_divide; [discriminate|].
    apply (f_equal Z.of_N) in E. pose proof (sq_lt b). rewrite N2Z.inj_sub in E by lia.
    rewrite !N2Z.inj_mod, !N2Z.inj_mul in E. change (Z.of_N PN) with P32 in E.
    rewrite Zplus_mod, E. set (r := ((Z.of_N b * Z.of_N b) mod P32)%Z). replace (P32 - r + r)%Z with P32 by lia. reflexivity. }
  apply Z.divide_pos_le in V; unfold P32, PN in *; lia.
Qed.
Lemma sq_zero : forall a, (a < PN)%N -> ((a * a) mod PN = 0)%N -> a = 0%N.
Proof. intros a A E. destruct (sq_inj a 0 A eq_refl E) as [H|H]; [exact H|lia]. Qed.
Lemma permuteQPR_inj : forall x y, (x < 2 ^ 32)%N -> (y < 2 ^ 32)%N -> permuteQPR x = permuteQPR y -> x = y.
Proof.
  intros x y X Y. rewrite !permuteQPR_eq. pose proof (sq_lt x) as SX. pose proof (sq_lt y) as SY.
  change (2 ^ 32)%N with 4294967296%N in *.
  destruct (N.leb_spec PN x) as [A|A], (N.leb_spec PN y) as [B|B].
  - auto.
  - intro E. exfalso. destruct (N.leb_spec y 2147483645) as [L|L]; [lia|].
    assert ((y * y) mod PN = 0)%N as Z by lia. apply sq_zero in Z; [subst y|]; lia.
  - intro E. exfalso. destruct (N.leb_spec x 2147483645) as [L|L]; [lia|].
    assert ((x * x) mod PN = 0)%N as Z by lia. apply sq_zero in Z; [subst x|]; lia.
  - destruct (N.leb_spec x 2147483645) as [L|L], (N.leb_spec y 2147483645) as [M|M]; intro E.
    + destruct (sq_inj x y A B E) as [H|H]; [exact H|unfold PN in *; lia].
    + exfalso. apply (sq_neg x y A); [lia|exact E].
    + exfalso. symmetry in E. apply (sq_neg y x B); [lia|exact E].
    + assert (E' : ((x * x) mod PN = (y * y) mod PN)%N) by lia.
      destruct (sq_inj x y A B E') as [H|H]; [exact H|unfold PN in *; lia].
Qed.

(** an injection of an initial segment into itself is onto *)
Lemma inj_onto : forall (n : nat) (f : N -> N), (forall x, (x < N.of_nat n)%N -> (f x < N.of_nat n)%N) ->
  (forall x y, (x < N.of_nat n)%N -> (y < N.of_nat n)%N -> f x = f y -> x = y) ->
  forall y, (y < N.of_nat n)%N -> exists x, (x < N.of_nat n)%N /\ f x = y.
Proof.
  intros n f B I y Y. set (l := map N.of_nat (seq 0 n)).
  assert (L : forall x, In x l <-> (x < N.of_nat n)%N).
  { intro x. unfold l. rewrite in_map_iff. split; [intros [k [<- K]]; apply in_seq in K; lia|].
    intro H. exists (N.to_nat x). rewrite in_seq. lia. }
  assert (D : NoDup l) by (apply FinFun.Injective_map_NoDup; [intros a b; lia|apply seq_NoDup]).
  assert (D' : NoDup (map f l)).
  { assert (G : forall m, NoDup m -> (forall x, In x m -> In x l) -> NoDup (map f m)).
    { induction m as [|a m IH]; intros N S; cbn; constructor; inversion N; subst.
      - intro H. apply in_map_iff in H. destruct H as [b [E H]].
        assert (b = a); [|subst; contradiction].
        apply I; [apply L, S; now right|apply L, S; now left|exact E].
      - apply IH; [assumption|intros; apply S; now right]. }
    apply G; auto. }
  assert (P : incl l (map f l)).
  { apply NoDup_length_incl; [exact D'|now rewrite map_length|]. intros x H. apply in_map_iff in H. destruct H as [a [<- H]].
    apply L, B, L, H. }
  apply L in Y. apply P in Y. apply in_map_iff in Y. destruct Y as [x [E H]]. exists x. split; [now apply L|exact E].
Qed.
Lemma of_to_2_32 : N.of_nat (N.to_nat (2 ^ 32)) = (2 ^ 32)%N.
Proof. apply N2Nat.id. Qed.
Lemma onto32 : forall f : N -> N, (forall x, (x < 2 ^ 32)%N -> (f x < 2 ^ 32)%N) ->
  (forall x y, (x < 2 ^ 32)%N -> (y < 2 ^ 32)%N -> f x = f y -> x = y) ->
  forall y, (y < 2 ^ 32)%N -> exists x, (x < 2 ^ 32)%N /\ f x = y.
Proof.
  intros f B I y Y. pose proof (inj_onto (N.to_nat (2 ^ 32)) f) as H. rewrite of_to_2_32 in H. exact (H B I y Y).
Qed.

(** ** The values of one seeding *)
Definition rng_ok (s : rng) : Prop := (r_index s < 2 ^ 32)%N /\ (r_off s < 2 ^ 32)%N.
(** the first [n] results of cus_random *)
Fixpoint calls (n : nat) (s : rng) : list N :=
  match n with O => [] | S n' => let '(v, s') := cus_random s in v :: calls n' s' end.
Lemma w32_add_l a b : w32 (w32 a + b) = w32 (a + b).
Proof. unfold w32. rewrite N.add_mod_idemp_l by discriminate. reflexivity. Qed.
Lemma cus_random_iter : forall n s, rng_ok s -> calls n s = map (rng_stream s) (seq 0 n).
Proof.
  assert (G : forall n s, calls n (rng_adv s 0) = map (rng_stream s) (seq 0 n)).
  { induction n as [|n IH]; intro s; [reflexivity|].
    cbn [calls seq map]. unfold cus_random at 1. f_equal.
    rewrite <- seq_shift, map_map.
    transitivity (calls n (rng_adv (rng_adv s 1) 0)).
    - f_equal. unfold rng_adv. cbn [r_index r_off r_seed r_calls]. f_equal.
      rewrite !w32_add_l. change (N.of_nat 0) with 0%N. change (N.of_nat 1) with 1%N. rewrite !N.add_0_r. now rewrite w32_add_l || reflexivity.
    - rewrite IH. apply map_ext. intro k. unfold rng_stream, rng_adv. cbn [r_index r_off].
      rewrite w32_add_l. do 6 f_equal. rewrite Nat2N.inj_succ. change (N.of_nat 1) with 1%N. lia. }
  intros n s [I _]. rewrite <- G. f_equal. destruct s. unfold rng_adv. cbn. now rewrite N.add_0_r, lt32_word.
Qed.
Lemma lxor_lt32 a b : (a < 2 ^ 32)%N -> (b < 2 ^ 32)%N -> (N.lxor a b < 2 ^ 32)%N.
Proof.
  intros A B. rewrite <- (lt32_word a A), <- (lt32_word b B).
  assert (E : N.lxor (w32 a) (w32 b) = w32 (N.lxor (w32 a) (w32 b))).
  { apply N.bits_inj. intro i. rewrite testbit_w32, !N.lxor_spec, !testbit_w32.
    destruct (i <? 32)%N; now rewrite ?andb_true_r, ?andb_false_r. }
  rewrite E. apply w32_lt.
Qed.
Lemma rng_stream_lt : forall s n, (rng_stream s n < 2 ^ 32)%N.
Proof. intros. unfold rng_stream. apply permuteQPR_lt, lxor_lt32; [apply w32_lt|reflexivity]. Qed.
Lemma w32_add_inj : forall a b c, (a < 2 ^ 32)%N -> (b < 2 ^ 32)%N -> w32 (a + c) = w32 (b + c) -> a = b.
Proof. intros a b c A B E. unfold w32 in E. change (2 ^ 32)%N with 4294967296%N in *. lia. Qed.
Lemma rng_stream_inj : forall s n m, (N.of_nat n < 2 ^ 32)%N -> (N.of_nat m < 2 ^ 32)%N -> rng_stream s n = rng_stream s m -> n = m.
Proof.
  intros s n m A B E. unfold rng_stream in E.
  apply permuteQPR_inj in E; try (apply lxor_lt32; [apply w32_lt|reflexivity]).
  apply (f_equal (fun x => N.lxor x 0x5bf03635)) in E. rewrite !N.lxor_assoc, !N.lxor_nilpotent, !N.lxor_0_r in E.
  apply w32_add_inj in E; try (apply permuteQPR_lt, w32_lt).
  apply permuteQPR_inj in E; try apply w32_lt.
  rewrite !(N.add_comm (r_index s)) in E. apply w32_add_inj in E; [lia|assumption|assumption].
Qed.
Lemma rng_stream_onto : forall s v, (v < 2 ^ 32)%N -> exists n, (N.of_nat n < 2 ^ 32)%N /\ rng_stream s n = v.
Proof.
  intros s v V. destruct (onto32 (fun x => rng_stream s (N.to_nat x))) with (y := v) as [x [X E]].
  - intros. apply rng_stream_lt.
  - intros x y X Y E. apply rng_stream_inj in E; rewrite ?N2Nat.id; try assumption. lia.
  - exact V.
  - exists (N.to_nat x). now rewrite N2Nat.id.
Qed.
Lemma calls_NoDup : forall s n, rng_ok s -> (N.of_nat n <= 2 ^ 32)%N -> NoDup (calls n s).
Proof.
  intros s n O H. rewrite cus_random_iter by exact O.
  assert (G : forall k a, (N.of_nat (a + k) <= 2 ^ 32)%N -> NoDup (map (rng_stream s) (seq a k))).
  { induction k as [|k IH]; intros a A; cbn; constructor.
    - intro I. apply in_map_iff in I. destruct I as [m [E I]]. apply in_seq in I.
      apply rng_stream_inj in E; lia.
    - apply IH. replace (S a + k) with (a + S k) by lia. exact A. }
  apply G. exact H.
Qed.
Lemma calls_onto : forall s n v, rng_ok s -> N.of_nat n = (2 ^ 32)%N -> (v < 2 ^ 32)%N -> In v (calls n s).
Proof.
  intros s n v O H V. rewrite cus_random_iter by exact O. destruct (rng_stream_onto s v V) as [k [K E]].
  apply in_map_iff. exists k. split; [exact E|]. apply in_seq. lia.
Qed.
Lemma calls_period : forall s n m, N.of_nat m = (2 ^ 32)%N -> rng_stream s (n + m) = rng_stream s n.
Proof.
  intros s n m M. unfold rng_stream. do 5 f_equal. rewrite Nat2N.inj_add, M. unfold w32.
  rewrite N.add_assoc, <- N.add_mod_idemp_r, N.mod_same, N.add_0_r by discriminate. reflexivity.
Qed.
Lemma InitRandom_ok : forall b s, rng_ok (InitRandom b s).
Proof. intros. split; cbn; apply permuteQPR_lt, w32_lt. Qed.
Lemma InitRandom_inj : forall a b s t, (a < 2 ^ 32)%N -> (b < 2 ^ 32)%N ->
  r_index (InitRandom a s) = r_index (InitRandom b t) -> a = b.
Proof.
  intros a b s t A B E. cbn in E. apply permuteQPR_inj in E; try apply w32_lt.
  apply w32_add_inj in E; try (apply permuteQPR_lt; assumption). now apply permuteQPR_inj in E.
Qed.
