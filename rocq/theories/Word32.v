(** 32-bit word operations of C (uint32_t) on N *)
From Verif Require Import Base.
Local Open Scope N_scope.

Definition w32 (x : N) : N := x mod 2 ^ 32.
(** (a << n) | (a >> (32 - n)) on uint32_t, 0 < n < 32: src/sm4/sm4.c:87-90 rotl,
    src/sm3/md32_common.h ROTATE *)
Definition rotl32 (a n : N) : N := N.lor (w32 (N.shiftl a n)) (N.shiftr a (32 - n)).
Definition word (x : N) : Prop := x < 2 ^ 32.

Lemma testbit_w32 x i : N.testbit (w32 x) i = N.testbit x i && (i <? 32).
Proof.
  unfold w32. destruct (N.ltb_spec i 32).
  - rewrite N.mod_pow2_bits_low by auto. now rewrite andb_true_r.
  - rewrite N.mod_pow2_bits_high by auto. now rewrite andb_false_r.
Qed.
Lemma word_w32 x : word (w32 x).
Proof. apply N.mod_lt. discriminate. Qed.
Lemma word_lxor a b : word a -> word b -> word (N.lxor a b).
Proof. apply lxor_lt. Qed.
Lemma word_testbit a i : word a -> 32 <= i -> N.testbit a i = false.
Proof. apply testbit_high. Qed.
Lemma word_of_bits a : (forall i, 32 <= i -> N.testbit a i = false) -> word a.
Proof.
  intros H. unfold word. replace a with (w32 a); [apply word_w32|].
  apply N.bits_inj. intros i. rewrite testbit_w32. destruct (N.ltb_spec i 32); [now rewrite andb_true_r|].
  rewrite H by auto. reflexivity.
Qed.

Lemma testbit_rotl32 a n i : word a -> 0 < n < 32 -> N.testbit (rotl32 a n) i =
  if i <? 32 then N.testbit a (if i <? n then i + 32 - n else i - n) else false.
Proof.
  intros Ha Hn. unfold rotl32. rewrite N.lor_spec, testbit_w32, N.shiftr_spec by lia.
  destruct (N.ltb_spec i 32).
  - rewrite andb_true_r. destruct (N.ltb_spec i n).
    + rewrite N.shiftl_spec_low by lia. cbn [orb]. f_equal. lia.
    + rewrite N.shiftl_spec_high by lia. rewrite (word_testbit a (i + (32 - n))) by (auto; lia). apply orb_false_r.
  - rewrite andb_false_r. cbn [orb]. apply word_testbit; auto. lia.
Qed.
Lemma word_rotl32 a n : word a -> 0 < n < 32 -> word (rotl32 a n).
Proof.
  intros Ha Hn. apply word_of_bits. intros i Hi. rewrite testbit_rotl32 by auto.
  destruct (N.ltb_spec i 32); [lia|auto].
Qed.
Lemma rotl32_lxor a b n : word a -> word b -> 0 < n < 32 ->
  rotl32 (N.lxor a b) n = N.lxor (rotl32 a n) (rotl32 b n).
Proof.
  intros Ha Hb Hn. apply N.bits_inj. intros i. rewrite N.lxor_spec, !testbit_rotl32 by (auto using word_lxor).
  destruct (i <? 32); [|reflexivity]. apply N.lxor_spec.
Qed.
(** disjoint or is addition *)
Lemma lor_add_shift a b n : b < 2 ^ n -> N.lor (N.shiftl a n) b = a * 2 ^ n + b.
Proof.
  intros H. rewrite add_shift_lxor by auto. apply N.bits_inj. intros i. rewrite N.lor_spec, N.lxor_spec.
  destruct (N.ltb_spec i n).
  - rewrite N.shiftl_spec_low by auto. now destruct (N.testbit b i).
  - rewrite (testbit_high b n i) by auto. now rewrite orb_false_r, xorb_false_r.
Qed.
Lemma rotl32_arith a n : word a -> 0 < n < 32 -> rotl32 a n = (a * 2 ^ n) mod 2 ^ 32 + a / 2 ^ (32 - n).
Proof.
  intros Ha Hn. unfold rotl32, w32. rewrite N.shiftl_mul_pow2, N.shiftr_div_pow2.
  assert (E : (a * 2 ^ n) mod 2 ^ 32 = N.shiftl (a mod 2 ^ (32 - n)) n).
  { rewrite N.shiftl_mul_pow2. replace (2 ^ 32) with (2 ^ (32 - n) * 2 ^ n) by (rewrite <- N.pow_add_r; f_equal; lia).
    rewrite N.mul_mod_distr_r; auto; apply N.pow_nonzero; discriminate. }
  rewrite E. rewrite lor_add_shift; [now rewrite N.shiftl_mul_pow2|].
  apply N.div_lt_upper_bound; [apply N.pow_nonzero; discriminate|]. rewrite <- N.pow_add_r.
  replace (32 - n + n) with 32 by lia. exact Ha.
Qed.
(** equality of xor combinations *)
Ltac xor_bits :=
  apply N.bits_inj; let i := fresh "i" in intros i; rewrite ?N.lxor_spec, ?N.bits_0;
  repeat match goal with |- context [N.testbit ?a i] => generalize (N.testbit a i); intro end;
  repeat match goal with b : bool |- _ => destruct b end; reflexivity.
