(** * Different seeds give different sequences; when a seed is used twice *)
From Verif Require Import Base Word32 FpeModel MatModel MatSpec MatProofs GaussProofs ComProofs Wbsm4Proofs RandModel RandProofs RandRefine RandTables.
From Coq Require Import ZArith.
Local Open Scope N_scope.
Local Opaque genMatpair.
(** where permuteQPR grows by one *)
Lemma qpr_step x : x < 2 ^ 32 -> permuteQPR (w32 (x + 1)) = w32 (permuteQPR x + 1) -> x = 0 \/ 4294967290 <= x.
Proof.
  intros X. change (2 ^ 32) with 4294967296 in X. destruct (N.leb_spec 4294967290 x) as [|L]; [auto|].
  rewrite (lt32_word (x + 1)) by (change (2 ^ 32) with 4294967296; lia). rewrite !permuteQPR_eq.
  rewrite (proj2 (N.leb_gt _ _)) by (unfold PN; lia). rewrite (proj2 (N.leb_gt PN x)) by (unfold PN; lia).
  assert (E : ((x + 1) * (x + 1)) mod PN = ((x * x) mod PN + (2 * x + 1)) mod PN).
  { replace ((x + 1) * (x + 1)) with (x * x + (2 * x + 1)) by lia. now rewrite N.add_mod_idemp_l by discriminate. }
  pose proof (sq_lt x) as SX. set (r := (x * x) mod PN) in *.
  destruct (N.leb_spec (x + 1) 2147483645) as [A|A].
  - destruct (N.leb_spec x 2147483645) as [B0|B0]; [|lia]. rewrite E. unfold w32, PN in *. intro H. left.
    destruct (N.lt_ge_cases (r + (2 * x + 1)) 4294967291) as [B|B].
    + rewrite N.mod_small in H by exact B. lia.
    + replace (r + (2 * x + 1)) with (r + (2 * x + 1) - 4294967291 + 1 * 4294967291) in H by lia. rewrite N.mod_add in H by discriminate.
      rewrite N.mod_small in H by lia. lia.
  - destruct (N.leb_spec x 2147483645) as [B|B].
    + assert (x = 2147483645) by lia. subst x. intro H. vm_compute in H. discriminate.
    + rewrite E. unfold w32, PN in *. intro H. exfalso.
      set (m := (r + (2 * x + 1)) mod 4294967291) in *.
      assert (M : m + 4294967291 = r + (2 * x + 1) \/ m + 2 * 4294967291 = r + (2 * x + 1)).
      { unfold m. destruct (N.lt_ge_cases (r + (2 * x + 1)) (2 * 4294967291)) as [C|C].
        - left. replace (r + (2 * x + 1)) with (r + (2 * x + 1) - 4294967291 + 1 * 4294967291) at 1 by lia. rewrite N.mod_add by discriminate.
          rewrite N.mod_small by lia. lia.
        - right. replace (r + (2 * x + 1)) with (r + (2 * x + 1) - 2 * 4294967291 + 2 * 4294967291) at 1 by lia. rewrite N.mod_add by discriminate.
          rewrite N.mod_small by lia. lia. }
      assert (M2 : m < 4294967291) by (apply N.mod_lt; discriminate). clearbody m. lia.
Qed.
Lemma qpr_top x : 4294967290 <= x < 2 ^ 32 -> permuteQPR (w32 (x + 1)) = w32 (permuteQPR x + 1).
Proof.
  change (2 ^ 32) with 4294967296. intros [A B].
  assert (C : x = 4294967290 \/ x = 4294967291 \/ x = 4294967292 \/ x = 4294967293 \/ x = 4294967294 \/ x = 4294967295) by lia.
  destruct C as [->|[->|[->|[->|[->| ->]]]]]; reflexivity.
Qed.
Lemma lxor_cancel a b c : N.lxor a c = N.lxor b c -> a = b.
Proof. intro H. apply (f_equal (fun z => N.lxor z c)) in H. rewrite !N.lxor_assoc, !N.lxor_nilpotent, !N.lxor_0_r in H. exact H. Qed.
Lemma w32_add_r a b : w32 (a + w32 b) = w32 (a + b).
Proof. unfold w32. rewrite N.add_mod_idemp_r by discriminate. reflexivity. Qed.
(** two states that yield the same sequence have the same index *)
Lemma stream_index s t : rng_ok s -> rng_ok t -> (forall n, rng_stream s n = rng_stream t n) -> r_index s = r_index t.
Proof.
  intros [I1 O1] [I2 O2] H.
  assert (F : forall n, w32 (permuteQPR (w32 (r_index s + n)) + r_off s) = w32 (permuteQPR (w32 (r_index t + n)) + r_off t)).
  { intro n. specialize (H (N.to_nat n)). unfold rng_stream in H. rewrite N2Nat.id in H.
    apply permuteQPR_inj in H; try (apply lxor_lt32; [apply w32_lt|reflexivity]). now apply lxor_cancel in H. }
  assert (G : forall n, permuteQPR (w32 (r_index s + n + 1)) = w32 (permuteQPR (w32 (r_index s + n)) + 1) ->
                        permuteQPR (w32 (r_index t + n + 1)) = w32 (permuteQPR (w32 (r_index t + n)) + 1)).
  { intros n E. pose proof (F n) as F0. pose proof (F (n + 1)) as F1. rewrite !N.add_assoc in F1. rewrite E in F1.
    assert (P0 : permuteQPR (w32 (r_index t + n)) < 2 ^ 32) by apply permuteQPR_lt, w32_lt.
    assert (P1 : permuteQPR (w32 (r_index t + n + 1)) < 2 ^ 32) by apply permuteQPR_lt, w32_lt.
    apply (w32_add_inj _ _ (r_off t)); [exact P1|apply w32_lt|]. rewrite <- F1. rewrite !w32_add_l.
    replace (permuteQPR (w32 (r_index s + n)) + 1 + r_off s) with (permuteQPR (w32 (r_index s + n)) + r_off s + 1) by lia.
    replace (permuteQPR (w32 (r_index t + n)) + 1 + r_off t) with (permuteQPR (w32 (r_index t + n)) + r_off t + 1) by lia.
    rewrite <- (w32_add_l (permuteQPR (w32 (r_index s + n)) + r_off s)), <- (w32_add_l (permuteQPR (w32 (r_index t + n)) + r_off t)). now rewrite F0. }
  (* n0: where the index of s is the largest residue *)
  set (n0 := 2 * 4294967296 + 4294967290 - r_index s). change (2 ^ 32) with 4294967296 in *.
  assert (N0 : forall k, k < 7 -> let j := w32 (r_index t + (n0 + k)) in j = 0 \/ 4294967290 <= j).
  { intros k K j. apply qpr_step; [apply w32_lt|]. unfold j. rewrite w32_add_l. apply G.
    destruct (N.eq_dec k 6) as [->|K6].
    { assert (E : w32 (r_index s + (n0 + 6)) = 0) by (unfold n0, w32; lia). rewrite <- (w32_add_l (r_index s + (n0 + 6))), E. reflexivity. }
    assert (E : w32 (r_index s + (n0 + k)) = 4294967290 + k) by (unfold n0, w32; lia).
    rewrite <- (w32_add_l (r_index s + (n0 + k))), E. apply qpr_top. change (2 ^ 32) with 4294967296. lia. }
  pose proof (N0 0 ltac:(lia)) as A0. pose proof (N0 6 ltac:(lia)) as A6. pose proof (N0 3 ltac:(lia)) as A3. cbv zeta in *. clear N0 F G H.
  unfold n0, w32 in *. lia.
Qed.
Lemma seeds_differ_lemma a b s t : a < 2 ^ 32 -> b < 2 ^ 32 ->
  (forall n, rng_stream (InitRandom a s) n = rng_stream (InitRandom b t) n) -> a = b.
Proof.
  intros A B H. apply (InitRandom_inj a b s t A B). apply stream_index; [apply InitRandom_ok|apply InitRandom_ok|exact H].
Qed.
Local Opaque permuteQPR.
(** ** Seedings of the matrix functions *)
Lemma iter_reseed clk k s : r_seed s < 2 ^ 32 ->
  r_seed (Nat.iter k (reseed clk) s) = w32 (r_seed s + N.of_nat k) /\ r_calls (Nat.iter k (reseed clk) s) = (r_calls s + k)%nat.
Proof.
  intro S. induction k as [|k [A B]]; cbn [Nat.iter].
  - rewrite N.add_0_r, Nat.add_0_r. split; [symmetry; now apply lt32_word|reflexivity].
  - cbn [reseed InitRandom r_seed r_calls Nat.iter nat_rect] in *. unfold Nat.iter in A, B. rewrite A, B. split; [rewrite w32_add_l; f_equal; lia|lia].
Qed.
Lemma lxor_cancel_l a b c : N.lxor c a = N.lxor c b -> a = b.
Proof. rewrite !(N.lxor_comm c). apply lxor_cancel. Qed.
(** in one second: never twice the same sequence, for 2^32 seedings *)
Lemma reseed_fresh_lemma clk T s i j : (forall n, w32 (clk n) = T) -> r_seed s < 2 ^ 32 -> (i < j)%nat -> N.of_nat j < 2 ^ 32 ->
  ~ forall n, rng_stream (Nat.iter (S i) (reseed clk) s) n = rng_stream (Nat.iter (S j) (reseed clk) s) n.
Proof.
  intros C S IJ J H. destruct (iter_reseed clk i s S) as [A B]. destruct (iter_reseed clk j s S) as [A' B'].
  change (Nat.iter (Datatypes.S i) (reseed clk) s) with (reseed clk (Nat.iter i (reseed clk) s)) in H.
  change (Nat.iter (Datatypes.S j) (reseed clk) s) with (reseed clk (Nat.iter j (reseed clk) s)) in H.
  unfold reseed at 1 3 in H. rewrite A, A', !C in H.
  assert (TT : T < 2 ^ 32) by (rewrite <- (C 0%nat); apply w32_lt).
  apply seeds_differ_lemma in H; try (apply lxor_lt32; [apply w32_lt|exact TT]). apply lxor_cancel in H.
  unfold w32 in H. change (2 ^ 32) with 4294967296 in *. lia.
Qed.
(** when the clock ticks between them: the same matrix again *)
Lemma s_genMatpair_stream n clk clk' s s' : (forall k, rng_stream (reseed clk (reseed clk s)) k = rng_stream (reseed clk' (reseed clk' s')) k) ->
  forall A B t A' B' t', s_genMatpair n clk s = Ret (A, B, t) -> s_genMatpair n clk' s' = Ret (A', B', t') -> A = A' /\ B = B'.
Proof.
  intros H A B t A' B' t'. unfold s_genMatpair. cbv zeta.
  destruct (genMatpair n (rng_stream (reseed clk (reseed clk s))) 0) as [[[X Y] p]| |] eqn:E; try discriminate.
  destruct (local_genMatpair n _ _ _ _ E) as [_ R]. rewrite (R (rng_stream (reseed clk' (reseed clk' s'))) 0%nat) by (apply tape_drawn; intros k _; unfold draw; now rewrite H).
  cbn [obind]. intros U V. injection U as -> -> _. injection V as -> -> _. auto.
Qed.
Lemma reseed2_stream clk s k : rng_stream (reseed clk (reseed clk s)) k = rng_stream (InitRandom (N.lxor (w32 (r_seed s + 1)) (w32 (clk (S (r_calls s))))) rng0) k.
Proof. reflexivity. Qed.
Lemma affine_matpair n clk s a b t : s_genaffinepair n clk s = Ret (a, b, t) ->
  exists u, s_genMatpair n clk s = Ret (a_mat a, a_mat b, u) /\ r_calls t = (r_calls s + 3)%nat /\ r_seed t = w32 (w32 (w32 (r_seed s + 1) + 1) + 1).
Proof.
  unfold s_genaffinepair. destruct (s_genMatpair n clk s) as [[[A B] u]| |] eqn:E; try discriminate. cbn [obind]. unfold s_randV. cbv zeta.
  destruct (randV n (rng_stream (reseed clk u)) 0) as [v p]. intro H. injection H as <- <- <-. exists u. cbn [a_mat]. split; [reflexivity|].
  unfold s_genMatpair in E. cbv zeta in E. destruct (genMatpair n (rng_stream (reseed clk (reseed clk s))) 0) as [[[A' B'] q]| |]; try discriminate. cbn [obind] in E.
  injection E as _ _ <-. cbn [rng_adv reseed InitRandom r_calls r_seed]. split; [lia|reflexivity].
Qed.
Lemma repeat_lemma n clk s a b t a' b' t' :
  s_genaffinepair n clk s = Ret (a, b, t) -> s_genaffinepair n clk t = Ret (a', b', t') ->
  N.lxor (w32 (r_seed s + 1)) (w32 (clk (r_calls s + 1)%nat)) = N.lxor (w32 (r_seed s + 4)) (w32 (clk (r_calls s + 4)%nat)) ->
  a_mat a = a_mat a' /\ a_mat b = a_mat b'.
Proof.
  intros E E' X. destruct (affine_matpair _ _ _ _ _ _ E) as (u & F & C & D). destruct (affine_matpair _ _ _ _ _ _ E') as (u' & F' & _).
  refine (s_genMatpair_stream n clk clk s t _ _ _ _ _ _ _ F F'). intro k. rewrite !reseed2_stream. rewrite C, D.
  replace (S (r_calls s + 3)) with (r_calls s + 4)%nat by lia. replace (S (r_calls s)) with (r_calls s + 1)%nat by lia. rewrite X.
  assert (W : w32 (w32 (w32 (w32 (r_seed s + 1) + 1) + 1) + 1) = w32 (r_seed s + 4)) by (unfold w32; clear; lia). now rewrite W.
Qed.
Lemma low2 q c : c < 4 -> 4 * q + c = N.lxor (4 * q) c.
Proof.
  intros C. rewrite (N.mul_comm 4 q). change 4 with (2 ^ 2). rewrite <- N.shiftl_mul_pow2. apply N.add_nocarry_lxor. apply N.bits_inj. intro k. rewrite N.land_spec, N.bits_0. destruct (N.lt_ge_cases k 2) as [L|L].
  - now rewrite N.shiftl_spec_low by exact L.
  - assert (E : N.testbit c k = false). { destruct (N.eq_dec c 0) as [->|Z]; [apply N.bits_0|]. apply N.bits_above_log2. assert (N.log2 c < 2); [|lia]. apply N.log2_lt_pow2; [lia|exact C]. }
    rewrite E. apply andb_false_r.
Qed.
Lemma lxor_3 q : N.lxor (4 * q) (4 * q + 3) = 3.
Proof. rewrite low2 by lia. rewrite <- N.lxor_assoc, N.lxor_nilpotent. reflexivity. Qed.
Lemma lxor_12 q : N.lxor (4 * q + 1) (4 * q + 2) = 3.
Proof. rewrite !low2 by lia. rewrite (N.lxor_comm (4 * q) 1), N.lxor_assoc, <- (N.lxor_assoc (4 * q) (4 * q) 2), N.lxor_nilpotent. reflexivity. Qed.
Lemma lxor_square x y u v c : N.lxor x y = c -> N.lxor u v = c -> N.lxor x u = N.lxor y v.
Proof.
  intros A B. apply (lxor_cancel _ _ (N.lxor y u)). rewrite (N.lxor_comm y u) at 1. rewrite N.lxor_assoc, <- (N.lxor_assoc u u y), N.lxor_nilpotent, N.lxor_0_l, A.
  rewrite (N.lxor_comm y v), N.lxor_assoc, <- (N.lxor_assoc y y u), N.lxor_nilpotent, N.lxor_0_l, N.lxor_comm. symmetry. exact B.
Qed.
Lemma repeat_tick_lemma n clk s a b t a' b' t' :
  s_genaffinepair n clk s = Ret (a, b, t) -> s_genaffinepair n clk t = Ret (a', b', t') ->
  r_seed s mod 4 = 3 -> r_seed s + 4 < 2 ^ 32 ->
  clk (r_calls s + 1)%nat mod 4 = 1 -> clk (r_calls s + 4)%nat = clk (r_calls s + 1)%nat + 1 -> clk (r_calls s + 4)%nat < 2 ^ 32 ->
  a_mat a = a_mat a' /\ a_mat b = a_mat b'.
Proof.
  intros E E' R R' C C' C2. apply (repeat_lemma n clk s a b t a' b' t' E E').
  rewrite !lt32_word by lia. rewrite C'. set (T := clk (r_calls s + 1)%nat) in *. clearbody T. set (r := r_seed s) in *. clearbody r. clear - R C.
  pose proof (N.div_mod r 4 ltac:(discriminate)) as D. pose proof (N.div_mod T 4 ltac:(discriminate)) as D2. rewrite R in D. rewrite C in D2.
  set (q := r / 4) in *. set (p := T / 4) in *. clearbody q p. subst r T. clear.
  replace (4 * q + 3 + 1) with (4 * (q + 1)) by lia. replace (4 * q + 3 + 4) with (4 * (q + 1) + 3) by lia. replace (4 * p + 1 + 1) with (4 * p + 2) by lia.
  exact (lxor_square _ _ _ _ 3 (lxor_3 (q + 1)) (lxor_12 p)).
Qed.
