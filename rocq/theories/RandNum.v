(** * Number theory for the generator of random.c: 4294967291 is prime, Fermat's little theorem, squares *)
From Coq Require Import ZArith Znumtheory List Lia Permutation.
Import ListNotations.
Local Open Scope Z_scope.

(** ** Trial division by odd numbers *)
Fixpoint trial (n : Z) (k : nat) (d : Z) : bool :=
  match k with O => true | S k' => if (n mod d =? 0) then false else trial n k' (d + 2) end.
Lemma trial_sound : forall n k d, 0 < d -> trial n k d = true -> forall i, 0 <= i < Z.of_nat k -> n mod (d + 2 * i) <> 0.
Proof.
  induction k as [|k IH]; intros d D H i I; [lia|].
  cbn [trial] in H. destruct (n mod d =? 0) eqn:E; [discriminate|].
  apply Z.eqb_neq in E. destruct (Z.eq_dec i 0) as [->|J]; [now rewrite Z.mul_0_r, Z.add_0_r|].
  specialize (IH (d + 2) ltac:(lia) H (i - 1) ltac:(lia)). now replace (d + 2 * i) with (d + 2 + 2 * (i - 1)) by lia.
Qed.
Definition P32 : Z := 4294967291.
Lemma P32_trial : trial P32 (Z.to_nat 32768) 3 = true.
Proof. vm_compute. reflexivity. Qed.
Lemma P32_no_divisor : forall d, 2 <= d -> d * d <= P32 -> ~ (d | P32).
Proof.
  intros d D S V. unfold P32 in *.
  assert (U : d <= 65536) by nia.
  destruct (Z.Even_or_Odd d) as [[k K]|[k K]].
  - destruct V as [q Q]. lia.
  - apply Z.mod_divide in V; [|lia].
    pose proof (trial_sound P32 (Z.to_nat 32768) 3 eq_refl P32_trial (k - 1)) as T.
    rewrite Z2Nat.id in T by lia. apply (T ltac:(lia)). unfold P32. replace (3 + 2 * (k - 1)) with d by lia. exact V.
Qed.
Lemma P32_prime : prime P32.
Proof.
  apply prime_alt. split; [unfold P32; lia|]. intros d D V.
  destruct (Z_le_gt_dec (d * d) P32) as [S|S]; [apply (P32_no_divisor d); [lia|exact S|exact V]|].
  destruct V as [q Q].
  assert (2 <= q) by (unfold P32 in *; nia).
  apply (P32_no_divisor q); [assumption| |exists d; lia]. unfold P32 in *; nia.
Qed.

(** ** Fermat *)
Section Fermat.
  Variable p : Z.
  Hypothesis pr : prime p.
  Let gt1 : 1 < p := ltac:(destruct pr; assumption).
  Lemma prime_mult_l : forall a b, (p | a * b) -> ~ (p | a) -> (p | b).
  Proof. intros a b D H. destruct (prime_mult p pr a b D); [contradiction|assumption]. Qed.
  Definition nums : list Z := map (fun i => Z.of_nat i) (seq 1 (Z.to_nat p - 1)).
  Lemma nums_in : forall x, In x nums <-> 1 <= x < p.
  Proof.
    intro x. unfold nums. rewrite in_map_iff. split.
    - intros [i [<- I]]. apply in_seq in I. lia.
    - intro H. exists (Z.to_nat x). rewrite in_seq. lia.
  Qed.
  Lemma nums_nodup : NoDup nums.
  Proof. unfold nums. apply FinFun.Injective_map_NoDup; [intros a b; lia|apply seq_NoDup]. Qed.
  Definition zprod (l : list Z) : Z := fold_right Z.mul 1 l.
  Lemma prod_perm : forall l l', Permutation l l' -> zprod l = zprod l'.
  Proof. induction 1; cbn; [reflexivity|now f_equal|ring|congruence]. Qed.
  Lemma not_div : forall x, 1 <= x < p -> ~ (p | x).
  Proof. intros x X D. apply Z.divide_pos_le in D; lia. Qed.
  Lemma prod_coprime : forall l, (forall x, In x l -> 1 <= x < p) -> ~ (p | zprod l).
  Proof.
    induction l as [|x l IH]; intros H D; cbn in D.
    - apply Z.divide_pos_le in D; lia.
    - destruct (prime_mult p pr _ _ D) as [V|V]; [eapply not_div; [apply H; now left|exact V]|].
      apply IH; [intros; apply H; now right|exact V].
  Qed.
  Lemma prod_scale : forall a l, (zprod (map (fun x => (a * x) mod p) l)) mod p = (a ^ Z.of_nat (length l) * zprod l) mod p.
  Proof.
    intros a; induction l as [|x l IH]; [reflexivity|].
    cbn [map zprod fold_right length]. change (fold_right Z.mul 1) with zprod.
    rewrite Z.mul_mod, IH, Zmod_mod, <- Z.mul_mod by lia. rewrite Nat2Z.inj_succ, Z.pow_succ_r by lia. f_equal. lia.
  Qed.
  Lemma scale_perm : forall a, ~ (p | a) -> Permutation (map (fun x => (a * x) mod p) nums) nums.
  Proof.
    intros a A. apply NoDup_Permutation_bis.
    - assert (G : forall l, NoDup l -> (forall x, In x l -> 1 <= x < p) -> NoDup (map (fun x => (a * x) mod p) l)).
      { induction l as [|x l IH]; intros N B; cbn; constructor; inversion N; subst.
        - intro I. apply in_map_iff in I. destruct I as [y [E I]].
          assert (D : (p | a * (y - x))).
          { replace (a * (y - x)) with (a * y - a * x) by lia. apply Z.mod_divide; [lia|]. rewrite Zminus_mod, E, Z.sub_diag. apply Z.mod_0_l; lia. }
          apply prime_mult_l in D; [|exact A]. pose proof (B x (or_introl eq_refl)). pose proof (B y (or_intror I)).
          destruct D as [q Q]. assert (q = 0) by nia. subst q. assert (y = x) by lia. subst y. contradiction.
        - apply IH; [assumption|intros; apply B; now right]. }
      apply G; [apply nums_nodup|intros; now apply nums_in].
    - now rewrite map_length.
    - intros y I. apply in_map_iff in I. destruct I as [x [<- I]]. apply nums_in in I. apply nums_in.
      pose proof (Z.mod_pos_bound (a * x) p). assert ((a * x) mod p <> 0); [|lia].
      intro E. apply Z.mod_divide in E; [|lia]. apply prime_mult_l in E; [|exact A]. now apply (not_div x).
  Qed.
  Theorem fermat : forall a, ~ (p | a) -> (a ^ (p - 1)) mod p = 1.
  Proof.
    intros a A. pose proof (prod_scale a nums) as S. rewrite (prod_perm _ _ (scale_perm a A)) in S.
    replace (Z.of_nat (length nums)) with (p - 1) in S by (unfold nums; rewrite map_length, seq_length; lia).
    assert (D : (p | zprod nums * (a ^ (p - 1) - 1))).
    { apply Z.mod_divide; [lia|]. replace (zprod nums * (a ^ (p - 1) - 1)) with (a ^ (p - 1) * zprod nums - zprod nums) by lia.
      rewrite Zminus_mod, <- S, Z.sub_diag. apply Z.mod_0_l; lia. }
    apply prime_mult_l in D; [|apply prod_coprime; intros; now apply nums_in].
    apply Z.mod_divide in D; [|lia]. replace (a ^ (p - 1)) with (a ^ (p - 1) - 1 + 1) by lia.
    rewrite Zplus_mod, D, Z.add_0_l, Zmod_mod. apply Z.mod_1_l. lia.
  Qed.
  (** p = 3 (mod 4): a sum of two squares is divisible by p only when both are *)
  Theorem sum_of_squares : p mod 4 = 3 -> forall x y, (p | x * x + y * y) -> (p | y).
  Proof.
    intros M x y D. destruct (Zdivide_dec p y) as [V|V]; [exact V|exfalso].
    assert (X : ~ (p | x)).
    { intro X. apply V. apply prime_mult_l with (a := y); [|exact V].
      replace (y * y) with (x * x + y * y - x * x) by lia. apply Z.divide_sub_r; [exact D|now apply Z.divide_mul_l]. }
    pose proof (fermat x X) as FX. pose proof (fermat y V) as FY.
    pose proof (Z.div_mod p 4 ltac:(lia)) as E4. rewrite M in E4. set (k := p / 4) in *.
    assert (K : 0 <= k) by (subst k; apply Z.div_pos; lia).
    assert (W : p - 1 = 2 * (2 * k + 1)) by lia.
    rewrite W, Z.pow_mul_r in FX, FY by lia.
    assert (C : (x ^ 2) mod p = (- y ^ 2) mod p).
    { destruct D as [q Q]. replace (x ^ 2) with (- y ^ 2 + q * p) by (rewrite <- Q; ring). apply Z_mod_plus_full. }
    assert (G : forall a b n, 0 <= n -> a mod p = b mod p -> (a ^ n) mod p = (b ^ n) mod p).
    { intros a b n N E. rewrite <- (Z2Nat.id n N). generalize (Z.to_nat n). induction n0 as [|m IH]; [reflexivity|].
      rewrite Nat2Z.inj_succ, !Z.pow_succ_r by lia. now rewrite Z.mul_mod, E, IH, <- Z.mul_mod by lia. }
    pose proof (G _ _ (2 * k + 1) ltac:(lia) C) as H. rewrite FX in H.
    rewrite Z.pow_opp_odd in H by (exists k; lia).
    assert (p <> 2) by lia.
    rewrite Z.mod_opp_l_nz in H by (rewrite ?FY; lia). rewrite FY in H. lia.
  Qed.
End Fermat.
