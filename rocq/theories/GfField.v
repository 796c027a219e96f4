(** * The multiplication of SP 800-38D makes the 128-bit blocks a field. *)
From Verif Require Import Base GcmModel GcmSpec GfProofs.
From Coq Require Import ZifyBool ZifyNat ZifyN.
Local Open Scope N_scope.

Definition blk128 (x : N) : Prop := x < 2 ^ 128.
Definition gf_one : N := 2 ^ 127.

(** ** induction over the bits of a block *)
Lemma blk_linear (P : N -> Prop) (n : nat) : P 0 -> (forall a b, a < 2 ^ N.of_nat n -> b < 2 ^ N.of_nat n -> P a -> P b -> P (N.lxor a b)) ->
  (forall i, (i < n)%nat -> P (2 ^ N.of_nat i)) -> forall x, x < 2 ^ N.of_nat n -> P x.
Proof.
  intros P0 PX PB. assert (forall m, (m <= n)%nat -> forall x, x < 2 ^ N.of_nat m -> P x) as H; [|now apply (H n)].
  induction m as [|m IH]; intros Hm x Hx.
  - assert (x = 0) by (change (2 ^ N.of_nat 0) with 1 in Hx; lia). now subst.
  - assert (HP : 2 ^ N.of_nat (S m) = 2 * 2 ^ N.of_nat m) by (rewrite Nat2N.inj_succ, N.pow_succ_r'; reflexivity).
    assert (HQ : 2 ^ N.of_nat m < 2 ^ N.of_nat n) by (apply N.pow_lt_mono_r; lia).
    destruct (N.lt_ge_cases x (2 ^ N.of_nat m)) as [C|C]; [apply IH; [lia|exact C]|].
    set (r := x - 2 ^ N.of_nat m). assert (Hr : r < 2 ^ N.of_nat m) by (unfold r; lia).
    assert (E : x = N.lxor (2 ^ N.of_nat m) r).
    { replace x with (1 * 2 ^ N.of_nat m + r) by (unfold r; lia). rewrite add_shift_lxor by exact Hr. rewrite N.shiftl_mul_pow2. now rewrite N.mul_1_l. }
    rewrite E. apply PX; [exact HQ|lia| |apply IH; [lia|exact Hr]]. apply PB. lia.
Qed.

(** ** x^i *)
Definition shift_n (k : nat) (v : N) : N := Nat.iter k gf_shift v.
Lemma shift_n_S k v : shift_n (S k) v = gf_shift (shift_n k v).
Proof. reflexivity. Qed.
Lemma shift_n_pow k : (k <= 127)%nat -> shift_n k gf_one = 2 ^ (127 - N.of_nat k).
Proof.
  induction k as [|k IH]; intros H; [reflexivity|]. rewrite shift_n_S, IH by lia.
  replace (127 - N.of_nat k) with (N.succ (127 - N.of_nat (S k))) by lia. rewrite N.pow_succ_r'. apply gf_shift_even.
Qed.
Lemma pow2_shift i : (i < 128)%nat -> 2 ^ N.of_nat i = shift_n (127 - i) gf_one.
Proof. intros H. rewrite shift_n_pow by lia. f_equal. lia. Qed.
Lemma shift_n_bound k v : blk128 v -> blk128 (shift_n k v).
Proof. intros H. induction k; [exact H|]. rewrite shift_n_S. now apply gf_shift_bound. Qed.
Lemma shift_n_lxor k a b : shift_n k (N.lxor a b) = N.lxor (shift_n k a) (shift_n k b).
Proof. induction k as [|k IH]; [reflexivity|]. now rewrite !shift_n_S, IH, gf_shift_lxor. Qed.
Lemma shift_n_add j k v : shift_n (j + k) v = shift_n j (shift_n k v).
Proof. induction j as [|j IH]; [reflexivity|]. cbn [Nat.add]. now rewrite !shift_n_S, IH. Qed.
Lemma gf_one_blk : blk128 gf_one.
Proof. reflexivity. Qed.
(** induction over the powers of x *)
Lemma blk_ind (P : N -> Prop) : P 0 -> (forall a b, blk128 a -> blk128 b -> P a -> P b -> P (N.lxor a b)) ->
  (forall i, (i < 128)%nat -> P (shift_n i gf_one)) -> forall x, blk128 x -> P x.
Proof.
  intros P0 PX PB. apply (blk_linear P 128 P0).
  - intros a b Ha Hb. apply PX; [exact Ha|exact Hb].
  - intros i Hi. rewrite pow2_shift by exact Hi. apply PB. lia.
Qed.

(** ** bilinearity *)
Lemma gf_mul_sum X Y : gf_mul X Y = mulsum 128 X Y.
Proof. unfold gf_mul. rewrite gf_mul_loop_sum. apply N.lxor_0_l. Qed.
#[local] Opaque gf_mul.
Lemma mul_bound X Y : blk128 Y -> blk128 (gf_mul X Y).
Proof. intros H. rewrite gf_mul_sum. now apply mulsum_bound. Qed.
Lemma xor_swap4 a b c d : N.lxor (N.lxor a b) (N.lxor c d) = N.lxor (N.lxor a c) (N.lxor b d).
Proof. rewrite !N.lxor_assoc. f_equal. rewrite <- !N.lxor_assoc. f_equal. apply N.lxor_comm. Qed.
Lemma mulsum_lxor_r k X U V : mulsum k X (N.lxor U V) = N.lxor (mulsum k X U) (mulsum k X V).
Proof.
  revert U V; induction k as [|k IH]; intros U V; cbn [mulsum]; [reflexivity|]. rewrite gf_shift_lxor, IH. rewrite xor_swap4. f_equal.
  destruct (N.testbit X _); [reflexivity|]. reflexivity.
Qed.
Lemma mulsum_lxor_l k X Y V : mulsum k (N.lxor X Y) V = N.lxor (mulsum k X V) (mulsum k Y V).
Proof.
  revert V; induction k as [|k IH]; intros V; cbn [mulsum]; [reflexivity|]. rewrite IH, N.lxor_spec, xor_swap4. f_equal.
  destruct (N.testbit X _), (N.testbit Y _); cbn [xorb]; rewrite ?N.lxor_0_r, ?N.lxor_0_l, ?N.lxor_nilpotent; reflexivity.
Qed.
Lemma mul_lxor_r X U V : gf_mul X (N.lxor U V) = N.lxor (gf_mul X U) (gf_mul X V).
Proof. rewrite !gf_mul_sum. apply mulsum_lxor_r. Qed.
Lemma mul_lxor_l X Y V : gf_mul (N.lxor X Y) V = N.lxor (gf_mul X V) (gf_mul Y V).
Proof. rewrite !gf_mul_sum. apply mulsum_lxor_l. Qed.
Lemma mulsum_0_l k V : mulsum k 0 V = 0.
Proof. revert V; induction k as [|k IH]; intros V; cbn [mulsum]; [reflexivity|]. rewrite IH. now rewrite N.bits_0. Qed.
Lemma mul_0_l V : gf_mul 0 V = 0.
Proof. rewrite gf_mul_sum. apply mulsum_0_l. Qed.
Lemma mul_0_r X : gf_mul X 0 = 0.
Proof. pose proof (mul_lxor_r X 0 0) as H. rewrite !N.lxor_nilpotent in H. exact H. Qed.
Lemma mul_shift_r X V : gf_mul X (gf_shift V) = gf_shift (gf_mul X V).
Proof. rewrite !gf_mul_sum. apply mulsum_shift. Qed.
Lemma mul_shiftn_r k X V : gf_mul X (shift_n k V) = shift_n k (gf_mul X V).
Proof. induction k as [|k IH]; [reflexivity|]. now rewrite !shift_n_S, mul_shift_r, IH. Qed.

(** ** multiplying by x on the left *)
Lemma mulsum_low k X V : mulsum (S k) X V = N.lxor (mulsum k (N.shiftr X 1) V) (if N.testbit X 0 then shift_n k V else 0).
Proof.
  revert V; induction k as [|k IH]; intros V.
  - cbn [mulsum]. rewrite N.lxor_comm. reflexivity.
  - change (mulsum (S (S k)) X V) with (N.lxor (if N.testbit X (N.of_nat (S k)) then V else 0) (mulsum (S k) X (gf_shift V))).
    rewrite IH, <- N.lxor_assoc. f_equal.
    + cbn [mulsum]. f_equal. rewrite N.shiftr_spec by lia. replace (N.of_nat k + 1) with (N.of_nat (S k)) by lia. reflexivity.
    + destruct (N.testbit X 0); [|reflexivity]. replace (S k) with (k + 1)%nat by lia. now rewrite shift_n_add.
Qed.
Lemma x128 : shift_n 128 gf_one = gf_R.
Proof. vm_compute. reflexivity. Qed.
Lemma shift128 V : blk128 V -> shift_n 128 V = gf_mul gf_R V.
Proof.
  revert V. apply blk_ind.
  - vm_compute. reflexivity.
  - intros a b _ _ Ha Hb. rewrite shift_n_lxor, mul_lxor_r. now f_equal.
  - intros i _. rewrite mul_shiftn_r. rewrite <- shift_n_add, Nat.add_comm, shift_n_add, x128. apply (f_equal (shift_n i)). vm_compute. reflexivity.
Qed.
Lemma shift_split X : gf_shift X = N.lxor (N.shiftr X 1) (if N.testbit X 0 then gf_R else 0).
Proof. unfold gf_shift. destruct (N.testbit X 0); [reflexivity|]. now rewrite N.lxor_0_r. Qed.
Lemma mul_shift_l X V : blk128 X -> blk128 V -> gf_mul (gf_shift X) V = gf_shift (gf_mul X V).
Proof.
  intros HX HV. rewrite <- mul_shift_r. rewrite shift_split, mul_lxor_l.
  rewrite (gf_mul_sum X), (mulsum_low 127). f_equal.
  - rewrite gf_mul_sum. change (mulsum 128 (N.shiftr X 1) V) with
      (N.lxor (if N.testbit (N.shiftr X 1) (N.of_nat 127) then V else 0) (mulsum 127 (N.shiftr X 1) (gf_shift V))).
    replace (N.testbit (N.shiftr X 1) (N.of_nat 127)) with false; [apply N.lxor_0_l|]. symmetry.
    rewrite N.shiftr_spec by lia. destruct (N.eq_dec X 0) as [->|NZ]; [apply N.bits_0|]. apply N.bits_above_log2.
    change (N.of_nat 127 + 1) with 128. apply N.log2_lt_pow2; [lia|exact HX].
  - destruct (N.testbit X 0); [|apply mul_0_l]. rewrite <- shift128 by exact HV. replace 128%nat with (127 + 1)%nat by reflexivity. now rewrite shift_n_add.
Qed.
Lemma mul_shiftn_l k X V : blk128 X -> blk128 V -> gf_mul (shift_n k X) V = shift_n k (gf_mul X V).
Proof. intros HX HV. induction k as [|k IH]; [reflexivity|]. rewrite !shift_n_S, mul_shift_l, IH; [reflexivity|now apply shift_n_bound|exact HV]. Qed.

(** ** a commutative ring *)
Lemma mul_1_l V : gf_mul gf_one V = V.
Proof.
  rewrite gf_mul_sum. change (mulsum 128 gf_one V) with (N.lxor (if N.testbit gf_one (N.of_nat 127) then V else 0) (mulsum 127 gf_one (gf_shift V))).
  change (N.testbit gf_one (N.of_nat 127)) with true. rewrite (mulsum_ext 127 gf_one 0), mulsum_0_l; [apply N.lxor_0_r|].
  intros i Hi. rewrite N.bits_0. unfold gf_one. rewrite N.pow2_bits_eqb. apply N.eqb_neq. lia.
Qed.
Lemma mul_1_r X : blk128 X -> gf_mul X gf_one = X.
Proof.
  revert X. apply blk_ind; [apply mul_0_l| |].
  - intros a b _ _ Ha Hb. now rewrite mul_lxor_l, Ha, Hb.
  - intros i _. rewrite mul_shiftn_l by apply gf_one_blk. now rewrite mul_1_l.
Qed.
Lemma mul_comm X Y : blk128 X -> blk128 Y -> gf_mul X Y = gf_mul Y X.
Proof.
  intros HX HY. revert X HX. apply blk_ind.
  - now rewrite mul_0_l, mul_0_r.
  - intros a b _ _ Ha Hb. now rewrite mul_lxor_l, mul_lxor_r, Ha, Hb.
  - intros i _. rewrite mul_shiftn_l, mul_shiftn_r by (exact HY || apply gf_one_blk). now rewrite mul_1_l, mul_1_r.
Qed.
Lemma mul_assoc X Y Z : blk128 X -> blk128 Y -> blk128 Z -> gf_mul X (gf_mul Y Z) = gf_mul (gf_mul X Y) Z.
Proof.
  intros HX HY HZ. revert X HX. apply blk_ind.
  - now rewrite !mul_0_l.
  - intros a b _ _ Ha Hb. now rewrite !mul_lxor_l, Ha, Hb.
  - intros i _. rewrite mul_shiftn_l by (apply gf_one_blk || now apply mul_bound).
    rewrite (mul_shiftn_l i gf_one Y) by (exact HY || apply gf_one_blk).
    rewrite mul_shiftn_l by (exact HZ || now apply mul_bound). now rewrite !mul_1_l.
Qed.

(** ** squaring *)
Definition sq (x : N) : N := gf_mul x x.
Lemma sq_bound x : blk128 x -> blk128 (sq x).
Proof. apply mul_bound. Qed.
Lemma sq_lxor a b : blk128 a -> blk128 b -> sq (N.lxor a b) = N.lxor (sq a) (sq b).
Proof.
  intros Ha Hb. unfold sq. rewrite mul_lxor_l, !mul_lxor_r, (mul_comm b a) by assumption.
  rewrite N.lxor_assoc, <- (N.lxor_assoc (gf_mul a b)), N.lxor_nilpotent, N.lxor_0_l. reflexivity.
Qed.
Lemma sq_mul a b : blk128 a -> blk128 b -> sq (gf_mul a b) = gf_mul (sq a) (sq b).
Proof.
  intros Ha Hb. unfold sq. rewrite <- (mul_assoc a b (gf_mul a b)) by (assumption || now apply mul_bound).
  rewrite (mul_assoc b a b), (mul_comm b a) by assumption. rewrite <- (mul_assoc a b b) by assumption.
  rewrite (mul_assoc a a) by (assumption || now apply mul_bound). reflexivity.
Qed.
Definition sq_n (k : nat) (x : N) : N := Nat.iter k sq x.
Lemma sq_n_S k x : sq_n (S k) x = sq (sq_n k x).
Proof. reflexivity. Qed.
Lemma sq_n_bound k x : blk128 x -> blk128 (sq_n k x).
Proof. intros H. induction k; [exact H|]. rewrite sq_n_S. now apply sq_bound. Qed.
Lemma sq_n_lxor k a b : blk128 a -> blk128 b -> sq_n k (N.lxor a b) = N.lxor (sq_n k a) (sq_n k b).
Proof. intros Ha Hb. induction k as [|k IH]; [reflexivity|]. rewrite !sq_n_S, IH. apply sq_lxor; now apply sq_n_bound. Qed.
Lemma sq_n_mul k a b : blk128 a -> blk128 b -> sq_n k (gf_mul a b) = gf_mul (sq_n k a) (sq_n k b).
Proof. intros Ha Hb. induction k as [|k IH]; [reflexivity|]. rewrite !sq_n_S, IH. apply sq_mul; now apply sq_n_bound. Qed.
Lemma sq_n_1 k : sq_n k gf_one = gf_one.
Proof. induction k as [|k IH]; [reflexivity|]. rewrite sq_n_S, IH. apply mul_1_l. Qed.
(** x^(2^128) = x *)
Definition gf_x : N := shift_n 1 gf_one.
Lemma x_fixed : sq_n 128 gf_x = gf_x.
Proof. vm_compute. reflexivity. Qed.
Lemma fermat a : blk128 a -> sq_n 128 a = a.
Proof.
  revert a. apply blk_ind.
  - vm_compute. reflexivity.
  - intros a b Ha Hb IA IB. now rewrite sq_n_lxor, IA, IB.
  - intros i _. induction i as [|i IH]; [apply sq_n_1|].
    assert (E : shift_n (S i) gf_one = gf_mul gf_x (shift_n i gf_one)).
    { rewrite mul_shiftn_r. unfold gf_x. rewrite mul_shiftn_l by apply gf_one_blk. rewrite mul_1_l. rewrite <- shift_n_add. f_equal. lia. }
    rewrite E, sq_n_mul by (reflexivity || (apply shift_n_bound; reflexivity)). now rewrite x_fixed, IH.
Qed.

(** ** only 0 and 1 are their own squares *)
(** a linear map given by its values on the powers of two *)
Fixpoint lin (cols : list N) (z : N) : N :=
  match cols with
  | [] => 0
  | c :: cs => N.lxor (if N.testbit z 0 then c else 0) (lin cs (N.shiftr z 1))
  end.
Lemma lin_lxor cols a b : lin cols (N.lxor a b) = N.lxor (lin cols a) (lin cols b).
Proof.
  revert a b; induction cols as [|c cs IH]; intros a b; cbn [lin]; [reflexivity|]. rewrite N.shiftr_lxor, IH, N.lxor_spec, xor_swap4. f_equal.
  destruct (N.testbit a 0), (N.testbit b 0); cbn [xorb]; rewrite ?N.lxor_0_r, ?N.lxor_0_l, ?N.lxor_nilpotent; reflexivity.
Qed.
(** undoes z -> z^2 + z up to the coefficient of 1 in z; found by Gaussian elimination *)
Definition half_cols : list N :=
  [0x0;
   0x4a2ade42a1db558927495c4d4e62fc1;
   0x35bd0e43ef6cf78dcef750ee63bd3171;
   0x41d77801d619af2a38dab35b297373a6;
   0x36dc3b3404788e15d4cfd6f8f5447461;
   0x7adc3b3404788e15d4cfd6f8f5447467;
   0x5f67891c31b7edb03c86875f90384d1c;
   0x646cca29e3d6cc8fd093e2fc4c0f4ad5;
   0x51eae8be2fe60df61bf9191de1788d94;
   0x36e717e02724b8e1d1527df73b8e8241;
   0x5f86cdbc744e28fe3430f49ddf071154;
   0x2561da5c536a901fe562896ae4899333;
   0x99a6e1cca2f8641a0b0910804c90841;
   0x2cfbb4409945165e45d21862e0409b32;
   0xd94d9da18080030c4db699e5dc0;
   0x197d9b438cafcf2f8e88275824a90133;
   0x645919a4b35879f7d7a68d71cb5770d5;
   0x7348a7e5645f93d076e747a9d181ec26;
   0x602105ae977251e64834e0c2dd2d5a94;
   0x2c14dbb71e26fc964f314b9433eb3eb2;
   0x44eaa59bd8819a999287fa5ed58ad81;
   0x77dcb1c60e3ad5c9e2190477682adba7;
   0x701c741cbd9fc8b06b94eadf79b8c426;
   0x46f806225397f491bb49eab33e4cf467;
   0x79b07befedd921e9cd751ec18ebeebe7;
   0x56f3167fe31302df9eb885b869165d55;
   0x6462e2cc93c28627d2d0526e0d66c2d5;
   0x1a24eaaa541c8b0f9092b01169688933;
   0x4bf6a9a1f02e1f698fec4b1a74166be7;
   0x21ce3a83c07744de74dad50f0d583b32;
   0x634efa836deeebf650dae654442b4894;
   0x224d20acccef41ee67fd0ac2e3641972;
   0x4bf8b9d33b8f38198de17cdee54751e7;
   0x698e6217d7fa8627ef6aa903c013fa95;
   0x457534e82f16f649aa2d862c91005ba7;
   0x144558bb6c9dfcd7bc4c239cf48626f3;
   0x3cfddc25f2ae2df86391fd8d3387a7c0;
   0x2bd77bb364af6b3fc733d8875e039333;
   0x26d44eb77ddd535ff0b1c738de72bb33;
   0x6aef57603cdbfceff55228f556d54755;
   0x285aabc679b16ad7d6c2852abfdb1eb3;
   0x38e6217d7f479d8109554569546afc0;
   0x79880aa666d696d9c926622882fff1e7;
   0x312705524db61730583bcf844c342240;
   0x5c33b52f8947e9462158188b7248d294;
   0x3bdc8ad604b36599e246fae899f68fc1;
   0x72ccff3fd3d186182e1ce9a41041041;
   0x5252e8c1d3a8e3be0d2c5beb59e57554;
   0x489a0b11781e0c1196cc4fdebc394c27;
   0x1af0929920b9589f9fb368dce89d2373;
   0x2f76850d57908a5e54a716d46cf0bb32;
   0x3f46b4c41d7d395874f4e33b9d331780;
   0x7986f6afcfc951e9cb9188c1a5beebe7;
   0x258e6f54bc4bf6f7ef54f70e70ef2ef3;
   0x55aabdbeec28a2078079924a4cd2f295;
   0x229a33517c61d3ee69739a8be16c1972;
   0x49a065cd7758d5196f0e3578d383201;
   0x428019a10caacb8824c8241264b2fba6;
   0x4622ba58b211bb21b69fb337b1785627;
   0x5cea6fd5b105659e2d1ccaeb5d2c7d54;
   0x36e9eb0be64d6b99d3ec2e5e502bb781;
   0x5ce7c3e3d68e47f62e5390ab45fe70d4;
   0x329f337db88e12004e8e904902080000;
   0x48afd66e759a994991d0e977a9aa5ba7;
   0x4a2ade42a1db559927495c4d4e62fc1;
   0x41d77801d619af2838dab35b297373a6;
   0x7adc3b3404788e11d4cfd6f8f5447467;
   0x646cca29e3d6cc87d093e2fc4c0f4ad5;
   0x36e717e02724b8f1d1527df73b8e8241;
   0x2561da5c536a903fe562896ae4899333;
   0x2cfbb4409945161e45d21862e0409b32;
   0x197d9b438cafcfaf8e88275824a90133;
   0x7348a7e5645f92d076e747a9d181ec26;
   0x2c14dbb71e26fe964f314b9433eb3eb2;
   0x77dcb1c60e3ad1c9e2190477682adba7;
   0x46f806225397fc91bb49eab33e4cf467;
   0x56f3167fe31312df9eb885b869165d55;
   0x1a24eaaa541cab0f9092b01169688933;
   0x21ce3a83c07704de74dad50f0d583b32;
   0x224d20acccefc1ee67fd0ac2e3641972;
   0x698e6217d7fb8627ef6aa903c013fa95;
   0x144558bb6c9ffcd7bc4c239cf48626f3;
   0x2bd77bb364ab6b3fc733d8875e039333;
   0x6aef57603cd3fceff55228f556d54755;
   0x38e6217d7e479d8109554569546afc0;
   0x312705524d961730583bcf844c342240;
   0x3bdc8ad604f36599e246fae899f68fc1;
   0x5252e8c1d328e3be0d2c5beb59e57554;
   0x1af0929921b9589f9fb368dce89d2373;
   0x3f46b4c41f7d395874f4e33b9d331780;
   0x258e6f54b84bf6f7ef54f70e70ef2ef3;
   0x229a33517461d3ee69739a8be16c1972;
   0x428019a11caacb8824c8241264b2fba6;
   0x5cea6fd59105659e2d1ccaeb5d2c7d54;
   0x5ce7c3e3968e47f62e5390ab45fe70d4;
   0x48afd66ef59a994991d0e977a9aa5ba7;
   0x41d77800d619af2838dab35b297373a6;
   0x646cca2be3d6cc87d093e2fc4c0f4ad5;
   0x2561da58536a903fe562896ae4899333;
   0x197d9b4b8cafcfaf8e88275824a90133;
   0x2c14dba71e26fe964f314b9433eb3eb2;
   0x46f806025397fc91bb49eab33e4cf467;
   0x1a24eaea541cab0f9092b01169688933;
   0x224d202cccefc1ee67fd0ac2e3641972;
   0x144559bb6c9ffcd7bc4c239cf48626f3;
   0x6aef55603cd3fceff55228f556d54755;
   0x312701524d961730583bcf844c342240;
   0x5252e0c1d328e3be0d2c5beb59e57554;
   0x3f46a4c41f7d395874f4e33b9d331780;
   0x229a13517461d3ee69739a8be16c1972;
   0x5cea2fd59105659e2d1ccaeb5d2c7d54;
   0x48af566ef59a994991d0e977a9aa5ba7;
   0x646dca2be3d6cc87d093e2fc4c0f4ad5;
   0x197f9b4b8cafcfaf8e88275824a90133;
   0x46fc06025397fc91bb49eab33e4cf467;
   0x2245202cccefc1ee67fd0ac2e3641972;
   0x6aff55603cd3fceff55228f556d54755;
   0x5272e0c1d328e3be0d2c5beb59e57554;
   0x22da13517461d3ee69739a8be16c1972;
   0x482f566ef59a994991d0e977a9aa5ba7;
   0x187f9b4b8cafcfaf8e88275824a90133;
   0x2045202cccefc1ee67fd0ac2e3641972;
   0x5672e0c1d328e3be0d2c5beb59e57554;
   0x402f566ef59a994991d0e977a9aa5ba7;
   0x3045202cccefc1ee67fd0ac2e3641972;
   0x602f566ef59a994991d0e977a9aa5ba7;
   0x202f566ef59a994991d0e977a9aa5ba7;
   0x10d04d25f93556e69f58ce2f8d035a94].
Definition top_bit (z : N) : N := if N.testbit z 127 then gf_one else 0.
Lemma half_sweep : forallb (fun i => lin half_cols (N.lxor (sq (2 ^ N.of_nat i)) (2 ^ N.of_nat i)) =? N.lxor (2 ^ N.of_nat i) (top_bit (2 ^ N.of_nat i))) (seq 0 128) = true.
Proof. vm_compute. reflexivity. Qed.
Lemma half_spec z : blk128 z -> lin half_cols (N.lxor (sq z) z) = N.lxor z (top_bit z).
Proof.
  revert z. apply (blk_linear _ 128).
  - vm_compute. reflexivity.
  - intros a b Ha Hb IA IB. rewrite sq_lxor by assumption. rewrite xor_swap4, lin_lxor, IA, IB, xor_swap4. f_equal.
    unfold top_bit. rewrite N.lxor_spec. destruct (N.testbit a 127), (N.testbit b 127); cbn [xorb]; rewrite ?N.lxor_0_r, ?N.lxor_0_l, ?N.lxor_nilpotent; reflexivity.
  - intros i Hi. pose proof half_sweep as H. rewrite forallb_forall in H. apply N.eqb_eq, (H i), in_seq. lia.
Qed.
Lemma idempotent e : blk128 e -> sq e = e -> e = 0 \/ e = gf_one.
Proof.
  intros He H. pose proof (half_spec e He) as E. rewrite H, N.lxor_nilpotent in E.
  assert (Z : N.lxor e (top_bit e) = 0) by (rewrite <- E; vm_compute; reflexivity).
  apply N.lxor_eq in Z. unfold top_bit in Z. destruct (N.testbit e 127); auto.
Qed.

(** ** inverses *)
(** a^(2^k - 1) *)
Fixpoint pow_all (k : nat) (a : N) : N :=
  match k with O => gf_one | S k' => gf_mul (sq (pow_all k' a)) a end.
Lemma pow_all_bound k a : blk128 a -> blk128 (pow_all k a).
Proof. intros H. destruct k; [reflexivity|]. now apply mul_bound. Qed.
Lemma pow_all_mul k a : blk128 a -> gf_mul (pow_all k a) a = sq_n k a.
Proof.
  intros H. induction k as [|k IH]; [apply mul_1_l|]. cbn [pow_all]. rewrite sq_n_S, <- IH.
  rewrite sq_mul by (exact H || now apply pow_all_bound). rewrite <- mul_assoc by (exact H || now apply sq_bound, pow_all_bound). reflexivity.
Qed.
Definition gf_inv (a : N) : N := sq (pow_all 127 a).
Lemma gf_inv_bound a : blk128 a -> blk128 (gf_inv a).
Proof. intros H. now apply sq_bound, pow_all_bound. Qed.
Lemma gf_inv_l a : blk128 a -> a <> 0 -> gf_mul (gf_inv a) a = gf_one.
Proof.
  intros H NZ. set (e := pow_all 128 a). change (gf_mul (gf_inv a) a) with e.
  assert (He : blk128 e) by now apply pow_all_bound.
  assert (Ea : gf_mul e a = a) by (unfold e; rewrite pow_all_mul by exact H; now apply fermat).
  assert (Ee : sq e = e).
  { assert (E : e = gf_mul (gf_inv a) a) by reflexivity. unfold sq. rewrite E at 2.
    rewrite (mul_comm (gf_inv a) a), (mul_assoc e a) by (assumption || now apply gf_inv_bound).
    rewrite Ea. rewrite (mul_comm a (gf_inv a)) by (assumption || now apply gf_inv_bound). symmetry. exact E. }
  destruct (idempotent e He Ee) as [Z|Z]; [|exact Z]. rewrite Z, mul_0_l in Ea. congruence.
Qed.
Lemma gf_cancel a b : blk128 a -> blk128 b -> gf_mul a b = 0 -> a = 0 \/ b = 0.
Proof.
  intros Ha Hb H. destruct (N.eq_dec a 0) as [Z|NZ]; [now left|]. right.
  assert (E : gf_mul (gf_inv a) (gf_mul a b) = 0) by (rewrite H; apply mul_0_r).
  rewrite mul_assoc, gf_inv_l, mul_1_l in E by (assumption || now apply gf_inv_bound). exact E.
Qed.
