(** * Proofs about white-box SM4 *)
From Verif Require Import Base Word32 CbcSpec GcmModel Sm4Model Sm4Spec Sm4Proofs FpeModel MatModel MatSpec MatProofs GaussProofs ComProofs Wbsm4Model.
From Coq Require Import ZArith Btauto Sorting.Permutation.
Local Open Scope nat_scope.

(** equality of two sums of the same terms *)
Ltac xors := apply N.bits_inj; let i := fresh in intros i;
  repeat match goal with |- context [N.testbit (N.lxor ?a ?b) i] => rewrite (N.lxor_spec a b i) | |- context [N.testbit 0 i] => rewrite (N.bits_0 i) end;
  repeat match goal with |- context [N.testbit ?a i] => generalize (N.testbit a i); intro end; clear;
  btauto.

Local Opaque MatMulVec MatMulNum MatMulMat genaffinepair affinemix affinecom4.

(** ** Bytes of words *)
Lemma byte_at_block x k : k < 4 -> byte_at x (24 - 8 * N.of_nat k) = block 4 8 k x.
Proof.
  intros K. rewrite byte_at_arith. unfold block. change (2 ^ N.of_nat 8)%N with 256%N. do 3 f_equal. lia.
Qed.
Lemma at_byte_mul j b : j < 4 -> byte b -> at_byte j b = (b * 2 ^ (24 - 8 * N.of_nat j))%N.
Proof.
  intros J B. unfold at_byte, w32. rewrite N.shiftl_mul_pow2. apply N.mod_small. unfold byte in B.
  do 4 (destruct j as [|j]; [cbn [N.of_nat]; match goal with |- (_ < ?x)%N => let y := eval vm_compute in x in change x with y end;
    match goal with |- (b * ?x < _)%N => let y := eval vm_compute in x in change x with y end; lia|]). lia.
Qed.
Lemma word_at_byte j b : word (at_byte j b).
Proof. apply word_w32. Qed.
Definition sum4 (f : nat -> N) : N := N.lxor (N.lxor (N.lxor (f 0) (f 1)) (f 2)) (f 3).
Lemma join_bytes f : (forall j, j < 4 -> byte (f j)) -> sum4 (fun j => at_byte j (f j)) = be_to_N [f 0; f 1; f 2; f 3].
Proof.
  intros B. unfold sum4. rewrite !at_byte_mul by (try apply B; lia). rewrite be4_lxor by (apply B; lia).
  change (24 - 8 * N.of_nat 0)%N with 24%N. change (24 - 8 * N.of_nat 1)%N with 16%N. change (24 - 8 * N.of_nat 2)%N with 8%N. change (24 - 8 * N.of_nat 3)%N with 0%N.
  now rewrite N.pow_0_r, N.mul_1_r.
Qed.
Lemma split_word x : word x -> sum4 (fun j => at_byte j (byte_at x (24 - 8 * N.of_nat j))) = x.
Proof.
  intros W. rewrite (join_bytes (fun j => byte_at x (24 - 8 * N.of_nat j))) by (intros; apply byte_at_byte).
  transitivity (be_to_N (N_to_be 4 x)); [now rewrite N_to_be4|]. apply (be_to_N_to_be 4). exact W.
Qed.
Lemma lookup_sum T x : lookup T x = sum4 (fun j => T j (byte_at x (24 - 8 * N.of_nat j))).
Proof. reflexivity. Qed.
Lemma lookup_ext T U x : (forall j b, j < 4 -> byte b -> T j b = U j b) -> lookup T x = lookup U x.
Proof. intros H. unfold lookup. rewrite !H by (try lia; apply byte_at_byte). reflexivity. Qed.
Definition additive (f : N -> N) : Prop := forall a b, word a -> word b -> f (N.lxor a b) = N.lxor (f a) (f b).
Lemma additive_sum4 f g : additive f -> (forall j, word (g j)) -> f (sum4 g) = sum4 (fun j => f (g j)).
Proof. intros A W. unfold sum4. now rewrite !A by auto using word_lxor. Qed.
Lemma mask_sum rnd pos : sum4 (mask rnd pos) = 0%N.
Proof. unfold sum4, mask. cbn [Nat.ltb Nat.leb]. rewrite Nat.add_0_r. xors. Qed.
Lemma sum4_lxor f g : sum4 (fun j => N.lxor (f j) (g j)) = N.lxor (sum4 f) (sum4 g).
Proof. unfold sum4. xors. Qed.
Lemma size32 : size 32. Proof. unfold size. lia. Qed.
Lemma size8 : size 8. Proof. unfold size. lia. Qed.
#[export] Hint Resolve size32 size8 : core.
Lemma mul_additive A : matrix 32 A -> additive (MatMulVec 32 A).
Proof. intros M a b _ _. now apply mulv_lxor. Qed.
Lemma lookup_affine A rnd pos x : affine 32 A -> word x -> lookup (affine_entry A rnd pos) x = affineU 32 A x.
Proof.
  intros [M V] W. rewrite lookup_sum. unfold affine_entry. rewrite sum4_lxor, sum4_lxor, mask_sum, N.lxor_0_r. unfold affineU.
  rewrite sum4_lxor. rewrite <- (additive_sum4 (MatMulVec 32 (a_mat A))) by (auto using mul_additive, word_at_byte). rewrite split_word by exact W.
  unfold sum4. cbn [Nat.ltb Nat.leb]. xors.
Qed.

(** ** L_matrix *)
Lemma linear_ext n f g : (forall a b, vector n a -> vector n b -> f (N.lxor a b) = N.lxor (f a) (f b)) ->
  (forall a b, vector n a -> vector n b -> g (N.lxor a b) = N.lxor (g a) (g b)) ->
  (forall k, k < n -> f (2 ^ N.of_nat k)%N = g (2 ^ N.of_nat k)%N) -> forall x, vector n x -> f x = g x.
Proof.
  intros F G H. assert (Z : forall h : N -> N, (forall a b, vector n a -> vector n b -> h (N.lxor a b) = N.lxor (h a) (h b)) -> h 0%N = 0%N).
  { intros h L. specialize (L 0%N 0%N (vector_0 n) (vector_0 n)). rewrite !N.lxor_nilpotent in L. exact L. }
  assert (Q : forall k x, k <= n -> (x < 2 ^ N.of_nat k)%N -> f x = g x).
  { induction k as [|k IH]; intros x K X.
    - change (2 ^ N.of_nat 0)%N with 1%N in X. assert (E : x = 0%N) by lia. rewrite E. rewrite (Z f F), (Z g G). reflexivity.
    - set (p := (2 ^ N.of_nat k)%N) in *. assert (P : p <> 0%N) by (apply N.pow_nonzero; discriminate).
      assert (D : (2 ^ N.of_nat (S k) = 2 * p)%N) by (rewrite Nat2N.inj_succ, N.pow_succ_r'; reflexivity). rewrite D in X.
      assert (R : (x mod p < p)%N) by (apply N.mod_lt; exact P).
      assert (LE : (p * 2 <= 2 ^ N.of_nat n)%N) by (rewrite N.mul_comm, <- D; apply N.pow_le_mono_r; [discriminate|lia]).
      assert (E : x = N.lxor (if (p <=? x)%N then p else 0) (x mod p)).
      { destruct (N.leb_spec p x).
        - assert (E1 : (x = 1 * 2 ^ N.of_nat k + x mod p)%N) by (fold p; rewrite <- (N.mod_unique x p 1 (x - p)) by lia; lia).
          rewrite E1 at 1. rewrite add_shift_lxor by exact R. now rewrite N.shiftl_1_l.
        - rewrite N.mod_small by lia. now rewrite N.lxor_0_l. }
      rewrite E. assert (V : vector n (x mod p)) by (unfold vector; lia).
      assert (V' : vector n (if (p <=? x)%N then p else 0%N)) by (unfold vector; destruct (p <=? x)%N; lia).
      rewrite F, G by auto. f_equal; [|apply IH; lia]. destruct (p <=? x)%N; [apply H; lia|now rewrite (Z f F), (Z g G)]. }
  intros x X. apply (Q n); auto.
Qed.
Lemma matrix_L : matrix 32 L_matrix.
Proof. split; [reflexivity|]. apply Forall_forall. intros x H. apply N.ltb_lt. revert x H. apply forallb_forall. vm_compute. reflexivity. Qed.
Lemma L_basis : forallb (fun k => (MatMulVec 32 L_matrix (2 ^ N.of_nat k) =? Lin (2 ^ N.of_nat k))%N) (seq 0 32) = true.
Proof. vm_compute. reflexivity. Qed.
Lemma L_matrix_Lin x : word x -> MatMulVec 32 L_matrix x = Lin x.
Proof.
  intros W. apply (linear_ext 32 (MatMulVec 32 L_matrix) Lin); auto.
  - intros a b _ _. apply mulv_lxor; auto using matrix_L.
  - intros a b A B. apply Lin_lxor; assumption.
  - intros k K. apply N.eqb_eq. pose proof L_basis as B. rewrite forallb_forall in B. apply B, in_seq. lia.
Qed.
Lemma SBOX_sweep : forallb (fun n => (get SBOX n =? get SM4_S n)%N) (seq 0 256) = true.
Proof. vm_compute. reflexivity. Qed.
Lemma SBOX_ok b : byte b -> get SBOX (N.to_nat b) = std_sbox b.
Proof.
  intros B. rewrite <- sbox_ok by exact B. unfold sm4_s. apply N.eqb_eq. pose proof SBOX_sweep as S. rewrite forallb_forall in S. apply S, in_seq. unfold byte in B. lia.
Qed.
Lemma std_sbox_byte b : byte b -> byte (std_sbox b).
Proof. intros B. rewrite <- sbox_ok by exact B. now apply sbox_byte. Qed.

(** ** Pairs of inverse affine maps *)
Definition inv_pair (n : nat) (a b : aff) : Prop :=
  affine n a /\ affine n b /\ forall x, vector n x -> affineU n a (affineU n b x) = x /\ affineU n b (affineU n a x) = x.
Lemma genaffinepair_inv n rnd pos : size n -> exists a b pos', genaffinepair n rnd pos = Ret (a, b, pos') /\ inv_pair n a b.
Proof.
  intros S. destruct (genaffinepair_lemma n rnd pos S) as (a & b & p & E & A & B & H & V). exists a, b, p. split; [exact E|].
  split; [exact A|]. split; [exact B|]. intros x X. now apply affine_pair.
Qed.
Lemma obind_ret {A B} (a : A) (f : A -> outcome B) : obind (Ret a) f = f a.
Proof. reflexivity. Qed.
Definition inv_pairs (n k : nat) (l : list (aff * aff)) : Prop := length l = k /\ forall i, i < k -> inv_pair n (pair_fst l i) (pair_snd l i).
Lemma genaffinepairs_inv n k rnd : size n -> forall pos, exists l pos', genaffinepairs n k rnd pos = Ret (l, pos') /\ inv_pairs n k l.
Proof.
  intros S. induction k as [|k IH]; intros pos.
  - exists [], pos. split; [reflexivity|]. split; [reflexivity|]. intros; lia.
  - cbn [genaffinepairs]. destruct (genaffinepair_inv n rnd pos S) as (a & b & p & E & H). rewrite E. rewrite obind_ret; cbv beta iota zeta.
    destruct (IH p) as (l & p' & E' & L & Q). rewrite E'. rewrite obind_ret; cbv beta iota zeta. exists ((a, b) :: l), p'. split; [reflexivity|].
    split; [cbn; now rewrite L|]. intros [|i] I; [exact H|]. apply (Q i). lia.
Qed.
Local Opaque genaffinepairs.
Lemma affine_three n a x y z : size n -> affine n a -> 
  N.lxor (N.lxor (affineU n a x) (affineU n a y)) (affineU n a z) = affineU n a (N.lxor (N.lxor x y) z).
Proof. intros S [M V]. unfold affineU. rewrite !mulv_lxor by auto. xors. Qed.

(** ** One round *)
Definition add_vec (a : aff) (t : N) : aff := mkaff (a_mat a) (N.lxor (a_vec a) t).
Lemma affineU_add_vec n a t x : affineU n (add_vec a t) x = N.lxor (affineU n a x) t.
Proof. unfold affineU, add_vec. cbn [a_mat a_vec]. now rewrite N.lxor_assoc. Qed.
Lemma affine_add_vec n a t : affine n a -> vector n t -> affine n (add_vec a t).
Proof. intros [M V] H. split; [exact M|]. now apply vector_lxor. Qed.
Lemma word_draw rnd p : word (draw rnd p).
Proof. apply N.mod_lt. discriminate. Qed.
(** what wbsm4_gen.c:140-165 gives for round i *)
Definition round_ok (P : list (aff * aff)) (i : nat) (r : wround) : Prop :=
  inv_pairs 8 4 (r_E r) /\ (exists Q_inv t, inv_pair 32 (r_Q r) Q_inv /\ word t /\
    r_C r = add_vec (affinemix 32 (pair_fst P (i + 4)) (pair_snd P i)) t /\
    r_D r = add_vec (affinemix 32 (pair_fst P (i + 4)) Q_inv) (N.lxor (a_vec (pair_fst P (i + 4))) t)) /\
  (forall k, r_M r k = affinemix 32 (affinecom4 8 (pair_snd (r_E r) 0) (pair_snd (r_E r) 1) (pair_snd (r_E r) 2) (pair_snd (r_E r) 3)) (pair_snd P (i + 1 + k))).
Lemma gen_round_eq P i rnd pos Eij p Q Q_inv p' : genaffinepairs 8 4 rnd pos = Ret (Eij, p) -> genaffinepair 32 rnd p = Ret (Q, Q_inv, p') ->
  gen_round P i rnd pos = Ret (mkwround Eij Q
    (fun k => affinemix 32 (affinecom4 8 (pair_snd Eij 0) (pair_snd Eij 1) (pair_snd Eij 2) (pair_snd Eij 3)) (pair_snd P (i + 1 + k)))
    (add_vec (affinemix 32 (pair_fst P (i + 4)) (pair_snd P i)) (draw rnd p'))
    (add_vec (affinemix 32 (pair_fst P (i + 4)) Q_inv) (N.lxor (a_vec (pair_fst P (i + 4))) (draw rnd p'))), p' + 1).
Proof.
  intros E1 E2. unfold gen_round. rewrite E1, obind_ret. cbv beta iota zeta. rewrite E2, obind_ret. reflexivity.
Qed.
Lemma gen_round_ok P i rnd pos : exists r pos', gen_round P i rnd pos = Ret (r, pos') /\ round_ok P i r.
Proof.
  destruct (genaffinepairs_inv 8 4 rnd size8 pos) as (Eij & p & E & HE).
  destruct (genaffinepair_inv 32 rnd p size32) as (Q & Q_inv & p' & EQ & HQ). 
  pose proof (gen_round_eq P i rnd pos Eij p Q Q_inv p' E EQ) as R. clear E EQ.
  match type of R with _ = Ret (?r, ?q) => exists r, q end. split; [exact R|]. clear R. split; [exact HE|]. split.
  - exists Q_inv, (draw rnd p'). split; [exact HQ|]. split; [apply word_draw|]. split; reflexivity.
  - reflexivity.
Qed.
Lemma gen_rounds_ok P rnd k : forall a pos, exists R pos', gen_rounds P (seq a k) rnd pos = Ret (R, pos') /\ length R = k /\
  forall i, i < k -> exists r, nth_error R i = Some r /\ round_ok P (a + i) r.
Proof.
  induction k as [|k IH]; intros a pos.
  - exists [], pos. split; [reflexivity|]. split; [reflexivity|]. intros; lia.
  - cbn [seq gen_rounds]. destruct (gen_round_ok P a rnd pos) as (r & p & E & H). rewrite E. rewrite obind_ret; cbv beta iota zeta.
    destruct (IH (S a) p) as (R & p' & E' & L & Q). rewrite E'. rewrite obind_ret; cbv beta iota zeta. exists (r :: R), p'. split; [reflexivity|]. split; [cbn; now rewrite L|].
    intros [|i] I.
    + exists r. rewrite Nat.add_0_r. split; [reflexivity|exact H].
    + destruct (Q i ltac:(lia)) as (r' & Er & Hr). exists r'. split; [exact Er|]. now replace (a + S i) with (S a + i) by lia.
Qed.
Lemma affine_com E : inv_pairs 8 4 E -> affine 32 (affinecom4 8 (pair_snd E 0) (pair_snd E 1) (pair_snd E 2) (pair_snd E 3)).
Proof. intros [_ H]. apply (affine_affinecom4 8); [now left| | | |]; apply H; lia. Qed.
Lemma lookup_table r rk rnd pos z : inv_pairs 8 4 (r_E r) -> affine 32 (r_Q r) -> word z -> word rk ->
  lookup (table_entry r rk rnd pos) (affineU 32 (affinecom4 8 (pair_snd (r_E r) 0) (pair_snd (r_E r) 1) (pair_snd (r_E r) 2) (pair_snd (r_E r) 3)) z) =
  affineU 32 (r_Q r) (T (N.lxor z rk)).
Proof.
  intros HE [MQ VQ] Wz Wr. set (y := affineU 32 _ z).
  assert (Y : forall j, j < 4 -> affineU 8 (pair_fst (r_E r) j) (byte_at y (24 - 8 * N.of_nat j)) = byte_at z (24 - 8 * N.of_nat j)).
  { intros j J. rewrite !byte_at_block by exact J. unfold y. destruct HE as [_ H].
    rewrite (affinecom4_block 8) by (try apply H; auto; lia).
    assert (SE : sel4 (pair_snd (r_E r) 0) (pair_snd (r_E r) 1) (pair_snd (r_E r) 2) (pair_snd (r_E r) 3) j = pair_snd (r_E r) j).
    { destruct j as [|[|[|[|]]]]; [| | | |lia]; reflexivity. }
    rewrite SE. apply (H j J). apply vector_block. }
  clearbody y. rewrite lookup_sum. unfold table_entry. cbv zeta. rewrite sum4_lxor, sum4_lxor, mask_sum, N.lxor_0_r.
  set (t := fun j => at_byte j (std_sbox (byte_at (N.lxor z rk) (24 - 8 * N.of_nat j)))).
  assert (ML : matrix 32 (MatMulMat 32 (a_mat (r_Q r)) L_matrix)) by (apply matrix_mulm; auto using matrix_L).
  transitivity (N.lxor (sum4 (fun j => MatMulVec 32 (MatMulMat 32 (a_mat (r_Q r)) L_matrix) (t j))) (a_vec (r_Q r))).
  - f_equal.
    assert (TT : forall j, j < 4 -> get SBOX (N.to_nat (N.lxor (affineU 8 (pair_fst (r_E r) j) (byte_at y (24 - 8 * N.of_nat j))) (N.land (N.shiftr rk (24 - 8 * N.of_nat j)) 0xff)))
       = std_sbox (byte_at (N.lxor z rk) (24 - 8 * N.of_nat j))).
    { intros j J. rewrite Y by exact J. change (N.land (N.shiftr rk (24 - 8 * N.of_nat j)) 0xff) with (byte_at rk (24 - 8 * N.of_nat j)).
      rewrite !byte_at_block by exact J. rewrite <- block_lxor. apply SBOX_ok. apply (vector_block 4 8). }
    unfold sum4. rewrite (TT 0), (TT 1), (TT 2), (TT 3) by lia. unfold t.
    repeat match goal with |- context [MatMulNum 32 ?A ?x] => rewrite (MatMulNum_eq 32 A x) end. reflexivity.
  - rewrite <- (additive_sum4 (MatMulVec 32 (MatMulMat 32 (a_mat (r_Q r)) L_matrix))) by (auto using mul_additive; intros; apply word_at_byte).
    rewrite mulv_mulm by auto using matrix_L. unfold affineU. f_equal. f_equal.
    assert (TE : sum4 t = tau (N.lxor z rk)).
    { unfold t. rewrite (join_bytes (fun j => std_sbox (byte_at (N.lxor z rk) (24 - 8 * N.of_nat j)))) by (intros; apply std_sbox_byte, byte_at_byte).
      unfold tau, of_bytes, word_bytes. rewrite N_to_be4. reflexivity. }
    rewrite TE. apply L_matrix_Lin, tau_word.
Qed.

Definition enc (P : list (aff * aff)) (p : nat) (X : state) : state :=
  let '(X0, X1, X2, X3) := X in
  (affineU 32 (pair_fst P p) X0, affineU 32 (pair_fst P (p + 1)) X1, affineU 32 (pair_fst P (p + 2)) X2, affineU 32 (pair_fst P (p + 3)) X3).
(** the entries of round i hold the maps of round p *)
Definition real_at (mem : loc -> N) (rnd : nat -> N) (i : nat) (r : wround) (rk : N) : Prop :=
  exists pos, forall j x, (forall k, mem (LMM i k j x) = affine_entry (r_M r k) rnd pos j x) /\
    mem (LCC i j x) = affine_entry (r_C r) rnd (pos + 3) j x /\ mem (LDD i j x) = affine_entry (r_D r) rnd (pos + 3) j x /\
    mem (LTable i j x) = table_entry r rk rnd (pos + 6) j x.
Lemma real_round_spec mem rnd i r rk P p X : inv_pairs 32 36 P -> p < 32 -> round_ok P p r -> real_at mem rnd i r rk -> word rk -> st_word X ->
  wb_round mem (enc P p X) i = enc P (p + 1) (round T X rk).
Proof.
  intros [_ HP] Hp (HE & (Q_inv & t & HQ & Wt & C1 & D1) & HM) (pos & HR) Wrk HX.
  destruct X as [[[X0 X1] X2] X3]. destruct HX as (W0 & W1 & W2 & W3). unfold enc, wb_round, round.
  assert (PV : forall k x, k < 36 -> vector 32 (affineU 32 (pair_fst P k) x)) by (intros; apply vector_affineU; auto; apply HP; auto).
  assert (PI : forall k x, k < 36 -> word x -> affineU 32 (pair_snd P k) (affineU 32 (pair_fst P k) x) = x) by (intros; apply (HP k); auto).
  set (EI := affinecom4 8 (pair_snd (r_E r) 0) (pair_snd (r_E r) 1) (pair_snd (r_E r) 2) (pair_snd (r_E r) 3)) in *.
  assert (AE : affine 32 EI) by now apply affine_com.
  assert (LM : forall k x, k < 3 -> word x -> lookup (fun j b => mem (LMM i k j b)) (affineU 32 (pair_fst P (p + 1 + k)) x) = affineU 32 EI x).
  { intros k x K W. rewrite (lookup_ext _ (affine_entry (r_M r k) rnd pos)) by (intros; apply HR).
    rewrite HM. rewrite lookup_affine; [|apply affine_affinemix; auto; apply HP; lia|apply PV; lia].
    rewrite affinemix_spec by (auto; apply HP; lia). rewrite PI by (auto; lia). reflexivity. }
  replace (p + 1 + 1) with (p + 2) by lia. replace (p + 1 + 2) with (p + 3) by lia. replace (p + 1 + 3) with (p + 4) by lia.
  pose proof (LM 0 X1 ltac:(lia) W1) as E1. pose proof (LM 1 X2 ltac:(lia) W2) as E2. pose proof (LM 2 X3 ltac:(lia) W3) as E3.
  replace (p + 1 + 0) with (p + 1) in E1 by lia. replace (p + 1 + 1) with (p + 2) in E2 by lia. replace (p + 1 + 2) with (p + 3) in E3 by lia.
  rewrite E1, E2, E3. rewrite affine_three by auto. rewrite (lookup_ext (fun j x => mem (LTable i j x)) (table_entry r rk rnd (pos + 6))) by (intros; apply HR).
  pose proof HQ as (AQ & AQI & IQ). rewrite lookup_table by auto using word_lxor.
  set (V := T (N.lxor (N.lxor (N.lxor X1 X2) X3) rk)). assert (WV : word V) by apply T_word.
  assert (AP4 : affine 32 (pair_fst P (p + 4))) by (apply HP; lia).
  assert (AC0 : affine 32 (affinemix 32 (pair_fst P (p + 4)) (pair_snd P p))) by (apply affine_affinemix; auto; apply HP; lia).
  assert (AD0 : affine 32 (affinemix 32 (pair_fst P (p + 4)) Q_inv)) by (apply affine_affinemix; auto).
  assert (AC : affine 32 (r_C r)) by (rewrite C1; apply affine_add_vec; auto).
  assert (AD : affine 32 (r_D r)) by (rewrite D1; apply affine_add_vec; auto; apply vector_lxor; [apply AP4|exact Wt]).
  rewrite (lookup_ext (fun j x => mem (LCC i j x)) (affine_entry (r_C r) rnd (pos + 3))) by (intros; apply HR).
  rewrite (lookup_ext (fun j x => mem (LDD i j x)) (affine_entry (r_D r) rnd (pos + 3))) by (intros; apply HR).
  rewrite (lookup_affine (r_C r)) by (auto; apply PV; lia).
  rewrite (lookup_affine (r_D r)) by (auto; apply (vector_affineU 32); auto).
  rewrite C1, D1, !affineU_add_vec, !affinemix_spec by (auto; apply HP; lia). rewrite PI by (auto; lia). destruct (IQ V WV) as [_ EV]. rewrite EV.
  assert (G : N.lxor (N.lxor (affineU 32 (pair_fst P (p + 4)) X0) t) (N.lxor (affineU 32 (pair_fst P (p + 4)) V) (N.lxor (a_vec (pair_fst P (p + 4))) t))
    = affineU 32 (pair_fst P (p + 4)) (N.lxor X0 V)).
  { unfold affineU. rewrite mulv_lxor by (auto; apply AP4). xors. }
  rewrite G. reflexivity.
Qed.
