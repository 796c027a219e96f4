(** * The 128-bit functions of the matrix library act on the 128-bit numbers their words denote *)
From Verif Require Import Base Word32 FpeModel MatModel MatSpec MatProofs GaussProofs ComProofs Mat128Model Mat128Spec.
Local Open Scope nat_scope.
Local Strategy 500 [fold_left seq].

Lemma size64 : size 64. Proof. unfold size. lia. Qed.
Lemma size128 : size 128. Proof. unfold size. lia. Qed.
Definition W64 : N := 18446744073709551616%N.
Lemma W64_pow : W64 = (2 ^ 64)%N. Proof. reflexivity. Qed.
Lemma pack_div r : words r -> (pack r / W64 = fst r)%N.
Proof.
  intros [_ B]. unfold vector in B. change (2 ^ N.of_nat 64)%N with W64 in B. unfold pack. fold W64. rewrite N.div_add_l by discriminate.
  rewrite N.div_small by exact B. apply N.add_0_r.
Qed.
Lemma pack_mod r : words r -> (pack r mod W64 = snd r)%N.
Proof.
  intros [_ B]. unfold vector in B. change (2 ^ N.of_nat 64)%N with W64 in B. unfold pack. fold W64. rewrite N.add_comm, N.mod_add by discriminate.
  now apply N.mod_small.
Qed.
Lemma bit_high x i : i < 64 -> bit 128 x i = bit 64 (x / W64) i.
Proof. intros I. unfold bit. rewrite W64_pow, N.div_pow2_bits. f_equal. lia. Qed.
Lemma bit_low x i : 64 <= i -> i < 128 -> bit 128 x i = bit 64 (x mod W64) (i - 64).
Proof. intros I J. unfold bit. rewrite W64_pow, N.mod_pow2_bits_low by lia. f_equal. lia. Qed.
Lemma bit_pack r i : words r -> i < 128 -> bit 128 (pack r) i = if i <? 64 then bit 64 (fst r) i else bit 64 (snd r) (i - 64).
Proof.
  intros R I. destruct (Nat.ltb_spec i 64).
  - rewrite bit_high by auto. now rewrite pack_div.
  - rewrite bit_low by auto. now rewrite pack_mod.
Qed.
Lemma vector_pack r : words r -> vector 128 (pack r).
Proof.
  intros [A B]. unfold vector in *. change (2 ^ N.of_nat 64)%N with 18446744073709551616%N in *. change (2 ^ N.of_nat 128)%N with (18446744073709551616 * 18446744073709551616)%N.
  unfold pack. destruct r as [a b]. cbn [fst snd] in *. lia.
Qed.
Lemma pack_inj r r' : words r -> words r' -> pack r = pack r' -> r = r'.
Proof.
  intros R R' E. rewrite (surjective_pairing r), (surjective_pairing r'). rewrite <- (pack_div r), <- (pack_mod r), <- (pack_div r'), <- (pack_mod r') by auto. now rewrite E.
Qed.
Lemma words_0 : words (0%N, 0%N). Proof. split; apply vector_0. Qed.
Lemma words_radd a b : words a -> words b -> words (radd a b).
Proof. intros [A A'] [B B']. split; cbn [radd fst snd]; auto using vector_lxor. Qed.
Lemma words_rand a b : words a -> words (rand2 a b).
Proof. intros [A A']. split; cbn [rand2 fst snd]; auto using vector_land. Qed.
Lemma words_flip v i : words v -> i < 128 -> words (flip v i).
Proof.
  intros [A B] I. unfold flip. destruct (Nat.ltb_spec i 64); split; cbn [fst snd]; auto; apply vector_lxor; auto.
  - apply (vector_id 64); auto using size64.
  - apply (vector_id 64); [apply size64|lia].
Qed.
Lemma pack_radd a b : words a -> words b -> pack (radd a b) = N.lxor (pack a) (pack b).
Proof.
  intros A B. apply (bit_ext 128); auto using vector_pack, words_radd, vector_lxor. intros i I. rewrite bit_lxor, !bit_pack by auto using words_radd.
  cbn [radd fst snd]. destruct (i <? 64); apply bit_lxor.
Qed.
Lemma pack_rand a b : words a -> words b -> pack (rand2 a b) = N.land (pack a) (pack b).
Proof.
  intros A B. apply (bit_ext 128); auto using vector_pack, words_rand, vector_land. intros i I. rewrite bit_land, !bit_pack by auto using words_rand.
  cbn [rand2 fst snd]. destruct (i <? 64); apply bit_land.
Qed.
Lemma pack_flip v i : words v -> i < 128 -> pack (flip v i) = N.lxor (pack v) (get (idM 128) i).
Proof.
  intros V I. apply (bit_ext 128); auto using vector_pack, words_flip, vector_lxor, vector_id, size128.
  intros j J. rewrite bit_lxor, bit_id by auto using size128. rewrite !bit_pack by auto using words_flip. unfold flip.
  destruct (Nat.ltb_spec i 64); cbn [fst snd]; destruct (Nat.ltb_spec j 64).
  - rewrite bit_lxor. f_equal. exact (bit_id 64 i j size64 H H0).
  - destruct (Nat.eqb_spec i j); [lia|]. now rewrite xorb_false_r.
  - destruct (Nat.eqb_spec i j); [lia|]. now rewrite xorb_false_r.
  - rewrite bit_lxor. f_equal. etransitivity; [apply (bit_id 64 (i - 64) (j - 64) size64); lia|].
    destruct (Nat.eqb_spec (i - 64) (j - 64)), (Nat.eqb_spec i j); try reflexivity; lia.
Qed.
Lemma get_val A i : get (val A) i = pack (grow A i).
Proof. unfold get, val, grow. change 0%N with (pack (0%N, 0%N)) at 1. apply map_nth. Qed.
Lemma map_set {X Y} (f : X -> Y) : forall l i v, map f (set l i v) = set (map f l) i (f v).
Proof. induction l as [|x l IH]; intros [|i] v; cbn; try reflexivity. now rewrite IH. Qed.
Lemma val_set A i r : val (set A i r) = set (val A) i (pack r).
Proof. apply map_set. Qed.
Lemma words_grow A i : matrix128 A -> words (grow A i).
Proof.
  intros [L F]. unfold grow. destruct (Nat.lt_ge_cases i (length A)) as [H|H].
  - rewrite Forall_forall in F. apply F, nth_In, H.
  - rewrite nth_overflow by auto. apply words_0.
Qed.
Lemma grow_set A i j v : i < length A -> grow (set A i v) j = if j =? i then v else grow A j.
Proof. intros H. unfold grow. rewrite nth_set. destruct (Nat.ltb_spec i (length A)); [|lia]. now rewrite andb_true_r. Qed.
Lemma matrix128_set A i v : matrix128 A -> words v -> matrix128 (set A i v).
Proof.
  intros [L F] V. split; [now rewrite length_set|]. apply Forall_forall. intros x X. apply In_nth with (d := (0%N, 0%N)) in X. destruct X as (k & K & <-).
  rewrite length_set in K. rewrite nth_set. destruct (_ && _); [exact V|]. rewrite Forall_forall in F. now apply F, nth_In.
Qed.
Lemma matrix_val A : matrix128 A -> matrix 128 (val A).
Proof.
  intros [L F]. split; [unfold val; now rewrite map_length|]. unfold val. apply Forall_map. eapply Forall_impl; [|exact F]. intros r. apply vector_pack.
Qed.
Lemma matrix128_intro A : length A = 128 -> (forall i, i < 128 -> words (grow A i)) -> matrix128 A.
Proof.
  intros L H. split; [exact L|]. apply Forall_forall. intros x X. apply In_nth with (d := (0%N, 0%N)) in X. destruct X as (i & I & <-). apply H. lia.
Qed.
Lemma grow_map_seq (f : nat -> row) n i : i < n -> grow (map f (seq 0 n)) i = f i.
Proof. intros I. unfold grow. rewrite (nth_indep _ (0%N, 0%N) (f 0)) by (rewrite map_length, seq_length; auto). rewrite map_nth, seq_nth by auto. reflexivity. Qed.
Lemma val_inj A B : matrix128 A -> matrix128 B -> val A = val B -> A = B.
Proof.
  intros MA MB E. apply (nth_ext _ _ (0%N, 0%N) (0%N, 0%N)); [destruct MA as [LA _], MB as [LB _]; exact (eq_trans LA (eq_sym LB))|]. intros i I.
  apply pack_inj; [apply words_grow; auto|apply words_grow; auto|]. change (pack (grow A i) = pack (grow B i)). now rewrite <- !get_val, E.
Qed.
Lemma seq_halves : seq 0 128 = seq 0 64 ++ seq 64 64.
Proof. exact (seq_app 64 64 0). Qed.

Lemma fold_sim {S T X} (R : S -> T -> Prop) (f : S -> X -> S) (g : T -> X -> T) l :
  (forall s t x, In x l -> R s t -> R (f s x) (g t x)) -> forall s t, R s t -> R (fold_left f l s) (fold_left g l t).
Proof.
  induction l as [|x l IH]; intros H s t Q; [exact Q|]. cbn [fold_left]. apply IH; [|apply H; [now left|exact Q]]. intros. apply H; [now right|assumption].
Qed.

(** ** Bits *)
Lemma readword w j : j < 64 -> (N.land w (get idM64 j) =? get idM64 j)%N = bit 64 w j.
Proof. intros J. exact (readbit_spec 64 [w] 0 j size64 J). Qed.
Lemma readbit128_bit A i j : j < 128 -> readbit128 A i j = if j <? 64 then bit 64 (fst (grow A i)) j else bit 64 (snd (grow A i)) (j - 64).
Proof. intros J. unfold readbit128. destruct (Nat.ltb_spec j 64); apply readword; lia. Qed.
Lemma readbit128_val A i j : matrix128 A -> j < 128 -> readbit128 A i j = readbit 128 (val A) i j.
Proof.
  intros M J. rewrite readbit128_bit by auto. rewrite readbit_spec by auto using size128. unfold entry. change (nth i (val A) 0%N) with (get (val A) i).
  rewrite get_val, bit_pack by auto using words_grow. reflexivity.
Qed.
Lemma flipbit128_val A i j : matrix128 A -> j < 128 -> val (flipbit128 A i j) = flipbit 128 (val A) i j.
Proof. intros M J. unfold flipbit128, flipbit. rewrite val_set, get_val. now rewrite pack_flip by auto using words_grow. Qed.
Lemma setbit128_val A i j b : matrix128 A -> j < 128 -> val (setbit128 A i j b) = setbit 128 (val A) i j b.
Proof. intros M J. unfold setbit128, setbit. rewrite readbit128_val by auto. destruct (Bool.eqb _ _); [reflexivity|]. now apply flipbit128_val. Qed.
Lemma isequalM128_val A B : matrix128 A -> matrix128 B -> isequalM128 A B = isequalM 128 (val A) (val B).
Proof.
  intros MA MB. unfold isequalM128, isequalM. generalize (seq 0 128). intros l. induction l as [|i l IH]; [reflexivity|]. cbn [forallb]. rewrite IH. f_equal.
  rewrite !get_val. pose proof (words_grow A i MA) as RA. pose proof (words_grow B i MB) as RB.
  destruct (N.eqb_spec (pack (grow A i)) (pack (grow B i))) as [E|E].
  - apply pack_inj in E; auto. rewrite E, !N.eqb_refl. reflexivity.
  - destruct (N.eqb_spec (fst (grow A i)) (fst (grow B i))) as [E1|E1]; [|reflexivity]. destruct (N.eqb_spec (snd (grow A i)) (snd (grow B i))) as [E2|E2]; [|reflexivity].
    exfalso. apply E. unfold pack. now rewrite E1, E2.
Qed.

(** ** Algebra *)
Lemma xorU128_val r : words r -> xorU128 r = xorU 128 (pack r).
Proof.
  intros R. change (xorU 128 (pack r)) with (xorU128n (pack r)). unfold xorU128, xorU128n. fold W64. rewrite pack_div, pack_mod by exact R. now rewrite N.lxor_comm.
Qed.
Lemma HWU128_val r : words r -> HWU128 r = HWU 128 (pack r).
Proof.
  intros R. change (HWU 128 (pack r)) with (HWU128n (pack r)). unfold HWU128, HWU128n. fold W64. rewrite pack_div, pack_mod by exact R. apply N.add_comm.
Qed.
Lemma dot_val A i v : matrix128 A -> words v -> xorU128 (rand2 (grow A i) v) = xorU 128 (mask4 128 (N.land (get (val A) i) (pack v))).
Proof. intros M V. rewrite xorU128_val, pack_rand by auto using words_rand, words_grow. rewrite get_val. reflexivity. Qed.
Lemma fold_flip (f : nat -> bool) (g : nat -> bool) l : (forall i, In i l -> i < 128 /\ f i = g i) -> forall v, words v ->
  words (fold_left (fun v i => if f i then flip v i else v) l v) /\
  pack (fold_left (fun v i => if f i then flip v i else v) l v) = fold_left (fun x i => if g i then N.lxor x (get (idM 128) i) else x) l (pack v).
Proof.
  induction l as [|i l IH]; intros H v V; [split; [exact V|reflexivity]|]. cbn [fold_left]. destruct (H i (or_introl eq_refl)) as [I E]. rewrite <- E.
  destruct (f i).
  - rewrite <- pack_flip by auto. apply IH; [|now apply words_flip]. intros k K. apply H. now right.
  - apply IH; [|exact V]. intros k K. apply H. now right.
Qed.
Lemma MatMulVec128_val A v : matrix128 A -> words v -> words (MatMulVec128 A v) /\ pack (MatMulVec128 A v) = MatMulVec 128 (val A) (pack v).
Proof.
  intros M V. unfold MatMulVec128, MatMulVec. cbv zeta. rewrite <- fold_left_app, <- seq_halves.
  change 0%N with (pack (0%N, 0%N)) at 4. apply (fold_flip (fun i => xorU128 (rand2 (grow A i) v))); [|apply words_0].
  intros i I. apply in_seq in I. split; [lia|]. now apply dot_val.
Qed.
Lemma val_init : val initM128 = initM 128.
Proof. vm_compute. reflexivity. Qed.
Lemma val_identity : val identityM128 = identityM 128.
Proof. vm_compute. reflexivity. Qed.
Lemma matrix_init : matrix128 initM128.
Proof. split; [reflexivity|]. apply Forall_forall. intros x X. apply repeat_spec in X. subst. apply words_0. Qed.
Lemma matrix_identity : matrix128 identityM128.
Proof.
  assert (E : forallb (fun r => (fst r <? W64) && (snd r <? W64))%N identityM128 = true) by (vm_compute; reflexivity).
  split; [reflexivity|]. apply Forall_forall. intros r R. rewrite forallb_forall in E. specialize (E r R). apply andb_true_iff in E.
  destruct E as [E1 E2]. apply N.ltb_lt in E1, E2. split; [exact E1|exact E2].
Qed.
Lemma flip_entry_val M i j : matrix128 M -> j < 128 -> matrix128 (flip_entry M i j) /\ val (flip_entry M i j) = set (val M) i (N.lxor (get (val M) i) (get (idM 128) j)).
Proof.
  intros H J. unfold flip_entry. split; [apply matrix128_set; auto using words_flip, words_grow|]. rewrite val_set, get_val, pack_flip by auto using words_grow. reflexivity.
Qed.
Lemma zeroword w j : j < 64 -> (N.land w (get idM64 j) =? 0)%N = negb (bit 64 w j).
Proof. intros J. exact (land_id_zero 64 w j size64 J). Qed.
Lemma entry_grow A r c : matrix128 A -> c < 128 -> entry 128 (val A) r c = if c <? 64 then bit 64 (fst (grow A r)) c else bit 64 (snd (grow A r)) (c - 64).
Proof. intros M C. unfold entry. change (nth r (val A) 0%N) with (get (val A) r). rewrite get_val, bit_pack by auto using words_grow. reflexivity. Qed.
Lemma entry_flip M i j r c : matrix128 M -> i < 128 -> j < 128 -> c < 128 ->
  entry 128 (val (flip_entry M i j)) r c = xorb (entry 128 (val M) r c) ((r =? i) && (j =? c)).
Proof.
  intros H I J C. destruct (flip_entry_val M i j H J) as [_ ->]. rewrite entry_set by (unfold val; rewrite map_length; destruct H; lia).
  destruct (Nat.eqb_spec r i) as [->|]; [|now rewrite xorb_false_r]. rewrite bit_lxor, bit_id by auto using size128. reflexivity.
Qed.
Lemma Mattrans128_val A : matrix128 A -> matrix128 (Mattrans128 A) /\ val (Mattrans128 A) = Mattrans 128 (val A).
Proof.
  intros M.
  assert (Inner : forall i k T, i < 128 -> k <= 64 -> matrix128 T ->
    let T' := fold_left (fun T j =>
      let T := if (N.land (fst (grow A i)) (get idM64 j) =? 0)%N then T else flip_entry T j i in
      if (N.land (snd (grow A i)) (get idM64 j) =? 0)%N then T else flip_entry T (j + 64) i) (seq 0 k) T in
    matrix128 T' /\ forall r c, r < 128 -> c < 128 ->
      entry 128 (val T') r c = xorb (entry 128 (val T) r c) (((r <? k) || ((64 <=? r) && (r <? 64 + k))) && (i =? c) && entry 128 (val A) i r)).
  { intros i k T I. revert T. induction k as [|k IH]; intros T K MT; cbv zeta.
    - cbn [seq fold_left]. split; [exact MT|]. intros r c R C. destruct (Nat.leb_spec 64 r), (Nat.ltb_spec r (64 + 0)); try lia; cbn [Nat.ltb Nat.leb andb orb]; now rewrite xorb_false_r.
    - rewrite seq_S, fold_left_app. cbn [fold_left]. destruct (IH T ltac:(lia) MT) as [MT' B]. cbv zeta in B, MT'. rewrite Nat.add_0_l. set (T1 := fold_left _ (seq 0 k) T) in *. clearbody T1.
      rewrite !zeroword by lia.
      assert (E1 : bit 64 (fst (grow A i)) k = entry 128 (val A) i k) by (rewrite entry_grow by (auto; lia); destruct (Nat.ltb_spec k 64); [reflexivity|lia]).
      assert (E2 : bit 64 (snd (grow A i)) k = entry 128 (val A) i (k + 64)).
      { rewrite entry_grow by (auto; lia). destruct (Nat.ltb_spec (k + 64) 64); [lia|]. f_equal. lia. }
      rewrite E1, E2.
      assert (S1 : matrix128 (if negb (entry 128 (val A) i k) then T1 else flip_entry T1 k i)) by (destruct (negb _); [exact MT'|apply flip_entry_val; auto]).
      assert (Q1 : forall r c, r < 128 -> c < 128 -> entry 128 (val (if negb (entry 128 (val A) i k) then T1 else flip_entry T1 k i)) r c =
        xorb (entry 128 (val T1) r c) ((r =? k) && (i =? c) && entry 128 (val A) i k)).
      { intros r c R C. destruct (entry 128 (val A) i k); cbn [negb]; [|now rewrite andb_false_r, xorb_false_r]. rewrite entry_flip by (auto; lia). now rewrite andb_true_r. }
      set (T2 := if negb (entry 128 (val A) i k) then T1 else flip_entry T1 k i) in *. clearbody T2.
      split; [destruct (negb _); [exact S1|apply flip_entry_val; auto]|]. intros r c R C.
      assert (Q2 : entry 128 (val (if negb (entry 128 (val A) i (k + 64)) then T2 else flip_entry T2 (k + 64) i)) r c =
        xorb (entry 128 (val T2) r c) ((r =? k + 64) && (i =? c) && entry 128 (val A) i (k + 64))).
      { destruct (entry 128 (val A) i (k + 64)); cbn [negb]; [|now rewrite andb_false_r, xorb_false_r]. rewrite entry_flip by (auto; lia). now rewrite andb_true_r. }
      rewrite Q2, Q1, B by auto. rewrite !xorb_assoc. f_equal.
      destruct (Nat.eqb_spec r k) as [X1|X1], (Nat.eqb_spec r (k + 64)) as [X2|X2]; try lia; [subst r|subst r|].
      + destruct (Nat.ltb_spec k k), (Nat.ltb_spec k (S k)), (Nat.leb_spec 64 k); try lia. cbn [andb orb]. now rewrite ?xorb_false_l, ?xorb_false_r.
      + destruct (Nat.ltb_spec (k + 64) k), (Nat.ltb_spec (k + 64) (S k)), (Nat.leb_spec 64 (k + 64)), (Nat.ltb_spec (k + 64) (64 + k)), (Nat.ltb_spec (k + 64) (64 + S k)); try lia.
        cbn [andb orb]. now rewrite ?xorb_false_l, ?xorb_false_r.
      + cbn [andb]. rewrite !xorb_false_r. destruct (Nat.ltb_spec r k), (Nat.ltb_spec r (S k)), (Nat.leb_spec 64 r), (Nat.ltb_spec r (64 + k)), (Nat.ltb_spec r (64 + S k)); try lia; reflexivity. }
  assert (Outer : forall k, k <= 128 ->
    let T' := fold_left (trans_row A) (seq 0 k) initM128 in
    matrix128 T' /\ forall r c, r < 128 -> c < 128 -> entry 128 (val T') r c = (c <? k) && entry 128 (val A) c r).
  { induction k as [|k IH]; intros K; cbv zeta.
    - cbn [seq fold_left]. split; [apply matrix_init|]. intros. rewrite val_init. destruct (initM_spec 128) as [_ E]. rewrite E. reflexivity.
    - rewrite seq_S, fold_left_app. cbn [fold_left]. rewrite Nat.add_0_l. destruct (IH ltac:(lia)) as [MT' B]. set (T1 := fold_left _ (seq 0 k) initM128) in *. clearbody T1.
      unfold trans_row at 1 2. destruct (Inner k 64 T1 ltac:(lia) (le_n 64) MT') as [MI BI]. cbv zeta in MI, BI. split; [exact MI|]. intros r c R C. etransitivity; [apply BI; auto|]. rewrite B by auto.
      assert (X : (r <? 64) || ((64 <=? r) && (r <? 64 + 64)) = true) by (destruct (Nat.ltb_spec r 64), (Nat.leb_spec 64 r), (Nat.ltb_spec r (64 + 64)); try lia; reflexivity).
      rewrite X. cbn [andb].
      destruct (Nat.ltb_spec c (S k)), (Nat.ltb_spec c k), (Nat.eqb_spec k c); try lia; subst; cbn [andb]; now rewrite ?xorb_false_l, ?xorb_false_r. }
  destruct (Outer 128 (le_n _)) as [MO BO]. cbv zeta in MO, BO. unfold Mattrans128. rewrite <- fold_left_app, <- seq_halves. split; [exact MO|].
  destruct (Mattrans_spec 128 (val A) size128 (matrix_val A M)) as [MT ET]. apply (matrix_ext 128); auto using matrix_val. intros i j I J.
  rewrite BO, ET by auto. destruct (Nat.ltb_spec j 128); [reflexivity|lia].
Qed.
Lemma MatAddMat128_val A B : matrix128 A -> matrix128 B -> matrix128 (MatAddMat128 A B) /\ val (MatAddMat128 A B) = MatAddMat 128 (val A) (val B).
Proof.
  intros MA MB. unfold MatAddMat128, MatAddMat. split.
  - apply matrix128_intro; [now rewrite map_length, seq_length|]. intros i I. rewrite grow_map_seq by auto. auto using words_radd, words_grow.
  - unfold val at 1. rewrite map_map. apply map_ext. intros i. rewrite pack_radd by auto using words_grow. now rewrite !get_val.
Qed.
Lemma MatMul_inner A T i : matrix128 A -> matrix128 T -> forall js M, matrix128 M -> Forall (fun j => j < 128) js ->
  matrix128 (fold_left (fun M j => if xorU128 (rand2 (grow A i) (grow T j)) then flip_entry M i j else M) js M) /\
  val (fold_left (fun M j => if xorU128 (rand2 (grow A i) (grow T j)) then flip_entry M i j else M) js M) =
  fold_left (fun M j => if xorU 128 (mask4 128 (N.land (get (val A) i) (get (val T) j))) then set M i (N.lxor (get M i) (get (idM 128) j)) else M) js (val M).
Proof.
  intros MA MT. induction js as [|j js IH]; intros M MM X; [split; [exact MM|reflexivity]|]. cbn [fold_left]. rewrite (get_val T j), <- dot_val by auto using words_grow.
  inversion X as [|? ? X1 X2]; subst. destruct (xorU128 _).
  - destruct (flip_entry_val M i j MM X1) as [MF EF]. rewrite <- EF. now apply IH.
  - now apply IH.
Qed.
Lemma below128 k a : a + k <= 128 -> Forall (fun j => j < 128) (seq a k).
Proof. intros H. apply Forall_forall. intros j J. apply in_seq in J. lia. Qed.
Definition mm128 (A T M : list row) (i : nat) : list row :=
  fold_left (fun M j => if xorU128 (rand2 (grow A i) (grow T j)) then flip_entry M i j else M) (seq 64 64)
    (fold_left (fun M j => if xorU128 (rand2 (grow A i) (grow T j)) then flip_entry M i j else M) (seq 0 64) M).
Definition mmN (A T M : list N) (i : nat) : list N :=
  fold_left (fun M j => if xorU 128 (mask4 128 (N.land (get A i) (get T j))) then set M i (N.lxor (get M i) (get (idM 128) j)) else M) (seq 0 128) M.
Lemma mm_val A T M i : matrix128 A -> matrix128 T -> matrix128 M -> matrix128 (mm128 A T M i) /\ val (mm128 A T M i) = mmN (val A) (val T) (val M) i.
Proof.
  intros MA MT MM. unfold mm128, mmN. rewrite seq_halves, fold_left_app.
  destruct (MatMul_inner A T i MA MT (seq 0 64) M MM (below128 64 0 ltac:(lia))) as [M1 E1]. rewrite <- E1.
  exact (MatMul_inner A T i MA MT (seq 64 64) _ M1 (below128 64 64 ltac:(lia))).
Qed.
Lemma MatMul_outer A T : matrix128 A -> matrix128 T -> forall is M, matrix128 M ->
  matrix128 (fold_left (mm128 A T) is M) /\ val (fold_left (mm128 A T) is M) = fold_left (mmN (val A) (val T)) is (val M).
Proof.
  intros MA MT is M MM. apply (fold_sim (fun M M' => matrix128 M /\ val M = M') (mm128 A T) (mmN (val A) (val T))); [|split; [exact MM|reflexivity]].
  intros X Y i _ [MX <-]. now apply mm_val.
Qed.
Local Opaque fold_left seq.
Lemma MatMulMat128_mm A B : MatMulMat128 A B = fold_left (mm128 A (Mattrans128 B)) (seq 0 128) initM128.
Proof. unfold MatMulMat128, mm128. cbv zeta. reflexivity. Qed.
Lemma MatMulMat_mm A B : MatMulMat 128 A B = fold_left (mmN A (Mattrans 128 B)) (seq 0 128) (initM 128).
Proof. unfold MatMulMat, mmN. cbv zeta. reflexivity. Qed.
Lemma MatMulMat128_val A B : matrix128 A -> matrix128 B -> matrix128 (MatMulMat128 A B) /\ val (MatMulMat128 A B) = MatMulMat 128 (val A) (val B).
Proof.
  intros MA MB. destruct (Mattrans128_val B MB) as [MT ET]. rewrite MatMulMat128_mm, MatMulMat_mm, <- ET, <- val_init.
  exact (MatMul_outer A (Mattrans128 B) MA MT (seq 0 128) initM128 matrix_init).
Qed.
Local Transparent fold_left seq.
Local Strategy 500 [fold_left seq].
Local Opaque MatMulVec MatMulMat MatMulVec128 MatMulMat128 Mattrans Mattrans128 initM128 identityM128 identityM initM.
Lemma affineU128_val a x : affine128 a -> words x -> words (affineU128 a x) /\ pack (affineU128 a x) = affineU 128 (aval a) (pack x).
Proof.
  intros [MA VA] X. destruct (MatMulVec128_val (a_mat128 a) x MA X) as [V E]. unfold affineU128, affineU. split; [now apply words_radd|].
  rewrite pack_radd by auto. rewrite E. reflexivity.
Qed.
Lemma affinemix128_val a b : affine128 a -> affine128 b -> affine128 (affinemix128 a b) /\ aval (affinemix128 a b) = affinemix 128 (aval a) (aval b).
Proof.
  intros [MA VA] [MB VB]. destruct (MatMulMat128_val _ _ MA MB) as [MM EM]. destruct (MatMulVec128_val _ _ MA VB) as [VM EV].
  split; [split; cbn [affinemix128 a_mat128 a_vec128]; auto using words_radd|]. unfold aval, affinemix, affinemix128. cbn [a_mat128 a_vec128 a_mat a_vec].
  rewrite EM, pack_radd, EV by auto. reflexivity.
Qed.

(** ** Elimination: the loops act as the generic ones *)
Definition top (A : list row) : Prop := forall r, 64 <= r -> r < 128 -> fst (grow A r) = 0%N.
Lemma words_merge p a b : words a -> words b -> words (merge p a b).
Proof. intros [A A'] [B B']. destruct p; split; assumption. Qed.
Lemma matrix_applyop128 p o A : matrix128 A -> matrix128 (applyop128 p o A).
Proof. intros M. destruct o; cbn [applyop128]; repeat apply matrix128_set; auto using words_merge, words_grow, words_radd. Qed.
Lemma applyop128_both o A : matrix128 A -> val (applyop128 Both o A) = applyop o (val A).
Proof.
  intros M. destruct o; cbn [applyop128 applyop merge].
  - rewrite val_set, pack_radd by auto using words_grow. now rewrite !get_val.
  - rewrite !val_set. now rewrite !get_val.
Qed.
(** an operation on word 1 only is an operation on both when the words 0 involved are zero *)
Definition nul (o : op) (A : list row) : Prop :=
  match o with OAdd j i => fst (grow A i) = 0%N | OSwap j i => fst (grow A i) = 0%N /\ fst (grow A j) = 0%N end.
Lemma applyop128_word1 o A : nul o A -> applyop128 Word1 o A = applyop128 Both o A.
Proof.
  destruct o as [j i|j i]; cbn [nul applyop128 merge].
  - intros H. unfold radd. rewrite H, N.lxor_0_r. reflexivity.
  - intros [H1 H2]. rewrite H1, H2. rewrite (surjective_pairing (grow A i)), (surjective_pairing (grow A j)). cbn [fst snd]. now rewrite H1, H2.
Qed.
Lemma top_applyop p o A : matrix128 A -> top A -> (match o with OAdd j i => 64 <= i /\ i < 128 /\ j < 128 | OSwap j i => 64 <= i /\ i < 128 /\ 64 <= j /\ j < 128 end) ->
  top (applyop128 p o A) /\ nul o A.
Proof.
  intros [L F] T V. destruct o as [j i|j i]; cbn [nul applyop128].
  - destruct V as (I & I' & J). split; [|now apply T]. intros r R R'. rewrite grow_set by lia. destruct (Nat.eqb_spec r j) as [->|]; [|now apply T].
    destruct p; cbn [merge fst radd]; rewrite ?(T i), ?(T j) by auto; reflexivity.
  - destruct V as (I & I' & J & J'). split; [|split; now apply T]. intros r R R'. rewrite !grow_set by (rewrite ?length_set; lia).
    destruct (Nat.eqb_spec r j) as [->|]; [destruct p; cbn [merge fst]; now apply T|]. destruct (Nat.eqb_spec r i) as [->|]; [destruct p; cbn [merge fst]; now apply T|]. now apply T.
Qed.

(** the first k columns are zero below the diagonal *)
Definition low (n k : nat) (A : list N) : Prop := forall r c, c < k -> c < r -> r < n -> entry n A r c = false.
Lemma top_low A : matrix128 A -> low 128 64 (val A) -> top A.
Proof.
  intros M H r R R'. apply (bit_ext 64); [apply words_grow, M|apply vector_0|]. intros c C. rewrite bit_0.
  rewrite <- (H r c) by lia. rewrite entry_grow by (auto; lia). destruct (Nat.ltb_spec c 64); [reflexivity|lia].
Qed.
Section Low.
  Context {S : Type} (n : nat) (temp : S -> list N) (step : op -> S -> S).
  Hypothesis Hsize : size n.
  Hypothesis Htemp : forall o s, temp (step o s) = applyop o (temp s).
  Lemma elim_below_low i s : i < n -> matrix n (temp s) -> low n i (temp s) ->
    (entry n (temp s) i i = true \/ forall r, i < r -> r < n -> entry n (temp s) r i = false) ->
    matrix n (temp (elim_below n temp step i s)) /\ low n (i + 1) (temp (elim_below n temp step i s)).
  Proof.
    intros I M H P. destruct (elim_rows n temp step Hsize Htemp i s (seq (i + 1) (n - 1 - i)) I) as (ops & E & V & _ & Q); auto using seq_NoDup.
    { apply Forall_forall. intros j J. apply in_seq in J. lia. }
    unfold elim_below. rewrite E, (temp_runs temp step Htemp). split; [now apply matrix_applyops|]. intros r c C C' R. rewrite Q by lia. rewrite existsb_seq.
    destruct (Nat.eq_dec c i) as [->|NC].
    - destruct (Nat.leb_spec (i + 1) r); [|lia]. destruct (Nat.ltb_spec r (i + 1 + (n - 1 - i))); [|lia]. cbn [andb].
      destruct P as [P|P]; [rewrite P, andb_true_r; apply xorb_nilpotent|]. now rewrite (P r) by lia.
    - rewrite (H r c), (H i c) by lia. now rewrite andb_false_r.
  Qed.
  Lemma swap_low i j s : i < j -> j < n -> matrix n (temp s) -> low n i (temp s) -> low n i (temp (step (OSwap j i) s)).
  Proof.
    intros I J M H r c C C' R. rewrite Htemp, entry_swap by (auto; lia). destruct (Nat.eqb_spec r j); [apply H; lia|]. destruct (Nat.eqb_spec r i); [apply H; lia|]. now apply H.
  Qed.
  Lemma column_low i s s' : i < n -> matrix n (temp s) -> low n i (temp s) -> column n temp step i s = Some s' -> matrix n (temp s') /\ low n (i + 1) (temp s').
  Proof.
    intros I M H. unfold column. rewrite readbit_spec by auto. destruct (entry n (temp s) i i) eqn:P.
    - intros E. injection E as <-. apply elim_below_low; auto.
    - pose proof (find_pivot_spec n temp step Hsize Htemp i s I) as F. destruct (find_pivot n temp i s) as [j|]; [|discriminate]. destruct F as [J B].
      intros E. injection E as <-. apply elim_below_low; auto; [rewrite Htemp; now apply matrix_applyop|apply swap_low; auto; lia|].
      left. rewrite Htemp, entry_swap by (auto; lia). destruct (Nat.eqb_spec i j); [lia|]. now rewrite Nat.eqb_refl.
  Qed.
End Low.

Lemma find_same (f g : nat -> bool) l : (forall x, In x l -> f x = g x) -> find f l = find g l.
Proof.
  induction l as [|x l IH]; intros H; [reflexivity|]. cbn [find]. rewrite (H x (or_introl eq_refl)). destruct (g x); [reflexivity|]. apply IH. intros; apply H; now right.
Qed.
Section Sim.
  Context {S G : Type} (temp1 : S -> list row) (step1 : part -> op -> S -> S) (temp2 : G -> list N) (step2 : op -> G -> G) (rel : S -> G -> Prop).
  Hypothesis H1 : forall p o s, temp1 (step1 p o s) = applyop128 p o (temp1 s).
  Hypothesis H2 : forall o g, temp2 (step2 o g) = applyop o (temp2 g).
  Hypothesis H3 : forall p o s g, rel s g -> rel (step1 p o s) (step2 o g).
  Definition full (s : S) (g : G) : Prop := matrix128 (temp1 s) /\ temp2 g = val (temp1 s) /\ rel s g.
  (** in the second half of the columns words 0 of the lower rows are zero *)
  Definition ft (i : nat) (s : S) (g : G) : Prop := full s g /\ (64 <= i -> top (temp1 s)).
  Lemma step_same p o s g : full s g -> p = Both \/ (p = Word1 /\ nul o (temp1 s)) -> full (step1 p o s) (step2 o g).
  Proof.
    intros (M & E & R) P. split; [rewrite H1; now apply matrix_applyop128|]. split; [|now apply H3].
    rewrite H1, H2, E. destruct P as [->|[-> Z]]; [|rewrite applyop128_word1 by exact Z]; now rewrite applyop128_both.
  Qed.
  Definition okop (i : nat) (o : op) : Prop := match o with OAdd j k => k = i /\ j < 128 | OSwap j k => k = i /\ i <= j /\ j < 128 end.
  Lemma fwd_step i o s g : i < 128 -> okop i o -> ft i s g -> ft i (step1 (fwd i) o s) (step2 o g).
  Proof.
    intros I O [F T]. unfold fwd. destruct (Nat.ltb_spec i 64) as [L|L].
    - split; [apply step_same; auto|lia].
    - destruct (top_applyop Word1 o (temp1 s)) as [T' Z]; [apply F|now apply T|destruct o as [j k|j k]; cbn [okop] in O; repeat split; lia|].
      split; [apply step_same; auto|]. intros _. now rewrite H1.
  Qed.
  Lemma bwd_step i j s g : 64 <= i -> i < 128 -> j < 128 -> ft 64 s g -> ft 64 (step1 (bwd i) (OAdd j i) s) (step2 (OAdd j i) g).
  Proof.
    intros L I J [F T]. unfold bwd. destruct (Nat.ltb_spec i 64); [lia|].
    destruct (top_applyop Word1 (OAdd j i) (temp1 s)) as [T' Z]; [apply F|apply T; lia|auto|]. split; [apply step_same; auto|]. intros _. now rewrite H1.
  Qed.
  Lemma read_same i j s g : full s g -> j < 128 -> readbit128 (temp1 s) i j = readbit 128 (temp2 g) i j.
  Proof. intros (M & E & _) J. rewrite E. now apply readbit128_val. Qed.
  Lemma elim_below_same i s g : i < 128 -> ft i s g -> ft i (elim_below128 temp1 step1 i s) (elim_below 128 temp2 step2 i g).
  Proof.
    intros I F. unfold elim_below128, elim_below. change (128 - 1 - i) with (127 - i). apply (fold_sim (ft i)); [|exact F].
    intros s' g' j J F'. apply in_seq in J. rewrite (read_same j i s' g') by (auto; apply F'). destruct (readbit 128 (temp2 g') j i); [|exact F'].
    apply fwd_step; auto. cbn [okop]. split; [reflexivity|lia].
  Qed.
  Lemma find_pivot_same i s g : i < 128 -> full s g -> find_pivot128 temp1 i s = find_pivot 128 temp2 i g.
  Proof. intros I F. unfold find_pivot128, find_pivot. change (128 - 1 - i) with (127 - i). apply find_same. intros j J. now apply read_same. Qed.
  Lemma pivot_range i g j : find_pivot 128 temp2 i g = Some j -> i < j /\ j < 128.
  Proof. intros E. apply find_some in E. destruct E as [E _]. apply in_seq in E. lia. Qed.
  Definition column128 (i : nat) (s : S) : option S :=
    if readbit128 (temp1 s) i i then Some (elim_below128 temp1 step1 i s)
    else match find_pivot128 temp1 i s with None => None | Some j => Some (elim_below128 temp1 step1 i (step1 (fwd i) (OSwap j i) s)) end.
  Lemma column_same i s g : i < 128 -> ft i s g ->
    match column128 i s with
    | Some s' => exists g', column 128 temp2 step2 i g = Some g' /\ ft i s' g'
    | None => column 128 temp2 step2 i g = None
    end.
  Proof.
    intros I F. unfold column128, column. rewrite (read_same i i s g) by (auto; apply F). destruct (readbit 128 (temp2 g) i i).
    - eexists. split; [reflexivity|]. now apply elim_below_same.
    - rewrite (find_pivot_same i s g) by (auto; apply F). destruct (find_pivot 128 temp2 i g) as [j|] eqn:P; [|reflexivity]. apply pivot_range in P.
      eexists. split; [reflexivity|]. apply elim_below_same; auto. apply fwd_step; auto. cbn [okop]. split; [reflexivity|lia].
  Qed.
  (** the last loop looks at words 0 only *)
  Definition half (s : S) (g : G) : Prop :=
    (length (temp1 s) = 128 /\ length (temp2 g) = 128) /\ (forall r, r < 128 -> fst (grow (temp1 s) r) = (get (temp2 g) r / W64)%N) /\ rel s g.
  Lemma full_half s g : full s g -> half s g.
  Proof.
    intros (M & E & R). split; [split; [apply M|rewrite E; unfold val; rewrite map_length; apply M]|]. split; [|exact R]. intros r _. rewrite E, get_val, pack_div by auto using words_grow. reflexivity.
  Qed.
  Lemma half_step i j s g : i < 128 -> j < 128 -> half s g -> half (step1 Word0 (OAdd j i) s) (step2 (OAdd j i) g).
  Proof.
    intros I J ((L1 & L2) & E & R). split; [rewrite H1, H2; cbn [applyop128 applyop]; rewrite !length_set; auto|]. split; [|now apply H3].
    intros r R'. rewrite H1, H2. cbn [applyop128 applyop merge]. rewrite grow_set by lia. rewrite get_set by lia.
    destruct (Nat.eqb_spec r j) as [->|]; [|now apply E]. cbn [fst radd]. rewrite !E by auto. rewrite !W64_pow, <- !N.shiftr_div_pow2. symmetry. apply N.shiftr_lxor.
  Qed.
  Lemma half_read i j s g : i < 128 -> j < 64 -> half s g -> readbit128 (temp1 s) i j = readbit 128 (temp2 g) i j.
  Proof.
    intros I J (_ & E & _). rewrite readbit128_bit by lia. destruct (Nat.ltb_spec j 64); [|lia]. rewrite E, readbit_spec by (auto using size128; lia). symmetry. now apply bit_high.
  Qed.
  Lemma elim_above_same s g : full s g -> top (temp1 s) -> rel (elim_above128 temp1 step1 s) (elim_above 128 temp2 step2 g).
  Proof.
    intros F T. unfold elim_above128, elim_above.
    assert (E : rev (seq 0 128) = rev (seq 64 64) ++ rev (seq 0 64)) by (rewrite <- rev_app_distr; f_equal; apply seq_halves).
    rewrite E, fold_left_app. clear E.
    set (f := fun s i => fold_left (fun s j => if readbit 128 (temp2 s) j i then step2 (OAdd j i) s else s) (rev (seq 0 i)) s).
    assert (Q1 : ft 64 (fold_left (elim_row_above128 temp1 step1) (rev (seq 64 64)) s) (fold_left f (rev (seq 64 64)) g)).
    { apply (fold_sim (ft 64)); [|now split]. intros s' g' i I F'. apply in_rev, in_seq in I. unfold elim_row_above128, f. apply (fold_sim (ft 64)); [|exact F'].
      intros s2 g2 j J F2. apply in_rev, in_seq in J. rewrite (read_same j i s2 g2) by (try apply F2; lia). destruct (readbit 128 (temp2 g2) j i); [|exact F2]. apply bwd_step; auto; lia. }
    apply (fold_sim half); [|apply full_half, Q1]. clear F Q1. clear s g T. intros s g i I F. apply in_rev, in_seq in I. unfold elim_row_above128, f. apply (fold_sim half); [|exact F].
    intros s2 g2 j J F2. apply in_rev, in_seq in J. rewrite (half_read j i s2 g2) by (auto; lia). destruct (readbit 128 (temp2 g2) j i); [|exact F2].
    unfold bwd. destruct (Nat.ltb_spec i 64); [|lia]. apply half_step; auto; lia.
  Qed.
End Sim.
