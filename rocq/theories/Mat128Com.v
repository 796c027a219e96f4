(** * Concatenated matrices of 64 and 128 bits, and the statements of Mat128Props *)
From Verif Require Import Base Word32 FpeModel MatModel MatSpec MatProofs GaussProofs ComProofs Mat128Model Mat128Spec Mat128Proofs Mat128Gen.
Local Open Scope nat_scope.
Local Strategy 500 [fold_left seq].

(** ** Matrixcom *)
Lemma nth_flat (f : nat -> list N) w : (forall k, length (f k) = w) -> forall m a k i, k < m -> i < w ->
  nth (k * w + i) (flat_map f (seq a m)) 0%N = nth i (f (a + k)) 0%N.
Proof.
  intros L m. induction m as [|m IH]; intros a k i K I; [lia|]. cbn [seq flat_map]. destruct k as [|k].
  - rewrite app_nth1 by (rewrite L; lia). f_equal. f_equal. lia.
  - rewrite app_nth2 by (rewrite L; cbn [Nat.mul]; lia). rewrite L. replace (S k * w + i - w) with (k * w + i) by (cbn [Nat.mul]; lia).
    rewrite IH by lia. f_equal. f_equal. lia.
Qed.
Lemma length_flat (f : nat -> list N) w : (forall k, length (f k) = w) -> forall m a, length (flat_map f (seq a m)) = m * w.
Proof. intros L m. induction m as [|m IH]; intros a; [reflexivity|]. cbn [seq flat_map]. rewrite app_length, IH, L. cbn [Nat.mul]. lia. Qed.
Lemma length_Matrixcom m w ms : length (Matrixcom m w ms) = m * w.
Proof. apply length_flat. intros k. now rewrite map_length, seq_length. Qed.
Lemma diagonal_Matrixcom m w ms : diagonal m w (fun k => nth k ms []) (Matrixcom m w ms).
Proof.
  split; [apply length_Matrixcom|]. intros k i K I. unfold Matrixcom, get at 1.
  rewrite (nth_flat _ w) by (auto; intros; now rewrite map_length, seq_length). rewrite Nat.add_0_l.
  etransitivity; [exact (get_map_seq _ w i I)|]. cbv beta. now rewrite Nat.mul_comm.
Qed.
Lemma Forall_nth_lt {X} (P : X -> Prop) l d k : Forall P l -> k < length l -> P (nth k l d).
Proof. intros F K. rewrite Forall_forall in F. apply F, nth_In, K. Qed.
Lemma Matrixcom_block m w ms x k : size w -> size (m * w) -> length ms = m -> Forall (matrix w) ms -> k < m ->
  block m w k (MatMulVec (m * w) (Matrixcom m w ms) x) = MatMulVec w (nth k ms []) (block m w k x).
Proof.
  intros S S' L F K. apply (mulv_diagonal m w (fun k => nth k ms [])); auto using diagonal_Matrixcom. intros j J. apply Forall_nth_lt; [exact F|lia].
Qed.
Lemma bit_lor n a b i : bit n (N.lor a b) i = bit n a i || bit n b i.
Proof. unfold bit. apply N.lor_spec. Qed.
Lemma Vectorcom_bits m w vs : length vs = m -> Forall (vector w) vs -> forall p, p <= m ->
  let v := fold_left (fun v k => N.lor v (N.shiftl (nth k vs 0%N) (N.of_nat (w * (m - 1 - k))))) (seq 0 p) 0%N in
  vector (m * w) v /\ forall k j, k < m -> j < w -> bit (m * w) v (k * w + j) = (k <? p) && bit w (nth k vs 0%N) j.
Proof.
  intros L F p. induction p as [|p IH]; intros P; cbv zeta.
  - split; [apply vector_0|]. intros k j K J. cbn [seq fold_left]. rewrite bit_0. reflexivity.
  - rewrite seq_S, fold_left_app. cbn [fold_left]. rewrite Nat.add_0_l. destruct (IH ltac:(lia)) as [V B]. cbv zeta in V, B.
    set (v := fold_left _ (seq 0 p) 0%N) in *. clearbody v. assert (VP : vector w (nth p vs 0%N)) by (apply Forall_nth_lt; [exact F|lia]).
    rewrite (Nat.mul_comm w (m - 1 - p)). split.
    + apply vector_bits. intros i I. rewrite N.lor_spec. pose proof (vector_shift m w p _ ltac:(lia) VP) as VS.
      rewrite (testbit_high v (N.of_nat (m * w)) i V I), (testbit_high _ (N.of_nat (m * w)) i VS I). reflexivity.
    + intros k j K J. rewrite bit_lor, B, bit_shift by (auto; lia).
      destruct (Nat.eqb_spec p k) as [Eq|Ne], (Nat.ltb_spec k p), (Nat.ltb_spec k (S p)); try lia; cbn [andb orb]; try reflexivity; [now subst|].
      now rewrite orb_false_r.
Qed.
Lemma vector_Vectorcom m w vs : length vs = m -> Forall (vector w) vs -> vector (m * w) (Vectorcom m w vs).
Proof. intros L F. apply (Vectorcom_bits m w vs L F m (le_n m)). Qed.
Lemma Vectorcom_block m w vs k : length vs = m -> Forall (vector w) vs -> k < m -> block m w k (Vectorcom m w vs) = nth k vs 0%N.
Proof.
  intros L F K. apply (bit_ext w); [apply vector_block|apply Forall_nth_lt; [exact F|lia]|]. intros i I. rewrite bit_block by auto.
  destruct (Vectorcom_bits m w vs L F m (le_n m)) as [_ B]. cbv zeta in B. unfold Vectorcom. rewrite B by auto. destruct (Nat.ltb_spec k m); [reflexivity|lia].
Qed.
Lemma Forall_a_mat w l : Forall (affine w) l -> Forall (matrix w) (map a_mat l) /\ Forall (vector w) (map a_vec l).
Proof. intros F. split; apply Forall_map; (eapply Forall_impl; [|exact F]); intros a [A B]; assumption. Qed.
Definition aff0 : aff := mkaff [] 0%N.
Lemma affinecom_block m w l x k : size w -> size (m * w) -> length l = m -> Forall (affine w) l -> k < m ->
  block m w k (affineU (m * w) (affinecom m w l) x) = affineU w (nth k l aff0) (block m w k x).
Proof.
  intros S S' L F K. destruct (Forall_a_mat w l F) as [FM FV]. unfold affineU, affinecom. cbn [a_mat a_vec].
  rewrite block_lxor, Vectorcom_block, Matrixcom_block by (rewrite ?map_length; auto).
  change (@nil N) with (a_mat aff0) at 1. change 0%N with (a_vec aff0). now rewrite !map_nth.
Qed.
Lemma affine_affinecom m w l : size w -> length l = m -> Forall (affine w) l -> affine (m * w) (affinecom m w l).
Proof.
  intros S L F. destruct (Forall_a_mat w l F) as [FM FV]. split; cbn [affinecom a_mat a_vec].
  - apply (matrix_diagonal m w (fun k => nth k (map a_mat l) [])); [now apply size_pos|apply diagonal_Matrixcom|]. intros k K. apply Forall_nth_lt; [exact FM|rewrite map_length; lia].
  - apply vector_Vectorcom; [now rewrite map_length|exact FV].
Qed.

(** ** 128 bits *)
Definition halves (half w : nat) : Prop := (half = 2 /\ w = 32) \/ (half = 4 /\ w = 16) \/ (half = 8 /\ w = 8).
Lemma halves_size half w : halves half w -> size w /\ half * w = 64 /\ 2 * half * w = 128.
Proof. unfold halves, size. intros [[-> ->]|[[-> ->]|[-> ->]]]; cbn; lia. Qed.
Lemma nth_first {X} (l : list X) d : forall n k, k < n -> nth k (firstn n l) d = nth k l d.
Proof. induction l as [|x l IH]; intros [|n] [|k] H; cbn; try lia; try reflexivity. apply IH. lia. Qed.
Lemma nth_skip {X} (l : list X) d : forall n k, nth k (skipn n l) d = nth (n + k) l d.
Proof. induction l as [|x l IH]; intros [|n] k; cbn; try reflexivity; [now destruct k|apply IH]. Qed.
Lemma pack_high x : pack (x, 0%N) = N.shiftl x 64.
Proof. unfold pack. cbn [fst snd]. rewrite N.add_0_r, N.shiftl_mul_pow2. reflexivity. Qed.
Lemma val_Matrixcom128 half w ms : val (Matrixcom128 half w ms) =
  map (fun x => N.shiftl x 64) (Matrixcom half w (firstn half ms)) ++ Matrixcom half w (skipn half ms).
Proof.
  unfold val, Matrixcom128. rewrite map_app, !map_map. f_equal; [apply map_ext; intros x; apply pack_high|].
  rewrite <- (map_id (Matrixcom half w (skipn half ms))) at 2. apply map_ext. intros x. reflexivity.
Qed.
Lemma diagonal_Matrixcom128 half w ms : halves half w -> diagonal (2 * half) w (fun k => nth k ms []) (val (Matrixcom128 half w ms)).
Proof.
  intros H. destruct (halves_size half w H) as (_ & E64 & _). rewrite val_Matrixcom128. split; [rewrite app_length, map_length, !length_Matrixcom; lia|].
  intros k i K I. unfold get at 1. destruct (Nat.lt_ge_cases k half) as [L|L].
  - assert (B : k * w + i < half * w) by (assert (Q : (k + 1) * w <= half * w) by (apply Nat.mul_le_mono_r; lia); lia).
    rewrite app_nth1 by (rewrite map_length, length_Matrixcom; exact B). etransitivity; [exact (map_nth (fun x => N.shiftl x 64) _ 0%N _)|]. cbv beta.
    destruct (diagonal_Matrixcom half w (firstn half ms)) as [_ D]. unfold get at 1 in D. rewrite D by auto. rewrite nth_first by exact L.
    rewrite N.shiftl_shiftl. f_equal. replace (2 * half - 1 - k) with ((half - 1 - k) + half) by lia. rewrite Nat.mul_add_distr_r, E64. lia.
  - assert (B : half * w <= k * w + i) by (assert (Q : half * w <= k * w) by (apply Nat.mul_le_mono_r; lia); lia).
    rewrite app_nth2 by (rewrite map_length, length_Matrixcom; exact B). rewrite map_length, length_Matrixcom.
    replace (k * w + i - half * w) with ((k - half) * w + i) by (rewrite Nat.mul_sub_distr_r; assert (Q : half * w <= k * w) by (apply Nat.mul_le_mono_r; lia); lia).
    destruct (diagonal_Matrixcom half w (skipn half ms)) as [_ D]. unfold get at 1 in D. rewrite D by (auto; lia). rewrite nth_skip.
    replace (half + (k - half)) with k by lia. f_equal. f_equal. f_equal. lia.
Qed.
Lemma Forall_first {X} (P : X -> Prop) (l : list X) : Forall P l -> forall n, Forall P (firstn n l) /\ Forall P (skipn n l).
Proof. intros F n. apply Forall_app. now rewrite firstn_skipn. Qed.
Lemma matrix_Matrixcom128 half w ms : halves half w -> length ms = 2 * half -> Forall (matrix w) ms -> matrix128 (Matrixcom128 half w ms).
Proof.
  intros H L F. destruct (halves_size half w H) as (S & E64 & _). destruct (Forall_first _ ms F half) as [F1 F2].
  assert (Q : forall l, length l = half -> Forall (matrix w) l -> matrix 64 (Matrixcom half w l)).
  { intros l LL FL. rewrite <- E64. apply (matrix_diagonal half w (fun k => nth k l [])); [now apply size_pos|apply diagonal_Matrixcom|]. intros k K. apply Forall_nth_lt; [exact FL|lia]. }
  destruct (Q (firstn half ms)) as [L1 V1]; [rewrite firstn_length; lia|exact F1|]. destruct (Q (skipn half ms)) as [L2 V2]; [rewrite skipn_length; lia|exact F2|].
  split; [unfold Matrixcom128; rewrite app_length, !map_length; lia|]. apply Forall_app. split; apply Forall_map.
  - eapply Forall_impl; [|exact V1]. intros x X. split; [exact X|apply vector_0].
  - eapply Forall_impl; [|exact V2]. intros x X. split; [apply vector_0|exact X].
Qed.
Lemma Matrixcom128_block half w ms x k : halves half w -> length ms = 2 * half -> Forall (matrix w) ms -> words x -> k < 2 * half ->
  block (2 * half) w k (pack (MatMulVec128 (Matrixcom128 half w ms) x)) = MatMulVec w (nth k ms []) (block (2 * half) w k (pack x)).
Proof.
  intros H L F X K. destruct (halves_size half w H) as (S & E64 & E128). destruct (MatMulVec128_val _ x (matrix_Matrixcom128 half w ms H L F) X) as [_ E].
  rewrite E. rewrite <- E128. apply (mulv_diagonal (2 * half) w (fun k => nth k ms [])); auto using diagonal_Matrixcom128; [rewrite E128; apply size128|].
  intros j J. apply Forall_nth_lt; [exact F|lia].
Qed.
Lemma words_Vectorcom128 half w vs : halves half w -> length vs = 2 * half -> Forall (vector w) vs -> words (Vectorcom128 half w vs).
Proof.
  intros H L F. destruct (halves_size half w H) as (S & E64 & _). destruct (Forall_first _ vs F half) as [F1 F2].
  split; cbn [Vectorcom128 fst snd]; rewrite <- E64; apply vector_Vectorcom; auto; [rewrite firstn_length|rewrite skipn_length]; lia.
Qed.
Lemma block_pack half w r k : halves half w -> words r -> k < 2 * half ->
  block (2 * half) w k (pack r) = if k <? half then block half w k (fst r) else block half w (k - half) (snd r).
Proof.
  intros H R K. destruct (halves_size half w H) as (S & E64 & E128). apply (bit_ext w); [apply vector_block|destruct (k <? half); apply vector_block|].
  intros i I. rewrite bit_block by auto. rewrite E128. assert (B : k * w + i < 128) by (rewrite <- E128; assert (Q : (k + 1) * w <= 2 * half * w) by (apply Nat.mul_le_mono_r; lia); lia).
  rewrite bit_pack by auto. destruct (Nat.ltb_spec k half) as [L|L].
  - assert (B' : k * w + i < 64) by (rewrite <- E64; assert (Q : (k + 1) * w <= half * w) by (apply Nat.mul_le_mono_r; lia); lia).
    destruct (Nat.ltb_spec (k * w + i) 64); [|lia]. now rewrite bit_block, E64 by auto.
  - assert (Q : half * w <= k * w) by (apply Nat.mul_le_mono_r; lia). destruct (Nat.ltb_spec (k * w + i) 64); [lia|]. rewrite bit_block by lia. rewrite E64. f_equal.
    rewrite Nat.mul_sub_distr_r, E64. lia.
Qed.
Lemma Vectorcom128_block half w vs k : halves half w -> length vs = 2 * half -> Forall (vector w) vs -> k < 2 * half ->
  block (2 * half) w k (pack (Vectorcom128 half w vs)) = nth k vs 0%N.
Proof.
  intros H L F K. rewrite (block_pack half w _ k H (words_Vectorcom128 half w vs H L F) K). destruct (Forall_first _ vs F half) as [F1 F2]. cbn [Vectorcom128 fst snd].
  destruct (Nat.ltb_spec k half).
  - rewrite Vectorcom_block by (auto; rewrite firstn_length; lia). now apply nth_first.
  - rewrite Vectorcom_block by (auto; try rewrite skipn_length; lia). rewrite nth_skip. f_equal. lia.
Qed.
Lemma affinecom128_block half w l x k : halves half w -> length l = 2 * half -> Forall (affine w) l -> words x -> k < 2 * half ->
  block (2 * half) w k (pack (affineU128 (affinecom128 half w l) x)) = affineU w (nth k l aff0) (block (2 * half) w k (pack x)).
Proof.
  intros H L F X K. destruct (Forall_a_mat w l F) as [FM FV]. unfold affineU128, affineU, affinecom128. cbn [a_mat128 a_vec128].
  assert (LM : length (map a_mat l) = 2 * half) by now rewrite map_length. assert (LV : length (map a_vec l) = 2 * half) by now rewrite map_length.
  destruct (MatMulVec128_val _ x (matrix_Matrixcom128 half w _ H LM FM) X) as [V _].
  rewrite pack_radd by auto using words_Vectorcom128. rewrite block_lxor, Vectorcom128_block, Matrixcom128_block by auto.
  change (@nil N) with (a_mat aff0) at 1. change 0%N with (a_vec aff0). now rewrite !map_nth.
Qed.

(** ** Statements *)
Lemma C37_128_matrices : forall rnd pos, exists A B pos', genMatpair128 rnd pos = Ret (A, B, pos') /\
  mutually_inverse 128 (val A) (val B) /\
  forall x, words x -> MatMulVec128 A (MatMulVec128 B x) = x /\ MatMulVec128 B (MatMulVec128 A x) = x.
Proof.
  intros rnd pos. destruct (genMatpair128_val rnd pos) as (A & B & p & E & MA & MB & EG). exists A, B, p. split; [exact E|].
  destruct (genMatpair_lemma 128 rnd pos size128) as (A' & B' & q & EG' & H). rewrite EG in EG'. injection EG' as <- <- _. split; [exact H|].
  intros x X. destruct (MatMulVec128_val A x MA X) as [VA EA]. destruct (MatMulVec128_val B x MB X) as [VB EB].
  destruct (MatMulVec128_val A _ MA VB) as [VAB EAB]. destruct (MatMulVec128_val B _ MB VA) as [VBA EBA].
  pose proof (inverse_left 128 _ _ (pack x) size128 H (vector_pack x X)) as Q1.
  pose proof (inverse_left 128 _ _ (pack x) size128 (inverse_sym _ _ _ H) (vector_pack x X)) as Q2.
  split; apply pack_inj; auto; [rewrite EAB, EB|rewrite EBA, EA]; assumption.
Qed.

Lemma C37_128_affine : forall rnd pos, exists a b pos', genaffinepair128 rnd pos = Ret (a, b, pos') /\ affine128 a /\ affine128 b /\
  forall x, words x -> affineU128 a (affineU128 b x) = x /\ affineU128 b (affineU128 a x) = x.
Proof.
  intros rnd pos. unfold genaffinepair128. destruct (genMatpair128_val rnd pos) as (A & B & p & E & MA & MB & EG). rewrite E. cbn [obind].
  destruct (genMatpair_lemma 128 rnd pos size128) as (A' & B' & q & EG' & H). rewrite EG in EG'. injection EG' as <- <- _.
  destruct (randV128_val rnd p) as [V _]. destruct (randV128 rnd p) as [v p']. cbn [fst] in V. destruct (MatMulVec128_val B v MB V) as [VB EB].
  exists (mkaff128 A v), (mkaff128 B (MatMulVec128 B v)), p'. split; [reflexivity|]. assert (HA : affine128 (mkaff128 A v)) by (split; assumption).
  assert (HB : affine128 (mkaff128 B (MatMulVec128 B v))) by (split; assumption). split; [exact HA|]. split; [exact HB|]. intros x X.
  set (a := mkaff128 A v) in *. set (b := mkaff128 B (MatMulVec128 B v)) in *.
  destruct (affineU128_val a x HA X) as [XA EA]. destruct (affineU128_val b x HB X) as [XB EB'].
  destruct (affineU128_val a _ HA XB) as [XAB EAB]. destruct (affineU128_val b _ HB XA) as [XBA EBA].
  destruct (affine_pair 128 (aval a) (aval b) (pack x) size128) as [Q1 Q2]; auto using vector_pack.
  - split; [now apply matrix_val|now apply vector_pack].
  - split; [now apply matrix_val|now apply vector_pack].
  - split; apply pack_inj; auto; [rewrite EAB, EB'|rewrite EBA, EA]; assumption.
Qed.
Lemma C38_128_test : forall A, matrix128 A -> (isinvert128 A = true <-> invertible 128 (val A)) /\ (isinvert128 A = false -> singular 128 (val A)).
Proof.
  intros A M. rewrite isinvert128_val by exact M. split; [apply C38_test_accepts_exactly_the_invertible_lemma; auto using size128, matrix_val|].
  apply isinvert_false; auto using size128, matrix_val.
Qed.
Lemma C38_128_inverse : forall A, matrix128 A -> isinvert128 A = true -> mutually_inverse 128 (val A) (val (invs128 A)).
Proof.
  intros A M H. rewrite isinvert128_val in H by exact M. destruct (invs128_val A M) as [_ E]. rewrite E. apply C38_inverse_lemma; auto using size128, matrix_val.
Qed.
Lemma C40_128_image : forall A x, matrix128 A -> words x -> words (MatMulVec128 A x) /\ is_image 128 (val A) (pack x) (pack (MatMulVec128 A x)).
Proof.
  intros A x M X. destruct (MatMulVec128_val A x M X) as [V E]. split; [exact V|]. rewrite E. apply C40_matrix_times_vector_lemma; auto using size128, matrix_val.
Qed.
Lemma C40_128_matrices : forall A B, matrix128 A -> matrix128 B ->
  is_product 128 (val A) (val B) (val (MatMulMat128 A B)) /\
  (forall i j, i < 128 -> j < 128 -> entry 128 (val (Mattrans128 A)) i j = entry 128 (val A) j i /\
    entry 128 (val (MatAddMat128 A B)) i j = xorb (entry 128 (val A) i j) (entry 128 (val B) i j)).
Proof.
  intros A B MA MB. destruct (MatMulMat128_val A B MA MB) as [_ EM]. destruct (Mattrans128_val A MA) as [_ ET]. destruct (MatAddMat128_val A B MA MB) as [_ ES].
  rewrite EM, ET, ES. split; [apply MatMulMat_spec; auto using size128, matrix_val|]. intros i j I J. split.
  - apply (Mattrans_spec 128 (val A) size128 (matrix_val A MA)); assumption.
  - apply (MatAddMat_spec 128 (val A) (val B) (matrix_val A MA) (matrix_val B MB)); assumption.
Qed.
Lemma C40_128_composition : forall A B x, matrix128 A -> matrix128 B -> words x -> MatMulVec128 (MatMulMat128 A B) x = MatMulVec128 A (MatMulVec128 B x).
Proof.
  intros A B x MA MB X. destruct (MatMulMat128_val A B MA MB) as [MM EM]. destruct (MatMulVec128_val _ x MM X) as [V1 E1]. destruct (MatMulVec128_val B x MB X) as [V2 E2].
  destruct (MatMulVec128_val A _ MA V2) as [V3 E3]. apply pack_inj; auto. rewrite E1, E3, E2, EM. apply mulv_mulm; auto using size128, matrix_val.
Qed.
Lemma C40_128_affine : forall a b x, affine128 a -> affine128 b -> words x -> affineU128 (affinemix128 a b) x = affineU128 a (affineU128 b x).
Proof.
  intros a b x HA HB X. destruct (affinemix128_val a b HA HB) as [HM EM]. destruct (affineU128_val _ x HM X) as [V1 E1]. destruct (affineU128_val b x HB X) as [V2 E2].
  destruct (affineU128_val a _ HA V2) as [V3 E3]. apply pack_inj; auto. rewrite E1, E3, E2, EM.
  destruct HA as [MA VA], HB as [MB VB]. apply affinemix_spec; [apply size128| |]; (split; [now apply matrix_val|now apply vector_pack]).
Qed.
Lemma C40_128_parity : forall x, words x -> xorU128 x = xsum 128 (fun i => bit 128 (pack x) i) /\ HWU128 x = count 128 (fun i => bit 128 (pack x) i).
Proof. intros x X. rewrite xorU128_val, HWU128_val by exact X. split; [apply xorU_spec|apply HWU_spec]; auto using size128, vector_pack. Qed.
(** reading, flipping and setting one entry *)
Lemma C40_128_bits : forall A i j b, matrix128 A -> i < 128 -> j < 128 ->
  readbit128 A i j = entry 128 (val A) i j /\
  (forall r c, r < 128 -> c < 128 -> entry 128 (val (flipbit128 A i j)) r c = xorb (entry 128 (val A) r c) ((r =? i) && (c =? j))) /\
  (forall r c, r < 128 -> c < 128 -> entry 128 (val (setbit128 A i j b)) r c = if (r =? i) && (c =? j) then b else entry 128 (val A) r c).
Proof.
  intros A i j b M I J. assert (R : readbit128 A i j = entry 128 (val A) i j) by (rewrite readbit128_val by auto; apply readbit_spec; auto using size128).
  assert (Fl : forall r c, r < 128 -> c < 128 -> entry 128 (val (flipbit128 A i j)) r c = xorb (entry 128 (val A) r c) ((r =? i) && (c =? j))).
  { intros r c R' C. rewrite (Nat.eqb_sym c j). exact (entry_flip A i j r c M I J C). }
  split; [exact R|]. split; [exact Fl|]. intros r c R' C. unfold setbit128. rewrite R. destruct (Nat.eqb_spec r i) as [Er|Er], (Nat.eqb_spec c j) as [Ec|Ec]; cbn [andb].
  - subst r c. destruct (entry 128 (val A) i j) eqn:E, b; cbn [Bool.eqb]; try exact E; rewrite Fl, E, !Nat.eqb_refl by auto; reflexivity.
  - destruct (Bool.eqb _ b); [reflexivity|]. rewrite Fl by auto. destruct (Nat.eqb_spec c j); [contradiction|]. now rewrite andb_false_r, xorb_false_r.
  - destruct (Bool.eqb _ b); [reflexivity|]. rewrite Fl by auto. destruct (Nat.eqb_spec r i); [contradiction|]. now rewrite xorb_false_r.
  - destruct (Bool.eqb _ b); [reflexivity|]. rewrite Fl by auto. destruct (Nat.eqb_spec r i); [contradiction|]. now rewrite xorb_false_r.
Qed.
Lemma C40_128_equality : forall A B, matrix128 A -> matrix128 B -> (isequalM128 A B = true <-> A = B).
Proof.
  intros A B MA MB. unfold isequalM128. split; [|intros ->; apply forallb_forall; intros; now rewrite !N.eqb_refl]. intros H. rewrite forallb_forall in H.
  destruct MA as [LA FA], MB as [LB FB]. apply (nth_ext _ _ (0%N, 0%N) (0%N, 0%N)); [exact (eq_trans LA (eq_sym LB))|]. intros i I.
  specialize (H i). assert (J : In i (seq 0 128)) by (apply in_seq; change (i < length A) in I; rewrite LA in I; lia). specialize (H J). apply andb_true_iff in H. destruct H as [H1 H2].
  apply N.eqb_eq in H1, H2. unfold grow in H1, H2. rewrite (surjective_pairing (nth i A _)), (surjective_pairing (nth i B _)). now rewrite H1, H2.
Qed.
Lemma C40_eight_bytes : forall l x k, length l = 8 -> Forall (affine 8) l -> k < 8 ->
  affine 64 (affinecom 8 8 l) /\
  block 8 8 k (affineU 64 (affinecom 8 8 l) x) = affineU 8 (nth k l (mkaff [] 0)) (block 8 8 k x) /\
  block 8 8 k (MatMulVec 64 (Matrixcom 8 8 (map a_mat l)) x) = MatMulVec 8 (nth k (map a_mat l) []) (block 8 8 k x).
Proof.
  intros l x k L F K. assert (S : size 8) by (unfold size; lia). split; [exact (affine_affinecom 8 8 l S L F)|]. split; [exact (affinecom_block 8 8 l x k S size64 L F K)|].
  destruct (Forall_a_mat 8 l F) as [FM _]. apply (Matrixcom_block 8 8 (map a_mat l) x k S size64); auto. now rewrite map_length.
Qed.
Lemma C40_128_combined : forall half w l x k, (half = 2 /\ w = 32) \/ (half = 4 /\ w = 16) \/ (half = 8 /\ w = 8) ->
  length l = 2 * half -> Forall (affine w) l -> words x -> k < 2 * half ->
  affine128 (affinecom128 half w l) /\
  block (2 * half) w k (pack (affineU128 (affinecom128 half w l) x)) = affineU w (nth k l (mkaff [] 0)) (block (2 * half) w k (pack x)) /\
  block (2 * half) w k (pack (MatMulVec128 (Matrixcom128 half w (map a_mat l)) x)) = MatMulVec w (nth k (map a_mat l) []) (block (2 * half) w k (pack x)).
Proof.
  intros half w l x k H L F X K. destruct (Forall_a_mat w l F) as [FM FV].
  assert (LM : length (map a_mat l) = 2 * half) by now rewrite map_length. assert (LV : length (map a_vec l) = 2 * half) by now rewrite map_length.
  split; [split; [now apply matrix_Matrixcom128|now apply words_Vectorcom128]|]. split; [now apply affinecom128_block|now apply Matrixcom128_block].
Qed.
