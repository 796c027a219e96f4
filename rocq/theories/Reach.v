(** * Which arrangements, permutations, matrices and affine maps the generators can produce *)
From Verif Require Import Base FpeModel MatModel MatSpec MatProofs GaussProofs ComProofs.
From Coq Require Import Sorting.Permutation.
Local Open Scope nat_scope.

(** ** Lists *)
Lemma get_ext (p q : list N) : length p = length q -> (forall j, j < length p -> get p j = get q j) -> p = q.
Proof. intros L H. apply (nth_ext p q 0%N 0%N L). exact H. Qed.
Lemma get_skipn' (k j : nat) (l : list N) : get (skipn k l) j = get l (k + j).
Proof. unfold get. revert l. induction k as [|k IH]; intros [|a l]; cbn; auto. now destruct j. Qed.
Lemma split_agree (k : nat) (p l : list N) : Permutation p l -> (forall j, k <= j -> get p j = get l j) -> k <= length l ->
  Permutation (firstn k p) (firstn k l).
Proof.
  intros P A K. pose proof (Permutation_length P) as L.
  assert (E : skipn k p = skipn k l).
  { apply get_ext; [now rewrite !skipn_length, L|]. intros j _. rewrite !get_skipn'. apply A. lia. }
  rewrite <- (firstn_skipn k p), <- (firstn_skipn k l), E in P. now apply Permutation_app_inv_r in P.
Qed.
Lemma get_firstn_lt (k j : nat) (l : list N) : j < k -> get (firstn k l) j = get l j.
Proof. intros J. unfold get. revert k l J. induction j as [|j IH]; intros [|k] [|a l] J; try lia; cbn; auto. apply IH. lia. Qed.
Lemma find_position (k : nat) (p l : list N) : Permutation p l -> (forall j, S k <= j -> get p j = get l j) -> S k <= length l ->
  exists r, r <= k /\ get l r = get p k.
Proof.
  intros P A K. pose proof (split_agree (S k) p l P A K) as Q. pose proof (Permutation_length P) as L.
  assert (I : In (get p k) (firstn (S k) l)).
  { apply (Permutation_in _ Q). rewrite <- (get_firstn_lt (S k)) by lia. apply nth_In. rewrite firstn_length. lia. }
  destruct (In_nth _ _ 0%N I) as (r & R & E). rewrite firstn_length in R. exists r. split; [lia|].
  rewrite <- E. symmetry. apply (get_firstn_lt (S k)). lia.
Qed.

(** ** wRandomShuffleU8 *)
Lemma shuffle_loop_reach k : forall l p, k <= length l -> Permutation p l -> (forall j, k <= j -> get p j = get l j) ->
  exists f : nat -> nat, (forall j, 1 <= j -> f j < j) /\
    forall rn, (forall j, 1 <= j <= k -> get rn j = N.of_nat (f j)) -> shuffle_loop k rn l = p.
Proof.
  induction k as [|k IH]; intros l p K P A.
  - exists (fun _ => 0). split; [lia|]. intros rn _. symmetry. apply get_ext; [now apply Permutation_length|]. intros j _. apply A. lia.
  - destruct (find_position k p l P A K) as (r & R & E).
    destruct (IH (set (set l k (get l r)) r (get l k)) p) as (f & F & H).
    + rewrite !length_set. lia.
    + rewrite P. symmetry. apply swap_perm; lia.
    + intros j J. unfold get in *. rewrite !nth_set, ?length_set. destruct (Nat.eqb_spec j r); destruct (Nat.eqb_spec j k); cbn [andb].
      * destruct (Nat.ltb_spec r (length l)); [|lia]. congruence.
      * lia.
      * destruct (Nat.ltb_spec k (length l)); [|lia]. congruence.
      * apply A. lia.
    + exists (fun j => if j =? S k then r else f j). split.
      * intros j J. destruct (Nat.eqb_spec j (S k)); [lia|auto].
      * intros rn G. cbn [shuffle_loop]. cbv zeta. rewrite (G (S k)) by lia. rewrite Nat.eqb_refl.
        rewrite N.mod_small by lia. rewrite Nat2N.id. apply H. intros j J. rewrite G by lia.
        destruct (Nat.eqb_spec j (S k)); [lia|reflexivity].
Qed.

Lemma last_get (l : list N) : l <> [] -> last l 0%N = get l (length l - 1).
Proof.
  intros H. destruct (exists_last H) as (l' & z & ->). rewrite last_last, app_length. cbn [length]. unfold get. rewrite app_nth2 by lia.
  now replace (length l' + 1 - 1 - length l') with 0 by lia.
Qed.
Lemma shuffle_reach_lemma (a : N) (l p : list N) :
  (exists rs, length rs = length (a :: l) /\ wRandomShuffleU8 rs (a :: l) = p) <-> Permutation p (a :: l) /\ last p 0%N = a.
Proof.
  split.
  - intros (rs & L & <-). split; [apply wRandomShuffleU8_perm|now apply wRandomShuffleU8_last].
  - intros [P La]. set (w := a :: l) in *. set (k := length l). assert (W : length w = S k) by reflexivity.
    pose proof (Permutation_length P) as LP. rewrite W in LP.
    assert (G : get p k = a).
    { rewrite last_get in La by (intros ->; discriminate LP). rewrite LP in La. now replace (S k - 1) with k in La by lia. }
    set (w1 := set (set w k (get w 0)) 0 (get w k)).
    destruct (shuffle_loop_reach k w1 p) as (f & F & H).
    + unfold w1. rewrite !length_set. lia.
    + rewrite P. symmetry. apply swap_perm; lia.
    + intros j J. unfold w1, get. rewrite !nth_set, ?length_set, W. destruct (Nat.eqb_spec j k) as [->|].
      * destruct (Nat.eqb_spec k 0) as [Z|]; cbn [andb].
        -- destruct (Nat.ltb_spec 0 (S k)); [|lia]. rewrite Z in *. exact G.
        -- destruct (Nat.ltb_spec k (S k)); [|lia]. exact G.
      * destruct (Nat.eqb_spec j 0); [lia|]. cbn [andb]. rewrite !nth_overflow; [reflexivity|lia|lia].
    + exists (map (fun j => N.of_nat (f j)) (seq 0 (S k))). split; [now rewrite map_length, seq_length|].
      unfold wRandomShuffleU8. rewrite W, firstn_all2 by (rewrite map_length, seq_length; lia). cbn [shuffle_loop]. cbv zeta.
      set (rn := map _ _ ++ _). assert (Z : get rn (S k) = 0%N).
      { unfold rn, get. rewrite app_nth2; rewrite map_length, seq_length; [|lia]. now rewrite Nat.sub_diag. }
      rewrite Z, N.mod_0_l by lia. change (N.to_nat 0) with 0. apply H. intros j J. unfold rn, get.
      rewrite app_nth1 by (rewrite map_length, seq_length; lia).
      rewrite (nth_indep _ 0%N (N.of_nat (f 0))) by (rewrite map_length, seq_length; lia).
      rewrite (map_nth (fun j => N.of_nat (f j)) (seq 0 (S k)) 0). now rewrite seq_nth by lia.
Qed.

(** ** genPermutation *)
Lemma find_position_up (i : nat) (p l : list N) : Permutation p l -> (forall j, j < i -> get p j = get l j) -> i < length l ->
  exists r, i <= r < length l /\ get l r = get p i.
Proof.
  intros P A I. pose proof (Permutation_length P) as L.
  assert (E : firstn i p = firstn i l).
  { apply get_ext; [rewrite !firstn_length; lia|]. intros j J. rewrite firstn_length in J. rewrite !get_firstn_lt by lia. apply A. lia. }
  assert (Q : Permutation (skipn i p) (skipn i l)).
  { rewrite <- (firstn_skipn i p), <- (firstn_skipn i l), E in P. now apply Permutation_app_inv_l in P. }
  assert (H : In (get p i) (skipn i l)).
  { apply (Permutation_in _ Q). replace i with (i + 0) at 1 by lia. rewrite <- get_skipn'. apply nth_In. rewrite skipn_length. lia. }
  destruct (In_nth _ _ 0%N H) as (r & R & G). rewrite skipn_length in R. exists (i + r). split; [lia|]. rewrite <- G. symmetry. apply get_skipn'.
Qed.
Definition perm_step (size : nat) (rnd : nat -> N) (pos : nat) (P : list N) (i : nat) : list N :=
  let j := N.to_nat (draw rnd (pos + i) mod N.of_nat (size - i))%N in
  let temp := get P i in set (set P i (get P (i + j))) (i + j) temp.
Lemma perm_steps_ext size k i : forall rnd rnd' pos P, (forall j, i <= j < i + k -> rnd (pos + j) = rnd' (pos + j)) ->
  fold_left (perm_step size rnd pos) (seq i k) P = fold_left (perm_step size rnd' pos) (seq i k) P.
Proof.
  revert i. induction k as [|k IH]; intros i rnd rnd' pos P H; [reflexivity|]. cbn [seq fold_left].
  rewrite (IH (S i) rnd rnd' pos) by (intros; apply H; lia). unfold perm_step at 2 4. unfold draw. now rewrite H by lia.
Qed.
Lemma perm_reach size pos : (N.of_nat size <= 4294967296)%N -> forall k i l p, i + k + 1 = size -> length l = size -> Permutation p l ->
  (forall j, j < i -> get p j = get l j) -> exists rnd, fold_left (perm_step size rnd pos) (seq i k) l = p.
Proof.
  intros SZ. induction k as [|k IH]; intros i l p E L P A.
  - exists (fun _ => 0%N). cbn [seq fold_left]. symmetry. pose proof (Permutation_length P) as LP. apply get_ext; [exact LP|].
    intros j J. destruct (Nat.lt_ge_cases j i) as [Q|Q]; [now apply A|]. assert (j = i) by lia. subst j.
    destruct (find_position_up i p l P A ltac:(lia)) as (r & R & G). replace r with i in G by lia. now symmetry.
  - destruct (find_position_up i p l P A ltac:(lia)) as (r & R & G).
    destruct (IH (S i) (set (set l i (get l r)) r (get l i)) p) as (rnd & H).
    + lia.
    + now rewrite !length_set.
    + rewrite P. symmetry. apply swap_perm; lia.
    + intros j J. unfold get in *. rewrite !nth_set, ?length_set. destruct (Nat.eqb_spec j r); destruct (Nat.eqb_spec j i); cbn [andb].
      * destruct (Nat.ltb_spec r (length l)); [|lia]. congruence.
      * lia.
      * destruct (Nat.ltb_spec i (length l)); [|lia]. congruence.
      * apply A. lia.
    + exists (fun q => if q =? pos + i then N.of_nat (r - i) else rnd q). cbn [seq fold_left].
      rewrite (perm_steps_ext size k (S i) _ rnd pos).
      * unfold perm_step at 2. unfold draw. rewrite Nat.eqb_refl. rewrite (N.mod_small (N.of_nat (r - i)) 4294967296) by lia.
        rewrite N.mod_small by lia. rewrite Nat2N.id. replace (i + (r - i)) with r by lia. exact H.
      * intros j J. destruct (Nat.eqb_spec (pos + j) (pos + i)); [lia|reflexivity].
Qed.
Lemma permutation_of_Permutation k P : permutation_of k P -> Permutation P (map N.of_nat (seq 0 k)).
Proof.
  intros (L & ND & F). apply NoDup_Permutation_bis; [exact ND|now rewrite map_length, seq_length, L|].
  intros x X. rewrite Forall_forall in F. apply in_map_iff. exists (N.to_nat x). specialize (F x X). split; [lia|]. apply in_seq. lia.
Qed.
Lemma inverse_unique k P Q Q' : permutation_of k P -> inverse_of k P Q -> inverse_of k P Q' -> Q = Q'.
Proof.
  intros (L & ND & F) [LQ HQ] [LQ' HQ']. apply get_ext; [congruence|]. intros j J. rewrite LQ in J.
  assert (I : In (N.of_nat j) P).
  { pose proof (permutation_of_Permutation k P (conj L (conj ND F))) as H. apply (Permutation_in _ (Permutation_sym H)). apply in_map, in_seq. lia. }
  destruct (In_nth _ _ 0%N I) as (i & Li & G). rewrite L in Li. pose proof (proj1 (HQ i Li)) as A. pose proof (proj1 (HQ' i Li)) as B.
  unfold get in A, B |- *. rewrite G in A, B. rewrite Nat2N.id in A, B. congruence.
Qed.
Lemma genPermutation_reach_lemma size pos ji P Q : 1 <= size -> (N.of_nat size <= 4294967296)%N -> length ji = size ->
  permutation_of size P -> inverse_of size P Q -> exists rnd pos', genPermutation size rnd pos ji = (P, Q, pos').
Proof.
  intros S1 SZ LJ HP HQ. pose proof (permutation_of_Permutation _ _ HP) as PP.
  destruct (perm_reach size pos SZ (size - 1) 0 (map N.of_nat (seq 0 size)) P) as (rnd & R).
  - lia.
  - now rewrite map_length, seq_length.
  - exact PP.
  - intros j J. lia.
  - exists rnd. assert (E : fst (fst (genPermutation size rnd pos ji)) = P) by exact R.
    destruct (genPermutation size rnd pos ji) as [[P' Q'] pos'] eqn:G. cbn [fst] in E. subst P'.
    pose proof (C39_generated_permutations_lemma _ _ _ _ _ _ _ LJ G) as [_ HQ']. exists pos'.
    now rewrite (inverse_unique size P Q Q' HP HQ HQ').
Qed.

(** ** genMatpair and genaffinepair *)
(** an invertible random matrix is kept, no further random number is drawn *)
Lemma genMatpair_keeps n rnd pos : size n -> invertible n (fst (randM n rnd pos)) ->
  exists B, genMatpair n rnd pos = Ret (fst (randM n rnd pos), B, snd (randM n rnd pos)) /\ mutually_inverse n (fst (randM n rnd pos)) B.
Proof.
  intros S H. unfold genMatpair. pose proof (randM_matrix n rnd pos S) as M. destruct (randM n rnd pos) as [A p0]. cbn [fst snd] in *.
  destruct (identity_spec n S) as [MI EI]. set (s0 := mkgst A (identityM n) [] true).
  assert (G : forall k, k <= n -> exists ops, fold_left (gen_forward n rnd) (seq 0 k) (s0, true, p0) = (runs (gstep n) ops s0, true, p0) /\
     Forall (validop n) ops /\ 2 * length ops <= room n k /\ clean n k (applyops ops A)).
  { induction k as [|k IH]; intros K.
    - exists []. split; [reflexivity|]. split; [constructor|]. split; [cbn; lia|]. apply clean_0.
    - destruct (IH ltac:(lia)) as (ops & E & V & L & C). rewrite seq_S, fold_left_app, E. cbn [fold_left plus]. rewrite gen_forward_column.
      assert (T : g_temp (runs (gstep n) ops s0) = applyops ops A) by (rewrite g_runs; reflexivity).
      pose proof (column_spec n g_temp (gstep n) S (fun _ _ => eq_refl) k (runs (gstep n) ops s0) ltac:(lia) ltac:(rewrite T; now apply matrix_applyops)) as Q.
      pose proof (room_step n k ltac:(lia)) as RS.
      destruct (column n g_temp (gstep n) k (runs (gstep n) ops s0)) as [s'|].
      + destruct Q as (ops2 & -> & V2 & L2 & C2). exists (ops ++ ops2). rewrite runs_app. split; [reflexivity|]. split; [apply Forall_app; auto|].
        split; [rewrite app_length; lia|]. rewrite T in C2. assert (EA : applyops (ops ++ ops2) A = applyops ops2 (applyops ops A)) by apply fold_left_app.
        rewrite EA, <- Nat.add_1_r. auto.
      + exfalso. rewrite T in Q. destruct (no_pivot_singular n k (applyops ops A) S (matrix_applyops n ops A M) ltac:(lia) C Q) as (x & X & N & Z).
        apply (not_both n A S H). now apply (ops_singular n ops A x). }
  destruct (G n (le_n n)) as (ops & E & V & L & C). rewrite E. pose proof (room_end n (size_pos n S)) as RE.
  set (s := runs (gstep n) ops s0) in *.
  assert (T : s = mkgst (applyops ops A) (applyops ops (identityM n)) (rev ops) true).
  { unfold s. rewrite g_runs. unfold s0. cbn [g_temp g_inv g_trail g_ok length]. rewrite app_nil_r. f_equal.
    destruct (Nat.leb_spec (0 + length ops) (n * n)); [now rewrite orb_true_r|lia]. }
  clearbody s. subst s.
  destruct (elim_above_runs n g_temp gstep_norec S (fun _ _ => eq_refl) (mkgst (applyops ops A) (applyops ops (identityM n)) (rev ops) true) (matrix_applyops n ops A M)) as (ops2 & E2 & V2 & L2 & Id).
  rewrite E2, g_runs_norec. cbn [g_ok g_inv g_temp] in *. exists (applyops ops2 (applyops ops (identityM n))). split; [reflexivity|].
  assert (EA : forall B, applyops ops2 (applyops ops B) = applyops (ops ++ ops2) B) by (intros; symmetry; apply fold_left_app).
  specialize (Id C). rewrite EA in *. apply reduced_pair; auto. apply Forall_app; auto.
Qed.
Lemma small_mod (a m : N) : (a < m -> a mod m = a)%N.
Proof. apply N.mod_small. Qed.
Lemma draw_small rnd q : (rnd q < 4294967296 -> draw rnd q = rnd q)%N.
Proof. apply N.mod_small. Qed.
(** the random numbers from which randM makes the matrix [A] *)
Definition rnd_of_matrix (n : nat) (A : list N) (q : nat) : N :=
  if n =? 128 then ((get A (q / 4) / 2 ^ N.of_nat (32 * (3 - q mod 4))) mod 4294967296)%N
  else if n =? 64 then ((get A (q / 2) / 2 ^ N.of_nat (32 * (1 - q mod 2))) mod 4294967296)%N
  else get A q.
Lemma div_pieces k i j : 0 < k -> j < k -> (k * i + j) / k = i /\ (k * i + j) mod k = j.
Proof.
  intros K J. rewrite (Nat.mul_comm k i). split.
  - rewrite Nat.div_add_l by lia. rewrite Nat.div_small by lia. lia.
  - rewrite Nat.add_comm, Nat.mod_add by lia. now apply Nat.mod_small.
Qed.
Lemma recompose2 (a : N) : (a < 18446744073709551616 -> a / 4294967296 mod 4294967296 * 4294967296 + a mod 4294967296 = a)%N.
Proof.
  intros H. rewrite (N.mod_small (a / 4294967296)) by (apply N.div_lt_upper_bound; lia).
  pose proof (N.div_mod a 4294967296 ltac:(discriminate)). lia.
Qed.
Lemma recompose4 (a : N) : (a < 18446744073709551616 * 18446744073709551616 ->
  ((a / (4294967296 * 4294967296 * 4294967296) mod 4294967296 * 4294967296 + a / (4294967296 * 4294967296) mod 4294967296) * 4294967296
   + a / 4294967296 mod 4294967296) * 4294967296 + a mod 4294967296 = a)%N.
Proof.
  intros H. set (B := 4294967296%N). assert (HB : B <> 0%N) by discriminate.
  rewrite <- !N.div_div by discriminate.
  pose proof (N.div_mod a B HB) as E0. set (a1 := (a / B)%N) in *.
  pose proof (N.div_mod a1 B HB) as E1. set (a2 := (a1 / B)%N) in *.
  pose proof (N.div_mod a2 B HB) as E2. set (a3 := (a2 / B)%N) in *.
  rewrite (N.mod_small a3) by (unfold a3, a2, a1, B; rewrite !N.div_div by discriminate; apply N.div_lt_upper_bound; lia).
  nia.
Qed.
Lemma randM_reach n A rnd pos : size n -> matrix n A -> (forall q, pos + q < snd (randM n rnd pos) -> rnd (pos + q) = rnd_of_matrix n A q) ->
  fst (randM n rnd pos) = A.
Proof.
  intros S [L F] H. assert (V : forall i, i < n -> vector n (get A i)) by (intros i I; rewrite Forall_forall in F; apply F, nth_In; lia).
  apply get_ext; [unfold randM; destruct (n =? 128); [|destruct (n =? 64)]; cbn [fst]; now rewrite map_length, seq_length|].
  assert (LL : length (fst (randM n rnd pos)) = n) by (apply (proj1 (randM_matrix n rnd pos S))). rewrite LL. intros i I. specialize (V i I).
  unfold randM, rnd_of_matrix in *. destruct (Nat.eqb_spec n 128) as [E|]; [|destruct (Nat.eqb_spec n 64) as [E|]]; cbn [fst snd] in *; rewrite get_map_seq by auto.
  - rewrite E in *. unfold vector in V. change (2 ^ N.of_nat 128)%N with (18446744073709551616 * 18446744073709551616)%N in V.
    assert (D : forall j, j < 4 -> draw rnd (pos + 4 * i + j) = (get A i / 2 ^ N.of_nat (32 * (3 - j)) mod 4294967296)%N).
    { intros j J. rewrite <- Nat.add_assoc. unfold draw. rewrite H by lia. destruct (div_pieces 4 i j ltac:(lia) J) as [-> ->]. apply N.mod_mod. discriminate. }
    rewrite <- (Nat.add_0_r (pos + 4 * i)) at 1. rewrite !D by lia. rewrite <- (recompose4 (get A i) V) at 5.
    repeat f_equal. change (2 ^ N.of_nat (32 * (3 - 3)))%N with 1%N. now rewrite N.div_1_r.
  - rewrite E in *. unfold vector in V. change (2 ^ N.of_nat 64)%N with 18446744073709551616%N in V.
    assert (D : forall j, j < 2 -> draw rnd (pos + 2 * i + j) = (get A i / 2 ^ N.of_nat (32 * (1 - j)) mod 4294967296)%N).
    { intros j J. rewrite <- Nat.add_assoc. unfold draw. rewrite H by lia. destruct (div_pieces 2 i j ltac:(lia) J) as [-> ->]. apply N.mod_mod. discriminate. }
    rewrite <- (Nat.add_0_r (pos + 2 * i)) at 1. rewrite !D by lia. rewrite <- (recompose2 (get A i) V) at 3.
    repeat f_equal. change (2 ^ N.of_nat (32 * (1 - 1)))%N with 1%N. now rewrite N.div_1_r.
  - unfold draw. rewrite H by lia.
    assert (B : (2 ^ N.of_nat n <= 4294967296)%N) by (destruct S as [->|[->|[->|[->|[-> | ->]]]]]; try lia; cbn; lia). unfold vector in V.
    rewrite (N.mod_small (get A i) 4294967296) by lia. now apply N.mod_small.
Qed.
(** the random numbers from which randV makes the vector [v] *)
Definition rnd_of_vector (n : nat) (v : N) (q : nat) : N :=
  if n =? 128 then ((v / 2 ^ N.of_nat (16 * (7 - q))) mod 65536)%N
  else if n =? 64 then ((v / 2 ^ N.of_nat (16 * (3 - q))) mod 65536)%N
  else if n =? 32 then ((v / 2 ^ N.of_nat (16 * (1 - q))) mod 65536)%N
  else v.
Lemma step16 (v : N) (k : nat) : (v / 2 ^ N.of_nat (16 * S k) * 65536 + v / 2 ^ N.of_nat (16 * k) mod 65536 = v / 2 ^ N.of_nat (16 * k))%N.
Proof.
  replace (2 ^ N.of_nat (16 * S k))%N with (2 ^ N.of_nat (16 * k) * 65536)%N.
  - rewrite <- N.div_div by (try apply N.pow_nonzero; discriminate). set (w := (v / 2 ^ N.of_nat (16 * k))%N).
    pose proof (N.div_mod w 65536 ltac:(discriminate)). lia.
  - replace (16 * S k) with (16 * k + 16) by lia. rewrite Nat2N.inj_add, N.pow_add_r. reflexivity.
Qed.
Lemma randV_reach n v rnd pos : size n -> vector n v -> (forall q, pos + q < snd (randV n rnd pos) -> rnd (pos + q) = rnd_of_vector n v q) ->
  fst (randV n rnd pos) = v.
Proof.
  intros S V H. unfold randV, rnd_of_vector, vector in *.
  assert (MM : forall x : N, ((x mod 65536) mod 4294967296 mod 65536 = x mod 65536)%N).
  { intros x. pose proof (N.mod_lt x 65536 ltac:(discriminate)). rewrite (N.mod_small (x mod 65536) 4294967296) by lia. apply N.mod_mod. discriminate. }
  assert (TOP : forall k m, n = 16 * m -> m = Datatypes.S k -> (v / 2 ^ N.of_nat (16 * k) mod 65536 = v / 2 ^ N.of_nat (16 * k))%N).
  { intros k m E E'. apply N.mod_small, N.div_lt_upper_bound; [apply N.pow_nonzero; discriminate|]. replace 65536%N with (2 ^ N.of_nat 16)%N by reflexivity.
    rewrite <- N.pow_add_r, <- Nat2N.inj_add. replace (16 * k + 16) with n by lia. exact V. }
  assert (BOT : (v / 2 ^ N.of_nat (16 * 0) = v)%N) by (change (2 ^ N.of_nat (16 * 0))%N with 1%N; apply N.div_1_r).
  destruct (Nat.eqb_spec n 128) as [E|]; [|destruct (Nat.eqb_spec n 64) as [E|]; [|destruct (Nat.eqb_spec n 32) as [E|]]]; cbn [fst snd] in *; unfold draw.
  - rewrite !H by lia. rewrite !MM. cbn [Nat.sub]. rewrite (TOP 7 8) by lia. rewrite !step16; exact BOT.
  - rewrite !H by lia. rewrite !MM. cbn [Nat.sub]. rewrite (TOP 3 4) by lia. rewrite !step16; exact BOT.
  - rewrite !H by lia. rewrite !MM. cbn [Nat.sub]. rewrite (TOP 1 2) by lia. rewrite !step16; exact BOT.
  - specialize (H 0 ltac:(lia)). rewrite Nat.add_0_r in H. rewrite H.
    assert (B : (2 ^ N.of_nat n <= 4294967296)%N) by (destruct S as [->|[->|[->|[->|[-> | ->]]]]]; try lia; cbn; lia).
    rewrite (N.mod_small v 4294967296) by lia. now apply N.mod_small.
Qed.
Lemma randM_pos n rnd rnd' pos : snd (randM n rnd pos) = snd (randM n rnd' pos).
Proof. unfold randM. destruct (n =? 128); [|destruct (n =? 64)]; reflexivity. Qed.
Lemma genMatpair_reach_lemma n A pos : size n -> invertible n A ->
  exists rnd B pos', genMatpair n rnd pos = Ret (A, B, pos') /\ mutually_inverse n A B.
Proof.
  intros S H. assert (M : matrix n A) by (destruct H as (B & MA & _); exact MA).
  set (rnd := fun q => rnd_of_matrix n A (q - pos)).
  assert (E : fst (randM n rnd pos) = A).
  { apply randM_reach; auto. intros q _. unfold rnd. f_equal. lia. }
  destruct (genMatpair_keeps n rnd pos S) as (B & G & I); [now rewrite E|]. rewrite E in G, I. eexists rnd, B, _. split; [exact G|exact I].
Qed.
Lemma genaffinepair_reach_lemma n a pos : size n -> invertible n (a_mat a) -> vector n (a_vec a) ->
  exists rnd b pos', genaffinepair n rnd pos = Ret (a, b, pos').
Proof.
  intros S H V. assert (M : matrix n (a_mat a)) by (destruct H as (B & MA & _); exact MA).
  set (p := snd (randM n (fun _ => 0%N) pos)).
  set (rnd := fun q => if q <? p then rnd_of_matrix n (a_mat a) (q - pos) else rnd_of_vector n (a_vec a) (q - p)).
  assert (EP : snd (randM n rnd pos) = p) by apply randM_pos.
  assert (E : fst (randM n rnd pos) = a_mat a).
  { apply randM_reach; auto. intros q Q. rewrite EP in Q. unfold rnd. destruct (Nat.ltb_spec (pos + q) p); [|lia]. f_equal. lia. }
  destruct (genMatpair_keeps n rnd pos S) as (B & G & I); [now rewrite E|]. rewrite E, EP in G.
  assert (EV : fst (randV n rnd p) = a_vec a).
  { apply randV_reach; auto. intros q _. unfold rnd. destruct (Nat.ltb_spec (p + q) p); [lia|]. f_equal. lia. }
  exists rnd. unfold genaffinepair. rewrite G. cbn [obind]. destruct (randV n rnd p) as [v p']. cbn [fst] in EV. subst v. destruct a as [A v].
  eexists _, _. reflexivity.
Qed.
