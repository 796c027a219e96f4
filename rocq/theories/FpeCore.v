(** * Proofs about src/fpe: numerals, Feistel rounds, the loops *)
From Coq Require Import ZArith Lia List Bool.
From Verif Require Import Base CbcModel CbcSpec GcmModel GcmSpec GfProofs GcmProofs FpeModel FpeSpec.
Local Open Scope nat_scope.

(** ** numerals *)
Definition digits (radix : N) (X : list N) : Prop := Forall (fun d => (d < radix)%N) X.
Lemma str2num_acc radix X a : fold_left (fun Y x => (Y * radix + x)%N) X a = (a * radix ^ N.of_nat (length X) + NUM radix X)%N.
Proof.
  revert a. induction X as [|d X IH]; intros a; cbn [fold_left NUM length].
  - change (N.of_nat 0) with 0%N. rewrite N.pow_0_r. lia.
  - rewrite IH. rewrite Nat2N.inj_succ, N.pow_succ_r'. lia.
Qed.
Lemma str2num_NUM radix X : str2num X radix = NUM radix X.
Proof. unfold str2num. rewrite str2num_acc. lia. Qed.
Lemma NUM_app radix X Y : NUM radix (X ++ Y) = (NUM radix X * radix ^ N.of_nat (length Y) + NUM radix Y)%N.
Proof.
  induction X as [|d X IH]; cbn [app NUM]; [lia|]. rewrite IH, app_length, Nat2N.inj_add, N.pow_add_r. lia.
Qed.
Lemma str2num_rev_NUM radix X : str2num_rev X radix = NUM radix (rev X).
Proof.
  induction X as [|d X IH]; [reflexivity|]. cbn [rev]. rewrite NUM_app. cbn [NUM length]. 
  change (N.of_nat 1) with 1%N. change (N.of_nat 0) with 0%N. rewrite N.pow_0_r, N.pow_1_r. unfold str2num_rev in *. cbn [fold_right].
  rewrite IH. lia.
Qed.
Lemma STR_S radix m x : (radix <> 0)%N -> STR radix (S m) x = STR radix m (x / radix)%N ++ [(x mod radix)%N].
Proof.
  intros Hr. unfold STR. rewrite seq_S, map_app. f_equal.
  - apply map_ext_in. intros i Hi. apply in_seq in Hi. rewrite N.div_div by (auto; apply N.pow_nonzero; auto).
    do 2 f_equal. replace (S m - 1 - i) with (S (m - 1 - i)) by lia. rewrite Nat2N.inj_succ, N.pow_succ_r'. reflexivity.
  - cbn [map]. replace (S m - 1 - (0 + m)) with 0 by lia. change (N.of_nat 0) with 0%N. now rewrite N.pow_0_r, N.div_1_r.
Qed.
Lemma num2str_STR radix m x : (radix <> 0)%N -> num2str x radix m = STR radix m x.
Proof. intros Hr. revert x. induction m as [|m IH]; intros x; [reflexivity|]. rewrite STR_S by auto. cbn [num2str]. now rewrite IH. Qed.
Lemma num2str_rev_STR radix m x : (radix <> 0)%N -> num2str_rev x radix m = rev (STR radix m x).
Proof.
  intros Hr. revert x. induction m as [|m IH]; intros x; [reflexivity|].
  rewrite STR_S by auto. rewrite rev_app_distr. cbn [rev app num2str_rev]. now rewrite IH.
Qed.
Lemma length_STR radix m x : length (STR radix m x) = m.
Proof. unfold STR. now rewrite map_length, seq_length. Qed.
Lemma digits_STR radix m x : (radix <> 0)%N -> digits radix (STR radix m x).
Proof. intros Hr. unfold STR, digits. apply Forall_forall. intros d Hd. apply in_map_iff in Hd as (i & <- & _). now apply N.mod_lt. Qed.
Lemma NUM_bound radix X : digits radix X -> (NUM radix X < radix ^ N.of_nat (length X))%N.
Proof.
  induction 1 as [|d X Hd HX IH]; cbn [NUM length]; [reflexivity|].
  rewrite Nat2N.inj_succ, N.pow_succ_r'. nia.
Qed.
Lemma NUM_STR radix m x : (radix <> 0)%N -> (x < radix ^ N.of_nat m)%N -> NUM radix (STR radix m x) = x.
Proof.
  intros Hr. revert x. induction m as [|m IH]; intros x Hx.
  - change (N.of_nat 0) with 0%N in Hx. rewrite N.pow_0_r in Hx. change (STR radix 0 x) with (@nil N). cbn. lia.
  - rewrite STR_S by auto. rewrite NUM_app. cbn [NUM length]. change (N.of_nat 1) with 1%N. change (N.of_nat 0) with 0%N. 
    rewrite N.pow_1_r, N.pow_0_r. rewrite IH.
    + pose proof (N.div_mod x radix Hr). lia.
    + rewrite Nat2N.inj_succ, N.pow_succ_r' in Hx. apply N.div_lt_upper_bound; auto.
Qed.
Lemma STR_NUM radix X : (radix <> 0)%N -> digits radix X -> STR radix (length X) (NUM radix X) = X.
Proof.
  intros Hr. induction X as [|d X IH] using rev_ind; intros H; [reflexivity|].
  apply Forall_app in H as [H1 H2]. inversion H2 as [|? ? Hd _]; subst. rewrite app_length, Nat.add_comm. cbn [length Nat.add].
  rewrite STR_S by auto. rewrite NUM_app. cbn [NUM length]. change (N.of_nat 1) with 1%N. change (N.of_nat 0) with 0%N.
  rewrite N.pow_1_r, N.pow_0_r. replace (d * 1 + 0)%N with d by lia.
  rewrite N.div_add_l by auto. rewrite N.div_small by auto. rewrite N.add_0_r, IH by auto.
  rewrite N.add_comm, N.mod_add by auto. now rewrite N.mod_small.
Qed.
Lemma digits_app r a b : digits r (a ++ b) <-> digits r a /\ digits r b.
Proof. apply Forall_app. Qed.
Lemma digits_firstn r k a : digits r a -> digits r (firstn k a).
Proof. intros H. rewrite <- (firstn_skipn k a) in H. now apply digits_app in H. Qed.
Lemma digits_skipn r k a : digits r a -> digits r (skipn k a).
Proof. intros H. rewrite <- (firstn_skipn k a) in H. now apply digits_app in H. Qed.
Lemma digits_rev r a : digits r a -> digits r (rev a).
Proof. apply Forall_rev. Qed.

(** ** characters *)
Lemma radix_cases (P : N -> Prop) radix : (2 <= radix <= 36)%N ->
  (forall k, 2 <= k <= 36 -> P (N.of_nat k)) -> P radix.
Proof. intros H HP. rewrite <- (N2Nat.id radix). apply HP. lia. Qed.
Definition char_check (k : nat) : bool :=
  forallb (fun c => (map_char c =? digit_of c)%N && (digit_of c <? N.of_nat k)%N && (inverse_map_char (digit_of c) =? c)%N
                    && (1 <=? c)%N && (c <? 128)%N)
          (firstn k alphabet36) &&
  forallb (fun d => existsb (N.eqb (inverse_map_char (N.of_nat d))) (firstn k alphabet36)
                    && (digit_of (inverse_map_char (N.of_nat d)) =? N.of_nat d)%N
                    && (char_of (N.of_nat d) =? inverse_map_char (N.of_nat d))%N) (seq 0 k).
Lemma char_checks : forallb char_check (seq 2 35) = true. Proof. vm_compute. reflexivity. Qed.
Lemma char_check_radix radix : (2 <= radix <= 36)%N -> char_check (N.to_nat radix) = true.
Proof. intros H. pose proof char_checks as C. rewrite forallb_forall in C. apply C. apply in_seq. lia. Qed.
Lemma valid_char radix c : (2 <= radix <= 36)%N -> In c (alphabet radix) ->
  map_char c = digit_of c /\ (digit_of c < radix)%N /\ inverse_map_char (digit_of c) = c /\ (1 <= c < 128)%N.
Proof.
  intros Hr Hc. pose proof (char_check_radix radix Hr) as C. apply andb_true_iff in C as [C _].
  rewrite forallb_forall in C. specialize (C c Hc). rewrite !andb_true_iff, !N.eqb_eq, !N.ltb_lt, N.leb_le, N2Nat.id in C. tauto.
Qed.
Lemma valid_digit radix d : (2 <= radix <= 36)%N -> (d < radix)%N ->
  In (inverse_map_char d) (alphabet radix) /\ digit_of (inverse_map_char d) = d /\ char_of d = inverse_map_char d.
Proof.
  intros Hr Hd. pose proof (char_check_radix radix Hr) as C. apply andb_true_iff in C as [_ C].
  rewrite forallb_forall in C. specialize (C (N.to_nat d) ltac:(apply in_seq; lia)).
  rewrite N2Nat.id in C. rewrite !andb_true_iff, !N.eqb_eq, existsb_exists in C. destruct C as [[(x & Hx & Ex) C2] C3].
  apply N.eqb_eq in Ex. rewrite Ex in *. auto.
Qed.
Lemma map_chars_valid radix s : (2 <= radix <= 36)%N -> numeral_string radix s ->
  map_chars s = map digit_of s /\ digits radix (map digit_of s) /\ map inverse_map_char (map digit_of s) = s.
Proof.
  intros Hr. induction 1 as [|c s Hc Hs IH]; [now repeat split; try constructor|].
  destruct (valid_char radix c Hr Hc) as (E1 & E2 & E3 & _). destruct IH as (I1 & I2 & I3).
  unfold map_chars in *. cbn [map]. rewrite E1, I1, E3, I3. repeat split. constructor; auto.
Qed.
Lemma inverse_map_valid radix X : (2 <= radix <= 36)%N -> digits radix X ->
  numeral_string radix (map inverse_map_char X) /\ map digit_of (map inverse_map_char X) = X /\ map char_of X = map inverse_map_char X.
Proof.
  intros Hr. induction 1 as [|d X Hd HX IH]; [now repeat split; constructor|].
  destruct (valid_digit radix d Hr Hd) as (E1 & E2 & E3). destruct IH as (I1 & I2 & I3).
  cbn [map]. rewrite E2, I2, E3, I3. repeat split. constructor; auto.
Qed.

(** ** sizes *)
Lemma ceil2_div x k : ceil2 x k = ceil_div x (2 ^ k).
Proof.
  unfold ceil2, ceil_div. assert (P : 2 ^ k <> 0) by (apply Nat.pow_nonzero; lia). set (p := 2 ^ k) in *. clearbody p.
  pose proof (Nat.div_mod x p P) as D. pose proof (Nat.mod_upper_bound x p P) as U.
  destruct (Nat.ltb_spec 0 (x mod p)) as [G|G].
  - apply (Nat.div_unique _ _ _ (x mod p - 1)); [lia|]. nia.
  - apply (Nat.div_unique _ _ _ (p - 1)); [lia|]. nia.
Qed.
Lemma pow_uv_spec x u v : u <= S v -> v <= S u -> pow_uv x u v = ((x ^ N.of_nat u)%N, (x ^ N.of_nat v)%N).
Proof.
  intros H1 H2. unfold pow_uv. destruct (Nat.ltb_spec v u).
  - replace u with (S v) by lia. rewrite Nat2N.inj_succ, N.pow_succ_r'. f_equal. lia.
  - destruct (Nat.eqb_spec u v) as [->|]; [reflexivity|]. replace v with (S u) by lia.
    rewrite Nat2N.inj_succ, N.pow_succ_r'. f_equal. lia.
Qed.
Lemma bn_bytes_le x b : bn_bytes x <= b <-> (x < 256 ^ N.of_nat b)%N.
Proof.
  unfold bn_bytes. rewrite pow256. destruct (N.eq_dec x 0) as [->|Hx].
  - split; intros _; [apply N.neq_0_lt_0, N.pow_nonzero; discriminate|]. cbn. lia.
  - rewrite N.size_log2 by auto. pose proof (N.div_mod (N.succ (N.log2 x) + 7) 8 ltac:(discriminate)) as D.
    pose proof (N.mod_lt (N.succ (N.log2 x) + 7) 8 ltac:(discriminate)) as U.
    set (q := ((N.succ (N.log2 x) + 7) / 8)%N) in *. split; intros H.
    + apply N.log2_lt_pow2; lia.
    + apply N.log2_lt_pow2 in H; lia.
Qed.
Lemma length_bn2bin x : length (bn2bin x) = bn_bytes x.
Proof. apply length_N_to_be. Qed.
Lemma N_to_be_small n k x : n <= k -> (x < 256 ^ N.of_nat n)%N -> N_to_be k x = repeat 0%N (k - n) ++ N_to_be n x.
Proof.
  intros H Hx. replace k with ((k - n) + n) at 1 by lia. generalize (k - n) as j. clear H k.
  induction j as [|j IH]; [reflexivity|]. cbn [Nat.add N_to_be repeat app]. rewrite IH. f_equal.
  rewrite N.div_small; [reflexivity|]. eapply N.lt_le_trans; [exact Hx|]. apply N.pow_le_mono_r; [discriminate|]. lia.
Qed.
Lemma bn2bin_pad b x : (x < 256 ^ N.of_nat b)%N -> repeat 0%N (b - bn_bytes x) ++ bn2bin x = N_to_be b x.
Proof.
  intros H. apply bn_bytes_le in H. symmetry. apply N_to_be_small; auto. now apply bn_bytes_le.
Qed.
Lemma ceil_log_fits r n T b : (2 <= r)%N -> ceil_log r n <= T -> b = ceil2 T 3 -> (r ^ N.of_nat n <= 256 ^ N.of_nat b)%N.
Proof.
  intros Hr H ->. rewrite ceil2_div. unfold ceil_log in H. change (2 ^ 3) with 8.
  assert (C : T <= 8 * ceil_div T 8).
  { unfold ceil_div. pose proof (Nat.div_mod (T + 8 - 1) 8 ltac:(lia)). pose proof (Nat.mod_upper_bound (T + 8 - 1) 8 ltac:(lia)). lia. }
  rewrite pow256. destruct (N.le_gt_cases (r ^ N.of_nat n) 1) as [G|G].
  - etransitivity; [exact G|]. pose proof (N.pow_nonzero 2 (8 * N.of_nat (ceil_div T 8)) ltac:(discriminate)). lia.
  - apply N.log2_up_le_pow2; lia.
Qed.

(** ** Feistel networks over numerals *)
Section Feistel.
Variables (radix : N) (num : list N -> N) (str : nat -> N -> list N) (F : nat -> list N -> N) (m : nat -> nat).
Hypothesis radix_pos : (radix <> 0)%N.
Hypothesis str_len : forall k x, length (str k x) = k.
Hypothesis str_dig : forall k x, digits radix (str k x).
Hypothesis num_bound : forall X, digits radix X -> (num X < radix ^ N.of_nat (length X))%N.
Hypothesis str_num : forall X, digits radix X -> str (length X) (num X) = X.
Hypothesis num_str : forall k x, (x < radix ^ N.of_nat k)%N -> num (str k x) = x.
Hypothesis m_par : forall i, m (S (S i)) = m i.

Definition es (s : list N * list N) (i : nat) : list N * list N :=
  (snd s, str (m i) ((num (fst s) + F i (snd s)) mod radix ^ N.of_nat (m i))%N).
Definition ds (s : list N * list N) (i : nat) : list N * list N :=
  (str (m i) (bn_mod_sub (num (snd s)) (F i (fst s)) (radix ^ N.of_nat (m i))), fst s).
Definition wf (i : nat) (s : list N * list N) : Prop :=
  digits radix (fst s) /\ digits radix (snd s) /\ length (fst s) = m i /\ length (snd s) = m (S i).
Lemma es_wf i s : wf i s -> wf (S i) (es s i).
Proof. destruct s as [A B]. intros (H1 & H2 & H3 & H4). unfold wf, es. cbn [fst snd] in *. rewrite m_par. auto. Qed.
Lemma ds_wf i s : wf (S i) s -> wf i (ds s i).
Proof. destruct s as [A B]. intros (H1 & H2 & H3 & H4). unfold wf, ds. cbn [fst snd] in *. auto. Qed.
Lemma mod_sub_add a y q : (a < q)%N -> bn_mod_sub ((a + y) mod q) y q = a.
Proof.
  intros H. unfold bn_mod_sub. rewrite N2Z.inj_mod, N2Z.inj_add by lia.
  rewrite Zminus_mod_idemp_l. replace (Z.of_N a + Z.of_N y - Z.of_N y)%Z with (Z.of_N a) by lia.
  rewrite Z.mod_small by lia. lia.
Qed.
Lemma mod_add_sub a y q : (a < q)%N -> ((bn_mod_sub a y q + y) mod q = a)%N.
Proof.
  intros H. unfold bn_mod_sub. assert (B : (0 <= (Z.of_N a - Z.of_N y) mod Z.of_N q < Z.of_N q)%Z) by (apply Z.mod_pos_bound; lia).
  apply N2Z.inj. rewrite N2Z.inj_mod, N2Z.inj_add by lia. rewrite Z2N.id by lia.
  rewrite Zplus_mod_idemp_l. replace (Z.of_N a - Z.of_N y + Z.of_N y)%Z with (Z.of_N a) by lia. now rewrite Z.mod_small by lia.
Qed.
Lemma mod_sub_lt a y q : (0 < q)%N -> (bn_mod_sub a y q < q)%N.
Proof. intros H. unfold bn_mod_sub. pose proof (Z.mod_pos_bound (Z.of_N a - Z.of_N y) (Z.of_N q) ltac:(lia)). lia. Qed.
Lemma ds_es i s : wf i s -> ds (es s i) i = s.
Proof.
  destruct s as [A B]. intros (H1 & H2 & H3 & H4). unfold ds, es. cbn [fst snd] in *. f_equal.
  rewrite num_str by (apply N.mod_lt, N.pow_nonzero; auto). rewrite mod_sub_add.
  - rewrite <- H3. now apply str_num.
  - rewrite <- H3. now apply num_bound.
Qed.
Lemma es_ds i s : wf (S i) s -> es (ds s i) i = s.
Proof.
  destruct s as [A B]. intros (H1 & H2 & H3 & H4). unfold ds, es. cbn [fst snd] in *. f_equal. rewrite m_par in H4.
  rewrite num_str by (apply mod_sub_lt, N.neq_0_lt_0, N.pow_nonzero; auto). rewrite mod_add_sub.
  - rewrite <- H4. now apply str_num.
  - rewrite <- H4. now apply num_bound.
Qed.
Lemma es_fold_wf k : forall a s, wf a s -> wf (a + k) (fold_left es (seq a k) s).
Proof.
  induction k as [|k IH]; intros a s W; cbn [seq fold_left]; [now rewrite Nat.add_0_r|].
  rewrite Nat.add_succ_r. apply (IH (S a)). now apply es_wf.
Qed.
Lemma rev_seq_S a k : rev (seq a (S k)) = (a + k) :: rev (seq a k).
Proof. rewrite seq_S, rev_app_distr. reflexivity. Qed.
Lemma ds_fold_wf k : forall a s, wf (a + k) s -> wf a (fold_left ds (rev (seq a k)) s).
Proof.
  induction k as [|k IH]; intros a s W; [cbn; now rewrite Nat.add_0_r in W|].
  rewrite rev_seq_S. cbn [fold_left]. apply IH. apply ds_wf. now rewrite Nat.add_succ_r in W.
Qed.
Lemma fold_ds_es k : forall a s, wf a s -> fold_left ds (rev (seq a k)) (fold_left es (seq a k) s) = s.
Proof.
  induction k as [|k IH]; intros a s W; [reflexivity|].
  rewrite rev_seq_S, seq_S, fold_left_app. cbn [fold_left]. rewrite ds_es by now apply es_fold_wf. now apply IH.
Qed.
Lemma fold_es_ds k : forall a s, wf (a + k) s -> fold_left es (seq a k) (fold_left ds (rev (seq a k)) s) = s.
Proof.
  induction k as [|k IH]; intros a s W; [reflexivity|]. rewrite Nat.add_succ_r in W.
  rewrite rev_seq_S, seq_S, fold_left_app. cbn [fold_left]. rewrite IH by now apply ds_wf. now apply es_ds.
Qed.
(** a checksum accumulated over the kept halves is the same in both directions *)
Variable p : nat -> list N -> list N.
Definition esm (s : (list N * list N) * list N) i := (es (fst s) i, xorl (snd s) (p i (snd (fst s)))).
Definition dsm (s : (list N * list N) * list N) i := (ds (fst s) i, xorl (snd s) (p i (fst (fst s)))).
Lemma xorl_swap a b c : xorl (xorl a b) c = xorl (xorl a c) b.
Proof. rewrite !xorl_assoc. f_equal. apply xorl_comm. Qed.
Lemma dsm_pull l : forall s M x, snd (fold_left dsm l (s, xorl M x)) = xorl (snd (fold_left dsm l (s, M))) x.
Proof.
  induction l as [|i l IH]; intros s M x; [reflexivity|]. cbn [fold_left]. unfold dsm at 2 4. cbn [fst snd].
  rewrite xorl_swap. apply IH.
Qed.
Lemma dsm_fst l : forall s, fst (fold_left dsm l s) = fold_left ds l (fst s).
Proof. induction l as [|i l IH]; intros s; [reflexivity|]. cbn [fold_left]. rewrite IH. reflexivity. Qed.
Lemma esm_fst l : forall s, fst (fold_left esm l s) = fold_left es l (fst s).
Proof. induction l as [|i l IH]; intros s; [reflexivity|]. cbn [fold_left]. rewrite IH. reflexivity. Qed.
Lemma mac_same k : forall a s M, wf a s ->
  snd (fold_left dsm (rev (seq a k)) (fold_left es (seq a k) s, M)) = snd (fold_left esm (seq a k) (s, M)).
Proof.
  induction k as [|k IH]; intros a s M W; [reflexivity|].
  rewrite rev_seq_S, seq_S, !fold_left_app. cbn [fold_left]. unfold dsm at 2. cbn [fst snd].
  rewrite ds_es by now apply es_fold_wf. rewrite dsm_pull, IH by auto. unfold esm at 2. cbn [fst snd]. now rewrite esm_fst.
Qed.
End Feistel.

(** ** loops that may fail *)
Lemma ofold_enc {S T} (f : S -> nat -> outcome S) (g : T -> nat -> T) (R : nat -> S -> T -> Prop) :
  forall K, (forall i s t, i < K -> R i s t -> exists s', f s i = Ret s' /\ R (Datatypes.S i) s' (g t i)) ->
  forall k a s t, a + k <= K -> R a s t -> exists s', ofold f (seq a k) s = Ret s' /\ R (a + k) s' (fold_left g (seq a k) t).
Proof.
  intros K H. induction k as [|k IH]; intros a s t HK HR; cbn [seq ofold fold_left].
  - rewrite Nat.add_0_r. eauto.
  - destruct (H a s t ltac:(lia) HR) as (s' & E & HR'). rewrite E. cbn [obind]. rewrite Nat.add_succ_r. exact (IH (Datatypes.S a) s' _ ltac:(lia) HR').
Qed.
Lemma ofold_dec {S T} (f : S -> nat -> outcome S) (g : T -> nat -> T) (R : nat -> S -> T -> Prop) :
  forall K, (forall i s t, i < K -> R (Datatypes.S i) s t -> exists s', f s i = Ret s' /\ R i s' (g t i)) ->
  forall k a s t, a + k <= K -> R (a + k) s t -> exists s', ofold f (rev (seq a k)) s = Ret s' /\ R a s' (fold_left g (rev (seq a k)) t).
Proof.
  intros K H. induction k as [|k IH]; intros a s t HK HR.
  - rewrite Nat.add_0_r in HR. cbn. eauto.
  - rewrite rev_seq_S. cbn [ofold fold_left]. rewrite Nat.add_succ_r in HR. destruct (H (a + k) s t ltac:(lia) HR) as (s' & E & HR').
    rewrite E. cbn [obind]. apply IH; auto; lia.
Qed.

(** ** buffers *)
Lemma set_app_mid {A} (a : list A) x b v : set (a ++ x :: b) (length a) v = a ++ v :: b.
Proof. induction a as [|y a IH]; [reflexivity|]. cbn [app length set]. now rewrite IH. Qed.
Lemma blit_mid a b c v : length v = length b -> blit (a ++ b ++ c) (length a) v = a ++ v ++ c.
Proof.
  intros H. unfold blit. rewrite firstn_app, Nat.sub_diag, firstn_all. cbn [firstn]. rewrite app_nil_r. do 2 f_equal.
  rewrite H, skipn_app. rewrite skipn_all2 by lia. cbn [app]. replace (length a + length b - length a) with (length b) by lia.
  rewrite skipn_app, Nat.sub_diag, skipn_all2 by lia. reflexivity.
Qed.
Lemma be4 x : [N.land (N.shiftr x 24) 0xff; N.land (N.shiftr x 16) 0xff; N.land (N.shiftr x 8) 0xff; N.land x 0xff]%N = N_to_be 4 x.
Proof.
  unfold N_to_be. change 0xff%N with (N.ones 8).
  rewrite !N.land_ones, !N.shiftr_div_pow2. change (256 ^ N.of_nat 0)%N with 1%N. rewrite N.div_1_r. reflexivity.
Qed.
Lemma length_chunks_aligned (l : list N) : length l mod 16 = 0 -> length (chunks 16 l) = length l / 16.
Proof.
  intros H. revert H. apply (aligned_ind 16 (fun l => length (chunks 16 l) = length l / 16)); [lia|reflexivity|].
  intros c m Hc _ IH. rewrite chunks_app by (auto; lia). cbn [length]. rewrite IH, app_length, Hc.
  replace (16 + length m) with (length m + 1 * 16) by lia. rewrite Nat.div_add by lia. lia.
Qed.

(** ** FF1: the round function *)
Section FF1.
Variables (E : list N -> list N) (clog : N -> nat -> nat) (radix : N) (T : list N) (inlen : nat).
Hypothesis HE : block_function E.
Hypothesis Hradix : (2 <= radix <= 36)%N.
Hypothesis Hlen : 2 <= inlen.
Hypothesis Hbig : (N.of_nat inlen < 2 ^ 30)%N.
Let u := inlen / 2.
Let v := inlen - u.
Let b := ceil_div (clog radix v) 8.
Hypothesis Hsize : (N.of_nat (length T) + N.of_nat b < 2 ^ 31 - 32)%N.
Hypothesis HT : bytes T.
Hypothesis Hfit : (radix ^ N.of_nat v <= 256 ^ N.of_nat b)%N.
Let c := mkfpe radix T (N.of_nat (length T) mod 2 ^ 32)%N.
Let n := ff1_setup clog c inlen.
Definition ff1_pad (t b : nat) : nat := Z.to_nat ((- Z.of_nat t - Z.of_nat b - 1) mod 16).
Let pad := ff1_pad (length T) b.
Definition F1b (b : nat) (i : nat) (X : list N) : N :=
  let d := 4 * ceil_div b 4 + 4 in
  let Q := T ++ repeat 0%N (ff1_pad (length T) b) ++ [N.of_nat i] ++ N_to_be b (NUM radix X) in
  let R := PRF E (std_P radix inlen (length T) (inlen / 2) ++ Q) in
  be_to_N (firstn d (R ++ concat (map (fun j => E (xorl R (N_to_be 16 (N.of_nat j)))) (seq 1 (ceil_div d 16 - 1))))).

Lemma uv : u + v = inlen /\ u <= v <= S u /\ 1 <= u.
Proof.
  unfold v, u. pose proof (Nat.div_mod inlen 2 ltac:(lia)). pose proof (Nat.mod_upper_bound inlen 2 ltac:(lia)). lia.
Qed.
Lemma tl_small : (N.of_nat (length T) mod 2 ^ 32 = N.of_nat (length T))%N.
Proof. apply N.mod_small. change (2 ^ 32)%N with 4294967296%N. change (2 ^ 31)%N with 2147483648%N in Hsize. lia. Qed.
Lemma pad_ok : N.to_nat ((((2 ^ 64 - N.of_nat (length T) - N.of_nat b - 1) mod 2 ^ 32) mod 16 + 16) mod 16)%N = pad.
Proof.
  unfold pad, ff1_pad. rewrite <- Z_N_nat. f_equal.
  change (2 ^ 31)%N with 2147483648%N in Hsize.
  assert (E1 : ((((2 ^ 64 - N.of_nat (length T) - N.of_nat b - 1) mod 2 ^ 32) mod 16 + 16) mod 16 =
          (2 ^ 64 - N.of_nat (length T) - N.of_nat b - 1) mod 16)%N).
  { set (X := (2 ^ 64 - N.of_nat (length T) - N.of_nat b - 1)%N). clearbody X.
    rewrite <- N.add_mod_idemp_r by discriminate. change (16 mod 16)%N with 0%N. rewrite N.add_0_r.
    rewrite N.mod_mod by discriminate. change (2 ^ 32)%N with (16 * 268435456)%N.
    rewrite N.mod_mul_r by discriminate. rewrite N.mul_comm, N.mod_add by discriminate. now apply N.mod_mod. }
  rewrite E1. apply N2Z.inj. rewrite N2Z.inj_mod by discriminate. rewrite Z2N.id by (apply Z.mod_pos_bound; lia).
  rewrite !N2Z.inj_sub by (change (2 ^ 64)%N with 18446744073709551616%N; lia).
  change (Z.of_N (2 ^ 64)) with (1152921504606846976 * 16)%Z. rewrite !nat_N_Z.
  replace (1152921504606846976 * 16 - Z.of_nat (length T) - Z.of_nat b - Z.of_N 1)%Z
    with (- Z.of_nat (length T) - Z.of_nat b - 1 + 1152921504606846976 * 16)%Z by lia.
  change (Z.of_N 16) with 16%Z. now rewrite Z_mod_plus_full.
Qed.
Lemma pad_lt : pad < 16.
Proof. unfold pad, ff1_pad. pose proof (Z.mod_pos_bound (- Z.of_nat (length T) - Z.of_nat b - 1) 16 ltac:(lia)). lia. Qed.
Lemma pad_mod : (length T + pad + 1 + b) mod 16 = 0.
Proof.
  unfold pad, ff1_pad. pose proof (Z.mod_pos_bound (- Z.of_nat (length T) - Z.of_nat b - 1) 16 ltac:(lia)) as B.
  apply Nat2Z.inj. rewrite Nat2Z.inj_mod, !Nat2Z.inj_add, Z2Nat.id by lia.
  change (Z.of_nat 16) with 16%Z. change (Z.of_nat 1) with 1%Z.
  replace (Z.of_nat (length T) + (- Z.of_nat (length T) - Z.of_nat b - 1) mod 16 + 1 + Z.of_nat b)%Z
    with ((- Z.of_nat (length T) - Z.of_nat b - 1) mod 16 + (Z.of_nat (length T) + 1 + Z.of_nat b))%Z by lia.
  rewrite Zplus_mod_idemp_l. replace (_ + _)%Z with 0%Z by lia. reflexivity.
Qed.
Lemma P_ok : ff1_P radix u (N.of_nat inlen) (N.of_nat (length T)) = std_P radix inlen (length T) u.
Proof.
  unfold ff1_P, std_P. cbv zeta.
  assert (ER : N_to_be 4 (N.lor (N.shiftl radix 8) 10) = N_to_be 3 radix ++ [10%N]).
  { revert Hradix. clear. intros H. assert (C : forallb (fun k => 
      if list_eq_dec N.eq_dec (N_to_be 4 (N.lor (N.shiftl (N.of_nat k) 8) 10)) (N_to_be 3 (N.of_nat k) ++ [10%N]) then true else false) (seq 2 35) = true)
      by (vm_compute; reflexivity).
    rewrite forallb_forall in C. specialize (C (N.to_nat radix) ltac:(apply in_seq; lia)). rewrite N2Nat.id in C.
    destruct list_eq_dec as [e|]; [exact e|discriminate]. }
  assert (EU : N_to_be 1 (N.of_nat u) = [N.of_nat (u mod 256)]).
  { unfold N_to_be. change (256 ^ N.of_nat 0)%N with 1%N. rewrite N.div_1_r, Nat2N.inj_mod. reflexivity. }
  rewrite EU. rewrite <- (be4 (N.of_nat inlen)), <- (be4 (N.of_nat (length T))). rewrite <- (be4 (N.lor _ _)) in ER.
  rewrite (app_assoc (N_to_be 3 radix)). rewrite <- ER. reflexivity.
Qed.
Lemma setup_eq : n = mkff1 inlen u v (radix ^ N.of_nat u) (radix ^ N.of_nat v) b (4 * ceil_div b 4 + 4) pad (length T)
                          (length T + pad + 1 + b) (std_P radix inlen (length T) u) radix.
Proof.
  unfold n, ff1_setup, c. cbn [f_radix f_tweaklen]. change (floor2 inlen 1) with u. fold v.
  rewrite pow_uv_spec by (pose proof uv; lia). rewrite tl_small. rewrite !ceil2_div. change (2 ^ 3) with 8. change (2 ^ 2) with 4.
  fold b. rewrite pad_ok. rewrite Nat2N.id, P_ok. reflexivity.
Qed.
Definition Qok (Q : list N) : Prop :=
  length Q = length T + pad + 1 + b /\ firstn (length T + pad) Q = T ++ repeat 0%N pad.
Definition Qof (i : nat) (x : N) : list N := T ++ repeat 0%N pad ++ [N.of_nat i] ++ N_to_be b x.
Lemma Qof_ok i x : Qok (Qof i x).
Proof.
  unfold Qok, Qof. split.
  - rewrite !app_length, repeat_length, length_N_to_be. cbn [length]. lia.
  - rewrite app_assoc. rewrite firstn_app. replace (length T + pad - length (T ++ repeat 0%N pad)) with 0 by (rewrite app_length, repeat_length; lia).
    cbn [firstn]. rewrite app_nil_r. apply firstn_all2. rewrite app_length, repeat_length. lia.
Qed.
Lemma Q_step Q i x : Qok Q -> ff1_Q n Q i x = if (x <? 256 ^ N.of_nat b)%N then Ret (Qof i x) else Undef.
Proof.
  intros [L1 L2]. rewrite setup_eq. unfold ff1_Q. cbn [n_t n_pad n_b n_Qlen]. rewrite length_bn2bin.
  destruct (N.ltb_spec x (256 ^ N.of_nat b)) as [G|G].
  2: { destruct (Nat.ltb_spec b (bn_bytes x)) as [_|G']; [reflexivity|]. apply bn_bytes_le in G'. lia. }
  apply bn_bytes_le in G as G'. destruct (Nat.ltb_spec b (bn_bytes x)); [lia|]. f_equal.
  set (pre := T ++ repeat 0%N pad) in *. assert (Lp : length pre = length T + pad) by (unfold pre; rewrite app_length, repeat_length; lia).
  assert (DQ : exists x0 suf, Q = pre ++ x0 :: suf /\ length suf = b).
  { rewrite <- (firstn_skipn (length T + pad) Q), L2. destruct (skipn (length T + pad) Q) as [|x0 suf] eqn:ES.
    - apply (f_equal (@length N)) in ES. rewrite skipn_length in ES. cbn in ES. lia.
    - exists x0, suf. split; auto. apply (f_equal (@length N)) in ES. rewrite skipn_length in ES. cbn [length] in ES. lia. }
  destruct DQ as (x0 & suf & -> & Ls). rewrite <- Lp. rewrite set_app_mid.
  replace (length pre + 1 + b - b) with (length (pre ++ [N.of_nat i])) by (rewrite app_length; cbn [length]; lia).
  replace (pre ++ N.of_nat i :: suf) with ((pre ++ [N.of_nat i]) ++ suf ++ []) by (now rewrite app_nil_r, <- app_assoc).
  rewrite blit_mid by (rewrite repeat_length; auto).
  replace (length pre + 1 + b - bn_bytes x) with (length ((pre ++ [N.of_nat i]) ++ repeat 0%N (b - bn_bytes x)))
    by (rewrite !app_length, repeat_length; cbn [length]; lia).
  assert (RB : repeat 0%N b = repeat 0%N (b - bn_bytes x) ++ repeat 0%N (bn_bytes x)) by (rewrite <- repeat_app; f_equal; lia).
  rewrite RB, <- (app_assoc (repeat 0%N _)).
  rewrite (app_assoc (pre ++ [N.of_nat i]) (repeat 0%N (b - bn_bytes x)) _).
  rewrite blit_mid by (rewrite length_bn2bin, repeat_length; auto). rewrite app_nil_r, <- app_assoc, bn2bin_pad by auto.
  unfold Qof, pre. now rewrite <- !app_assoc.
Qed.
Lemma prf_fst Qs : forall R pr, fst (prf_loop E R pr Qs) = fold_left (fun Y X => E (xorl Y X)) Qs R.
Proof. induction Qs as [|Q Qs IH]; intros R pr; [reflexivity|]. cbn [prf_loop fold_left]. rewrite IH. now rewrite xorl_comm. Qed.
Lemma bytes_std_P : length (std_P radix inlen (length T) u) = 16 /\ bytes (std_P radix inlen (length T) u).
Proof.
  unfold std_P. split; [reflexivity|]. repeat (apply bytes_app; split); try apply bytes_N_to_be; repeat constructor.
Qed.
Lemma R_step i x : fst (ff1_R E n (Qof i x)) = PRF E (std_P radix inlen (length T) u ++ Qof i x).
Proof.
  destruct (Qof_ok i x) as [L _]. unfold ff1_R. rewrite prf_fst. rewrite setup_eq. cbn [n_P n_Qlen].
  rewrite firstn_all2 by (rewrite length_chunks_aligned by (rewrite L; apply pad_mod); rewrite L; lia).
  unfold PRF. destruct bytes_std_P as [LP _]. rewrite chunks_app by (auto; lia). cbn [fold_left]. 
  rewrite xorl_zeros_l by lia. reflexivity.
Qed.
Lemma PRF_block X : length X mod 16 = 0 -> bytes X -> block16 (PRF E X).
Proof.
  intros L B. unfold PRF. pose proof (chunks_Forall_length 16 X ltac:(lia) L) as HL. pose proof (bytes_chunks 16 X ltac:(lia) B) as HB.
  generalize dependent (chunks 16 X). clear L B. intros cs. pose proof block16_zeros as Z. revert Z. generalize (repeat 0%N 16).
  induction cs as [|x cs IH]; intros z Z HL HB; [exact Z|]. inversion HL; inversion HB; subst. cbn [fold_left].
  apply IH; auto. apply HE. apply block16_xorl; auto. split; auto.
Qed.
Lemma d_bound : (N.of_nat (4 * ceil_div b 4 + 4) < 2 ^ 32)%N.
Proof.
  change (2 ^ 31)%N with 2147483648%N in Hsize. change (2 ^ 32)%N with 4294967296%N.
  unfold ceil_div. pose proof (Nat.div_mod (b + 4 - 1) 4 ltac:(lia)). lia.
Qed.
Lemma y_step R : block16 R ->
  ff1_y E n R = be_to_N (firstn (4 * ceil_div b 4 + 4) (R ++ concat (map (fun j => E (xorl R (N_to_be 16 (N.of_nat j))))
     (seq 1 (ceil_div (4 * ceil_div b 4 + 4) 16 - 1))))).
Proof.
  intros [LR BR]. unfold ff1_y. rewrite setup_eq. cbn [n_d]. rewrite ceil2_div. change (2 ^ 4) with 16. pose proof d_bound as DB.
  set (d := 4 * ceil_div b 4 + 4) in *. set (cnt := ceil_div d 16 - 1). cbv zeta. do 2 f_equal.
  assert (CB : (N.of_nat cnt < 2 ^ 32)%N).
  { unfold cnt, ceil_div. clear - DB. pose proof (Nat.div_mod (d + 16 - 1) 16 ltac:(lia)). 
    change (2 ^ 32)%N with 4294967296%N in *. lia. }
  clearbody cnt. clear DB.
  set (f := fun j => E (xorl R (N_to_be 16 (N.of_nat j)))).
  assert (G : forall k, k <= cnt -> fold_left (fun S j => blit S (16 * j) (E (xorl (repeat 0%N 12 ++
      [N.land (N.shiftr (N.of_nat j) 24) 255; N.land (N.shiftr (N.of_nat j) 16) 255; N.land (N.shiftr (N.of_nat j) 8) 255; N.land (N.of_nat j) 255]%N) R)))
      (seq 1 k) (blit (repeat 0%N (16 + cnt * 16)) 0 R) = R ++ concat (map f (seq 1 k)) ++ repeat 0%N (16 * (cnt - k))
      /\ length (concat (map f (seq 1 k))) = 16 * k).
  { induction k as [|k IH]; intros Hk.
    - cbn [seq fold_left map concat app]. split; [|reflexivity]. rewrite (repeat_app 0%N 16 (cnt * 16)).
      pose proof (blit_mid [] (repeat 0%N 16) (repeat 0%N (cnt * 16)) R) as X. rewrite repeat_length in X. specialize (X LR).
      cbn [app length] in X. etransitivity; [exact X|]. do 2 f_equal. lia.
    - destruct (IH ltac:(lia)) as [I1 I2]. rewrite seq_S, fold_left_app, I1. cbn [fold_left Nat.add].
      rewrite map_app, concat_app. cbn [map concat]. rewrite app_nil_r, app_length, I2.
      assert (EJ : E (xorl (repeat 0%N 12 ++ [N.land (N.shiftr (N.of_nat (S k)) 24) 255; N.land (N.shiftr (N.of_nat (S k)) 16) 255;
                   N.land (N.shiftr (N.of_nat (S k)) 8) 255; N.land (N.of_nat (S k)) 255]%N) R) = f (S k)).
      { unfold f. change 255%N with 0xff%N. rewrite be4. rewrite xorl_comm. do 2 f_equal. symmetry.
        exact (N_to_be_small 4 16 (N.of_nat (S k)) ltac:(lia) ltac:(change (256 ^ N.of_nat 4)%N with (2 ^ 32)%N; lia)). }
      assert (Lf : length (f (S k)) = 16).
      { unfold f. apply HE. apply block16_xorl; [split; auto|]. split; [apply length_N_to_be|apply bytes_N_to_be]. }
      rewrite EJ. split; [|lia].
      replace (16 * S k) with (length (R ++ concat (map f (seq 1 k)))) by (rewrite app_length; lia).
      replace (16 * (cnt - k)) with (16 + 16 * (cnt - S k)) by lia. rewrite repeat_app.
      rewrite (app_assoc R). rewrite blit_mid by (rewrite repeat_length; auto). now rewrite <- !app_assoc. }
  destruct (G cnt (le_n _)) as [G1 _]. rewrite G1. rewrite Nat.sub_diag. cbn [Nat.mul repeat]. now rewrite app_nil_r.
Qed.
Lemma F_step i x : i < 256 -> ff1_y E n (fst (ff1_R E n (Qof i (NUM radix x)))) = F1b b i x.
Proof.
  intros Hi. rewrite R_step. rewrite y_step; [reflexivity|]. apply PRF_block.
  - rewrite app_length. destruct (Qof_ok i (NUM radix x)) as [L _]. rewrite L, (proj1 bytes_std_P).
    rewrite <- Nat.add_mod_idemp_r by lia. rewrite pad_mod. reflexivity.
  - apply bytes_app. split; [apply bytes_std_P|]. unfold Qof. repeat (apply bytes_app; split); auto.
    + now apply bytes_repeat.
    + constructor; [|constructor]. unfold byte. lia.
    + apply bytes_N_to_be.
Qed.
Definition mfun (i : nat) : nat := if Nat.odd i then v else u.
Lemma mfun_SS i : mfun (S (S i)) = mfun i.
Proof. reflexivity. Qed.
Lemma mfun_compl i : inlen - mfun i = mfun (S i).
Proof.
  pose proof uv. unfold mfun. rewrite Nat.odd_succ, <- Nat.negb_odd. destruct (Nat.odd i); cbn [negb]; lia.
Qed.
Lemma mfun_q i : (if mfun i =? u then (radix ^ N.of_nat u)%N else (radix ^ N.of_nat v)%N) = (radix ^ N.of_nat (mfun i))%N.
Proof.
  destruct (Nat.eqb_spec (mfun i) u) as [->|G]; [reflexivity|]. unfold mfun in *. destruct (Nat.odd i); congruence.
Qed.
Lemma fits_half i X : digits radix X -> length X = mfun i -> (NUM radix X < 256 ^ N.of_nat b)%N.
Proof.
  intros D L. eapply N.lt_le_trans; [apply NUM_bound, D|]. etransitivity; [|exact Hfit].
  apply N.pow_le_mono_r; [lia|]. rewrite L. unfold mfun. pose proof uv. destruct (Nat.odd i); lia.
Qed.
Definition enc1 := es radix (NUM radix) (STR radix) (F1b b) mfun.
Definition dec1 := ds radix (NUM radix) (STR radix) (F1b b) mfun.
Definition Rel1 (i : nat) (s : fstate) (t : list N * list N) : Prop :=
  fst s = t /\ wf radix mfun i t /\ Qok (snd s).
Lemma u_pos : (u =? 0) = false.
Proof. apply Nat.eqb_neq. pose proof uv. lia. Qed.
Lemma radix_nz : (radix <> 0)%N. Proof. lia. Qed.
Lemma fe_radix : n_radix n = radix. Proof. now rewrite setup_eq. Qed.
Lemma fe_u : n_u n = u. Proof. now rewrite setup_eq. Qed.
Lemma fe_v : n_v n = v. Proof. now rewrite setup_eq. Qed.
Lemma fe_qu : n_qu n = (radix ^ N.of_nat u)%N. Proof. now rewrite setup_eq. Qed.
Lemma fe_qv : n_qv n = (radix ^ N.of_nat v)%N. Proof. now rewrite setup_eq. Qed.
Lemma fe_inlen : n_inlen n = inlen. Proof. now rewrite setup_eq. Qed.
Lemma enc_round_ok i s t : i < 256 -> Rel1 i s t ->
  exists s', ff1_enc_round E n s i = Ret s' /\ Rel1 (S i) s' (enc1 t i).
Proof.
  intros Hi (Es & W & Q). destruct s as [[A B] q]. cbn [fst snd] in *. subst t.
  pose proof (es_wf radix (NUM radix) (STR radix) (F1b b) mfun (length_STR radix) (fun k x => digits_STR radix k x radix_nz) mfun_SS i (A, B) W) as W'.
  destruct W as (D1 & D2 & L1 & L2). cbn [fst snd] in *.
  exists (enc1 (A, B) i, Qof i (NUM radix B)).
  split; [|repeat split; try apply Qof_ok; apply W'].
  unfold ff1_enc_round. rewrite !fe_radix, !fe_u, !fe_v, !fe_qu, !fe_qv, !fe_inlen. cbv zeta. fold (mfun i). rewrite mfun_compl.
  rewrite !str2num_NUM. rewrite (firstn_all2 B) by lia. rewrite (firstn_all2 A) by lia. rewrite Q_step by auto.
  destruct (N.ltb_spec (NUM radix B) (256 ^ N.of_nat b)) as [_|G].
  2: { pose proof (fits_half (S i) B D2 L2). lia. }
  cbn [obind]. rewrite F_step by auto. rewrite u_pos, mfun_q, num2str_STR by apply radix_nz. reflexivity.
Qed.
Lemma dec_round_ok i s t : i < 256 -> Rel1 (S i) s t ->
  exists s', ff1_dec_round E n s i = Ret s' /\ Rel1 i s' (dec1 t i).
Proof.
  intros Hi (Es & W & Q). destruct s as [[A B] q]. cbn [fst snd] in *. subst t.
  pose proof (ds_wf radix (NUM radix) (STR radix) (F1b b) mfun (length_STR radix) (fun k x => digits_STR radix k x radix_nz) i (A, B) W) as W'.
  destruct W as (D1 & D2 & L1 & L2). cbn [fst snd] in *. rewrite mfun_SS in L2.
  exists (dec1 (A, B) i, Qof i (NUM radix A)).
  split; [|repeat split; try apply Qof_ok; apply W'].
  unfold ff1_dec_round. rewrite !fe_radix, !fe_u, !fe_v, !fe_qu, !fe_qv, !fe_inlen. cbv zeta. fold (mfun i). rewrite mfun_compl.
  rewrite !str2num_NUM. rewrite (firstn_all2 B) by lia. rewrite (firstn_all2 A) by lia. rewrite Q_step by auto.
  destruct (N.ltb_spec (NUM radix A) (256 ^ N.of_nat b)) as [_|G].
  2: { pose proof (fits_half (S i) A D1 L1). lia. }
  cbn [obind]. rewrite F_step by auto. rewrite u_pos, mfun_q, num2str_STR by apply radix_nz. reflexivity.
Qed.
(** the whole loops *)
Lemma sizes_ok : ff1_sizes n = false.
Proof.
  unfold ff1_sizes. rewrite fe_inlen. rewrite !orb_false_iff. split; [split|].
  - apply Nat.eqb_neq. lia.
  - apply N.leb_gt. exact Hbig.
  - apply N.leb_gt. rewrite setup_eq. cbn [n_Qlen]. pose proof pad_lt. change (2 ^ 31)%N with 2147483648%N in *. lia.
Qed.
Lemma assert_iff : ff1_assert n = negb ((length T =? 0) && (pad =? 0)).
Proof.
  unfold ff1_assert. rewrite setup_eq. cbn [n_t n_pad n_Qlen]. pose proof pad_lt as PL. change (2 ^ 31)%N with 2147483648%N in *. 
  change (2 ^ 32)%N with 4294967296%N.
  destruct (Nat.eq_dec (length T + pad) 0) as [Z|Z].
  - assert (length T = 0) as -> by lia. assert (pad = 0) as -> by lia. cbn [Nat.eqb andb negb]. apply N.leb_gt.
    change (_ mod _)%N with 4294967295%N. lia.
  - assert (EB : (length T =? 0) && (pad =? 0) = false) by (apply andb_false_iff; rewrite !Nat.eqb_neq; lia).
    rewrite EB. cbn [negb]. apply N.leb_le.
    assert (EM : ((N.of_nat (length T) + N.of_nat pad + 4294967296 - 1) mod 4294967296 = N.of_nat (length T) + N.of_nat pad - 1)%N)
      by (symmetry; apply (N.mod_unique _ _ 1); lia).
    rewrite EM. lia.
Qed.
Lemma pad_zero : (pad =? 0) = ((length T + b + 1) mod 16 =? 0).
Proof.
  pose proof pad_mod as PM. pose proof pad_lt as PL. apply Bool.eq_iff_eq_true. rewrite !Nat.eqb_eq. split; intros H.
  - rewrite H in PM. replace (length T + b + 1) with (length T + 0 + 1 + b) by lia. exact PM.
  - pose proof (Nat.div_mod (length T + pad + 1 + b) 16 ltac:(lia)). pose proof (Nat.div_mod (length T + b + 1) 16 ltac:(lia)). lia.
Qed.
Lemma Q0_ok junk : Qok (ff1_Q0 c n junk).
Proof.
  unfold ff1_Q0. rewrite setup_eq. cbn [n_t n_pad n_b]. unfold c. cbn [f_tweak]. rewrite firstn_all.
  assert (LJ : length (firstn (1 + b) (junk ++ repeat 0%N (1 + b))) = 1 + b) by (rewrite firstn_length, app_length, repeat_length; lia).
  split.
  - rewrite !app_length, repeat_length, LJ. lia.
  - rewrite app_assoc, firstn_app. replace (length T + pad - length (T ++ repeat 0%N pad)) with 0 by (rewrite app_length, repeat_length; lia).
    cbn [firstn]. rewrite app_nil_r. apply firstn_all2. rewrite app_length, repeat_length. lia.
Qed.
Definition halves (X : list N) : list N * list N := (firstn u X, skipn u X).
Definition join (s : list N * list N) : list N := fst s ++ snd s.
Lemma halves_wf X : digits radix X -> length X = inlen -> wf radix mfun 0 (halves X) /\ wf radix mfun 10 (halves X).
Proof.
  intros D L. pose proof uv. unfold wf, halves, mfun. cbn [fst snd Nat.odd Nat.even negb].
  rewrite firstn_length, skipn_length, L. repeat split; auto using digits_firstn, digits_skipn; lia.
Qed.
Lemma join_halves X : join (halves X) = X. Proof. apply firstn_skipn. Qed.
Lemma halves_join s : length (fst s) = u -> halves (join s) = s.
Proof.
  intros L. destruct s as [A B]. unfold halves, join. cbn [fst snd] in *. rewrite <- L. f_equal.
  - rewrite firstn_app, Nat.sub_diag, firstn_all. cbn [firstn]. apply app_nil_r.
  - rewrite skipn_app, Nat.sub_diag, skipn_all. reflexivity.
Qed.
Definition enc_all (X : list N) : list N := join (fold_left enc1 (seq 0 10) (halves X)).
Definition dec_all (X : list N) : list N := join (fold_left dec1 (rev (seq 0 10)) (halves X)).
Lemma enc_all_ok X : digits radix X -> length X = inlen ->
  digits radix (enc_all X) /\ length (enc_all X) = inlen /\ dec_all (enc_all X) = X.
Proof.
  intros D L. destruct (halves_wf X D L) as [W _].
  pose proof (es_fold_wf radix (NUM radix) (STR radix) (F1b b) mfun (length_STR radix) (fun k x => digits_STR radix k x radix_nz) mfun_SS 10 0 _ W) as W'.
  fold enc1 in W'. unfold dec_all, enc_all. set (s := fold_left enc1 (seq 0 10) (halves X)) in *.
  assert (Ls : length (fst s) = u) by apply W'. assert (Ls2 : length (snd s) = v) by apply W'.
  split; [|split].
  - apply digits_app. split; apply W'.
  - unfold join. rewrite app_length, Ls, Ls2. apply uv.
  - rewrite halves_join by auto. unfold s, dec1, enc1. 
    rewrite (fold_ds_es radix (NUM radix) (STR radix) (F1b b) mfun radix_nz (length_STR radix) (fun k x => digits_STR radix k x radix_nz)
      (NUM_bound radix) (fun X => STR_NUM radix X radix_nz) (fun k x => NUM_STR radix k x radix_nz) mfun_SS) by exact W.
    apply join_halves.
Qed.
Lemma dec_all_ok X : digits radix X -> length X = inlen ->
  digits radix (dec_all X) /\ length (dec_all X) = inlen /\ enc_all (dec_all X) = X.
Proof.
  intros D L. destruct (halves_wf X D L) as [_ W].
  pose proof (ds_fold_wf radix (NUM radix) (STR radix) (F1b b) mfun (length_STR radix) (fun k x => digits_STR radix k x radix_nz) 10 0 _ W) as W'.
  fold dec1 in W'. unfold dec_all, enc_all. set (s := fold_left dec1 (rev (seq 0 10)) (halves X)) in *.
  assert (Ls : length (fst s) = u) by apply W'. assert (Ls2 : length (snd s) = v) by apply W'.
  split; [|split].
  - apply digits_app. split; apply W'.
  - unfold join. rewrite app_length, Ls, Ls2. apply uv.
  - rewrite halves_join by auto. unfold s, dec1, enc1. 
    rewrite (fold_es_ds radix (NUM radix) (STR radix) (F1b b) mfun radix_nz (length_STR radix) (fun k x => digits_STR radix k x radix_nz)
      (NUM_bound radix) (fun X => STR_NUM radix X radix_nz) (fun k x => NUM_STR radix k x radix_nz) mfun_SS) by exact W.
    apply join_halves.
Qed.
Lemma encrypt_ok junk s : numeral_string radix s -> length s = inlen -> ff1_assert n = true ->
  ff1_encrypt E clog c junk s = Ret (map inverse_map_char (enc_all (map digit_of s)) ++ [0%N]).
Proof.
  intros V L HA. destruct (map_chars_valid radix s Hradix V) as (M1 & M2 & _).
  unfold ff1_encrypt, ff1_run. rewrite L. fold n. rewrite sizes_ok, HA. cbn [negb]. cbv zeta. rewrite M1.
  set (X := map digit_of s) in *. assert (LX : length X = inlen) by (unfold X; now rewrite map_length).
  destruct (halves_wf X M2 LX) as [W _].
  destruct (ofold_enc (ff1_enc_round E n) enc1 Rel1 256 enc_round_ok 10 0 (halves X, ff1_Q0 c n junk) (halves X)) as (s' & E1 & E2); [lia| |].
  - split; [reflexivity|]. split; [exact W|apply Q0_ok].
  - rewrite fe_u. unfold halves in E1. rewrite E1. cbn [obind]. destruct s' as [[A B] q]. destruct E2 as (E2 & _). cbn [fst] in E2.
    unfold inverse_map_chars, enc_all, join. rewrite <- E2. reflexivity.
Qed.
Lemma decrypt_ok junk s : numeral_string radix s -> length s = inlen -> ff1_assert n = true ->
  ff1_decrypt E clog c junk s = Ret (map inverse_map_char (dec_all (map digit_of s)) ++ [0%N]).
Proof.
  intros V L HA. destruct (map_chars_valid radix s Hradix V) as (M1 & M2 & _).
  unfold ff1_decrypt, ff1_run. rewrite L. fold n. rewrite sizes_ok, HA. cbn [negb]. cbv zeta. rewrite M1.
  set (X := map digit_of s) in *. assert (LX : length X = inlen) by (unfold X; now rewrite map_length).
  destruct (halves_wf X M2 LX) as [_ W].
  destruct (ofold_dec (ff1_dec_round E n) dec1 Rel1 256 dec_round_ok 10 0 (halves X, ff1_Q0 c n junk) (halves X)) as (s' & E1 & E2); [lia| |].
  - split; [reflexivity|]. split; [exact W|apply Q0_ok].
  - rewrite fe_u. unfold halves in E1. rewrite E1. cbn [obind]. destruct s' as [[A B] q]. destruct E2 as (E2 & _). cbn [fst] in E2.
    unfold inverse_map_chars, dec_all, join. rewrite <- E2. reflexivity.
Qed.

(** the standard's loops *)
Lemma std_enc X : clog radix v = ceil_log radix v -> length X = inlen -> FF1_Encrypt E radix T X = enc_all X.
Proof.
  intros HC L. unfold FF1_Encrypt. cbv zeta. rewrite L. unfold enc_all, join, halves. fold u.
  set (h := (firstn u X, skipn u X)). 
  assert (ST : forall l s, fold_left (FF1_enc_step E radix T inlen) l s = fold_left enc1 l s).
  { induction l as [|i l IH]; intros s; [reflexivity|]. cbn [fold_left]. rewrite IH. f_equal. destruct s as [A B].
    unfold FF1_enc_step, enc1, es, mfun. cbn [fst snd]. rewrite <- Nat.negb_odd. fold u. fold v.
    unfold F1b, b. rewrite HC. destruct (Nat.odd i); reflexivity. }
  rewrite ST. change [0;1;2;3;4;5;6;7;8;9] with (seq 0 10). destruct (fold_left enc1 (seq 0 10) h) as [A B]. reflexivity.
Qed.
Lemma std_dec X : clog radix v = ceil_log radix v -> length X = inlen -> FF1_Decrypt E radix T X = dec_all X.
Proof.
  intros HC L. unfold FF1_Decrypt. cbv zeta. rewrite L. unfold dec_all, join, halves. fold u.
  set (h := (firstn u X, skipn u X)). 
  assert (ST : forall l s, fold_left (FF1_dec_step E radix T inlen) l s = fold_left dec1 l s).
  { induction l as [|i l IH]; intros s; [reflexivity|]. cbn [fold_left]. rewrite IH. f_equal. destruct s as [A B].
    unfold FF1_dec_step, dec1, ds, mfun, bn_mod_sub. cbn [fst snd]. rewrite <- Nat.negb_odd. fold u. fold v.
    unfold F1b, b. rewrite HC. destruct (Nat.odd i); reflexivity. }
  rewrite ST. change [9;8;7;6;5;4;3;2;1;0] with (rev (seq 0 10)). destruct (fold_left dec1 (rev (seq 0 10)) h) as [A B]. reflexivity.
Qed.

(** FF1-CMAC *)
Definition cpart (cnj : nat -> list N) (i : nat) (X : list N) : list N :=
  let r := ff1_R E n (Qof i (NUM radix X)) in cmac_part E i (fst r) (cmac_cn cnj i r).
Definition encm cnj := esm radix (NUM radix) (STR radix) (F1b b) mfun (cpart cnj).
Definition decm cnj := dsm radix (NUM radix) (STR radix) (F1b b) mfun (cpart cnj).
Definition RelC (i : nat) (s : cstate) (t : list N * list N * list N) : Prop :=
  Rel1 i (fst s) (fst t) /\ snd s = snd t.
Lemma cmac_enc_round_ok cnj i s t : i < 256 -> RelC i s t ->
  exists s', cmac_enc_round E cnj n s i = Ret s' /\ RelC (S i) s' (encm cnj t i).
Proof.
  intros Hi [(Es & W & Q) Em]. destruct s as [[[A B] q] mac]. destruct t as [t1 t2]. cbn [fst snd] in *. subst t1 t2.
  pose proof (es_wf radix (NUM radix) (STR radix) (F1b b) mfun (length_STR radix) (fun k x => digits_STR radix k x radix_nz) mfun_SS i (A, B) W) as W'.
  destruct W as (D1 & D2 & L1 & L2). cbn [fst snd] in *.
  exists ((enc1 (A, B) i, Qof i (NUM radix B)), xorl mac (cpart cnj i B)).
  split; [|split; [repeat split; try apply Qof_ok; apply W'|reflexivity]].
  unfold cmac_enc_round. rewrite !fe_radix, !fe_u, !fe_v, !fe_qu, !fe_qv, !fe_inlen. cbv zeta. fold (mfun i). rewrite mfun_compl.
  rewrite !str2num_NUM. rewrite (firstn_all2 B) by lia. rewrite (firstn_all2 A) by lia. rewrite Q_step by auto.
  destruct (N.ltb_spec (NUM radix B) (256 ^ N.of_nat b)) as [_|G].
  2: { pose proof (fits_half (S i) B D2 L2). lia. }
  cbn [obind]. rewrite F_step by auto. rewrite u_pos, mfun_q, num2str_STR by apply radix_nz. reflexivity.
Qed.
Lemma cmac_dec_round_ok cnj i s t : i < 256 -> RelC (S i) s t ->
  exists s', cmac_dec_round E cnj n s i = Ret s' /\ RelC i s' (decm cnj t i).
Proof.
  intros Hi [(Es & W & Q) Em]. destruct s as [[[A B] q] mac]. destruct t as [t1 t2]. cbn [fst snd] in *. subst t1 t2.
  pose proof (ds_wf radix (NUM radix) (STR radix) (F1b b) mfun (length_STR radix) (fun k x => digits_STR radix k x radix_nz) i (A, B) W) as W'.
  destruct W as (D1 & D2 & L1 & L2). cbn [fst snd] in *. rewrite mfun_SS in L2.
  exists ((dec1 (A, B) i, Qof i (NUM radix A)), xorl mac (cpart cnj i A)).
  split; [|split; [repeat split; try apply Qof_ok; apply W'|reflexivity]].
  unfold cmac_dec_round. rewrite !fe_radix, !fe_u, !fe_v, !fe_qu, !fe_qv, !fe_inlen. cbv zeta. fold (mfun i). rewrite mfun_compl.
  rewrite !str2num_NUM. rewrite (firstn_all2 B) by lia. rewrite (firstn_all2 A) by lia. rewrite Q_step by auto.
  destruct (N.ltb_spec (NUM radix A) (256 ^ N.of_nat b)) as [_|G].
  2: { pose proof (fits_half (S i) A D1 L1). lia. }
  cbn [obind]. rewrite F_step by auto. rewrite u_pos, mfun_q, num2str_STR by apply radix_nz. reflexivity.
Qed.
Definition etag cnj X := snd (fold_left (encm cnj) (seq 0 10) (halves X, repeat 0%N 16)).
Definition dtag cnj X := snd (fold_left (decm cnj) (rev (seq 0 10)) (halves X, repeat 0%N 16)).
Lemma cmac_encrypt_ok cnj junk s : numeral_string radix s -> length s = inlen -> ff1_assert n = true ->
  ff1_cmac_encrypt E clog cnj c junk s =
    Ret (map inverse_map_char (enc_all (map digit_of s)) ++ [0%N], etag cnj (map digit_of s)).
Proof.
  intros V L HA. destruct (map_chars_valid radix s Hradix V) as (M1 & M2 & _).
  unfold ff1_cmac_encrypt, cmac_run. rewrite L. fold n. rewrite sizes_ok, HA. cbn [negb]. cbv zeta. rewrite M1.
  set (X := map digit_of s) in *. assert (LX : length X = inlen) by (unfold X; now rewrite map_length).
  destruct (halves_wf X M2 LX) as [W _].
  destruct (ofold_enc (cmac_enc_round E cnj n) (encm cnj) RelC 256 (cmac_enc_round_ok cnj) 10 0
     ((halves X, ff1_Q0 c n junk), repeat 0%N 16) (halves X, repeat 0%N 16)) as (s' & E1 & E2); [lia| |].
  - split; [|reflexivity]. split; [reflexivity|]. split; [exact W|apply Q0_ok].
  - rewrite fe_u. unfold halves in E1. rewrite E1. cbn [obind]. destruct s' as [[[A B] q] mac]. destruct E2 as [(E2 & _) E3]. cbn [fst snd] in E2, E3.
    unfold encm in E2. rewrite (esm_fst radix (NUM radix) (STR radix) (F1b b) mfun (cpart cnj)) in E2. cbn [fst] in E2. fold (halves X) in E2, E3. fold enc1 in E2.
    unfold inverse_map_chars, enc_all, join, etag. rewrite <- E2, <- E3. reflexivity.
Qed.
Lemma cmac_decrypt_ok cnj junk s : numeral_string radix s -> length s = inlen -> ff1_assert n = true ->
  ff1_cmac_decrypt E clog cnj c junk s =
    Ret (map inverse_map_char (dec_all (map digit_of s)) ++ [0%N], dtag cnj (map digit_of s)).
Proof.
  intros V L HA. destruct (map_chars_valid radix s Hradix V) as (M1 & M2 & _).
  unfold ff1_cmac_decrypt, cmac_run. rewrite L. fold n. rewrite sizes_ok, HA. cbn [negb]. cbv zeta. rewrite M1.
  set (X := map digit_of s) in *. assert (LX : length X = inlen) by (unfold X; now rewrite map_length).
  destruct (halves_wf X M2 LX) as [_ W].
  destruct (ofold_dec (cmac_dec_round E cnj n) (decm cnj) RelC 256 (cmac_dec_round_ok cnj) 10 0
     ((halves X, ff1_Q0 c n junk), repeat 0%N 16) (halves X, repeat 0%N 16)) as (s' & E1 & E2); [lia| |].
  - split; [|reflexivity]. split; [reflexivity|]. split; [exact W|apply Q0_ok].
  - rewrite fe_u. unfold halves in E1. rewrite E1. cbn [obind]. destruct s' as [[[A B] q] mac]. destruct E2 as [(E2 & _) E3]. cbn [fst snd] in E2, E3.
    unfold decm in E2. rewrite (dsm_fst radix (NUM radix) (STR radix) (F1b b) mfun (cpart cnj)) in E2. cbn [fst] in E2. fold (halves X) in E2, E3. fold dec1 in E2.
    unfold inverse_map_chars, dec_all, join, dtag. rewrite <- E2, <- E3. reflexivity.
Qed.
Lemma tags_same cnj X : digits radix X -> length X = inlen -> dtag cnj (enc_all X) = etag cnj X.
Proof.
  intros D L. destruct (halves_wf X D L) as [W _].
  pose proof (es_fold_wf radix (NUM radix) (STR radix) (F1b b) mfun (length_STR radix) (fun k x => digits_STR radix k x radix_nz) mfun_SS 10 0 _ W) as W'.
  fold enc1 in W'. unfold dtag, etag, enc_all. rewrite halves_join by apply W'. unfold decm, encm, enc1.
  apply (mac_same radix (NUM radix) (STR radix) (F1b b) mfun radix_nz (length_STR radix) (fun k x => digits_STR radix k x radix_nz)
      (NUM_bound radix) (fun X => STR_NUM radix X radix_nz) (fun k x => NUM_STR radix k x radix_nz) mfun_SS); exact W.
Qed.
(** cn_1 is set when Q has at least two blocks, and only then *)
Lemma prf_snd_some Qs : forall R pr, 2 <= length Qs -> exists cn, snd (prf_loop E R pr Qs) = Some cn.
Proof.
  induction Qs as [|q0 Qs IH]; intros R pr H; [cbn in H; lia|]. cbn [prf_loop]. destruct Qs as [|q1 [|q2 Qs]].
  - cbn in H; lia.
  - cbn. eauto.
  - apply IH. cbn [length] in *. lia.
Qed.
Lemma cn_indep cnj cnj' i X : 16 <= length T + b -> cpart cnj i X = cpart cnj' i X.
Proof.
  intros H. unfold cpart, cmac_cn. 
  destruct (prf_snd_some (firstn (n_Qlen n / 16) (chunks 16 (Qof i (NUM radix X)))) (E (n_P n)) None) as [cn EC].
  - destruct (Qof_ok i (NUM radix X)) as [L _]. rewrite firstn_length, length_chunks_aligned by (rewrite L; apply pad_mod).
    rewrite L. rewrite setup_eq. cbn [n_Qlen]. rewrite Nat.min_id. pose proof pad_mod.
    pose proof (Nat.div_mod (length T + pad + 1 + b) 16 ltac:(lia)). lia.
  - unfold ff1_R. cbv zeta. rewrite EC. reflexivity.
Qed.
Lemma cn_short cnj i X : length T + b <= 15 -> cpart cnj i X = cmac_part E i (fst (ff1_R E n (Qof i (NUM radix X)))) (cnj i).
Proof.
  intros H. unfold cpart, cmac_cn. destruct (Qof_ok i (NUM radix X)) as [L _].
  assert (L16 : length T + pad + 1 + b = 16).
  { pose proof pad_mod. pose proof pad_lt. pose proof (Nat.div_mod (length T + pad + 1 + b) 16 ltac:(lia)). lia. }
  unfold ff1_R at 2. rewrite setup_eq. cbn [n_Qlen n_P]. rewrite L16 in *. change (16 / 16) with 1.
  assert (LC : length (chunks 16 (Qof i (NUM radix X))) = 1) by (rewrite length_chunks_aligned; rewrite L; reflexivity).
  destruct (chunks 16 (Qof i (NUM radix X))) as [|q0 [|q1 Qs]]; try discriminate. reflexivity.
Qed.
Lemma etag_indep cnj cnj' X : 16 <= length T + b -> etag cnj X = etag cnj' X.
Proof.
  intros H. unfold etag. generalize (halves X, repeat 0%N 16). generalize (seq 0 10). induction l as [|i l IH]; intros s; [reflexivity|].
  cbn [fold_left]. rewrite IH. do 2 f_equal. unfold encm, esm. now rewrite (cn_indep cnj cnj').
Qed.
Lemma dtag_indep cnj cnj' X : 16 <= length T + b -> dtag cnj X = dtag cnj' X.
Proof.
  intros H. unfold dtag. generalize (halves X, repeat 0%N 16). generalize (rev (seq 0 10)). induction l as [|i l IH]; intros s; [reflexivity|].
  cbn [fold_left]. rewrite IH. do 2 f_equal. unfold decm, dsm. now rewrite (cn_indep cnj cnj').
Qed.
Lemma encm_pull cnj l : forall s M x, snd (fold_left (encm cnj) l (s, xorl M x)) = xorl (snd (fold_left (encm cnj) l (s, M))) x.
Proof.
  induction l as [|i l IH]; intros s M x; [reflexivity|]. cbn [fold_left]. unfold encm at 2 4. unfold esm. cbn [fst snd].
  rewrite xorl_swap. apply IH.
Qed.

(** ... and then the tag depends on what the array cn_1 happens to hold *)
Definition cn_zero : nat -> list N := fun _ => repeat 0%N 16.
Definition cn_one : nat -> list N := fun i => if i =? 0 then 1%N :: repeat 0%N 15 else repeat 0%N 16.
Lemma bytes_shift l : bytes l -> bytes (left_shift_buffer l) /\ length (left_shift_buffer l) = length l.
Proof.
  unfold left_shift_buffer. intros B.
  assert (G : let s := fold_right (fun x (s : list N * N) => let '(out, overflow) := s in
         (N.lor ((N.shiftl x 1) mod 256) overflow :: out, if (N.land x 0x80 =? 0)%N then 0%N else 1%N)) ([], 0%N) l in
         bytes (fst s) /\ (snd s < 2)%N /\ length (fst s) = length l); [|cbv zeta in G; tauto].
  induction B as [|x l Hx HB IH]; [repeat split; constructor|]. cbv zeta in *. cbn [fold_right].
  destruct (fold_right _ _ l) as [o ov]. cbn [fst snd] in *. destruct IH as (I1 & I2 & I3). split; [|split].
  - constructor; auto. unfold byte. change 256%N with (2 ^ 8)%N. apply lor_lt; [apply N.mod_lt; discriminate|]. change (2 ^ 8)%N with 256%N. lia.
  - destruct (N.land x 0x80 =? 0)%N; lia.
  - cbn [length]. lia.
Qed.
Lemma block_K1 : block16 (cmac_K1 E).
Proof.
  unfold cmac_K1. destruct (HE _ block16_zeros) as [L B]. destruct (bytes_shift _ B) as [B' L']. rewrite L in L'. cbv zeta.
  destruct (N.land _ _ =? 0)%N; [split; auto|]. split; [now rewrite length_set|]. apply bytes_set; auto. apply byte_lxor; [now apply bytes_get|]. now unfold byte.
Qed.
Lemma R_block i x : i < 256 -> block16 (fst (ff1_R E n (Qof i x))).
Proof.
  intros Hi. rewrite R_step. apply PRF_block.
  - rewrite app_length. destruct (Qof_ok i x) as [L _]. rewrite L, (proj1 bytes_std_P).
    rewrite <- Nat.add_mod_idemp_r by lia. rewrite pad_mod. reflexivity.
  - apply bytes_app. split; [apply bytes_std_P|]. unfold Qof. repeat (apply bytes_app; split); auto.
    + now apply bytes_repeat.
    + constructor; [|constructor]. unfold byte. lia.
    + apply bytes_N_to_be.
Qed.
Definition m_last (i : nat) (R cn : list N) : list N :=
  map (fun j => N.lxor (N.lxor (get (cmac_K1 E) j) (get R i)) (get cn i)) (seq 0 16).
Lemma part_last i R cn : cmac_part E i R cn = E (m_last i R cn). Proof. reflexivity. Qed.
Lemma m_last_0 R cn cn' : m_last 0 R cn = m_last 0 R cn' -> get cn 0 = get cn' 0.
Proof.
  unfold m_last. generalize (cmac_K1 E). intros K HX. cbn [seq map] in HX. injection HX as HX _.
  set (k := N.lxor (get K 0) (get R 0)) in HX. clearbody k.
  apply (f_equal (N.lxor k)) in HX. now rewrite <- !N.lxor_assoc, N.lxor_nilpotent, !N.lxor_0_l in HX.
Qed.
Lemma m_last_block i R cn : bytes R -> bytes cn -> block16 (m_last i R cn).
Proof.
  intros BR BC. pose proof block_K1 as BK. split; [reflexivity|]. apply Forall_forall. intros x Hx.
  apply in_map_iff in Hx as (j & <- & _). repeat apply byte_lxor; apply bytes_get; auto. apply BK.
Qed.
Lemma cn_bytes i : bytes (cn_zero i) /\ bytes (cn_one i).
Proof. unfold cn_zero, cn_one. split; [|destruct (i =? 0)]; repeat constructor. Qed.
(** *** the value of the tag *)
Lemma shift_value l : bytes l ->
  let s := fold_right (fun x (s : list N * N) => let '(out, overflow) := s in
         (N.lor ((N.shiftl x 1) mod 256) overflow :: out, if (N.land x 0x80 =? 0)%N then 0%N else 1%N)) ([], 0%N) l in
  (snd s < 2 /\ length (fst s) = length l /\ snd s * 256 ^ N.of_nat (length l) + be_to_N (fst s) = 2 * be_to_N l)%N.
Proof.
  induction 1 as [|x l Hx HB IH]; [repeat split; reflexivity|]. cbv zeta in *. cbn [fold_right].
  destruct (fold_right _ _ l) as [o ov]. cbn [fst snd] in *. destruct IH as (I2 & I3 & I4).
  assert (SW : forallb (fun k => let x := N.of_nat k in
     ((if N.land x 0x80 =? 0 then 0 else 1) * 256 + N.lor (N.shiftl x 1 mod 256) 0 =? 2 * x)%N &&
     ((if N.land x 0x80 =? 0 then 0 else 1) * 256 + N.lor (N.shiftl x 1 mod 256) 1 =? 2 * x + 1)%N) (seq 0 256) = true) by (vm_compute; reflexivity).
  rewrite forallb_forall in SW. specialize (SW (N.to_nat x)). cbv zeta in SW. rewrite N2Nat.id in SW.
  unfold byte in Hx. specialize (SW ltac:(apply in_seq; lia)). apply andb_true_iff in SW as [S0 S1]. apply N.eqb_eq in S0, S1.
  assert (ST : ((if N.land x 0x80 =? 0 then 0 else 1) * 256 + N.lor (N.shiftl x 1 mod 256) ov = 2 * x + ov)%N).
  { assert (O : (ov = 0 \/ ov = 1)%N) by lia. destruct O as [->| ->]; [rewrite S0; lia|exact S1]. }
  split; [destruct (_ =? _)%N; lia|]. split; [cbn [length]; lia|].
  rewrite !be_to_N_cons, I3. cbn [length]. rewrite Nat2N.inj_succ, N.pow_succ_r'. set (p := (256 ^ N.of_nat (length l))%N) in *.
  set (hb := (if N.land x 0x80 =? 0 then 0 else 1)%N) in *. set (lb := N.lor _ _) in *. clearbody p hb lb. clear - ST I4. nia.
Qed.
Lemma top_bit x : byte x -> (N.land x 0x80 =? 0)%N = (x <? 128)%N.
Proof.
  intros Hx. assert (SW : forallb (fun k => let x := N.of_nat k in Bool.eqb (N.land x 0x80 =? 0)%N (x <? 128)%N) (seq 0 256) = true) by (vm_compute; reflexivity).
  rewrite forallb_forall in SW. specialize (SW (N.to_nat x)). cbv zeta in SW. rewrite N2Nat.id in SW. unfold byte in Hx.
  apply Bool.eqb_prop, SW, in_seq. lia.
Qed.
Lemma K1_subkey : cmac_K1 E = cmac_subkey E.
Proof.
  unfold cmac_K1, cmac_subkey. destruct (HE _ block16_zeros) as [L B]. set (K := E (repeat 0%N 16)) in *. clearbody K. cbv zeta.
  pose proof (shift_value K B) as (V1 & V2 & V3). fold (left_shift_buffer K) in V2, V3. destruct (bytes_shift K B) as [B' _].
  rewrite L in V2, V3. change (256 ^ N.of_nat 16)%N with (2 ^ 128)%N in V3.
  pose proof (be_to_N_bound _ B') as BB. rewrite V2 in BB. change (256 ^ N.of_nat 16)%N with (2 ^ 128)%N in BB.
  assert (EM : be_to_N (left_shift_buffer K) = ((2 * be_to_N K) mod 2 ^ 128)%N).
  { rewrite <- V3, N.add_comm, N.mod_add by discriminate. now rewrite N.mod_small. }
  assert (ET : (N.land (get K 0) 0x80 =? 0)%N = negb (2 ^ 127 <=? be_to_N K)%N).
  { rewrite top_bit by now apply bytes_get. destruct K as [|x K]; [discriminate|]. injection L as L. inversion B; subst.
    pose proof (be_to_N_bound K ltac:(auto)) as BK. rewrite be_to_N_cons, L in *. change (get (x :: K) 0) with x.
    change (256 ^ N.of_nat 15)%N with (2 ^ 120)%N in *. change (2 ^ 127)%N with (128 * 2 ^ 120)%N. set (p := (2 ^ 120)%N) in *. clearbody p.
    rewrite <- N.ltb_antisym. destruct (N.ltb_spec x 128), (N.ltb_spec (x * p + be_to_N K) (128 * p)); try reflexivity; exfalso; nia. }
  rewrite ET. rewrite <- EM. assert (NB : N_to_be 16 (be_to_N (left_shift_buffer K)) = left_shift_buffer K) by (rewrite <- V2 at 1; now apply N_to_be_to_N).
  destruct (2 ^ 127 <=? be_to_N K)%N; cbn [negb].
  - rewrite N_to_be_lxor, NB. change (N_to_be 16 0x87) with (repeat 0%N 15 ++ [0x87%N]). clear - V2.
    destruct (exists_last (l := left_shift_buffer K)) as (l & x & E0); [intros E0; rewrite E0 in V2; discriminate|].
    rewrite E0 in *. rewrite app_length in V2. cbn [length] in V2. assert (L15 : length l = 15) by lia.
    rewrite <- L15. unfold get. rewrite app_nth2, Nat.sub_diag by lia. cbn [nth]. rewrite set_app_mid, xorl_app by now rewrite repeat_length.
    rewrite xorl_zeros_r by lia. reflexivity.
  - now rewrite N.lxor_0_r, NB.
Qed.
Lemma prf_snd Qs q : forall R pr, Qs <> [] -> snd (prf_loop E R pr (Qs ++ [q])) = Some (fold_left (fun Y X => E (xorl Y X)) Qs R).
Proof.
  induction Qs as [|q0 Qs IH]; intros R pr H; [contradiction|]. cbn [app prf_loop fold_left]. rewrite (xorl_comm R q0). destruct Qs as [|q1 Qs].
  - reflexivity.
  - rewrite <- (IH (E (xorl q0 R)) match Qs with [] => pr | _ => pr end) by discriminate. destruct Qs as [|q2 Qs]; reflexivity.
Qed.
Lemma chunks_snoc (l x : list N) : length l mod 16 = 0 -> length x = 16 -> chunks 16 (l ++ x) = chunks 16 l ++ [x].
Proof.
  intros H Hx. remember (length l / 16) as k eqn:Hk. revert l H Hk. induction k as [|k IH]; intros l H Hk.
  - pose proof (Nat.div_mod (length l) 16 ltac:(lia)) as DM. destruct l; [|cbn [length] in *; lia].
    cbn [app]. rewrite <- (app_nil_r x). rewrite chunks_app by (auto; lia). rewrite app_nil_r. reflexivity.
  - pose proof (Nat.div_mod (length l) 16 ltac:(lia)) as DM. rewrite <- (firstn_skipn 16 l), <- app_assoc.
    assert (LF : length (firstn 16 l) = 16) by (rewrite firstn_length; lia).
    rewrite (chunks_app 16 (firstn 16 l) (skipn 16 l ++ x)) by (auto; lia). rewrite (chunks_app 16 (firstn 16 l) (skipn 16 l)) by (auto; lia). cbn [app]. f_equal.
    assert (LS : length (skipn 16 l) = k * 16) by (rewrite skipn_length; lia).
    apply IH; rewrite LS; [apply Nat.mod_mul; lia|now rewrite Nat.div_mul by lia].
Qed.
Lemma firstn_chunks_last (M : list N) : length M mod 16 = 0 -> 16 <= length M ->
  chunks 16 M = chunks 16 (firstn (length M - 16) M) ++ [skipn (length M - 16) M].
Proof.
  intros H H16. rewrite <- chunks_snoc.
  - now rewrite firstn_skipn.
  - rewrite firstn_length, Nat.min_l by lia. pose proof (Nat.div_mod (length M) 16 ltac:(lia)).
    replace (length M - 16) with ((length M / 16 - 1) * 16) by lia. apply Nat.mod_mul. lia.
  - rewrite skipn_length. lia.
Qed.
Lemma cn_step cnj i x : 16 <= length T + b ->
  cmac_cn cnj i (ff1_R E n (Qof i x)) =
    let M := std_P radix inlen (length T) u ++ Qof i x in PRF E (firstn (length M - 16) M).
Proof.
  intros H. destruct (Qof_ok i x) as [L _]. cbv zeta. set (q := Qof i x) in *. clearbody q. destruct bytes_std_P as [LP _].
  set (P := std_P radix inlen (length T) u) in *.
  assert (HQ : length q mod 16 = 0) by (rewrite L; apply pad_mod).
  pose proof (Nat.div_mod (length q) 16 ltac:(lia)) as DM.
  assert (H32 : 32 <= length q) by lia.
  unfold cmac_cn, ff1_R. rewrite setup_eq. cbn [n_P n_Qlen]. fold P.
  rewrite firstn_all2 by (rewrite length_chunks_aligned by auto; rewrite L; lia).
  rewrite (firstn_chunks_last q) by (auto; lia).
  assert (NE : chunks 16 (firstn (length q - 16) q) <> []).
  { intros E0. apply (f_equal (@concat N)) in E0. rewrite concat_chunks in E0 by lia. apply (f_equal (@length N)) in E0.
    rewrite firstn_length, Nat.min_l in E0 by lia. cbn in E0. lia. }
  rewrite prf_snd by exact NE.
  rewrite app_length, LP. replace (16 + length q - 16) with (length P + (length q - 16)) by lia.
  rewrite firstn_app_2. unfold PRF. rewrite chunks_app by (auto; lia). cbn [fold_left]. rewrite xorl_zeros_l by lia. reflexivity.
Qed.
Lemma map_get_seq (f : N -> N) K : forall k, length K = k -> map (fun j => f (get K j)) (seq 0 k) = map f K.
Proof.
  intros k <-. rewrite <- (map_map (get K) f). f_equal. unfold get.
  induction K as [|x K IH]; [reflexivity|]. cbn [length seq map nth]. f_equal. rewrite <- seq_shift, map_map. exact IH.
Qed.
Lemma part_byte i R cn : cmac_part E i R cn = cmac_byte_part E (N.lxor (get R i) (get cn i)).
Proof.
  unfold cmac_part, cmac_byte_part. cbv zeta. f_equal. rewrite <- K1_subkey.
  rewrite <- (map_get_seq (N.lxor (N.lxor (get R i) (get cn i))) (cmac_K1 E) 16) by apply block_K1.
  apply map_ext. intros j. rewrite N.lxor_assoc. apply N.lxor_comm.
Qed.
Lemma cpart_std cnj i X : clog radix v = ceil_log radix v -> 16 <= length T + b -> 
  cpart cnj i X = cmac_byte_part E (cmac_byte E radix T inlen i X).
Proof.
  intros HC H. unfold cpart. cbv zeta. rewrite part_byte, cn_step by auto. cbv zeta. rewrite R_step.
  unfold cmac_byte, std_Q1, Qof. fold u. fold v. rewrite <- HC. reflexivity.
Qed.
Lemma etag_std cnj X : clog radix v = ceil_log radix v -> 16 <= length T + b -> length X = inlen ->
  etag cnj X = FF1_CMAC_tag E radix T X.
Proof.
  intros HC H L. unfold FF1_CMAC_tag. cbv zeta. rewrite L. unfold etag, halves. fold u.
  set (h := ((firstn u X, skipn u X), repeat 0%N 16)). clearbody h. change [0;1;2;3;4;5;6;7;8;9] with (seq 0 10).
  generalize (seq 0 10). intros l. f_equal. revert h. induction l as [|i l IH]; intros [[A B] M]; [reflexivity|]. cbn [fold_left]. rewrite IH. f_equal.
  unfold encm, esm, es. cbn [fst snd]. rewrite cpart_std by auto. f_equal.
  unfold FF1_enc_step, mfun. rewrite <- Nat.negb_odd. fold u. fold v.
  unfold F1b, b. rewrite HC. destruct (Nat.odd i); reflexivity.
Qed.
(** whatever the tweak, ten bytes determine it *)
Lemma cn_block cnj i x : i < 256 -> (forall i, bytes (cnj i)) -> bytes (cmac_cn cnj i (ff1_R E n (Qof i x))).
Proof.
  intros Hi HC. destruct (le_lt_dec 16 (length T + b)) as [H|H].
  - rewrite cn_step by auto. cbv zeta. pose proof pad_mod as PM. destruct (Qof_ok i x) as [L _].
    assert (LM : length (std_P radix inlen (length T) u ++ Qof i x) mod 16 = 0).
    { rewrite app_length, L, (proj1 bytes_std_P). rewrite <- Nat.add_mod_idemp_r by lia. rewrite PM. reflexivity. }
    assert (BM : bytes (std_P radix inlen (length T) u ++ Qof i x)).
    { apply bytes_app. split; [apply bytes_std_P|]. unfold Qof. repeat (apply bytes_app; split); auto.
      + now apply bytes_repeat.
      + constructor; [|constructor]. unfold byte. lia.
      + apply bytes_N_to_be. }
    set (M := _ ++ _) in *. clearbody M. apply PRF_block; [|now apply bytes_firstn].
    rewrite firstn_length, Nat.min_l by lia. pose proof (Nat.div_mod (length M) 16 ltac:(lia)) as DM.
    replace (length M - 16) with ((length M / 16 - 1) * 16) by lia. apply Nat.mod_mul. lia.
  - unfold cmac_cn. destruct (Qof_ok i x) as [L _].
    assert (L16 : length T + pad + 1 + b = 16).
    { pose proof pad_mod. pose proof pad_lt. pose proof (Nat.div_mod (length T + pad + 1 + b) 16 ltac:(lia)). lia. }
    unfold ff1_R. rewrite setup_eq. cbn [n_Qlen n_P]. rewrite L16 in *. change (16 / 16) with 1.
    assert (LC : length (chunks 16 (Qof i x)) = 1) by (rewrite length_chunks_aligned; rewrite L; reflexivity).
    destruct (chunks 16 (Qof i x)) as [|q0 [|q1 Qs]]; try discriminate. apply HC.
Qed.
Lemma etag_ten cnj X : (forall i, bytes (cnj i)) -> exists bs, length bs = 10 /\ bytes bs /\
  etag cnj X = fold_left xorl (map (cmac_byte_part E) bs) (repeat 0%N 16).
Proof.
  intros HC. assert (F : Forall (fun i => i < 256) (seq 0 10)) by (apply Forall_forall; intros i Hi; apply in_seq in Hi; lia).
  unfold etag. change 10 with (length (seq 0 10)) at 1. revert F. generalize (seq 0 10). intros l. generalize (repeat 0%N 16) (halves X).
  induction l as [|i l IH]; intros M s F; [exists []; repeat split; constructor|]. inversion F as [|? ? Hi F']; subst.
  cbn [fold_left]. unfold encm at 2. unfold esm at 1. cbn [fst snd].
  destruct (IH (xorl M (cpart cnj i (snd s))) (es radix (NUM radix) (STR radix) (F1b b) mfun s i) F') as (bs & Lb & Bb & Eb).
  exists (N.lxor (get (fst (ff1_R E n (Qof i (NUM radix (snd s))))) i) (get (cmac_cn cnj i (ff1_R E n (Qof i (NUM radix (snd s))))) i) :: bs).
  split; [cbn [length]; now rewrite Lb|]. split.
  - constructor; auto. apply byte_lxor; apply bytes_get; [apply R_block; auto|apply cn_block; auto].
  - cbn [map fold_left]. rewrite Eb. do 2 f_equal. unfold cpart. cbv zeta. apply part_byte.
Qed.
Local Opaque ff1_R F1b cmac_part ff1_setup.
Lemma etag_junk D X : (forall b, block16 b -> D (E b) = b) -> length T + b <= 15 -> etag cn_zero X <> etag cn_one X.
Proof.
  intros HD H. unfold etag. change (seq 0 10) with (0 :: seq 1 9). cbn [fold_left].
  set (st1 := es radix (NUM radix) (STR radix) (F1b b) mfun (halves X) 0).
  assert (E0 : encm cn_zero (halves X, repeat 0%N 16) 0 = (st1, xorl (repeat 0%N 16) (cpart cn_zero 0 (snd (halves X))))) by (unfold encm, esm, st1; cbn [fst snd]; reflexivity).
  assert (E1 : encm cn_one (halves X, repeat 0%N 16) 0 = (st1, xorl (repeat 0%N 16) (cpart cn_one 0 (snd (halves X))))) by (unfold encm, esm, st1; cbn [fst snd]; reflexivity).
  rewrite E0, E1, !encm_pull. clear E0 E1.
  assert (EQ : forall l s, Forall (fun i => i <> 0) l -> fold_left (encm cn_zero) l s = fold_left (encm cn_one) l s).
  { induction l as [|i l IH]; intros s F; [reflexivity|]. inversion F; subst. cbn [fold_left]. rewrite IH by auto. f_equal.
    unfold encm, esm. rewrite !cn_short by auto. do 3 f_equal. unfold cn_zero, cn_one. destruct (Nat.eqb_spec i 0); [contradiction|reflexivity]. }
  rewrite EQ by (repeat constructor; discriminate).
  assert (LA : forall l s, Forall (fun i => i < 256) l -> length (snd s) = 16 -> length (snd (fold_left (encm cn_one) l s)) = 16).
  { induction l as [|i l IH]; intros s F Ls; [exact Ls|]. inversion F; subst. cbn [fold_left]. apply IH; auto.
    unfold encm, esm. cbn [snd]. rewrite length_xorl, Ls, cn_short by auto.
    destruct (HE (m_last i (fst (ff1_R E n (Qof i (NUM radix (snd (fst s)))))) (cn_one i))) as [L _].
    - apply m_last_block; [apply R_block; auto|apply cn_bytes].
    - rewrite part_last, L. reflexivity. }
  specialize (LA (seq 1 9) (st1, repeat 0%N 16) ltac:(apply Forall_forall; intros i Hi; apply in_seq in Hi; lia) eq_refl).
  set (acc := snd (fold_left (encm cn_one) (seq 1 9) (st1, repeat 0%N 16))) in *. clearbody acc. clear EQ.
  set (y := snd (halves X)). rewrite !cn_short by auto. rewrite !part_last.
  pose proof (R_block 0 (NUM radix y) ltac:(lia)) as BR.
  set (R := fst (ff1_R E n (Qof 0 (NUM radix y)))) in *.
  pose proof (m_last_block 0 R (cn_zero 0) (proj2 BR) (proj1 (cn_bytes 0))) as B0.
  pose proof (m_last_block 0 R (cn_one 0) (proj2 BR) (proj2 (cn_bytes 0))) as B1.
  intros HX. apply (f_equal (xorl acc)) in HX. rewrite !xorl_cancel_l in HX by (rewrite LA; rewrite (proj1 (HE _ B0)) || rewrite (proj1 (HE _ B1)); lia).
  apply (f_equal D) in HX. rewrite !HD in HX by auto. apply m_last_0 in HX. discriminate.
Qed.
End FF1.

(** ** FF3 *)
Lemma gmac_block E x : block_function E -> block16 x -> gmac_mult E x = block_mul x (E (repeat 0%N 16)).
Proof.
  intros HE Hx. unfold gmac_mult. destruct (init_tables (E (repeat 0%N 16))) as [HH HL] eqn:EI.
  apply gcm_mult_block; auto. apply init_tables_ok; auto. apply HE, block16_zeros.
Qed.
Section FF3.
Local Opaque gmac_mult gcm_mult.
Variables (E : list N -> list N) (clog : N -> nat -> nat) (radix : N) (T : list N) (inlen : nat).
Hypothesis Hradix : (2 <= radix <= 36)%N.
Hypothesis Hlen : 1 <= inlen.
Hypothesis Hbig : (N.of_nat inlen < 2 ^ 30)%N.
Hypothesis HT : 8 <= length T.
Let u := ceil_div inlen 2.
Let v := inlen - u.
Let b := ceil_div (clog radix u) 8.
Hypothesis Hfit : (radix ^ N.of_nat u <= 256 ^ N.of_nat b)%N.
Variable tl : N.
Let c := mkfpe radix T tl.
Let n := ff3_setup clog c inlen.
Let num (X : list N) : N := NUM radix (rev X).
Let str (k : nat) (x : N) : list N := rev (STR radix k x).
Let radix_nz3 : (radix <> 0)%N. Proof. lia. Qed.
Lemma uv3 : u + v = inlen /\ v <= u <= S v /\ 1 <= u.
Proof.
  unfold v, u, ceil_div. pose proof (Nat.div_mod (inlen + 2 - 1) 2 ltac:(lia)). pose proof (Nat.mod_upper_bound (inlen + 2 - 1) 2 ltac:(lia)). lia.
Qed.
Lemma setup3_eq : n = mkff3 inlen u v (radix ^ N.of_nat u) (radix ^ N.of_nat v) b radix T.
Proof.
  unfold n, ff3_setup, c. cbn [f_radix f_tweak]. rewrite !ceil2_div. change (2 ^ 1) with 2. change (2 ^ 3) with 8. fold u. fold v. fold b.
  rewrite pow_uv_spec by (pose proof uv3; lia). reflexivity.
Qed.
Let str_len3 k x : length (str k x) = k. Proof. unfold str. now rewrite rev_length, length_STR. Qed.
Let str_dig3 k x : digits radix (str k x). Proof. apply digits_rev, digits_STR, radix_nz3. Qed.
Let num_bound3 X : digits radix X -> (num X < radix ^ N.of_nat (length X))%N.
Proof. intros D. unfold num. rewrite <- rev_length. now apply NUM_bound, digits_rev. Qed.
Let str_num3 X : digits radix X -> str (length X) (num X) = X.
Proof. intros D. unfold str, num. rewrite <- rev_length, STR_NUM by (auto using digits_rev). apply rev_involutive. Qed.
Let num_str3 k x : (x < radix ^ N.of_nat k)%N -> num (str k x) = x.
Proof. intros D. unfold str, num. rewrite rev_involutive. now apply NUM_STR. Qed.
Definition mfun3 (i : nat) : nat := if Nat.odd i then v else u.
Let mfun3_SS i : mfun3 (S (S i)) = mfun3 i. Proof. reflexivity. Qed.
Lemma mfun3_compl i : inlen - mfun3 i = mfun3 (S i).
Proof.
  pose proof uv3. unfold mfun3. rewrite Nat.odd_succ, <- Nat.negb_odd. destruct (Nat.odd i); cbn [negb]; lia.
Qed.
(** the round's block, with the source's clipping to 12 bytes *)
Definition clip12 (x : N) : list N :=
  let by12 := bn2bin x in
  if 12 <? length by12 then firstn 12 by12 else N_to_be 12 x.
Definition S3 (i : nat) (x : N) : list N :=
  rev (E (rev (xorl (if Nat.odd i then firstn 4 T else firstn 4 (skipn 4 T)) (N_to_be 4 (N.of_nat i)) ++ clip12 x))).
Lemma S_step i x : i < 256 -> ff3_S E n i x = if (x <? 256 ^ N.of_nat b)%N then Ret (S3 i x) else Undef.
Proof.
  intros Hi. unfold ff3_S. rewrite setup3_eq. cbn [m_tweak m_b]. unfold read_at.
  destruct (Nat.leb_spec ((if Nat.odd i then 0 else 4) + 4) (length T)) as [_|G]; [|destruct (Nat.odd i); lia].
  rewrite length_bn2bin.
  destruct (N.ltb_spec x (256 ^ N.of_nat b)) as [G|G].
  2: { destruct (Nat.ltb_spec b (bn_bytes x)) as [_|G']; [reflexivity|]. apply bn_bytes_le in G'. lia. }
  apply bn_bytes_le in G as G'. destruct (Nat.ltb_spec b (bn_bytes x)); [lia|]. f_equal. unfold rev_bytes, S3. do 3 f_equal.
  assert (EW : firstn 4 (skipn (if Nat.odd i then 0 else 4) T) = if Nat.odd i then firstn 4 T else firstn 4 (skipn 4 T)) by (destruct (Nat.odd i); reflexivity).
  rewrite EW. set (w := if Nat.odd i then firstn 4 T else firstn 4 (skipn 4 T)).
  assert (Lw : length w = 4) by (unfold w; destruct (Nat.odd i); rewrite firstn_length; [|rewrite skipn_length]; lia).
  destruct w as [|w0 [|w1 [|w2 [|w3 [|]]]]]; try discriminate. clear EW Lw.
  assert (EN : N_to_be 4 (N.of_nat i) = [0; 0; 0; N.of_nat i]%N).
  { rewrite (N_to_be_small 1 4) by (try lia; change (256 ^ N.of_nat 1)%N with 256%N; lia). cbn [Nat.sub repeat app N_to_be].
    change (256 ^ N.of_nat 0)%N with 1%N. rewrite N.div_1_r, N.mod_small by lia. reflexivity. }
  rewrite EN. cbn [xorl app get set nth]. rewrite !N.lxor_0_r.
  set (pre := [w0; w1; w2; N.lxor (get [w0; w1; w2; w3] 3) (N.of_nat i)]).
  change (blit _ 4 (repeat 0%N 12)) with (pre ++ repeat 0%N 12).
  transitivity (pre ++ clip12 x); [|reflexivity]. unfold clip12. cbv zeta. rewrite length_bn2bin.
  destruct (Nat.ltb_spec 12 (bn_bytes x)) as [G12|G12].
  - change (16 - 12) with (length pre).
    pose proof (blit_mid pre (repeat 0%N 12) [] (firstn 12 (bn2bin x))) as X. rewrite !app_nil_r in X. apply X.
    rewrite firstn_length, length_bn2bin, repeat_length. lia.
  - rewrite firstn_all2 by (rewrite length_bn2bin; lia). 
    assert (RB : repeat 0%N 12 = repeat 0%N (12 - bn_bytes x) ++ repeat 0%N (bn_bytes x)) by (rewrite <- repeat_app; f_equal; lia).
    rewrite RB, app_assoc. replace (16 - bn_bytes x) with (length (pre ++ repeat 0%N (12 - bn_bytes x))) by (rewrite app_length, repeat_length; cbn [length pre]; lia).
    pose proof (blit_mid (pre ++ repeat 0%N (12 - bn_bytes x)) (repeat 0%N (bn_bytes x)) [] (bn2bin x)) as X. rewrite !app_nil_r in X.
    rewrite X by (rewrite length_bn2bin, repeat_length; auto). rewrite <- app_assoc, bn2bin_pad by now apply bn_bytes_le. reflexivity.
Qed.
Lemma fits3 i X : digits radix X -> length X = mfun3 i -> (num X < 256 ^ N.of_nat b)%N.
Proof.
  intros D L. eapply N.lt_le_trans; [apply num_bound3, D|]. etransitivity; [|exact Hfit].
  apply N.pow_le_mono_r; [lia|]. rewrite L. unfold mfun3. pose proof uv3. destruct (Nat.odd i); lia.
Qed.
Definition F3b (i : nat) (X : list N) : N := be_to_N (S3 i (num X)).
Definition enc3 := es radix num str F3b mfun3.
Definition dec3 := ds radix num str F3b mfun3.
Definition Rel3 (i : nat) (s t : list N * list N) : Prop := s = t /\ wf radix mfun3 i t.
Lemma q3 i : (if Nat.odd i then (radix ^ N.of_nat v)%N else (radix ^ N.of_nat u)%N) = (radix ^ N.of_nat (mfun3 i))%N.
Proof. unfold mfun3. destruct (Nat.odd i); reflexivity. Qed.
Lemma u_pos3 : (u =? 0) = false.
Proof. apply Nat.eqb_neq. pose proof uv3. lia. Qed.
Lemma ge_radix : m_radix n = radix. Proof. now rewrite setup3_eq. Qed.
Lemma ge_u : m_u n = u. Proof. now rewrite setup3_eq. Qed.
Lemma ge_v : m_v n = v. Proof. now rewrite setup3_eq. Qed.
Lemma ge_qu : m_qu n = (radix ^ N.of_nat u)%N. Proof. now rewrite setup3_eq. Qed.
Lemma ge_qv : m_qv n = (radix ^ N.of_nat v)%N. Proof. now rewrite setup3_eq. Qed.
Lemma ge_inlen : m_inlen n = inlen. Proof. now rewrite setup3_eq. Qed.
Lemma ge_tweak : m_tweak n = T. Proof. now rewrite setup3_eq. Qed.
(** the MAC variants first; the plain modes drop the third component *)
Definition gpart (i : nat) (X : list N) : list N := gmac_mult E (S3 i (num X)).
Definition enc3m := esm radix num str F3b mfun3 gpart.
Definition dec3m := dsm radix num str F3b mfun3 gpart.
Definition Rel3m (i : nat) (s t : list N * list N * list N) : Prop := s = t /\ wf radix mfun3 i (fst t).
Lemma gmac_enc_round_ok i s t : i < 256 -> Rel3m i s t ->
  exists s', gmac_enc_round E n s i = Ret s' /\ Rel3m (S i) s' (enc3m t i).
Proof.
  intros Hi (<- & W). destruct s as [[A B] M]. cbn [fst snd] in *.
  pose proof (es_wf radix num str F3b mfun3 str_len3 str_dig3 mfun3_SS i (A, B) W) as W'.
  destruct W as (D1 & D2 & L1 & L2). cbn [fst snd] in *.
  exists (enc3m (A, B, M) i). split; [|split; [reflexivity|exact W']].
  unfold gmac_enc_round. rewrite !ge_radix, !ge_u, !ge_v, !ge_qu, !ge_qv, !ge_inlen. cbv zeta. fold (mfun3 i). rewrite mfun3_compl.
  rewrite !str2num_rev_NUM. rewrite (firstn_all2 B) by lia. rewrite (firstn_all2 A) by lia. fold (num A). fold (num B). rewrite S_step by auto.
  destruct (N.ltb_spec (num B) (256 ^ N.of_nat b)) as [_|G].
  2: { pose proof (fits3 (S i) B D2 L2). lia. }
  cbn [obind]. rewrite u_pos3, q3, num2str_rev_STR by apply radix_nz3.
  unfold enc3m, dec3m, enc3, dec3, esm, dsm, es, ds, gpart, F3b. cbn [fst snd]. reflexivity.
Qed.
Lemma gmac_dec_round_ok i s t : i < 256 -> Rel3m (S i) s t ->
  exists s', gmac_dec_round E n s i = Ret s' /\ Rel3m i s' (dec3m t i).
Proof.
  intros Hi (<- & W). destruct s as [[A B] M]. cbn [fst snd] in *.
  pose proof (ds_wf radix num str F3b mfun3 str_len3 str_dig3 i (A, B) W) as W'.
  destruct W as (D1 & D2 & L1 & L2). cbn [fst snd] in *. rewrite mfun3_SS in L2.
  exists (dec3m (A, B, M) i). split; [|split; [reflexivity|exact W']].
  unfold gmac_dec_round. rewrite !ge_radix, !ge_u, !ge_v, !ge_qu, !ge_qv, !ge_inlen. cbv zeta. fold (mfun3 i). rewrite mfun3_compl.
  rewrite !str2num_rev_NUM. rewrite (firstn_all2 B) by lia. rewrite (firstn_all2 A) by lia. fold (num A). fold (num B). rewrite S_step by auto.
  destruct (N.ltb_spec (num A) (256 ^ N.of_nat b)) as [_|G].
  2: { pose proof (fits3 (S i) A D1 L1). lia. }
  cbn [obind]. rewrite u_pos3, q3, num2str_rev_STR by apply radix_nz3.
  unfold enc3m, dec3m, enc3, dec3, esm, dsm, es, ds, gpart, F3b. cbn [fst snd]. reflexivity.
Qed.
Lemma enc_round3_ok i s t : i < 256 -> Rel3 i s t ->
  exists s', ff3_enc_round E n s i = Ret s' /\ Rel3 (S i) s' (enc3 t i).
Proof.
  intros Hi (<- & W). destruct s as [A B].
  pose proof (es_wf radix num str F3b mfun3 str_len3 str_dig3 mfun3_SS i (A, B) W) as W'.
  destruct W as (D1 & D2 & L1 & L2). cbn [fst snd] in *.
  exists (enc3 (A, B) i). split; [|split; [reflexivity|exact W']].
  unfold ff3_enc_round. rewrite !ge_radix, !ge_u, !ge_v, !ge_qu, !ge_qv, !ge_inlen. cbv zeta. fold (mfun3 i). rewrite mfun3_compl.
  rewrite !str2num_rev_NUM. rewrite (firstn_all2 B) by lia. rewrite (firstn_all2 A) by lia. fold (num A). fold (num B). rewrite S_step by auto.
  destruct (N.ltb_spec (num B) (256 ^ N.of_nat b)) as [_|G].
  2: { pose proof (fits3 (S i) B D2 L2). lia. }
  cbn [obind]. rewrite u_pos3, q3, num2str_rev_STR by apply radix_nz3.
  unfold enc3m, dec3m, enc3, dec3, esm, dsm, es, ds, gpart, F3b. cbn [fst snd]. reflexivity.
Qed.
Lemma dec_round3_ok i s t : i < 256 -> Rel3 (S i) s t ->
  exists s', ff3_dec_round E n s i = Ret s' /\ Rel3 i s' (dec3 t i).
Proof.
  intros Hi (<- & W). destruct s as [A B].
  pose proof (ds_wf radix num str F3b mfun3 str_len3 str_dig3 i (A, B) W) as W'.
  destruct W as (D1 & D2 & L1 & L2). cbn [fst snd] in *. rewrite mfun3_SS in L2.
  exists (dec3 (A, B) i). split; [|split; [reflexivity|exact W']].
  unfold ff3_dec_round. rewrite !ge_radix, !ge_u, !ge_v, !ge_qu, !ge_qv, !ge_inlen. cbv zeta. fold (mfun3 i). rewrite mfun3_compl.
  rewrite !str2num_rev_NUM. rewrite (firstn_all2 B) by lia. rewrite (firstn_all2 A) by lia. fold (num A). fold (num B). rewrite S_step by auto.
  destruct (N.ltb_spec (num A) (256 ^ N.of_nat b)) as [_|G].
  2: { pose proof (fits3 (S i) A D1 L1). lia. }
  cbn [obind]. rewrite u_pos3, q3, num2str_rev_STR by apply radix_nz3.
  unfold enc3m, dec3m, enc3, dec3, esm, dsm, es, ds, gpart, F3b. cbn [fst snd]. reflexivity.
Qed.
Definition halves3 (X : list N) : list N * list N := (firstn u X, skipn u X).
Lemma halves3_wf X : digits radix X -> length X = inlen -> wf radix mfun3 0 (halves3 X) /\ wf radix mfun3 8 (halves3 X).
Proof.
  intros D L. pose proof uv3. unfold wf, halves3, mfun3. cbn [fst snd Nat.odd Nat.even negb].
  rewrite firstn_length, skipn_length, L. repeat split; auto using digits_firstn, digits_skipn; lia.
Qed.
Lemma halves3_join s : length (fst s) = u -> halves3 (join s) = s.
Proof.
  intros L. destruct s as [A B]. unfold halves3, join. cbn [fst snd] in *. rewrite <- L. f_equal.
  - rewrite firstn_app, Nat.sub_diag, firstn_all. cbn [firstn]. apply app_nil_r.
  - rewrite skipn_app, Nat.sub_diag, skipn_all. reflexivity.
Qed.
Definition enc_all3 (X : list N) : list N := join (fold_left enc3 (seq 0 8) (halves3 X)).
Definition dec_all3 (X : list N) : list N := join (fold_left dec3 (rev (seq 0 8)) (halves3 X)).
Lemma enc_all3_ok X : digits radix X -> length X = inlen ->
  digits radix (enc_all3 X) /\ length (enc_all3 X) = inlen /\ dec_all3 (enc_all3 X) = X.
Proof.
  intros D L. destruct (halves3_wf X D L) as [W _].
  pose proof (es_fold_wf radix num str F3b mfun3 str_len3 str_dig3 mfun3_SS 8 0 _ W) as W'.
  fold enc3 in W'. unfold dec_all3, enc_all3. set (s := fold_left enc3 (seq 0 8) (halves3 X)) in *.
  assert (Ls : length (fst s) = u) by apply W'. assert (Ls2 : length (snd s) = v) by apply W'.
  split; [|split].
  - apply digits_app. split; apply W'.
  - unfold join. rewrite app_length, Ls, Ls2. apply uv3.
  - rewrite halves3_join by auto. unfold s, dec3, enc3. 
    rewrite (fold_ds_es radix num str F3b mfun3 radix_nz3 str_len3 str_dig3 num_bound3 str_num3 num_str3 mfun3_SS) by exact W.
    apply firstn_skipn.
Qed.
Lemma dec_all3_ok X : digits radix X -> length X = inlen ->
  digits radix (dec_all3 X) /\ length (dec_all3 X) = inlen /\ enc_all3 (dec_all3 X) = X.
Proof.
  intros D L. destruct (halves3_wf X D L) as [_ W].
  pose proof (ds_fold_wf radix num str F3b mfun3 str_len3 str_dig3 8 0 _ W) as W'.
  fold dec3 in W'. unfold dec_all3, enc_all3. set (s := fold_left dec3 (rev (seq 0 8)) (halves3 X)) in *.
  assert (Ls : length (fst s) = u) by apply W'. assert (Ls2 : length (snd s) = v) by apply W'.
  split; [|split].
  - apply digits_app. split; apply W'.
  - unfold join. rewrite app_length, Ls, Ls2. apply uv3.
  - rewrite halves3_join by auto. unfold s, dec3, enc3. 
    rewrite (fold_es_ds radix num str F3b mfun3 radix_nz3 str_len3 str_dig3 num_bound3 str_num3 num_str3 mfun3_SS) by exact W.
    apply firstn_skipn.
Qed.
Lemma sizes3_ok : ff3_sizes inlen = false.
Proof. unfold ff3_sizes. apply orb_false_iff. split; [apply Nat.eqb_neq; lia|apply N.leb_gt; exact Hbig]. Qed.
Lemma encrypt3_ok s : numeral_string radix s -> length s = inlen ->
  ff3_encrypt E clog c s = Ret (map inverse_map_char (enc_all3 (map digit_of s)) ++ [0%N]).
Proof.
  intros V L. destruct (map_chars_valid radix s Hradix V) as (M1 & M2 & _).
  unfold ff3_encrypt, ff3_run. rewrite L. fold n. rewrite sizes3_ok. cbv zeta. rewrite M1.
  set (X := map digit_of s) in *. assert (LX : length X = inlen) by (unfold X; now rewrite map_length).
  destruct (halves3_wf X M2 LX) as [W _].
  destruct (ofold_enc (ff3_enc_round E n) enc3 Rel3 256 enc_round3_ok 8 0 (halves3 X) (halves3 X)) as (s' & E1 & E2); [lia|now split|].
  rewrite ge_u. unfold halves3 in E1. rewrite E1. cbn [obind]. destruct s' as [A B]. destruct E2 as (E2 & _).
  unfold inverse_map_chars, enc_all3, join. rewrite <- E2. reflexivity.
Qed.
Lemma decrypt3_ok s : numeral_string radix s -> length s = inlen ->
  ff3_decrypt E clog c s = Ret (map inverse_map_char (dec_all3 (map digit_of s)) ++ [0%N]).
Proof.
  intros V L. destruct (map_chars_valid radix s Hradix V) as (M1 & M2 & _).
  unfold ff3_decrypt, ff3_run. rewrite L. fold n. rewrite sizes3_ok. cbv zeta. rewrite M1.
  set (X := map digit_of s) in *. assert (LX : length X = inlen) by (unfold X; now rewrite map_length).
  destruct (halves3_wf X M2 LX) as [_ W].
  destruct (ofold_dec (ff3_dec_round E n) dec3 Rel3 256 dec_round3_ok 8 0 (halves3 X) (halves3 X)) as (s' & E1 & E2); [lia|now split|].
  rewrite ge_u. unfold halves3 in E1. rewrite E1. cbn [obind]. destruct s' as [A B]. destruct E2 as (E2 & _).
  unfold inverse_map_chars, dec_all3, join. rewrite <- E2. reflexivity.
Qed.
(** GMAC *)
Definition etag3 X := snd (fold_left enc3m (seq 0 8) (halves3 X, gmac_mult E (firstn 16 T))).
Definition dtag3 X := snd (fold_left dec3m (rev (seq 0 8)) (halves3 X, gmac_mult E (firstn 16 T))).
Lemma gmac_encrypt_ok s : numeral_string radix s -> length s = inlen -> 16 <= length T ->
  ff3_gmac_encrypt E clog c s = Ret (map inverse_map_char (enc_all3 (map digit_of s)) ++ [0%N], etag3 (map digit_of s)).
Proof.
  intros V L HT16. destruct (map_chars_valid radix s Hradix V) as (M1 & M2 & _).
  unfold ff3_gmac_encrypt, gmac_run. rewrite L. fold n. rewrite sizes3_ok. cbv zeta. rewrite M1, ge_tweak.
  unfold read_at. destruct (Nat.leb_spec (0 + 16) (length T)); [|lia]. cbn [skipn].
  set (X := map digit_of s) in *. assert (LX : length X = inlen) by (unfold X; now rewrite map_length).
  destruct (halves3_wf X M2 LX) as [W _].
  destruct (ofold_enc (gmac_enc_round E n) enc3m Rel3m 256 gmac_enc_round_ok 8 0 (halves3 X, gmac_mult E (firstn 16 T)) (halves3 X, gmac_mult E (firstn 16 T)))
    as (s' & E1 & E2); [lia|now split|].
  rewrite ge_u. unfold halves3 in E1. rewrite E1. cbn [obind]. destruct s' as [[A B] M]. destruct E2 as (E2 & _).
  pose proof (esm_fst radix num str F3b mfun3 gpart (seq 0 8) (halves3 X, gmac_mult E (firstn 16 T))) as E3.
  fold enc3m in E3. fold (halves3 X) in E2. rewrite <- E2 in E3. cbn [fst] in E3. fold enc3 in E3.
  unfold inverse_map_chars, enc_all3, join, etag3. rewrite <- E3, <- E2. reflexivity.
Qed.
Lemma gmac_decrypt_ok s : numeral_string radix s -> length s = inlen -> 16 <= length T ->
  ff3_gmac_decrypt E clog c s = Ret (map inverse_map_char (dec_all3 (map digit_of s)) ++ [0%N], dtag3 (map digit_of s)).
Proof.
  intros V L HT16. destruct (map_chars_valid radix s Hradix V) as (M1 & M2 & _).
  unfold ff3_gmac_decrypt, gmac_run. rewrite L. fold n. rewrite sizes3_ok. cbv zeta. rewrite M1, ge_tweak.
  unfold read_at. destruct (Nat.leb_spec (0 + 16) (length T)); [|lia]. cbn [skipn].
  set (X := map digit_of s) in *. assert (LX : length X = inlen) by (unfold X; now rewrite map_length).
  destruct (halves3_wf X M2 LX) as [_ W].
  destruct (ofold_dec (gmac_dec_round E n) dec3m Rel3m 256 gmac_dec_round_ok 8 0 (halves3 X, gmac_mult E (firstn 16 T)) (halves3 X, gmac_mult E (firstn 16 T)))
    as (s' & E1 & E2); [lia|now split|].
  rewrite ge_u. unfold halves3 in E1. rewrite E1. cbn [obind]. destruct s' as [[A B] M]. destruct E2 as (E2 & _).
  pose proof (dsm_fst radix num str F3b mfun3 gpart (rev (seq 0 8)) (halves3 X, gmac_mult E (firstn 16 T))) as E3.
  fold dec3m in E3. fold (halves3 X) in E2. rewrite <- E2 in E3. cbn [fst] in E3. fold dec3 in E3.
  unfold inverse_map_chars, dec_all3, join, dtag3. rewrite <- E3, <- E2. reflexivity.
Qed.
Lemma tags3_same X : digits radix X -> length X = inlen -> dtag3 (enc_all3 X) = etag3 X.
Proof.
  intros D L. destruct (halves3_wf X D L) as [W _].
  pose proof (es_fold_wf radix num str F3b mfun3 str_len3 str_dig3 mfun3_SS 8 0 _ W) as W'.
  fold enc3 in W'. unfold dtag3, etag3, enc_all3. rewrite halves3_join by apply W'. unfold dec3m, enc3m, enc3.
  apply (mac_same radix num str F3b mfun3 radix_nz3 str_len3 str_dig3 num_bound3 str_num3 num_str3 mfun3_SS); exact W.
Qed.
(** the standard *)
Lemma S3_std i X : (num X < 256 ^ 12)%N -> S3 i (num X) = std_S3 E radix (firstn 8 T) i X.
Proof.
  intros HX. unfold std_S3, S3. cbv zeta. do 4 f_equal.
  - rewrite <- Nat.negb_odd. rewrite firstn_firstn. destruct (Nat.odd i); cbn [negb]; [reflexivity|]. now rewrite (skipn_firstn_comm 4 8 T).
  - unfold clip12. cbv zeta. rewrite length_bn2bin. apply (bn_bytes_le _ 12) in HX. destruct (Nat.ltb_spec 12 (bn_bytes (num X))); [lia|reflexivity].
Qed.
Lemma num_96 i X : (radix ^ N.of_nat u <= 256 ^ 12)%N -> digits radix X -> length X = mfun3 i -> (num X < 256 ^ 12)%N.
Proof.
  intros H D L. eapply N.lt_le_trans; [apply num_bound3, D|]. etransitivity; [|exact H].
  apply N.pow_le_mono_r; [lia|]. rewrite L. unfold mfun3. pose proof uv3. destruct (Nat.odd i); lia.
Qed.
Lemma std_enc3 X : (radix ^ N.of_nat u <= 256 ^ 12)%N -> digits radix X -> length X = inlen ->
  FF3_Encrypt E radix (firstn 8 T) X = enc_all3 X.
Proof.
  intros H96 D L. unfold FF3_Encrypt. cbv zeta. rewrite L. fold u. destruct (halves3_wf X D L) as [W _].
  assert (ST : forall k a s, wf radix mfun3 a s -> fold_left (FF3_enc_step E radix (firstn 8 T) inlen) (seq a k) s = fold_left enc3 (seq a k) s).
  { induction k as [|k IH]; intros a s Ws; [reflexivity|]. cbn [seq fold_left].
    assert (ES : FF3_enc_step E radix (firstn 8 T) inlen s a = enc3 s a).
    { destruct s as [A B]. destruct Ws as (D1 & D2 & L1 & L2). cbn [fst snd] in *. unfold FF3_enc_step, enc3, es. cbn [fst snd].
      unfold F3b, std_F3. rewrite <- (S3_std a B) by now apply (num_96 (S a)). rewrite <- Nat.negb_odd. fold u. fold v. unfold mfun3. destruct (Nat.odd a); reflexivity. }
    rewrite ES. apply IH. apply (es_wf radix num str F3b mfun3 str_len3 str_dig3 mfun3_SS). exact Ws. }
  change [0;1;2;3;4;5;6;7] with (seq 0 8). fold (halves3 X). rewrite ST by exact W. unfold enc_all3, join.
  destruct (fold_left enc3 (seq 0 8) (halves3 X)) as [A B]. reflexivity.
Qed.
Lemma std_dec3 X : (radix ^ N.of_nat u <= 256 ^ 12)%N -> digits radix X -> length X = inlen ->
  FF3_Decrypt E radix (firstn 8 T) X = dec_all3 X.
Proof.
  intros H96 D L. unfold FF3_Decrypt. cbv zeta. rewrite L. fold u. destruct (halves3_wf X D L) as [_ W].
  assert (ST : forall k a s, wf radix mfun3 (a + k) s -> fold_left (FF3_dec_step E radix (firstn 8 T) inlen) (rev (seq a k)) s = fold_left dec3 (rev (seq a k)) s).
  { induction k as [|k IH]; intros a s Ws; [reflexivity|]. rewrite rev_seq_S. cbn [fold_left]. rewrite Nat.add_succ_r in Ws.
    assert (ES : FF3_dec_step E radix (firstn 8 T) inlen s (a + k) = dec3 s (a + k)).
    { destruct s as [A B]. destruct Ws as (D1 & D2 & L1 & L2). cbn [fst snd] in *. unfold FF3_dec_step, dec3, ds, bn_mod_sub. cbn [fst snd].
      unfold F3b, std_F3. rewrite <- (S3_std (a + k) A) by now apply (num_96 (S (a + k))). rewrite <- Nat.negb_odd. fold u. fold v. unfold mfun3. destruct (Nat.odd (a + k)); reflexivity. }
    rewrite ES. apply IH. apply (ds_wf radix num str F3b mfun3 str_len3 str_dig3). exact Ws. }
  change [7;6;5;4;3;2;1;0] with (rev (seq 0 8)). fold (halves3 X). rewrite ST by exact W. unfold dec_all3, join.
  destruct (fold_left dec3 (rev (seq 0 8)) (halves3 X)) as [A B]. reflexivity.
Qed.
Lemma S3_block i x : block_function E -> bytes T -> i < 256 -> block16 (S3 i x).
Proof.
  intros HE BT Hi. unfold S3.
  assert (BR : forall l, block16 l -> block16 (rev l)).
  { intros l [L B]. split; [now rewrite rev_length|]. now apply Forall_rev. }
  apply BR, HE, BR. split.
  - rewrite app_length, length_xorl, length_N_to_be.
    assert (LC : length (clip12 x) = 12).
    { unfold clip12. cbv zeta. destruct (Nat.ltb_spec 12 (length (bn2bin x))); [rewrite firstn_length; lia|apply length_N_to_be]. }
    rewrite LC. destruct (Nat.odd i); rewrite firstn_length; [|rewrite skipn_length]; lia.
  - apply bytes_app. split.
    + apply bytes_xorl; [|apply bytes_N_to_be]. destruct (Nat.odd i); apply bytes_firstn; auto. now apply bytes_skipn.
    + unfold clip12. cbv zeta. destruct (12 <? _); [apply bytes_firstn|]; apply bytes_N_to_be.
Qed.
Lemma etag3_std X : block_function E -> bytes T -> 16 <= length T -> (radix ^ N.of_nat u <= 256 ^ 12)%N -> digits radix X -> length X = inlen ->
  etag3 X = FF3_GMAC_tag E radix T X.
Proof.
  intros HE BT HT16 H96 D L. unfold FF3_GMAC_tag. cbv zeta. rewrite L. fold u. destruct (halves3_wf X D L) as [W _].
  change [0;1;2;3;4;5;6;7] with (seq 0 8). fold (halves3 X). set (H := E (repeat 0%N 16)).
  assert (B16 : block16 (firstn 16 T)) by (split; [rewrite firstn_length; lia|now apply bytes_firstn]).
  unfold etag3. rewrite (gmac_block E (firstn 16 T)) by auto. fold H.
  assert (ST : forall k a s M, a + k <= 256 -> wf radix mfun3 a s -> fold_left (fun s i => (FF3_enc_step E radix (firstn 8 T) inlen (fst s) i,
                              xorl (snd s) (block_mul (std_S3 E radix (firstn 8 T) i (snd (fst s))) H))) (seq a k) (s, M)
      = fold_left enc3m (seq a k) (s, M)).
  { induction k as [|k IH]; intros a s M Hk Ws; [reflexivity|]. cbn [seq fold_left fst snd].
    assert (ES : (FF3_enc_step E radix (firstn 8 T) inlen s a, xorl M (block_mul (std_S3 E radix (firstn 8 T) a (snd s)) H)) = enc3m (s, M) a).
    { destruct s as [A B]. destruct Ws as (D1 & D2 & L1 & L2). cbn [fst snd] in *. unfold enc3m, esm. cbn [fst snd]. unfold gpart.
      rewrite gmac_block by (auto; apply S3_block; auto; lia). fold H.
      unfold FF3_enc_step, es, F3b, std_F3. cbn [fst snd].
      rewrite <- (S3_std a B) by now apply (num_96 (S a)). rewrite <- Nat.negb_odd. fold u. fold v. unfold mfun3. destruct (Nat.odd a); reflexivity. }
    rewrite ES. unfold enc3m at 2. unfold esm. cbn [fst snd]. apply IH; [lia|].
    apply (es_wf radix num str F3b mfun3 str_len3 str_dig3 mfun3_SS). exact Ws. }
  rewrite ST by (auto; lia). reflexivity.
Qed.
End FF3.

