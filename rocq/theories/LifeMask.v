(** * The blocks of a mask context (for C82, C84) and the sizes of contexts *)
From Verif Require Import Base CbcModel GcmModel FpeModel Sm4Model ParModel LifeModel LifeSpec LifeProofs LifeTotal LifeTree.
Local Open Scope nat_scope.

Section Table.
Variables (al : nat -> answer) (h w : nat) (B : list block) (k : nat).
Hypothesis rich : plenty al.
Let lo := length B.
(** the pointers to the first [n] of the blocks from [base] on *)
Definition ptrs (base off n len : nat) : list cell := map (fun j => if off + j <? n then Ptr (base + (off + j)) else Junk) (seq 0 len).
Definition top : block := mkblk true [Ptr (lo + 1); Junk].
Definition st1 (n : nat) : list block := [top; mkblk true (ptrs (lo + 2) 0 n h)] ++ repeat (mkblk true (repeat Junk w)) n.
Definition st2 (n : nat) : list block :=
  [top; mkblk true (ptrs (lo + 2) 0 h h)] ++ map (fun i => mkblk true (ptrs (lo + 2 + h) (w * i) n w)) (seq 0 h) ++ repeat (mkblk true (repeat Junk w)) n.

Lemma length_ptrs base off n len : length (ptrs base off n len) = len.
Proof. unfold ptrs. now rewrite map_length, seq_length. Qed.
Lemma nth_ptrs base off n len j : j < len -> nth_error (ptrs base off n len) j = Some (if off + j <? n then Ptr (base + (off + j)) else Junk).
Proof.
  intros H. unfold ptrs. rewrite (map_nth_error _ j (seq 0 len) (d := j)); [reflexivity|].
  rewrite (nth_error_nth' _ 0) by (rewrite seq_length; lia). now rewrite seq_nth by lia.
Qed.
Lemma list_eq {A} (a b : list A) : (forall i, nth_error a i = nth_error b i) -> a = b.
Proof.
  revert b. induction a as [|x a IH]; intros [|y b] H; [reflexivity|specialize (H 0); discriminate|specialize (H 0); discriminate|].
  pose proof (H 0) as H0. cbn in H0. injection H0 as <-. f_equal. apply IH. intros i. exact (H (S i)).
Qed.
Lemma ptrs_step base off n len j : j < len -> n = off + j -> set (ptrs base off n len) j (Ptr (base + n)) = ptrs base off (S n) len.
Proof.
  intros H E. apply list_eq. intros i. rewrite nth_error_set_lt by (rewrite length_ptrs; lia).
  destruct (Nat.lt_ge_cases i len) as [L|L].
  - rewrite !nth_ptrs by auto. destruct (Nat.eqb_spec i j) as [->|N].
    + destruct (Nat.ltb_spec (off + j) (S n)); [|lia]. now rewrite <- E.
    + destruct (Nat.ltb_spec (off + i) n), (Nat.ltb_spec (off + i) (S n)); try reflexivity; lia.
  - destruct (Nat.eqb_spec i j); [lia|]. rewrite !(proj2 (nth_error_None _ _)); [reflexivity|..]; rewrite length_ptrs; lia.
Qed.
Lemma ptrs_other base off n len : n < off \/ off + len <= n -> ptrs base off (S n) len = ptrs base off n len.
Proof.
  intros H. unfold ptrs. apply map_ext_in. intros i I. apply in_seq in I.
  destruct (Nat.ltb_spec (off + i) n), (Nat.ltb_spec (off + i) (S n)); try reflexivity; lia.
Qed.
Lemma ptrs_none base off len : ptrs base off 0 len = repeat Junk len.
Proof.
  unfold ptrs. apply list_eq. intros i. destruct (Nat.lt_ge_cases i len) as [L|L].
  - fold (ptrs base off 0 len). rewrite nth_ptrs by auto. rewrite (nth_error_nth' _ Junk) by (rewrite repeat_length; auto).
    now rewrite nth_repeat.
  - rewrite !(proj2 (nth_error_None _ _)); [reflexivity|..]; [rewrite repeat_length|rewrite map_length, seq_length]; lia.
Qed.
Lemma loop_states n body (St : nat -> mem) : (forall i, i < n -> body i (St i) = Ret (tt, St (S i))) -> loop n body (St 0) = Ret (tt, St n).
Proof.
  intros H. unfold loop. cut (forall len s, s + len = n -> mfor (seq s len) body (St s) = Ret (tt, St n)); [intros C; now apply C|].
  induction len as [|len IH]; intros s E; cbn [seq mfor].
  - now replace s with n by lia.
  - unfold mbind. rewrite H by lia. cbn [obind fst snd]. apply IH. lia.
Qed.
Lemma at_lo (L : list block) a : nth_error (B ++ L) (lo + a) = nth_error L a.
Proof. unfold lo. rewrite nth_error_app2 by lia. f_equal. lia. Qed.
Lemma repeat_snoc {A} (x : A) n : repeat x n ++ [x] = repeat x (S n).
Proof. induction n as [|n IH]; [reflexivity|]. cbn [repeat app]. now rewrite IH. Qed.

Lemma step1 i c : i < h ->
  (let* a := load (Ptr lo) 0 in let* b := malloc al w in store a i b) (mkmem (B ++ st1 i) c) = Ret (tt, mkmem (B ++ st1 (S i)) (S c)).
Proof.
  intros H. unfold mbind.
  rewrite (load_eq lo 0 [Ptr (lo + 1); Junk] (Ptr (lo + 1))); [|replace lo with (lo + 0) at 1 by lia; rewrite at_lo; reflexivity|reflexivity].
  cbn [obind fst snd]. rewrite (malloc_eq al rich). cbn [obind fst snd].
  rewrite (store_eq (lo + 1) i _ (ptrs (lo + 2) 0 i h)); [|rewrite <- app_assoc, at_lo; reflexivity|rewrite length_ptrs; exact H].
  f_equal. f_equal. f_equal. rewrite <- app_assoc, set_at. f_equal. unfold st1. cbn [app set].
  assert (L : length (B ++ top :: mkblk true (ptrs (lo + 2) 0 i h) :: repeat (mkblk true (repeat Junk w)) i) = lo + 2 + i)
    by (rewrite app_length; cbn [length]; rewrite repeat_length; unfold lo; lia).
  rewrite L, (ptrs_step (lo + 2) 0 i h i H eq_refl), repeat_snoc. reflexivity.
Qed.
Lemma nth_rows n i : i < h -> nth_error (st2 n) (2 + i) = Some (mkblk true (ptrs (lo + 2 + h) (w * i) n w)).
Proof.
  intros H. unfold st2. cbn [app nth_error Nat.add]. rewrite look_old by (rewrite map_length, seq_length; auto).
  rewrite (map_nth_error _ i (seq 0 h) (d := i)); [reflexivity|]. rewrite (nth_error_nth' _ 0) by (rewrite seq_length; lia). now rewrite seq_nth by lia.
Qed.
Lemma length_st2 n : length (st2 n) = 2 + h + n.
Proof. unfold st2. cbn [app length]. rewrite app_length, map_length, seq_length, repeat_length. lia. Qed.
Lemma st2_step i j : i < h -> j < w ->
  set (st2 (w * i + j) ++ [mkblk true (repeat Junk w)]) (2 + i) (mkblk true (ptrs (lo + 2 + h) (w * i) (S (w * i + j)) w)) = st2 (S (w * i + j)).
Proof.
  intros Hi Hj. set (n := w * i + j). unfold st2. cbn [app set Nat.add]. do 2 f_equal. rewrite <- app_assoc, repeat_snoc.
  apply list_eq. intros a. rewrite nth_error_set_lt by (rewrite app_length, map_length, seq_length, repeat_length; lia).
  destruct (Nat.lt_ge_cases a h) as [L|L].
  - rewrite !look_old by (rewrite map_length, seq_length; auto).
    assert (S : nth_error (seq 0 h) a = Some a) by (rewrite (nth_error_nth' _ 0) by (rewrite seq_length; lia); now rewrite seq_nth by lia).
    rewrite (map_nth_error _ a _ S), (map_nth_error _ a _ S). destruct (Nat.eqb_spec a i) as [->|N]; [reflexivity|].
    f_equal. f_equal. symmetry. apply ptrs_other. unfold n. destruct (Nat.lt_ge_cases a i); [right|left]; nia.
  - destruct (Nat.eqb_spec a i); [lia|]. rewrite !nth_error_app2 by (rewrite map_length, seq_length; lia). now rewrite !map_length, !seq_length.
Qed.
Lemma step2 i j c : i < h -> j < w ->
  (let* b := malloc al w in let* a := load (Ptr lo) 0 in let* ai := load a i in store ai j b) (mkmem (B ++ st2 (w * i + j)) c) =
  Ret (tt, mkmem (B ++ st2 (S (w * i + j))) (S c)).
Proof.
  intros Hi Hj. unfold mbind. rewrite (malloc_eq al rich). cbn [obind fst snd]. rewrite <- app_assoc.
  rewrite (load_eq lo 0 [Ptr (lo + 1); Junk] (Ptr (lo + 1))); [|replace lo with (lo + 0) at 1 by lia; rewrite at_lo; reflexivity|reflexivity].
  cbn [obind fst snd].
  rewrite (load_eq (lo + 1) i (ptrs (lo + 2) 0 h h) (Ptr (lo + 2 + i))); [|rewrite at_lo; reflexivity|].
  2:{ rewrite nth_ptrs by auto. cbn [Nat.add]. destruct (Nat.ltb_spec i h); [reflexivity|lia]. }
  cbn [obind fst snd].
  rewrite (store_eq (lo + 2 + i) j _ (ptrs (lo + 2 + h) (w * i) (w * i + j) w)); [| |rewrite length_ptrs; exact Hj].
  2:{ replace (lo + 2 + i) with (lo + (2 + i)) by lia. rewrite at_lo, look_old by (rewrite length_st2; lia). now apply nth_rows. }
  f_equal. f_equal. f_equal. replace (lo + 2 + i) with (lo + (2 + i)) by lia. rewrite set_at. f_equal. rewrite <- (st2_step i j Hi Hj). f_equal. f_equal.
  rewrite <- (ptrs_step (lo + 2 + h) (w * i) (w * i + j) w j Hj eq_refl). f_equal. f_equal. rewrite app_length, length_st2. unfold lo. lia.
Qed.
Lemma st1_st2 : st1 h = st2 0.
Proof.
  unfold st1, st2. cbn [app repeat]. do 2 f_equal. rewrite app_nil_r.
  apply list_eq. intros a. destruct (Nat.lt_ge_cases a h) as [L|L].
  - rewrite (nth_error_nth' (repeat (mkblk true (repeat Junk w)) h) (mkblk true (repeat Junk w))) by (rewrite repeat_length; auto).
    rewrite nth_repeat, (map_nth_error _ a (seq 0 h) (d := a)).
    + now rewrite ptrs_none.
    + rewrite (nth_error_nth' _ 0) by (rewrite seq_length; lia). now rewrite seq_nth by lia.
  - rewrite !(proj2 (nth_error_None _ _)); [reflexivity|..]; [rewrite map_length, seq_length|rewrite repeat_length]; lia.
Qed.
Lemma fill1 c : loop h (fun i => let* a := load (Ptr lo) 0 in let* b := malloc al w in store a i b) (mkmem (B ++ st1 0) c) = Ret (tt, mkmem (B ++ st2 0) (c + h)).
Proof.
  rewrite <- st1_st2. replace c with (c + 0) at 1 by lia. apply (loop_states h _ (fun i => mkmem (B ++ st1 i) (c + i))).
  intros i H. rewrite (step1 i (c + i) H). do 3 f_equal. lia.
Qed.
Lemma fill2 c : loop h (fun i => loop w (fun j => let* b := malloc al w in let* a := load (Ptr lo) 0 in let* ai := load a i in store ai j b)) (mkmem (B ++ st2 0) c) =
  Ret (tt, mkmem (B ++ st2 (w * h)) (c + w * h)).
Proof.
  replace (mkmem (B ++ st2 0) c) with ((fun i => mkmem (B ++ st2 (w * i)) (c + w * i)) 0) by (cbn beta; rewrite Nat.mul_0_r; f_equal; lia).
  apply (loop_states h _ (fun i => mkmem (B ++ st2 (w * i)) (c + w * i))). intros i Hi.
  replace (mkmem (B ++ st2 (w * i)) (c + w * i)) with ((fun j => mkmem (B ++ st2 (w * i + j)) (c + w * i + j)) 0) by (cbn beta; rewrite !Nat.add_0_r; reflexivity).
  rewrite (loop_states w _ (fun j => mkmem (B ++ st2 (w * i + j)) (c + w * i + j))).
  - f_equal. f_equal. replace (w * i + w) with (w * S i) by lia. f_equal. lia.
  - intros j Hj. rewrite (step2 i j _ Hi Hj). replace (w * i + S j) with (S (w * i + j)) by lia. do 3 f_equal. lia.
Qed.
End Table.

(** the blocks of [st2]: all live, and where they are *)
Lemma st2_live h w B n b : In b (st2 h w B n) -> b_live b = true.
Proof.
  unfold st2. rewrite !in_app_iff. intros [[<-|[<-|[]]]|[I|I]]; [reflexivity|reflexivity| |].
  - apply in_map_iff in I as (i & <- & _). reflexivity.
  - apply repeat_spec in I. now subst b.
Qed.
Lemma st2_leaf h w B n a : a < n -> nth_error (st2 h w B n) (2 + h + a) = Some (mkblk true (repeat Junk w)).
Proof.
  intros H. unfold st2. cbn [app nth_error Nat.add]. rewrite nth_error_app2 by (rewrite map_length, seq_length; lia).
  rewrite map_length, seq_length. replace (h + a - h) with a by lia.
  rewrite (nth_error_nth' _ (mkblk true (repeat Junk w))) by (rewrite repeat_length; auto). now rewrite nth_repeat.
Qed.
Lemma live_all (L : list block) : (forall b, In b L -> b_live b = true) -> filter b_live L = L.
Proof.
  induction L as [|x L IH]; intros H; [reflexivity|]. cbn [filter]. rewrite (H x) by (left; reflexivity). f_equal. apply IH. intros; apply H; now right.
Qed.

(** the function, with the two sizes as parameters *)
Definition table_init (al : nat -> answer) (h w : nat) : M cell :=
  let* p := malloc al 2 in
  if is_null p then ret null else
  (let* a := malloc al h in store p 0 a) ;;
  loop h (fun i => let* a := load p 0 in let* b := malloc al w in store a i b) ;;
  loop h (fun i => loop w (fun j => let* b := malloc al w in let* a := load p 0 in let* ai := load a i in store ai j b)) ;;
  ret p.
Lemma mask_unfold al : life_mask_init_table al = table_init al 16 256.
Proof. reflexivity. Qed.
Lemma set_here {A} (B : list A) x L v : set (B ++ x :: L) (length B) v = B ++ v :: L.
Proof. induction B as [|y B IH]; [reflexivity|]. cbn [app length set]. now rewrite IH. Qed.
Lemma table_init_lemma al h w B k : plenty al ->
  table_init al h w (mkmem B k) = Ret (Ptr (length B), mkmem (B ++ st2 h w B (w * h)) (k + 2 + h + w * h)).
Proof.
  intros rich. unfold table_init. unfold mbind at 1. rewrite (malloc_eq al rich). cbn [obind fst snd is_null].
  unfold mbind at 1. unfold mbind at 1. rewrite (malloc_eq al rich). cbn [obind fst snd].
  rewrite (store_eq (length B) 0 _ [Junk; Junk]); [|rewrite <- app_assoc, nth_error_app2, Nat.sub_diag by lia; reflexivity|cbn; lia].
  cbn [obind fst snd].
  replace (set ((B ++ [mkblk true (repeat Junk 2)]) ++ [mkblk true (repeat Junk h)]) (length B) (mkblk true (set [Junk; Junk] 0 (Ptr (length (B ++ [mkblk true (repeat Junk 2)]))))))
    with (B ++ st1 h w B 0).
  2:{ rewrite <- app_assoc. cbn [app]. rewrite set_here. f_equal. unfold st1, top. rewrite (ptrs_none B), app_length. reflexivity. }
  unfold mbind at 1. rewrite (fill1 al h w B rich). cbn [obind fst snd]. unfold mbind at 1. rewrite (fill2 al h w B rich). cbn [obind fst snd ret].
  unfold ret. do 3 f_equal. lia.
Qed.
(** from the structure to the 256 bytes for (i, j) *)
Definition follow (m : mem) (p : cell) (i j : nat) : outcome cell :=
  obind (load p 0 m) (fun r => obind (load (fst r) i m) (fun r => obind (load (fst r) j m) (fun r => Ret (fst r)))).
Lemma table_follow h w B k i j : i < h -> j < w ->
  follow (mkmem (B ++ st2 h w B (w * h)) k) (Ptr (length B)) i j = Ret (Ptr (length B + 2 + h + (w * i + j))).
Proof.
  intros Hi Hj. unfold follow.
  rewrite (load_eq (length B) 0 [Ptr (length B + 1); Junk] (Ptr (length B + 1))); [|rewrite nth_error_app2, Nat.sub_diag by lia; reflexivity|reflexivity].
  cbn [obind fst].
  rewrite (load_eq (length B + 1) i (ptrs (length B + 2) 0 h h) (Ptr (length B + 2 + i))); [|rewrite at_lo; reflexivity|].
  2:{ rewrite nth_ptrs by auto. cbn [Nat.add]. destruct (Nat.ltb_spec i h); [reflexivity|lia]. }
  cbn [obind fst].
  rewrite (load_eq (length B + 2 + i) j (ptrs (length B + 2 + h) (w * i) (w * h) w) (Ptr (length B + 2 + h + (w * i + j)))).
  - reflexivity.
  - replace (length B + 2 + i) with (length B + (2 + i)) by lia. rewrite at_lo. now apply nth_rows.
  - rewrite nth_ptrs by auto. destruct (Nat.ltb_spec (w * i + j) (w * h)); [reflexivity|nia].
Qed.
Lemma mask_table_gen h w al B k : plenty al -> exists m', table_init al h w (mkmem B k) = Ret (Ptr (length B), m') /\
  live_blocks m' = live_blocks (mkmem B k) + (2 + h + w * h) /\
  (forall a, a < length B -> nth_error (m_blocks m') a = nth_error B a) /\
  (forall i j, i < h -> j < w -> exists q, follow m' (Ptr (length B)) i j = Ret (Ptr q) /\ nth_error (m_blocks m') q = Some (mkblk true (repeat Junk w))) /\
  (forall i j i' j' q, i < h -> j < w -> i' < h -> j' < w -> follow m' (Ptr (length B)) i j = Ret q -> follow m' (Ptr (length B)) i' j' = Ret q -> i = i' /\ j = j').
Proof.
  intros rich. eexists. split; [apply (table_init_lemma al h w B k rich)|]. split; [|split; [|split]].
  - unfold live_blocks. cbn [m_blocks]. rewrite filter_app, app_length, (live_all (st2 h w B (w * h)) (st2_live h w B (w * h))), length_st2. reflexivity.
  - intros a H. cbn [m_blocks]. now apply look_old.
  - intros i j Hi Hj. exists (length B + 2 + h + (w * i + j)). split; [now apply table_follow|]. cbn [m_blocks].
    replace (length B + 2 + h + (w * i + j)) with (length B + (2 + h + (w * i + j))) by lia. rewrite at_lo. apply st2_leaf. nia.
  - intros i j i' j' q Hi Hj Hi' Hj'. rewrite !table_follow by auto. intros E E'. rewrite <- E' in E. injection E as E.
    assert (E1 : w * i + j = w * i' + j') by lia.
    destruct (Nat.lt_total i i') as [L|[L|L]]; [exfalso; nia | subst i'; split; lia | exfalso; nia].
Qed.
(** when the second request fails the function reads through a null pointer *)
Lemma table_no_memory h w al B k : al k <> Fail -> al (S k) = Fail -> 0 < h -> table_init al h w (mkmem B k) = Undef.
Proof.
  intros H1 H2 Hh. unfold table_init, mbind, malloc at 1. cbn [m_calls m_blocks].
  destruct h as [|h]; [lia|]. unfold loop. cbn [seq mfor]. unfold mbind.
  destruct (al k); [congruence| |]; cbn [obind fst snd is_null]; unfold malloc at 1; cbn [m_calls m_blocks]; rewrite H2; cbn [obind fst snd];
    (rewrite (store_eq (length B) 0 _ [Junk; Junk]); [|apply look_new|cbn; lia]); cbn [obind fst snd set];
    (rewrite (load_eq (length B) 0 [null; Junk] null); [|rewrite set_new; apply look_new|reflexivity]); cbn [obind fst snd];
    unfold malloc at 1; cbn [m_calls m_blocks]; destruct (al (S (S k))); cbn [obind fst snd]; reflexivity.
Qed.
Lemma mask_table_lemma : forall al B k, plenty al -> exists m', life_mask_init_table al (mkmem B k) = Ret (Ptr (length B), m') /\
  live_blocks m' = live_blocks (mkmem B k) + (2 + 16 + 256 * 16) /\
  (forall a, a < length B -> nth_error (m_blocks m') a = nth_error B a) /\
  (forall i j, i < 16 -> j < 256 -> exists q, follow m' (Ptr (length B)) i j = Ret (Ptr q) /\ nth_error (m_blocks m') q = Some (mkblk true (repeat Junk 256))) /\
  (forall i j i' j' q, i < 16 -> j < 256 -> i' < 16 -> j' < 256 -> follow m' (Ptr (length B)) i j = Ret q -> follow m' (Ptr (length B)) i' j' = Ret q -> i = i' /\ j = j').
Proof. intros al B k. rewrite mask_unfold. exact (mask_table_gen 16 256 al B k). Qed.
Lemma mask_no_memory_lemma : forall al B k, al k <> Fail -> al (S k) = Fail -> life_mask_init_table al (mkmem B k) = Undef.
Proof. intros al B k H1 H2. rewrite mask_unfold. apply (table_no_memory 16 256 al B k H1 H2). lia. Qed.
(** contexts of one block *)
Lemma fresh_contexts_lemma : forall al B k, plenty al ->
  (exists k', life_aes_init al (mkmem B k) = Ret (Ptr (length B), mkmem (B ++ [mkblk true (repeat (Num 0) (4 * (14 + 1) + 1))]) k')) /\
  (exists k', life_sm4_init al (mkmem B k) = Ret (Ptr (length B), mkmem (B ++ [mkblk true (repeat (Num 0) 32)]) k')) /\
  (exists k' n, life_wbaes_init al (mkmem B k) = Ret (Ptr (length B), mkmem (B ++ [mkblk true (repeat (Num 0) n)]) k') /\
     N.of_nat n = (10 * (16 * 256) + 9 * (16 * 256) + (9 * 4 * 3 * 8 + 9 * 4 * 3 * 8) * (16 * 16) + 16 * 256 + 16 * 256)%N).
Proof.
  intros al B k rich.
  assert (G : forall n, exists k', context_init al n (mkmem B k) = Ret (Ptr (length B), mkmem (B ++ [mkblk true (repeat (Num 0) n)]) k')).
  { intros n. exact (context_init_eq al rich n B k). }
  split; [apply G|]. split; [apply G|]. destruct (G wbaes_cells) as (k' & E). exists k', wbaes_cells. split; [exact E|].
  unfold wbaes_cells. now rewrite N2Nat.id.
Qed.
