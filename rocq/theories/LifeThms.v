(** * The theorems about the life of heap objects *)
From Verif Require Import Base CbcModel CbcProofs GcmModel FpeModel Sm4Model ParModel Sm4Spec Sm4Proofs GfProofs LifeModel LifeSpec LifeProofs LifeTotal LifeTree LifeGen LifeOps LifeSafe.
Local Open Scope nat_scope.
Lemma sm4_object_keys key : bytes key -> sm4_object 1 key = map Num (round_keys (normal_key key)).
Proof.
  intros Bk. unfold sm4_object. apply (f_equal (map Num)). rewrite (round_keys_written 1 key Bk (or_intror eq_refl)).
  change (1 =? 1)%N with true. cbv iota. apply eq_refl.
Qed.
Local Opaque sm4_object.

(** ** Keys that stay in memory *)
Lemma normal_key_block key : bytes key -> block16 (normal_key key).
Proof. intros B. rewrite normal_key_eq. split; [apply key_padding_length|now apply key_padding_bytes]. Qed.
Lemma keeps_key_of m m' key vs (b : bool) : bytes key -> apart (size m) (mkblk true (map Num vs)) m' ->
  vs = (if b then rev (round_keys (normal_key key)) else round_keys (normal_key key)) -> keeps_key m m' key.
Proof.
  intros Bk A E. exists (size m), vs. split; [exact (proj1 A)|]. split.
  - intros roots R. apply (apart_unreachable _ _ _ _ A). intros K. specialize (R _ K). unfold size in R. lia.
  - pose proof (key_of_round_keys (normal_key key) (normal_key_block key Bk)) as K. destruct b; subst vs; [right; now rewrite rev_involutive|now left].
Qed.
Lemma gen_keeps_key al tab dummy ctx d key m cs m' : bytes key -> closed m -> cells_at m ctx = Some cs ->
  life_wbsm4_gen al tab dummy ctx d key m = Ret (tt, m') -> keeps_key m m' key.
Proof.
  intros Bk C Hc G. destruct (gen_leaves al tab dummy ctx d key m cs (tt, m') Bk C Hc G) as (vs & A & E). exact (keeps_key_of m m' key vs _ Bk A E).
Qed.
Lemma se_gen_keeps_key al ctx key maps m cs m' : bytes key -> closed m -> cells_at m ctx = Some cs ->
  life_se_gen al ctx key maps m = Ret (tt, m') -> keeps_key m m' key.
Proof.
  intros Bk C Hc G. destruct (se_gen_leaves al ctx key maps m cs (tt, m') Bk C Hc G) as (vs & A & E). exact (keeps_key_of m m' key vs _ Bk A E).
Qed.
(** a context can be made and its tables generated, whatever is in the heap *)
Lemma gen_happens al tab dummy e d key B k : plenty al -> closed (mkmem B 0) -> exists m1 m2,
  life_wbsm4_init al e d (mkmem B k) = Ret (Ptr (length B), m1) /\ closed m1 /\
  life_wbsm4_gen al tab dummy (Ptr (length B)) d key m1 = Ret (tt, m2) /\ live_blocks m2 = live_blocks m1 + 1 /\
  live_blocks m1 = live_blocks (mkmem B k) + (5 + 31 * (32 + 4 * d)).
Proof.
  intros R C. destruct (wbsm4_init_eq al e d B k R) as (L & k1 & E & LL & AL & T & C0 & C1 & CL).
  assert (I : intact (32 + 4 * d) B (Num e) L). { split; [exact LL|]. rewrite LL in T. auto. }
  destruct (wbsm4_gen_total al tab dummy d key B [] L k1 (Num e) R I) as (L' & D & k2 & E2 & I2 & F2). rewrite app_nil_r in E2.
  exists (mkmem (B ++ L) k1), (mkmem (B ++ (L' ++ ([] ++ D))) k2). split; [exact E|]. split; [exact (CL C)|]. split; [exact E2|].
  change (live_blocks ?m) with (lives (m_blocks m)). cbn [m_blocks app]. rewrite !lives_app.
  rewrite (lives_all L AL), (lives_all L' (proj1 (proj2 (proj2 I2)))), (lives_filter D 1 _ F2 eq_refl), LL, (proj1 I2). lia.
Qed.

(** the hash subkey in a GCM object *)
Lemma gcm_object_subkey key f h : block16 h -> exists hi lo : N,
  nth_error (gcm_object key f h) 26 = Some (Num hi) /\ nth_error (gcm_object key f h) 10 = Some (Num lo) /\ (hi * 2 ^ 64 + lo = be_to_N h)%N.
Proof.
  intros Hh. destruct (init_words h Hh) as (_ & _ & J). unfold gcm_object. destruct (init_tables_eq h) as (v0h & v0l & E1 & E2 & HT). cbv zeta in HT.
  exists v0h, v0l. rewrite HT. cbn [fst snd map app nth_error]. split; [reflexivity|]. split; [reflexivity|]. rewrite E1, E2. exact J.
Qed.
Lemma gcmfile_free_lemma al blk key f B k h : plenty al -> block16 h -> closed (mkmem B 0) ->
  (forall m, blk f m key (repeat 0%N 16) = Ret (Some h)) -> (forall x, key = Ptr x -> x < length B) ->
  exists m1 m2, life_gcmfile_init al blk key f (mkmem B k) = Ret (Ptr (length B), m1) /\ context_free (Ptr (length B)) m1 = Ret (tt, m2) /\
  exists a cs (hi lo : N), nth_error (m_blocks m2) a = Some (mkblk true cs) /\ nth_error cs 26 = Some (Num hi) /\ nth_error cs 10 = Some (Num lo) /\
    (hi * 2 ^ 64 + lo = be_to_N h)%N /\ forall roots, (forall x, In x roots -> x <= length B) -> ~ reaches m2 roots a.
Proof.
  intros R Hh C A K. destruct (gcmfile_init_eq al R blk key f B k (Some h) (A _)) as (k1 & E). cbn beta iota in E.
  set (o := mkblk true (gcm_object key f h)) in *.
  set (z := mkblk true (repeat (Num 0) 17)).
  assert (ST : forall y, set (B ++ [mkblk true (gcmfile_object y); o]) (length B) z = B ++ [z; o]).
  { intros y. change [mkblk true (gcmfile_object y); o] with ([mkblk true (gcmfile_object y)] ++ [o]). rewrite app_assoc.
    rewrite set_old by (rewrite app_length; cbn; lia). rewrite set_new, <- app_assoc. reflexivity. }
  exists (mkmem (B ++ [mkblk true (gcmfile_object (Ptr (S (length B)))); o]) k1), (mkmem (B ++ [z; o]) k1). split; [exact E|]. split.
  - unfold context_free. rewrite (zero_eq _ (gcmfile_object (Ptr (S (length B))))).
    + do 3 f_equal. apply ST.
    + rewrite nth_error_app2, Nat.sub_diag by lia. reflexivity.
  - destruct (gcm_object_subkey key f h Hh) as (hi & lo & H1 & H2 & H3).
    exists (S (length B)), (gcm_object key f h), hi, lo. split; [cbn [m_blocks]; rewrite nth_error_app2 by lia; replace (S (length B) - length B) with 1 by lia; reflexivity|].
    split; [exact H1|]. split; [exact H2|]. split; [exact H3|].
    intros roots Rt Q. inversion Q as [x I|x cs y _ Ex J]; subst; [specialize (Rt _ I); lia|]. cbn [m_blocks] in Ex.
    destruct (Nat.lt_ge_cases x (length B)) as [Hx|Hx].
    + rewrite look_old in Ex by auto. specialize (C x _ (S (length B)) Ex J). cbn [m_blocks] in C. lia.
    + rewrite nth_error_app2 in Ex by auto. destruct (x - length B) as [|[|n]]; [| |now destruct n]; injection Ex as <-.
      * cbn [b_cells In] in J. repeat (destruct J as [J|J]; [discriminate|]). destruct J.
      * unfold gcm_object in J. rewrite !in_app_iff in J. destruct J as [[J|[J|[]]]|[J|[J|[J|[J|[J|[]]]]]]].
        -- discriminate.
        -- discriminate.
        -- apply in_map_iff in J as (v & V & _). discriminate.
        -- apply in_map_iff in J as (v & V & _). discriminate.
        -- apply repeat_spec in J. discriminate.
        -- subst key. specialize (K _ eq_refl). lia.
        -- discriminate.
Qed.
(** what the padded copy of the key leaves *)
Lemma sm4_key_copy al e a cs key B k : plenty al -> nth_error B a = Some (mkblk true cs) -> length cs = 32 -> exists m',
  life_sm4_key al e (Ptr a) key (mkmem B k) = Ret (tt, m') /\
  nth_error (m_blocks m') (length B) = Some (mkblk false (map Num (key_padding_pkcs7 key))).
Proof.
  intros R E L. destruct (sm4_key_eq al R e a cs key B k E L) as (k' & F). eexists. split; [exact F|]. cbn [m_blocks].
  rewrite <- (length_set B a (mkblk true (sm4_object e key))). apply look_new.
Qed.

(** ** Memory that does not come back *)
Lemma lives_live m : live_blocks m = lives (m_blocks m).
Proof. reflexivity. Qed.
Lemma many_left B D k k' rks n : filter b_live D = repeat (mkblk true (map Num rks)) n ->
  live_blocks (mkmem (B ++ D) k') = live_blocks (mkmem B k) + n /\ (0 < n -> exists a, length B <= a /\ holds (mkmem (B ++ D) k') a rks).
Proof.
  intros G. split.
  - rewrite !lives_live. cbn [m_blocks]. rewrite lives_app. f_equal. unfold lives. rewrite G. apply repeat_length.
  - intros Hn. assert (I : In (mkblk true (map Num rks)) D). { apply (filter_In b_live). rewrite G. destruct n; [lia|]. now left. }
    apply In_nth_error in I as (a & Ea). exists (length B + a). split; [lia|].
    unfold holds. cbn [m_blocks]. rewrite nth_error_app2 by lia. replace (length B + a - length B) with a by lia. exact Ea.
Qed.
Lemma udf_query_lemma al n key f rows B k : plenty al -> bytes key -> Forall (fun r => 2 <= snd (fst r) <= 36)%N rows -> exists m' D rks,
  life_udf_query al n key f rows (mkmem B k) = Ret (tt, m') /\ live_blocks m' = live_blocks (mkmem B k) + length rows /\
  m_blocks m' = B ++ D /\ filter b_live D = repeat (mkblk true (map Num rks)) (length rows) /\ sm4_key_of_round_keys rks = normal_key key.
Proof.
  intros R Bk F. assert (F' : Forall (fun r => good_radix (snd (fst r)) = true) rows).
  { eapply Forall_impl; [|exact F]. intros [[t x] s] [H1 H2]. cbn [fst snd] in *. unfold good_radix.
    apply N.ltb_ge in H1, H2. rewrite H1, H2. reflexivity. }
  destruct (udf_query_eq al R n key f rows B k F') as (D & k' & E & G). pose proof (sm4_object_keys key Bk) as O.
  pose proof (key_of_round_keys (normal_key key) (normal_key_block key Bk)) as Q.
  set (rks := round_keys (normal_key key)) in *. clearbody rks. rewrite O in G. exists (mkmem (B ++ D) k'), D, rks.
  split; [exact E|]. split; [exact (proj1 (many_left B D k k' rks _ G))|]. split; [apply eq_refl|]. split; [exact G|exact Q].
Qed.
Lemma parallel_lemma al n ctr B k : plenty al -> (forall i, i < len_s n -> length (ctr i) = 16) -> exists m',
  life_parallel al n ctr (mkmem B k) = Ret (tt, m') /\ live_blocks m' = live_blocks (mkmem B k) + 1 + len_s n.
Proof.
  intros R H. destruct (parallel_eq al R n ctr B k H) as (L & k' & E & LL & AL & _). eexists. split; [exact E|].
  rewrite !lives_live. cbn [m_blocks]. rewrite lives_app, (lives_all L AL), LL. lia.
Qed.
Lemma cbc_lemma al inp padded B k : plenty al -> length inp <= length padded -> exists m',
  life_cbc_encrypt al inp padded (mkmem B k) = Ret (tt, m') /\ live_blocks m' = live_blocks (mkmem B k) + 1 /\ holds m' (length B) padded.
Proof.
  intros R H. destruct (cbc_encrypt_eq al R inp padded B k H) as (k' & E). eexists. split; [exact E|]. split.
  - rewrite !lives_live. cbn [m_blocks]. rewrite lives_app. reflexivity.
  - unfold holds. cbn [m_blocks]. apply look_new.
Qed.
Lemma total_le f g (l : list handle) : (forall x, f x <= g x) -> total (map f l) <= total (map g l).
Proof. intros H. unfold total. induction l as [|x l IH]; cbn [map fold_right]; [lia|]. specialize (H x). lia. Qed.
Lemma total_count (l : list handle) : length (filter (fun x => cipher (h_kind x)) l) = total (map (fun x => if cipher (h_kind x) then 1 else 0) l).
Proof. unfold total. induction l as [|x l IH]; [reflexivity|]. cbn [filter map fold_right]. destruct (cipher (h_kind x)); cbn [length]; lia. Qed.
Lemma play_grows_lemma al blk tab dummy cs env m : plenty al ->
  (forall f m key b, cells_at m key <> None -> exists r, blk f m key b = Ret (Some r)) ->
  play al blk tab dummy cs nothing = Ret (env, m) ->
  length (filter (fun x => cipher (h_kind x)) env) + total (map leaves cs) <= live_blocks m.
Proof.
  intros R W P. rewrite (play_memory_lemma al blk tab dummy R W cs env m P), total_count.
  apply Nat.add_le_mono_r, total_le. intros x. unfold occupies. destruct (h_kind x) as [n|d| | | | |]; cbn [cipher]; lia.
Qed.

(** ** Releasing NULL, and twice *)
Lemma free_null_lemma m : life_fpe_free null m = Ret (tt, m) /\ life_mac_free null m = Ret (tt, m).
Proof. split; reflexivity. Qed.
Lemma free_null_bad m : life_wbgcm_free null m = Undef /\ context_free null m = Undef.
Proof. split; reflexivity. Qed.
Lemma free_dead a cs B k : nth_error B a = Some (mkblk false cs) -> free (Ptr a) (mkmem B k) = Undef.
Proof. intros E. unfold free, cells_at. cbn [is_null m_blocks]. rewrite E. reflexivity. Qed.
Lemma load_dead a cs i B k : nth_error B a = Some (mkblk false cs) -> load (Ptr a) i (mkmem B k) = Undef.
Proof. intros E. unfold load, cells_at. cbn [m_blocks]. rewrite E. reflexivity. Qed.
Lemma fpe_twice_lemma al tweak radix key f B k : plenty al -> (2 <= radix <= 36)%N -> exists m1 m2,
  life_fpe_init al tweak radix key f (mkmem B k) = Ret (Ptr (length B), m1) /\ life_fpe_free (Ptr (length B)) m1 = Ret (tt, m2) /\
  live_blocks m2 = live_blocks (mkmem B k) /\ life_fpe_free (Ptr (length B)) m2 = Undef.
Proof.
  intros R [H1 H2]. destruct (fpe_init_eq al R tweak radix key f B k) as (k1 & E).
  assert (G : good_radix radix = true). { unfold good_radix. apply N.ltb_ge in H1, H2. now rewrite H1, H2. } rewrite G in E.
  set (o := fpe_object key f radix (Ptr (S (length B))) tweak) in *. set (t := map Num tweak) in *.
  assert (E0 : nth_error (B ++ [mkblk true o; mkblk true t]) (length B) = Some (mkblk true o)) by (rewrite nth_error_app2, Nat.sub_diag by lia; reflexivity).
  assert (E1 : nth_error (B ++ [mkblk true o; mkblk true t]) (S (length B)) = Some (mkblk true t)).
  { rewrite nth_error_app2 by lia. replace (S (length B) - length B) with 1 by lia. reflexivity. }
  set (X := B ++ [mkblk true o; mkblk true t]) in *.
  assert (LX : length X = length B + 2) by (unfold X; rewrite app_length; reflexivity).
  pose proof (fpe_free_eq (length B) (S (length B)) key (Code f) (Num radix) (Num (N.of_nat (length tweak) mod 2 ^ 32)) t X k1 ltac:(lia) E0 E1) as F.
  fold o in F. exists (mkmem X k1). eexists. split; [exact E|]. split; [exact F|].
  change [key; Code f; Num radix; Ptr (S (length B)); Num (N.of_nat (length tweak) mod 2 ^ 32)] with o in *.
  assert (E0' : nth_error (set X (S (length B)) (mkblk false t)) (length B) = Some (mkblk true o)).
  { rewrite nth_error_set_lt by lia. destruct (Nat.eqb_spec (length B) (S (length B))); [lia|exact E0]. }
  split.
  - rewrite !lives_live. cbn [m_blocks]. pose proof (lives_set _ _ _ (mkblk false t) E1) as Q1. pose proof (lives_set _ _ _ (mkblk false o) E0') as Q2.
    cbn [b_live] in Q1, Q2. assert (LV : lives X = lives B + 2) by (unfold X; rewrite lives_app; reflexivity). lia.
  - unfold life_fpe_free. cbn [is_null]. unfold mbind. rewrite (load_dead _ o); [reflexivity|].
    rewrite nth_error_set_lt, Nat.eqb_refl by (rewrite length_set; lia). reflexivity.
Qed.
Lemma wbgcm_twice_lemma a cs B k : nth_error B a = Some (mkblk true cs) -> exists m',
  life_wbgcm_free (Ptr a) (mkmem B k) = Ret (tt, m') /\ life_wbgcm_free (Ptr a) m' = Undef.
Proof.
  intros E. eexists. split; [apply wbgcm_free_eq; exact E|]. unfold life_wbgcm_free, mbind, zero, cells_at. cbn [m_blocks].
  rewrite nth_error_set_lt, Nat.eqb_refl by (apply nth_error_Some; congruence). reflexivity.
Qed.
Lemma context_twice_lemma a cs B k : nth_error B a = Some (mkblk true cs) -> exists m',
  context_free (Ptr a) (mkmem B k) = Ret (tt, m') /\ holds m' a (repeat 0%N (length cs)) /\ live_blocks m' = live_blocks (mkmem B k) /\
  context_free (Ptr a) m' = Ret (tt, m').
Proof.
  intros E. assert (La : a < length B) by (apply nth_error_Some; congruence). eexists. split; [apply zero_eq; exact E|]. split; [|split].
  - unfold holds. cbn [m_blocks]. rewrite nth_error_set_lt, Nat.eqb_refl by auto. do 2 f_equal.
    induction (length cs) as [|n IH]; [reflexivity|]. cbn [repeat map]. now rewrite IH.
  - rewrite !lives_live. cbn [m_blocks]. pose proof (lives_set _ _ _ (mkblk true (repeat (Num 0) (length cs))) E) as Q. cbn [b_live] in Q. lia.
  - unfold context_free. rewrite (zero_eq _ (repeat (Num 0) (length cs))) by (rewrite nth_error_set_lt, Nat.eqb_refl by auto; reflexivity).
    now rewrite set_set, repeat_length.
Qed.
Lemma gcm_after_free_lemma blk a key f h b B k : nth_error B a = Some (mkblk true (gcm_object key f h)) -> exists m',
  context_free (Ptr a) (mkmem B k) = Ret (tt, m') /\ life_gcm_block blk (Ptr a) b m' = Undef.
Proof.
  intros E. assert (La : a < length B) by (apply nth_error_Some; congruence). eexists. split; [apply zero_eq; exact E|].
  assert (Lo : length (gcm_object key f h) = 84).
  { unfold gcm_object. destruct (length_init_tables h) as [L1 L2]. rewrite !app_length, !map_length, L1, L2, repeat_length. reflexivity. }
  rewrite Lo. unfold life_gcm_block, mbind.
  rewrite (load_eq a gcm_block_at (repeat (Num 0) 84) (Num 0)) by (try reflexivity; rewrite nth_error_set_lt, Nat.eqb_refl by auto; reflexivity).
  cbn [obind fst snd].
  rewrite (load_eq a gcm_key_at (repeat (Num 0) 84) (Num 0)) by (try reflexivity; rewrite nth_error_set_lt, Nat.eqb_refl by auto; reflexivity).
  reflexivity.
Qed.

(** ** Allocation failure *)
Lemma malloc_fail al n B k : al k = Fail -> malloc al n (mkmem B k) = Ret (null, mkmem B (S k)).
Proof. intros E. unfold malloc. cbn [m_calls m_blocks]. now rewrite E. Qed.
Lemma malloc_ok al n B k : al k <> Fail -> malloc al n (mkmem B k) = Ret (Ptr (length B), mkmem (B ++ [mkblk true (repeat Junk n)]) (S k)).
Proof. intros E. unfold malloc. cbn [m_calls m_blocks]. now destruct (al k). Qed.
Lemma init_fail_lemma al blk n e d key f tweak radix B k : al k = Fail ->
  context_init al n (mkmem B k) = Ret (null, mkmem B (S k)) /\
  life_se_init al e (mkmem B k) = Ret (null, mkmem B (S k)) /\
  life_wbsm4_init al e d (mkmem B k) = Ret (null, mkmem B (S k)) /\
  life_gcm_init al blk key f (mkmem B k) = Ret (null, mkmem B (S k)) /\
  life_gcmfile_init al blk key f (mkmem B k) = Ret (null, mkmem B (S k)) /\
  life_wbgcm_init al blk key f (mkmem B k) = Ret (null, mkmem B (S k)) /\
  life_fpe_init al tweak radix key f (mkmem B k) = Ret (null, mkmem B (S k)) /\
  life_mac_init al tweak radix key f (mkmem B k) = Ret (null, mkmem B (S k)).
Proof.
  intros E. assert (C : forall n, context_init al n (mkmem B k) = Ret (null, mkmem B (S k))).
  { intros n'. unfold context_init. now run ltac:(apply malloc_fail; exact E). }
  repeat split; [apply C| | | | | | |].
  - unfold life_se_init. now run ltac:(apply C).
  - unfold life_wbsm4_init. now run ltac:(apply malloc_fail; exact E).
  - unfold life_gcm_init. now run ltac:(apply malloc_fail; exact E).
  - unfold life_gcmfile_init. now run ltac:(apply malloc_fail; exact E).
  - unfold life_wbgcm_init. now run ltac:(apply malloc_fail; exact E).
  - unfold life_fpe_init. now run ltac:(apply malloc_fail; exact E).
  - unfold life_mac_init. now run ltac:(apply malloc_fail; exact E).
Qed.
Lemma fpe_init_fail_lemma al tweak radix key f B k : al k <> Fail -> al (S k) = Fail -> (2 <= radix <= 36)%N -> tweak <> [] ->
  life_fpe_init al tweak radix key f (mkmem B k) = Undef.
Proof.
  intros E0 E1 [H1 H2] T. unfold life_fpe_init. apply N.ltb_ge in H1, H2. run ltac:(apply malloc_ok; exact E0). cbn [is_null]. rewrite H1, H2. cbn [orb].
  run ltac:(eapply store_eq; [at_end|inside]). run ltac:(eapply store_eq; [at_end|inside]).
  run ltac:(eapply store_eq; [at_end|inside]). run ltac:(eapply store_eq; [at_end|inside]).
  run ltac:(apply malloc_fail; exact E1). run ltac:(eapply store_eq; [at_end|inside]).
  unfold mbind, write. destruct tweak as [|x tw]; [congruence|]. reflexivity.
Qed.
Lemma gcmfile_init_fail_lemma al blk key f B k : al k <> Fail -> al (S k) = Fail -> exists m',
  life_gcmfile_init al blk key f (mkmem B k) = Ret (Ptr (length B), m') /\ forall b, life_gcmfile_block blk (Ptr (length B)) b m' = Undef.
Proof.
  intros E0 E1. eexists. split.
  - unfold life_gcmfile_init. run ltac:(apply malloc_ok; exact E0). cbn [is_null].
    run ltac:(eapply (write_mid _ [Junk] (repeat Junk 4) _ (repeat Junk 12)); [at_end|reflexivity|reflexivity]).
    run ltac:(unfold life_gcm_init; run ltac:(apply malloc_fail; exact E1); reflexivity).
    run ltac:(eapply store_eq; [at_end|cbn; lia]). reflexivity.
  - intros b. unfold life_gcmfile_block, mbind. erewrite load_eq; [|at_end|reflexivity]. reflexivity.
Qed.
Lemma sm4_key_fail_gen al (pk vs : list N) ctx B k : al k = Fail ->
  (let* padkey := malloc al 16 in
   (let* dst := realloc al padkey 16 in write dst 0 (map Num pk)) ;;
   readall padkey ;; write ctx 0 (map Num vs) ;; free padkey) (mkmem B k) = Undef.
Proof.
  intros E. eapply eq_trans; [eapply mbind_eq; apply malloc_fail; exact E|]. cbv beta.
  unfold mbind at 1. destruct ((let* dst := realloc al null 16 in write dst 0 (map Num pk)) (mkmem B (S k))) as [[u m1]| |] eqn:Q; [reflexivity| |reflexivity].
  exfalso. revert Q. unfold mbind, realloc, malloc. cbn [is_null m_calls m_blocks].
  unfold is_null, null. rewrite N.eqb_refl. destruct (al (S k)); cbn [obind fst snd]; unfold write; destruct (length (map Num pk) =? 0); try discriminate;
    destruct (cells_at _ _); try discriminate; destruct (_ <=? _); discriminate.
Qed.
Lemma sm4_key_fail_lemma al e ctx key B k : al k = Fail -> life_sm4_key al e ctx key (mkmem B k) = Undef.
Proof. exact (sm4_key_fail_gen al (key_padding_pkcs7 key) (sm4_init_key_mode e sm4_context_init key) ctx B k). Qed.
Lemma wbsm4_init_fail_lemma al e d B k : al k <> Fail -> al (S k) = Fail -> life_wbsm4_init al e d (mkmem B k) = Undef.
Proof.
  intros E0 E1. pose proof wbsm4_room as W. unfold life_wbsm4_init. run ltac:(apply malloc_ok; exact E0). cbn [is_null]. cbv zeta.
  set (r := 32 + 4 * d).
  (* from here on cell 2 of the struct is null, whatever the allocator answers *)
  set (good := fun m => exists cs D k, m = mkmem (B ++ mkblk true cs :: D) k /\ length cs = wbsm4_cells /\ nth_error cs 2 = Some null).
  assert (S0 : exists m, (let* a := malloc al r in store (Ptr (length B)) 2 a) (mkmem (B ++ [mkblk true (repeat Junk wbsm4_cells)]) (S k)) = Ret (tt, m) /\ good m).
  { eexists. split; [run ltac:(apply malloc_fail; exact E1); eapply store_eq; [at_end|rewrite repeat_length; lia]|].
    rewrite set_new. eexists _, [], _. split; [reflexivity|]. split; [rewrite length_set; apply repeat_length|].
    rewrite nth_error_set_lt by (rewrite repeat_length; lia). reflexivity. }
  assert (SN : forall j m, 2 < j -> j < 6 -> good m -> exists m', (let* a := malloc al r in store (Ptr (length B)) j a) m = Ret (tt, m') /\ good m').
  { intros j m J1 J2 (cs & D & k0 & -> & Lc & C). destruct (al k0) eqn:Ea.
    - eexists. split; [run ltac:(apply malloc_fail; exact Ea); eapply store_eq; [rewrite nth_error_app2, Nat.sub_diag by lia; reflexivity|lia]|].
      eexists (set cs j null), D, _. split; [|split; [now rewrite length_set|rewrite nth_error_set_lt by lia; destruct (Nat.eqb_spec 2 j); [lia|exact C]]].
      f_equal. rewrite <- (Nat.add_0_r (length B)), set_at. reflexivity.
    - eexists. split; [run ltac:(apply malloc_ok; congruence); eapply store_eq; [rewrite <- app_assoc, nth_error_app2, Nat.sub_diag by lia; reflexivity|lia]|].
      eexists (set cs j _), (D ++ [_]), _. split; [|split; [now rewrite length_set|rewrite nth_error_set_lt by lia; destruct (Nat.eqb_spec 2 j); [lia|exact C]]].
      f_equal. rewrite <- (Nat.add_0_r (length B)) at 1. rewrite <- app_assoc, set_at. reflexivity.
    - eexists. split; [run ltac:(apply malloc_ok; congruence); eapply store_eq; [rewrite <- app_assoc, nth_error_app2, Nat.sub_diag by lia; reflexivity|lia]|].
      eexists (set cs j _), (D ++ [_]), _. split; [|split; [now rewrite length_set|rewrite nth_error_set_lt by lia; destruct (Nat.eqb_spec 2 j); [lia|exact C]]].
      f_equal. rewrite <- (Nat.add_0_r (length B)) at 1. rewrite <- app_assoc, set_at. reflexivity. }
  destruct S0 as (m1 & Q1 & G1). destruct (SN 3 m1 ltac:(lia) ltac:(lia) G1) as (m2 & Q2 & G2). destruct (SN 4 m2 ltac:(lia) ltac:(lia) G2) as (m3 & Q3 & G3).
  destruct (SN 5 m3 ltac:(lia) ltac:(lia) G3) as (m4 & Q4 & G4).
  eapply eq_trans; [eapply mbind_eq; exact Q1|]. eapply eq_trans; [eapply mbind_eq; exact Q2|].
  eapply eq_trans; [eapply mbind_eq; exact Q3|]. eapply eq_trans; [eapply mbind_eq; exact Q4|]. cbv beta.
  assert (U : (let* b := malloc al 3 in let* a := load (Ptr (length B)) 2 in store a 0 b) m4 = Undef).
  { destruct G4 as (cs & D & k0 & -> & Lc & C). destruct (al k0) eqn:Ea.
    - run ltac:(apply malloc_fail; exact Ea). run ltac:(eapply load_eq; [rewrite nth_error_app2, Nat.sub_diag by lia; reflexivity|exact C]). reflexivity.
    - run ltac:(apply malloc_ok; congruence). run ltac:(eapply load_eq; [rewrite <- app_assoc, nth_error_app2, Nat.sub_diag by lia; reflexivity|exact C]). reflexivity.
    - run ltac:(apply malloc_ok; congruence). run ltac:(eapply load_eq; [rewrite <- app_assoc, nth_error_app2, Nat.sub_diag by lia; reflexivity|exact C]). reflexivity. }
  unfold mbind at 1. unfold loop. replace r with (S (31 + 4 * d)) by (unfold r; lia). cbn [seq mfor].
  unfold mbind at 1. unfold mbind at 1. rewrite U. reflexivity.
Qed.
