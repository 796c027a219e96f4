(** * What two GCM messages under one IV give away, and what a ciphertext lets its holder change. *)
From Verif Require Import Base CbcModel CbcSpec CbcProofs GcmModel GcmSpec GfProofs GcmProofs GfField GfGhash GcmAuth FileModel FileProofs.
From Coq Require Import ZifyBool ZifyNat ZifyN.
Local Open Scope nat_scope.
#[local] Opaque gf_mul gf_inv sq_n block_mul ghash.

(** ** the attacker's two functions; neither mentions the block function *)
(** where the last block of a string starts *)
Definition last_start (c : list N) : nat := 16 * ((length c - 1) / 16).
(** the hash key, from two messages that differ in their last block only *)
Definition recover_key (c1 t1 c2 t2 : list N) : list N :=
  N_to_be 16 (sq_n 127 (gf_mul (gf_inv (N.lxor (be_to_N (pad16 (skipn (last_start c1) c1))) (be_to_N (pad16 (skipn (last_start c2) c2)))))
    (N.lxor (be_to_N t1) (be_to_N t2)))).
(** a tag for other data, from one message and the hash key *)
Definition forge_tag (H aad c t aad' c' : list N) : list N :=
  xorl (xorl t (ghash H (hashed_str aad c))) (ghash H (hashed_str aad' c')).

(** ** exclusive or of strings *)
Lemma xorl_trunc_r a b r : length a <= length b -> xorl a (b ++ r) = xorl a b.
Proof. revert b; induction a as [|x a IH]; intros [|y b] L; cbn in *; try reflexivity; try lia. f_equal. apply IH. lia. Qed.
Lemma xor4_cancel : forall a b e, length a <= length b -> length b <= length e -> xorl (xorl a (firstn (length a) e)) (xorl b (firstn (length b) e)) = xorl a b.
Proof.
  induction a as [|x a IH]; intros [|y b] [|z e] L1 L2; cbn in *; try reflexivity; try lia. f_equal; [|apply IH; lia].
  rewrite (N.lxor_comm y z), N.lxor_assoc, <- (N.lxor_assoc z z y), N.lxor_nilpotent. reflexivity.
Qed.

(** ** counter mode *)
Lemma gctr_xorl E x : block_function E -> forall d y, block16 y -> length d = length x -> gctr E y (xorl x d) = xorl (gctr E y x) d.
Proof.
  intros HE. pattern x. apply blocks_ind; clear x.
  - intros d y _ L. destruct d; [reflexivity|discriminate].
  - intros p Hp d y Hy L. destruct (HE y Hy) as [LE _].
    assert (LX : length (xorl p d) = length p) by (rewrite length_xorl; lia).
    rewrite !gctr_short by lia. rewrite LX. rewrite !xorl_assoc. f_equal. apply xorl_comm.
  - intros b s Hb IH d y Hy L. rewrite app_length in L. destruct (HE y Hy) as [LE _].
    rewrite <- (firstn_skipn 16 d).
    assert (L1 : length (firstn 16 d) = 16) by (rewrite firstn_length; lia).
    assert (L2 : length (skipn 16 d) = length s) by (rewrite skipn_length; lia).
    rewrite xorl_app by lia. rewrite !gctr_block by (rewrite ?length_xorl; lia).
    rewrite xorl_app by (rewrite length_xorl, firstn_length; lia).
    rewrite IH by (auto; now apply inc32_block). f_equal.
    rewrite !xorl_assoc. f_equal. apply xorl_comm.
Qed.
Lemma gctr_xor_prefix E x : block_function E -> forall x' y, block16 y -> xorl (gctr E y x) (gctr E y x') = xorl x x'.
Proof.
  intros HE x' y Hy.
  (* the shorter of the two is a prefix of a string of the other's length *)
  assert (K : forall a b, length a <= length b -> xorl (gctr E y a) (gctr E y b) = xorl a b).
  { clear x x'. intros a. revert y Hy. pattern a. apply blocks_ind; clear a.
    - reflexivity.
    - intros p Hp y Hy b L. destruct (HE y Hy) as [LE _]. rewrite (gctr_short E y p) by lia.
      destruct (Nat.le_gt_cases (length b) 16) as [S|S].
      + rewrite (gctr_short E y b) by lia. apply xor4_cancel; lia.
      + rewrite <- (firstn_skipn 16 b). set (h := firstn 16 b). set (r := skipn 16 b).
        assert (Lh : length h = 16) by (unfold h; rewrite firstn_length; lia).
        rewrite gctr_block by exact Lh. rewrite !xorl_trunc_r by (rewrite ?length_xorl, ?firstn_length; lia).
        replace (firstn 16 (E y)) with (firstn (length h) (E y)) by (now rewrite Lh). apply xor4_cancel; lia.
    - intros b s Hb IH y Hy q L. rewrite app_length in L. destruct (HE y Hy) as [LE _].
      rewrite <- (firstn_skipn 16 q). set (h := firstn 16 q). set (r := skipn 16 q).
      assert (Lh : length h = 16) by (unfold h; rewrite firstn_length; lia).
      assert (Lr : length s <= length r) by (unfold r; rewrite skipn_length; lia).
      rewrite !gctr_block by lia. rewrite !xorl_app by (rewrite ?length_xorl, ?firstn_length; lia).
      rewrite IH by (auto; now apply inc32_block). f_equal.
      replace (xorl b (firstn 16 (E y))) with (xorl b (firstn (length b) (E y))) by (now rewrite Hb).
      replace (xorl h (firstn 16 (E y))) with (xorl h (firstn (length h) (E y))) by (now rewrite Lh). apply xor4_cancel; lia. }
  destruct (Nat.le_ge_cases (length x) (length x')) as [L|L]; [now apply K|]. rewrite xorl_comm, (xorl_comm x). now apply K.
Qed.

(** ** the hash of two strings that differ in their last block *)
Lemma ghash_last2 H u b l : block16 H -> length u mod 16 = 0 -> bytes u -> block16 b -> block16 l ->
  be_to_N (ghash H (u ++ b ++ l)) =
  gf_mul (N.lxor (gf_mul (N.lxor (gfold (be_to_N H) (map be_to_N (chunks 16 u)) 0%N) (be_to_N b)) (be_to_N H)) (be_to_N l)) (be_to_N H).
Proof.
  intros HH Hu Bu [Lb Bb] [Ll Bl].
  assert (M : length (u ++ b ++ l) mod 16 = 0) by (rewrite !app_length, Lb, Ll; lia).
  assert (B : bytes (u ++ b ++ l)) by (apply Forall_app; split; [assumption|]; apply Forall_app; now split).
  rewrite ghash_N by assumption. rewrite chunks_app_aligned by exact Hu. rewrite chunks_app by (lia || exact Lb).
  rewrite (chunks_short l) by lia. rewrite map_app, gfold_app. cbn [map]. rewrite !gfold_cons. reflexivity.
Qed.
Lemma lxor_pair a b c : N.lxor (N.lxor a c) (N.lxor b c) = N.lxor a b.
Proof. rewrite xor_swap4, N.lxor_nilpotent. apply N.lxor_0_r. Qed.
Lemma ghash_diff H u b b' l : block16 H -> length u mod 16 = 0 -> bytes u -> block16 b -> block16 b' -> block16 l ->
  N.lxor (be_to_N (ghash H (u ++ b ++ l))) (be_to_N (ghash H (u ++ b' ++ l))) =
  gf_mul (N.lxor (be_to_N b) (be_to_N b')) (sq (be_to_N H)).
Proof.
  intros HH Hu Bu Hb Hb' Hl. rewrite !ghash_last2 by assumption. set (g := gfold _ _ _). rewrite <- mul_lxor_l, lxor_pair, <- mul_lxor_l.
  rewrite !(N.lxor_comm g), lxor_pair. pose proof (block16_N _ HH) as KH. pose proof (lxor_blk _ _ (block16_N _ Hb) (block16_N _ Hb')) as KB.
  unfold sq. symmetry. now apply mul_assoc.
Qed.
Lemma sq_n_last k x : sq_n k (sq x) = sq_n (S k) x.
Proof. induction k as [|k IH]; [rewrite sq_n_S; reflexivity|]. rewrite sq_n_S, IH, <- !sq_n_S. reflexivity. Qed.
Lemma solve_key d e h : blk128 d -> blk128 h -> d <> 0%N -> e = gf_mul d (sq h) -> sq_n 127 (gf_mul (gf_inv d) e) = h.
Proof.
  intros Hd Hh ND ->. rewrite mul_assoc by (try apply gf_inv_bound; try apply sq_bound; assumption). rewrite gf_inv_l by assumption. rewrite mul_1_l.
  rewrite <- (fermat h Hh) at 2. apply sq_n_last.
Qed.

(** ** two messages under one IV *)
Lemma last_start_app u x : length u mod 16 = 0 -> 1 <= length x <= 16 -> last_start (u ++ x) = length u.
Proof. intros Hu Hx. unfold last_start. rewrite app_length. lia. Qed.
Lemma pad16_app u x : length u mod 16 = 0 -> pad16 (u ++ x) = u ++ pad16 x.
Proof. intros Hu. unfold pad16. rewrite app_length, <- app_assoc. do 4 f_equal. lia. Qed.
Lemma pad16_block x : 1 <= length x <= 16 -> bytes x -> block16 (pad16 x).
Proof.
  intros L B. unfold pad16. split; [rewrite app_length, repeat_length; lia|]. apply Forall_app. split; [exact B|]. now apply bytes_repeat.
Qed.
Lemma pad16_aligned s : length (pad16 s) mod 16 = 0.
Proof. unfold pad16. rewrite app_length, repeat_length. lia. Qed.
Lemma bytes_pad16 s : bytes s -> bytes (pad16 s).
Proof. intros B. unfold pad16. apply Forall_app. split; [exact B|]. now apply bytes_repeat. Qed.

Lemma be_N_block b : block16 b -> N_to_be 16 (be_to_N b) = b.
Proof. intros [L B]. rewrite <- L at 1. now apply N_to_be_to_N. Qed.
Lemma recover_spec E iv aad u y1 y2 : block_function E -> bytes iv -> bytes aad -> bytes (u ++ y1) -> bytes (u ++ y2) ->
  length u mod 16 = 0 -> 1 <= length y1 <= 16 -> length y1 = length y2 -> y1 <> y2 ->
  recover_key (u ++ y1) (gcm_tag E iv aad (u ++ y1) 16) (u ++ y2) (gcm_tag E iv aad (u ++ y2) 16) = hash_key E.
Proof.
  intros HE Biv Ba B1 B2 Hu L1 L12 NE. unfold recover_key.
  rewrite !last_start_app by lia. rewrite !skipn_app, !skipn_all, !Nat.sub_diag. cbn [app]. rewrite !skipn_O.
  apply bytes_app in B1. destruct B1 as [Bu B1]. apply bytes_app in B2. destruct B2 as [_ B2].
  pose proof (hash_key_block E HE) as HH. destruct (HE _ (J0_block E iv Biv)) as [LE BE].
  pose proof (pad16_block y1 L1 B1) as P1. pose proof (pad16_block y2 ltac:(lia) B2) as P2.
  set (H := hash_key E) in *. transitivity (N_to_be 16 (be_to_N H)); [|now apply be_N_block]. f_equal.
  apply solve_key.
  - apply lxor_blk; now apply block16_N.
  - now apply block16_N.
  - intros Z. apply N.lxor_eq in Z. apply NE. apply pad16_inj; [exact L12|]. destruct P1, P2. apply be_to_N_inj; [lia|assumption|assumption|exact Z].
  - rewrite !tag_full by assumption. fold H.
    pose proof (ghash_block16 H _ (hashed_str_mod aad (u ++ y1))) as [G1 C1]. pose proof (ghash_block16 H _ (hashed_str_mod aad (u ++ y2))) as [G2 C2].
    rewrite !be_to_N_xorl by (lia || assumption). rewrite lxor_pair. unfold hashed_str. rewrite !pad16_app by exact Hu.
    assert (EL : len64 (u ++ y2) = len64 (u ++ y1)) by (apply len64_eq; rewrite !app_length; lia). rewrite EL.
    rewrite !(app_assoc (pad16 aad)). rewrite <- !app_assoc. rewrite !(app_assoc (pad16 aad) u).
    apply ghash_diff; try assumption.
    + rewrite app_length. pose proof (pad16_aligned aad). lia.
    + apply Forall_app. split; [now apply bytes_pad16|exact Bu].
    + split; [apply lens_length|]. apply Forall_app. split; apply len64_bytes.
Qed.
Lemma forge_spec E iv aad c aad' c' : block_function E -> bytes iv -> 
  forge_tag (hash_key E) aad c (gcm_tag E iv aad c 16) aad' c' = gcm_tag E iv aad' c' 16.
Proof.
  intros HE Biv. unfold forge_tag. rewrite !tag_full by assumption. pose proof (hash_key_block E HE) as HH. destruct (HE _ (J0_block E iv Biv)) as [LE BE].
  pose proof (ghash_block16 (hash_key E) _ (hashed_str_mod aad c)) as [G1 _]. pose proof (ghash_block16 (hash_key E) _ (hashed_str_mod aad' c')) as [G2 _].
  rewrite (xorl_comm (ghash _ (hashed_str aad c))), xorl_cancel_r by lia. apply xorl_comm.
Qed.
Lemma some_inj {A} (a b : A) : Some a = Some b -> a = b.
Proof. congruence. Qed.
Lemma enc_session E iv aad p : block_function E -> gcm_limits iv aad p ->
  gcm_session Enc (lift E) iv aad [p] 16 = Some (gcm_ciphertext E iv p, gcm_tag E iv aad (gcm_ciphertext E iv p) 16).
Proof. intros HE (B1 & B2 & B3 & L1 & L2 & L3). apply gcm_conforms_lemma; auto. Qed.
Lemma gcm_iv_reuse_xor_lemma : forall E iv aad1 aad2 p1 p2 c1 t1 c2 t2, block_function E -> gcm_limits iv aad1 p1 -> gcm_limits iv aad2 p2 ->
  gcm_session Enc (lift E) iv aad1 [p1] 16 = Some (c1, t1) -> gcm_session Enc (lift E) iv aad2 [p2] 16 = Some (c2, t2) ->
  xorl c1 c2 = xorl p1 p2.
Proof.
  intros E iv aad1 aad2 p1 p2 c1 t1 c2 t2 HE G1 G2 S1 S2. rewrite enc_session in S1 by assumption. rewrite enc_session in S2 by assumption.
  apply some_inj in S1, S2. apply (f_equal fst) in S1, S2. cbn [fst] in S1, S2. rewrite <- S1, <- S2. unfold gcm_ciphertext.
  destruct G1 as [Biv _]. apply gctr_xor_prefix; [exact HE|]. now apply inc32_block, J0_block.
Qed.
Lemma gcm_iv_reuse_lemma : exists (recover : list N -> list N -> list N -> list N -> list N) (forge : list N -> list N -> list N -> list N -> list N -> list N -> list N),
  forall E iv aad u x1 x2 c1 t1 c2 t2, block_function E -> gcm_limits iv aad (u ++ x1) -> bytes x2 ->
  length u mod 16 = 0 -> 1 <= length x1 <= 16 -> length x2 = length x1 -> x1 <> x2 ->
  gcm_session Enc (lift E) iv aad [u ++ x1] 16 = Some (c1, t1) -> gcm_session Enc (lift E) iv aad [u ++ x2] 16 = Some (c2, t2) ->
  recover c1 t1 c2 t2 = E (repeat 0%N 16) /\ forall aad' c', gcm_limits iv aad' c' ->
    exists p', gcm_session Dec (lift E) iv aad' [c'] 16 = Some (p', forge (recover c1 t1 c2 t2) aad c1 t1 aad' c').
Proof.
  exists recover_key, forge_tag. intros E iv aad u x1 x2 c1 t1 c2 t2 HE G1 Bx2 Hu L1 L2 NE S1 S2.
  assert (G2 : gcm_limits iv aad (u ++ x2)).
  { destruct G1 as (A1 & A2 & A3 & A4 & A5 & A6). repeat (split; [assumption|]). apply bytes_app in A3. destruct A3 as [Bu _].
    split; [apply bytes_app; now split|]. repeat (split; [assumption|]). rewrite app_length in *. lia. }
  rewrite enc_session in S1 by assumption. rewrite enc_session in S2 by assumption.
  apply some_inj in S1, S2. pose proof (f_equal fst S1) as C1. pose proof (f_equal snd S1) as T1. pose proof (f_equal fst S2) as C2. pose proof (f_equal snd S2) as T2.
  cbn [fst snd] in C1, T1, C2, T2. rewrite C1 in T1. rewrite C2 in T2. subst t1 t2. pose proof G1 as (Biv & Ba & B1 & _). pose proof G2 as (_ & _ & B2 & _).
  pose proof (J0_block E iv Biv) as HJ. pose proof (inc32_block _ HJ) as HJ1. unfold gcm_ciphertext in C1, C2. rewrite gctr_app in C1, C2 by exact Hu.
  set (y := inc32 (J0 E iv)) in *. set (y' := inc32_n (nblk (length u)) y) in *.
  assert (HY : block16 y') by (now apply inc32_n_block).
  apply bytes_app in B1. destruct B1 as [Bu Bx1].
  set (cu := gctr E y u) in *. set (d1 := gctr E y' x1) in *. set (d2 := gctr E y' x2) in *.
  assert (Lcu : length cu = length u) by (now apply gctr_length). assert (Ld1 : length d1 = length x1) by (now apply gctr_length). assert (Ld2 : length d2 = length x2) by (now apply gctr_length).
  assert (Bcu : bytes cu) by (now apply gctr_bytes). assert (Bd1 : bytes d1) by (now apply gctr_bytes). assert (Bd2 : bytes d2) by (now apply gctr_bytes).
  assert (ND : d1 <> d2). { intros X. apply NE. rewrite <- (gctr_involutive E x1 HE y' HY), <- (gctr_involutive E x2 HE y' HY). fold d1 d2. now rewrite X. }
  rewrite <- C1, <- C2.
  assert (R : recover_key (cu ++ d1) (gcm_tag E iv aad (cu ++ d1) 16) (cu ++ d2) (gcm_tag E iv aad (cu ++ d2) 16) = hash_key E).
  { apply recover_spec; try assumption; try (apply bytes_app; now split); try lia. }
  rewrite R. split; [reflexivity|]. intros aad' c' G'. exists (gctr E (inc32 (J0 E iv)) c').
  rewrite dec_session by (assumption || lia). do 2 f_equal. symmetry. now apply forge_spec.
Qed.

(** ** altered ciphertexts *)
Lemma gcm_malleable_lemma : forall E iv aad aad' p mask c t, block_function E -> gcm_limits iv aad p -> gcm_limits iv aad' mask -> length mask = length p ->
  gcm_session Enc (lift E) iv aad [p] 16 = Some (c, t) ->
  exists t', gcm_session Dec (lift E) iv aad' [xorl c mask] 16 = Some (xorl p mask, t').
Proof.
  intros E iv aad aad' p mask c t HE G G' L S1. rewrite enc_session in S1 by assumption. apply some_inj in S1. apply (f_equal fst) in S1. cbn [fst] in S1. subst c.
  pose proof G as (Biv & _ & Bp & _ & _ & Lp). pose proof (inc32_block _ (J0_block E iv Biv)) as HJ. unfold gcm_ciphertext. set (y := inc32 (J0 E iv)) in *.
  assert (LC : length (gctr E y p) = length p) by (now apply gctr_length). assert (BC : bytes (gctr E y p)) by (now apply gctr_bytes).
  eexists. rewrite dec_session; [|exact HE| |lia].
  - fold y. rewrite gctr_xorl by (assumption || lia). rewrite gctr_involutive by assumption. reflexivity.
  - destruct G' as (A1 & A2 & A3 & A4 & A5 & A6). repeat (split; [assumption|]). split; [now apply bytes_xorl|]. repeat (split; [assumption|]). rewrite length_xorl. lia.
Qed.
Lemma open_y blk tag0 tag1 iv aad aad' c c' : gcmfile_open blk tag0 iv aad = Some c -> gcmfile_open blk tag1 iv aad' = Some c' -> g_y (f_gcm c) = g_y (f_gcm c').
Proof.
  unfold gcmfile_open, gcmfile_init, gcmfile_setiv. destruct (gcm_init blk) as [g|]; [|discriminate]. cbn [bind f_gcm f_tag].
  destruct (gcm_setiv blk g iv) as [[|] g1]; [|discriminate]. cbn [gcmfile_aad snd f_gcm]. intros X Y. apply some_inj in X, Y. subst c c'. reflexivity.
Qed.
Lemma gcmfile_malleable_lemma : forall E tag0 tag1 iv aad aad' wr fs inf encf decf junk data tag' mask,
  block_function E -> bytes iv -> bytes aad -> bytes aad' -> bytes data -> fs inf = Some data ->
  inf <> encf -> inf <> tmp_path encf -> decf <> encf ->
  (forall p, In p [encf; tmp_path encf; decf] -> wr p = true) -> length junk = 4 -> bytes junk ->
  (N.of_nat (length data) <= 2147483647)%N -> length tag' = 16 -> bytes tag' -> length mask = length data -> bytes mask ->
  exists c c' tag size ct c1 fs1 c2 fs2,
    gcmfile_open (lift E) tag0 iv aad = Some c /\ gcmfile_open (lift E) tag1 iv aad' = Some c' /\
    gcmfile_encrypt (lift E) wr fs c inf encf junk = Some (true, c1, fs1) /\
    fs1 encf = Some (tag ++ size ++ ct) /\ length tag = 16 /\ length size = 8 /\ length ct = length data /\
    gcmfile_decrypt (lift E) wr (upd fs1 encf (Some (tag' ++ size ++ xorl ct mask))) c' encf decf = Some (true, c2, fs2) /\
    fs2 decf = Some (xorl data mask).
Proof.
  intros E tag0 tag1 iv aad aad' wr fs inf encf decf junk data tag' mask HE Biv Ba Ba' Bd HF N1 N2 N3 HW LJ BJ HM LT' BT' LM BM.
  destruct (gcmfile_roundtrip_lemma E tag0 iv aad wr fs inf encf decf junk data HE Biv Ba Bd HF N1 N2 N3 HW LJ BJ HM) as (c & tag & ct & c1 & fs1 & c2 & fs2 & O & P & Q & LT & LC & _ & _ & R & R' & _).
  destruct (open_ok E tag1 iv aad' HE Biv Ba') as (c' & O' & HC' & _).
  destruct (open_ok E tag0 iv aad HE Biv Ba) as (c0 & O0 & HC & _). assert (c0 = c) by congruence. subst c0.
  pose proof (open_y _ _ _ _ _ _ _ _ O O') as EY. destruct c as [g tg]. destruct c' as [g' tg']. cbn [f_gcm] in *.
  assert (Hy : block16 (inc32 (g_y g))) by (apply inc32_block; apply HC).
  destruct (gcmfile_encrypt_run E (hash_key E) g tg wr fs inf encf junk data) as (d1 & d2 & dt & dfs & _ & _ & P3 & P4 & _); auto.
  1,2: apply HW; cbn [In]; auto. 1: lia.
  assert (Edfs : dfs = fs1) by congruence. subst dfs. cbv zeta in P4.
  set (size := N_to_le 4 (N.of_nat (length data)) ++ junk).
  assert (LL : length (N_to_le 4 (N.of_nat (length data))) = 4) by (unfold N_to_le; rewrite rev_length; apply length_N_to_be).
  assert (BL : bytes (N_to_le 4 (N.of_nat (length data)))) by (apply bytes_rev, bytes_N_to_be).
  assert (Ect : ct = gctr E (inc32 (g_y g)) data).
  { rewrite Q in P4. apply some_inj in P4. apply (f_equal (@rev N)) in P4. rewrite !rev_app_distr in P4. apply (f_equal (firstn (length data))) in P4.
    rewrite <- !app_assoc in P4. rewrite !firstn_app in P4. rewrite !rev_length, LC, (gctr_length E data HE _ Hy), Nat.sub_diag, !firstn_O, !app_nil_r in P4.
    rewrite !firstn_all2 in P4 by (rewrite rev_length, ?LC, ?(gctr_length E data HE _ Hy); lia). rewrite <- (rev_involutive ct), P4. apply rev_involutive. }
  assert (BC : bytes ct) by (rewrite Ect; now apply gctr_bytes).
  set (body := xorl ct mask). assert (LB : length body = length data) by (unfold body; rewrite length_xorl; lia). assert (BB : bytes body) by (now apply bytes_xorl).
  set (cont := tag' ++ size ++ body).
  assert (Lsize : length size = 8) by (unfold size; rewrite app_length; lia).
  assert (S16 : skipn 16 cont = size ++ body) by (unfold cont; rewrite <- LT'; apply skipn_app_exact).
  assert (S24 : skipn 24 cont = body) by (change 24 with (16 + 8); rewrite <- skipn_skipn_add, S16; rewrite <- Lsize; apply skipn_app_exact).
  destruct (gcmfile_decrypt_run E (hash_key E) g' tg' wr (upd fs1 encf (Some cont)) encf decf cont) as (c3 & K); auto.
  { unfold cont, size. repeat (apply bytes_app; split; auto). } { apply upd_same. } { unfold cont. rewrite !app_length. lia. } { apply HW; cbn [In]; auto. } { unfold cont. rewrite !app_length. lia. }
  cbv zeta in K. rewrite S24, S16 in K. unfold size in K. rewrite <- !app_assoc in K.
  replace (firstn 4 (N_to_le 4 (N.of_nat (length data)) ++ junk ++ body ++ repeat 0%N 4)) with (N_to_le 4 (N.of_nat (length data))) in K
    by (rewrite <- LL at 2; now rewrite firstn_app_exact).
  rewrite le_to_N_to_le in K by (cbn; lia). rewrite c_int_small in K by (unfold int_max; lia). rewrite LB in K.
  replace (Z.of_nat (length data) =? Z.of_N (N.of_nat (length data)))%Z with true in K by (symmetry; apply Z.eqb_eq; lia).
  exists (mkgf g tg), (mkgf g' tg'), tag, size, ct, c1, fs1, c3. eexists.
  split; [exact O|]. split; [exact O'|]. split; [exact P|]. split; [unfold size; rewrite <- app_assoc; exact Q|]. split; [exact LT|]. split; [exact Lsize|]. split; [exact LC|].
  split; [exact K|]. rewrite upd_same. f_equal. rewrite <- EY. unfold body. rewrite gctr_xorl by (auto; lia). f_equal. rewrite Ect. now apply gctr_involutive.
Qed.
