(** * White-box GCM contexts used for several messages. *)
From Verif Require Import Base CbcModel CbcSpec CbcProofs GcmModel GcmSpec GfProofs GcmProofs GfField GfGhash GcmAuth GcmIv OverlapGcm FileModel FileProofs
  WbaesModel WbgcmModel WbgcmProofs WbgcmKeys WbgcmThms WbgcmTop AesSpec FpeModel Stale.
From Coq Require Import ZifyBool ZifyNat ZifyN.
Local Open Scope nat_scope.
#[local] Opaque gf_mul gcm_mult block_mul gf_inv file_slice.

(** ** With setiv and aad *)
(** calls on a context, as steps *)
Inductive wb_use (k : wbkey) : gcm_ctx -> gcm_ctx -> Prop :=
| wb_none c : wb_use k c c
| wb_iv c iv c2 : wb_use k (wbgcm_setiv k c iv) c2 -> wb_use k c c2
| wb_more c a c2 : wb_use k (wbgcm_aad c a) c2 -> wb_use k c c2
| wb_data c d x n z c1 o c2 : wbgcm_crypt d k c x n = (z, c1, o) -> wb_use k c1 c2 -> wb_use k c c2
| wb_tag c n c1 t c2 : wbgcm_finish k c n = Some (c1, t) -> wb_use k c1 c2 -> wb_use k c c2
| wb_fenc c wr fs inf outf junk ok c1 tag fs1 c2 : wbgcmfile_encrypt k wr fs c inf outf junk = Some (ok, c1, tag, fs1) -> wb_use k c1 c2 -> wb_use k c c2
| wb_fdec c wr fs inf outf ok c1 tag fs1 c2 : wbgcmfile_decrypt k wr fs c inf outf = Some (ok, c1, tag, fs1) -> wb_use k c1 c2 -> wb_use k c c2.
Definition same_HT (a b : gcm_ctx) : Prop := g_HH a = g_HH b /\ g_HL a = g_HL b.
Lemma wbcrypt_tables d k c p n : same_HT (snd (fst (wbgcm_crypt d k c p n))) c.
Proof. unfold wbgcm_crypt. destruct (n <? length p); [split; reflexivity|]. cbv zeta. destruct (wbgcm_loop _ _ _ _ _ _ _ _) as [[y b] o]. split; reflexivity. Qed.
Lemma wbslices_tables d k ps : forall c, same_HT (fst (slices_run (wbgcm_slice d k) c ps)) c.
Proof.
  induction ps as [|p ps IH]; intros c; cbn [slices_run]; [split; reflexivity|].
  unfold wbgcm_slice at 1. pose proof (wbcrypt_tables d k c p (length p)) as T. destruct (wbgcm_crypt d k c p (length p)) as [[z c1] o]. cbn [fst snd] in T.
  specialize (IH c1). destruct (slices_run _ c1 ps) as [c2 o2]. cbn [fst] in *. destruct T, IH. split; congruence.
Qed.
Lemma wbfinish_tables k c t r : wbgcm_finish k c t = Some r -> same_HT (fst r) c.
Proof. unfold wbgcm_finish. destruct (16 <? t); [discriminate|]. destruct (_ && _); intros [= <-]; split; reflexivity. Qed.
Lemma wbenc_tables k wr fs c inf outf junk ok c1 tag fs1 : wbgcmfile_encrypt k wr fs c inf outf junk = Some (ok, c1, tag, fs1) -> same_HT c1 c.
Proof.
  unfold wbgcmfile_encrypt, file_encrypt. destruct (fs inf); [|discriminate]. destruct (negb (wr (tmp_path outf))); [discriminate|]. destruct (negb (wr outf)); [discriminate|].
  cbv zeta. match goal with |- context [slices_run ?a ?b ?l] => pose proof (wbslices_tables Enc k l b) as T; destruct (slices_run a b l) as [g1 ct] end.
  cbn [fst] in T. destruct (wbgcm_finish k g1 file_tag_len) as [[g2 tg]|] eqn:F; [|discriminate]. cbn [bind]. intros [= _ <- _ _].
  apply wbfinish_tables in F. cbn [fst] in F. destruct T, F. split; congruence.
Qed.
Lemma wbdec_tables k wr fs c inf outf ok c1 tag fs1 : wbgcmfile_decrypt k wr fs c inf outf = Some (ok, c1, tag, fs1) -> same_HT c1 c.
Proof.
  unfold wbgcmfile_decrypt, file_decrypt. destruct (fs inf); [|discriminate]. destruct (length _ =? 0); [discriminate|]. cbv zeta. destruct (length _ =? 0); [discriminate|].
  destruct (negb (wr outf)); [discriminate|]. destruct (path_dec inf outf); [discriminate|]. destruct (wbgcm_finish k c file_tag_len) as [[g1 tg]|] eqn:F; [|discriminate]. cbn [bind].
  destruct (int_max <? _)%N; [discriminate|].
  match goal with |- context [slices_run ?a ?b ?l] => pose proof (wbslices_tables Dec k l b) as T; destruct (slices_run a b l) as [g2 ct] end.
  cbn [fst] in T. intros [= _ <- _ _]. apply wbfinish_tables in F. cbn [fst] in F. destruct T, F. split; congruence.
Qed.
Lemma wb_use_tables k c c' : wb_use k c c' -> same_HT c' c.
Proof.
  induction 1 as [c|c iv c2 _ IH|c a c2 _ IH|c d x n z c1 o c2 R _ IH|c n c1 t c2 R _ IH|c wr fs inf outf junk ok c1 tag fs1 c2 R _ IH|c wr fs inf outf ok c1 tag fs1 c2 R _ IH].
  - split; reflexivity.
  - exact IH.
  - exact IH.
  - pose proof (wbcrypt_tables d k c x n) as T. rewrite R in T. cbn [fst snd] in T. destruct T, IH. split; congruence.
  - apply wbfinish_tables in R. cbn [fst] in R. destruct R, IH. split; congruence.
  - apply wbenc_tables in R. destruct R, IH. split; congruence.
  - apply wbdec_tables in R. destruct R, IH. split; congruence.
Qed.
Lemma setiv_aad_same k c c0 iv aad : same_HT c c0 -> wbgcm_aad (wbgcm_setiv k c iv) aad = wbgcm_aad (wbgcm_setiv k c0 iv) aad.
Proof.
  intros [T1 T2]. unfold wbgcm_setiv, wbgcm_aad. cbv zeta. cbn [g_len g_add_len g_HL g_HH g_base g_y g_buf]. rewrite T1, T2. reflexivity.
Qed.
Lemma wb_again_lemma : forall k c iv aad, wb_use k (wbgcm_init k) c -> wbgcm_aad (wbgcm_setiv k c iv) aad = wbgcm_open k iv aad.
Proof. intros k c iv aad U. unfold wbgcm_open. apply setiv_aad_same, (wb_use_tables k _ _ U). Qed.
Lemma setiv_add_same k c c0 iv n : same_HT c c0 -> g_add_len c = n -> wbgcm_setiv k c iv = with_add n (wbgcm_setiv k c0 iv).
Proof.
  intros [T1 T2] A. unfold wbgcm_setiv, with_add. cbv zeta. cbn [g_len g_add_len g_HL g_HH g_base g_y g_buf]. rewrite T1, T2, A. reflexivity.
Qed.

Lemma some_inj {A} (a b : A) : Some a = Some b -> a = b.
Proof. now intros [= ->]. Qed.
#[local] Opaque wbgcm_init wbgcm_setiv.
(** ** Without aad *)
Definition wb_tagged (d : dir) (k : wbkey) (c : gcm_ctx) (p : list N) : option (list N * list N) :=
  let '(_, c', out) := wbgcm_crypt d k c p (length p) in do r <- wbgcm_finish k c' 16; Some (out, snd r).
Section Stale.
Variables (k : wbkey) (E : list N -> list N) (g : nat -> N -> N -> N).
Hypothesis HS : sound k E g.
Hypothesis ginj : forall i e x y, i < 16 -> byte e -> byte x -> byte y -> g i e x = g i e y -> x = y.
Let HE := s_E k E g HS.
Lemma block_mul_block x : block16 x -> block16 (block_mul x (hash_key E)).
Proof.
  intros X. rewrite <- (xorl_zeros_l x 16) by (destruct X; lia). rewrite <- ghash_from_one by apply X.
  apply ghash_from_block16; [apply block16_zeros|]. destruct X as [-> _]. reflexivity.
Qed.
Lemma wb_finish_mul c y0 : keyed (hash_key E) c -> block16 (g_buf c) -> block16 y0 -> g_base c = wb_ectr k y0 -> (0 < g_len c)%N -> (8 * g_len c < 2 ^ 64)%N -> (8 * g_add_len c < 2 ^ 64)%N ->
  exists c', wbgcm_finish k c 16 = Some (c', map (fun i => g i (get (E y0) i) (get (block_mul (xorl (g_buf c) (N_to_be 8 (8 * g_add_len c) ++ N_to_be 8 (8 * g_len c))) (hash_key E)) i)) (seq 0 16)).
Proof.
  intros K B Y BB L0 L A. unfold wbgcm_finish. change (16 <? 16) with false. cbn match. rewrite !w64_small by lia.
  destruct (N.eqb_spec (g_len c * 8) 0) as [Z|Z]; [lia|]. cbn [andb]. rewrite len_block by lia. rewrite !(N.mul_comm _ 8).
  pose proof (lens_blk (8 * g_add_len c) (8 * g_len c)) as W.
  rewrite xor_into_full by (destruct B, W; lia). rewrite (gcm_mult_block _ _ (hash_key E)) by (auto; now apply block16_xorl).
  set (X := xorl (g_buf c) _). assert (BX : block16 X) by now apply block16_xorl. pose proof (block_mul_block X BX) as [ML MB].
  eexists. match goal with |- Some (?a, ?l) = Some (_, ?r) => replace r with l; [reflexivity|] end.
  apply map_ext_in. intros i I. apply in_seq in I.
  assert (LB : length (wb_ectr k y0) = 16) by (unfold wb_ectr; cbv zeta; now rewrite map_length, seq_length).
  rewrite BB, firstn_all2 by lia. unfold wb_ectr. cbv zeta. rewrite get_map_seq' by lia. apply (s_x k E g HS); auto; [lia|]. now apply bytes_get.
Qed.
Lemma wb_stale_tag d c y0 n p : hash_key E <> repeat 0%N 16 -> ctx_ok (hash_key E) c -> block16 y0 -> g_base c = wb_ectr k y0 -> g_len c = 0%N -> bytes p -> p <> [] ->
  (N.of_nat (length p) <= 2147483647)%N -> (8 * g_add_len c < 2 ^ 64)%N -> (8 * n < 2 ^ 64)%N -> g_add_len c <> n ->
  exists o t1 t2, wb_tagged d k c p = Some (o, t1) /\ wb_tagged d k (with_add n c) p = Some (o, t2) /\ t1 <> t2.
Proof.
  intros NZ HC Y BB L0 Bp NE Lp A1 A2 D. pose proof (hash_key_nz E HE NZ) as NZ'. pose proof (hash_key_block E HE) as HK.
  assert (HC2 : ctx_ok (hash_key E) (with_add n c)) by exact HC. assert (PL : 0 < length p) by (destruct p; [congruence|cbn; lia]).
  pose proof (gmix_length E g p (inc32 (g_y c))) as LO. assert (BO : bytes (gmix E g (inc32 (g_y c)) p)) by (apply gmix_bytes; [exact HE|apply (s_b k E g HS)|exact Bp|apply inc32_block, HC]).
  destruct (wb_crypt_ok k E g HS (hash_key E) d (g_base c) c p (length p) HC Bp Lp (Nat.le_refl _)) as (c1 & z1 & P1 & R1 & _).
  destruct (wb_crypt_ok k E g HS (hash_key E) d (g_base c) (with_add n c) p (length p) HC2 Bp Lp (Nat.le_refl _)) as (c2 & z2 & P2 & R2 & _).
  cbn [with_add g_y] in P2, R2. set (o := gmix E g (inc32 (g_y c)) p) in *.
  assert (LH : length (hashed d p o) = length p) by (destruct d; auto). assert (BH : bytes (hashed d p o)) by (destruct d; auto).
  assert (LE : length (hashed d p o) <= length p) by lia. assert (LH' : (N.of_nat (length (hashed d p o)) <= int_max)%N) by (rewrite LH; exact Lp).
  pose proof (gcm_crypt_spec E _ Dec c (hashed d p o) (length p) HE HC BH LH' LE) as S1. cbv zeta in S1. rewrite S1 in P1.
  pose proof (gcm_crypt_spec E _ Dec _ (hashed d p o) (length p) HE HC2 BH LH' LE) as S2. cbv zeta in S2. unfold with_add in S2, P2. rewrite S2 in P2.
  clear S1 S2. injection P1 as P1 _. injection P2 as P2 _. cbn [with_add g_len g_add_len g_HL g_HH g_base g_y g_buf hashed] in P1, P2.
  rewrite L0, N.add_0_l, w64_small, LH in P1, P2 by lia.
  set (buf := ghash_from (hash_key E) (g_buf c) (pad16 (hashed d p o))) in *. destruct HC as (K & Hy & Hb).
  assert (BF : block16 buf) by (apply ghash_from_block16; [exact Hb|apply pad16_length_mod]).
  assert (Q1 : rebase (g_base c) c = c) by (destruct c; reflexivity). assert (Q2 : rebase (g_base c) (with_add n c) = with_add n c) by (destruct c; reflexivity).
  unfold wb_tagged. rewrite Q1 in R1. rewrite Q2 in R2. rewrite R1, R2.
  destruct (wb_finish_mul (rebase (g_base c) c1) y0) as [f1 F1]; try (subst c1; cbn [rebase g_len g_add_len g_HL g_HH g_base g_y g_buf]; auto; lia).
  destruct (wb_finish_mul (rebase (g_base c) c2) y0) as [f2 F2]; try (subst c2; cbn [rebase g_len g_add_len g_HL g_HH g_base g_y g_buf]; auto; lia).
  rewrite F1, F2. cbn [bind snd]. do 3 eexists. split; [reflexivity|]. split; [reflexivity|]. clear F1 F2 R1 R2. subst c1 c2. cbn [rebase g_len g_add_len g_buf].
  pose proof (lens_blk (8 * g_add_len c) (8 * N.of_nat (length p))) as W1. pose proof (lens_blk (8 * n) (8 * N.of_nat (length p))) as W2.
  set (x1 := xorl buf _). set (x2 := xorl buf (N_to_be 8 (8 * n) ++ _)). intro Q.
  assert (X1 : block16 x1) by now apply block16_xorl. assert (X2 : block16 x2) by now apply block16_xorl.
  pose proof (block_mul_block _ X1) as [M1 M1b]. pose proof (block_mul_block _ X2) as [M2 M2b].
  assert (QM : block_mul x1 (hash_key E) = block_mul x2 (hash_key E)).
  { apply list_ext; [lia|]. intros i I. apply (f_equal (fun l => get l i)) in Q. rewrite !get_map_seq' in Q by lia.
    apply (ginj i (get (E y0) i)); [lia|apply bytes_get; now apply HE|now apply bytes_get|now apply bytes_get|exact Q]. }
  apply (block_mul_inj _ _ _ HK NZ') in QM; auto. unfold x1, x2 in QM. apply OverlapGcm.xorl_inj in QM; [|destruct BF, W1, W2; lia|destruct W1, W2; lia].
  apply lens_inj in QM; lia.
Qed.
(** ** C12 for white-box contexts *)
Inductive wb_quiet : gcm_ctx -> gcm_ctx -> Prop :=
| q_none c : wb_quiet c c
| q_iv c iv c2 : wb_quiet (wbgcm_setiv k c iv) c2 -> wb_quiet c c2
| q_data c d x n z c1 o c2 : wbgcm_crypt d k c x n = (z, c1, o) -> wb_quiet c1 c2 -> wb_quiet c c2
| q_tag c n c1 t c2 : wbgcm_finish k c n = Some (c1, t) -> wb_quiet c1 c2 -> wb_quiet c c2.
Lemma quiet_use c c' : wb_quiet c c' -> wb_use k c c' /\ g_add_len c' = g_add_len c.
Proof.
  induction 1 as [c|c iv c2 _ [U A]|c d x n z c1 o c2 R _ [U A]|c n c1 t c2 R _ [U A]].
  - split; [apply wb_none|reflexivity].
  - split; [eapply wb_iv; exact U|exact A].
  - split; [eapply wb_data; [exact R|exact U]|]. rewrite A. unfold wbgcm_crypt in R. destruct (n <? length x); [congruence|]. cbv zeta in R.
    destruct (wbgcm_loop _ _ _ _ _ _ _ _) as [[y b] o']. injection R as _ <- _. reflexivity.
  - split; [eapply wb_tag; [exact R|exact U]|]. rewrite A. unfold wbgcm_finish in R. destruct (16 <? n); [discriminate|]. destruct (_ && _); injection R as <- _; reflexivity.
Qed.
Lemma wb_use_trans a b c : wb_use k a b -> wb_use k b c -> wb_use k a c.
Proof. induction 1; intros U; auto; [eapply wb_iv|eapply wb_more|eapply wb_data|eapply wb_tag|eapply wb_fenc|eapply wb_fdec]; eauto. Qed.
Lemma wb_stale_from c0 n c' iv d p : hash_key E <> repeat 0%N 16 -> keyed (hash_key E) c0 -> g_add_len c0 = 0%N -> same_HT c' c0 -> g_add_len c' = n -> (0 < n)%N -> (8 * n < 2 ^ 64)%N ->
  bytes iv -> bytes p -> p <> [] -> (N.of_nat (length p) <= 2147483647)%N ->
  exists o t1 t2, wb_tagged d k (wbgcm_setiv k c0 iv) p = Some (o, t1) /\ wb_tagged d k (wbgcm_setiv k c' iv) p = Some (o, t2) /\ t1 <> t2.
Proof.
  intros NZ KI A0 T A N0 Ln Biv Bp NE Lp.
  pose proof (setiv_actual E c0 iv HE KI Biv) as SA. pose proof (iv_start_block E iv Biv) as SB.
  destruct (wb_setiv_ok k E c0 iv _ SA) as (S1 & _ & _). cbn [g_y] in S1.
  rewrite (setiv_add_same k c' c0 iv n T A). apply (wb_stale_tag d _ (iv_start E iv)); auto; rewrite ?S1; cbn [rebase g_len g_add_len g_HL g_HH g_base g_y g_buf]; rewrite ?A0; try lia; auto.
  split; [exact KI|]. split; [exact SB|apply block16_zeros].
Qed.
Lemma wb_init_facts c0 : gcm_init (lift E) = Some c0 -> keyed (hash_key E) c0 /\ g_add_len c0 = 0%N.
Proof.
  intros EI. destruct (gcm_init_spec E HE) as (HH & HL & _ & EI' & HT). rewrite EI' in EI. apply some_inj in EI. subst c0. split; [exact HT|reflexivity].
Qed.
Lemma wb_stale_lemma c a c' iv d p : hash_key E <> repeat 0%N 16 -> wb_use k (wbgcm_init k) c -> wb_quiet (wbgcm_aad c a) c' -> a <> [] -> (8 * N.of_nat (length a) < 2 ^ 64)%N ->
  bytes iv -> bytes p -> p <> [] -> (N.of_nat (length p) <= 2147483647)%N ->
  exists o t1 t2, wb_tagged d k (wbgcm_setiv k (wbgcm_init k) iv) p = Some (o, t1) /\ wb_tagged d k (wbgcm_setiv k c' iv) p = Some (o, t2) /\ t1 <> t2.
Proof.
  intros NZ U Q NEa La Biv Bp NE Lp. apply quiet_use in Q as [U2 A]. cbn [wbgcm_aad g_add_len] in A. rewrite w64_small in A by lia.
  assert (UU : wb_use k (wbgcm_init k) c') by (eapply wb_use_trans; [exact U|]; eapply wb_more; exact U2). apply wb_use_tables in UU.
  destruct (wb_init_facts _ (wb_init_ok k E g HS)) as [KI A0].
  apply (wb_stale_from (wbgcm_init k) (N.of_nat (length a))); auto.
  destruct a; [congruence|]. cbn [length]. lia.
Qed.
End Stale.
Lemma wb_stale_all : forall rnd junk key ctx rnd' junk' ctxs k c a c' iv d p, bytes key -> ee_gen_table rnd junk key = Ret ctx -> mask_gen_table rnd' junk' key = Ret ctxs ->
  In k [ee_key ctx; mask_key (fst ctxs); mask_key (snd ctxs)] -> hash_key (aes_encrypt (firstn 16 key)) <> repeat 0%N 16 ->
  wb_use k (wbgcm_init k) c -> wb_quiet k (wbgcm_aad c a) c' -> a <> [] -> (8 * N.of_nat (length a) < 2 ^ 64)%N ->
  bytes iv -> bytes p -> p <> [] -> (N.of_nat (length p) <= 2147483647)%N ->
  exists o t1 t2, wb_tagged d k (wbgcm_setiv k (wbgcm_init k) iv) p = Some (o, t1) /\ wb_tagged d k (wbgcm_setiv k c' iv) p = Some (o, t2) /\ t1 <> t2.
Proof.
  intros rnd junk key ctx rnd' junk' ctxs k c a c' iv d p B EE MM I NZ U Q NEa La Biv Bp NE Lp.
  pose proof (ee_get rnd junk key ctx B EE) as S1. destruct (mask_get rnd' junk' key ctxs B MM) as (S2 & S3 & MU).
  assert (X : exists g, sound k (aes_encrypt (firstn 16 key)) g /\ forall i e x y, i < 16 -> byte e -> byte x -> byte y -> g i e x = g i e y -> x = y).
  { destruct I as [<-|[<-|[<-|[]]]].
    - exists xor_g. split; [exact S1|]. intros i e x y _ _ _ _ H. cbn beta in H. apply (f_equal (N.lxor e)) in H.
      now rewrite <- !N.lxor_assoc, N.lxor_nilpotent, !N.lxor_0_l in H.
    - exists (g_enc (mask_L ctxs)). split; [exact S2|]. intros i e x y Hi Be Bx By H. unfold g_enc in H. apply (f_equal (mask_Li ctxs i)) in H.
      destruct (MU i (N.lxor e x) Hi) as (_ & _ & M1 & _); [now apply byte_lxor|]. destruct (MU i (N.lxor e y) Hi) as (_ & _ & M2 & _); [now apply byte_lxor|].
      rewrite M1, M2 in H. apply (f_equal (N.lxor e)) in H. now rewrite <- !N.lxor_assoc, N.lxor_nilpotent, !N.lxor_0_l in H.
    - exists (g_dec (mask_Li ctxs)). split; [exact S3|]. intros i e x y Hi Be Bx By H. unfold g_dec in H. apply (f_equal (N.lxor e)) in H.
      rewrite <- !N.lxor_assoc, N.lxor_nilpotent, !N.lxor_0_l in H. apply (f_equal (mask_L ctxs i)) in H.
      destruct (MU i x Hi Bx) as (_ & _ & _ & M1). destruct (MU i y Hi By) as (_ & _ & _ & M2). now rewrite M1, M2 in H. }
  destruct X as (g & S0 & GI). exact (wb_stale_lemma k _ g S0 GI c a c' iv d p NZ U Q NEa La Biv Bp NE Lp).
Qed.
