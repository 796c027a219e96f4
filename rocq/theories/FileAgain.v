(** * File contexts used again *)
From Verif Require Import Base CbcModel CbcSpec GcmModel GcmSpec GfProofs CbcProofs GcmProofs GcmIv OverlapCbc FileModel FileProofs.
Local Open Scope nat_scope.
#[local] Opaque file_slice.

(** ** With setiv and aad in between *)
Definition same_tables (a b : gcm_ctx) : Prop := g_HH a = g_HH b /\ g_HL a = g_HL b.
Lemma crypt_tables d blk c p n : same_tables (snd (fst (gcm_crypt d blk c p n))) c.
Proof.
  unfold gcm_crypt. destruct (n <? length p); [split; reflexivity|]. cbv zeta.
  destruct (crypt_loop _ _ _ _ _ _ _ _) as [[[ok y] buf] out]. split; reflexivity.
Qed.
Lemma slices_tables d blk ps : forall c, same_tables (fst (slices_run (gcm_slice d blk) c ps)) c.
Proof.
  induction ps as [|p ps IH]; intros c; cbn [slices_run]; [split; reflexivity|].
  unfold gcm_slice at 1. pose proof (crypt_tables d blk c p (length p)) as T. destruct (gcm_crypt d blk c p (length p)) as [[ok c1] o]. cbn [fst snd] in T.
  specialize (IH c1). destruct (slices_run _ c1 ps) as [c2 o2]. cbn [fst] in *. destruct T, IH. split; congruence.
Qed.
Lemma finish_tables c t r : gcm_finish c t = Some r -> same_tables (fst r) c.
Proof. unfold gcm_finish. destruct (16 <? t); [discriminate|]. destruct (_ && _); intros [= <-]; split; reflexivity. Qed.
Lemma enc_tables blk wr fs c inf outf junk ok c1 fs1 : gcmfile_encrypt blk wr fs c inf outf junk = Some (ok, c1, fs1) -> same_tables (f_gcm c1) (f_gcm c).
Proof.
  unfold gcmfile_encrypt, file_encrypt. destruct (fs inf); [|discriminate]. destruct (negb (wr (tmp_path outf))); [discriminate|]. destruct (negb (wr outf)); [discriminate|].
  cbv zeta. match goal with |- context [slices_run ?a ?b ?l] => pose proof (slices_tables Enc blk l b) as T; destruct (slices_run a b l) as [g1 ct] end.
  cbn [fst] in T. destruct (gcm_finish g1 file_tag_len) as [[g2 tag]|] eqn:F; [|discriminate]. cbn [bind]. intros [= _ <- _]. cbn [f_gcm].
  apply finish_tables in F. cbn [fst] in F. destruct T, F. split; congruence.
Qed.
Lemma dec_tables blk wr fs c inf outf ok c1 fs1 : gcmfile_decrypt blk wr fs c inf outf = Some (ok, c1, fs1) -> same_tables (f_gcm c1) (f_gcm c).
Proof.
  unfold gcmfile_decrypt, file_decrypt. destruct (fs inf); [|discriminate]. destruct (length _ =? 0); [discriminate|]. cbv zeta. destruct (length _ =? 0); [discriminate|].
  destruct (negb (wr outf)); [discriminate|]. destruct (path_dec inf outf); [discriminate|]. destruct (gcm_finish (f_gcm c) file_tag_len) as [[g1 tag]|] eqn:F; [|discriminate]. cbn [bind].
  destruct (int_max <? _)%N; [discriminate|].
  match goal with |- context [slices_run ?a ?b ?l] => pose proof (slices_tables Dec blk l b) as T; destruct (slices_run a b l) as [g2 ct] end.
  cbn [fst] in T. intros [= _ <- _]. cbn [f_gcm]. apply finish_tables in F. cbn [fst] in F. destruct T, F. split; congruence.
Qed.
Lemma setiv_aad_tables blk a b iv aad : same_tables a b -> fst (gcm_setiv blk a iv) = fst (gcm_setiv blk b iv) /\
  (fst (gcm_setiv blk b iv) = true -> gcm_aad (snd (gcm_setiv blk a iv)) aad = gcm_aad (snd (gcm_setiv blk b iv)) aad).
Proof. intros [E1 E2]. unfold gcm_setiv. cbv zeta. rewrite E1, E2. destruct (blk _); cbn [fst snd]; split; auto. discriminate. Qed.
(** a file encrypted or decrypted with a context, as steps *)
Inductive file_use (blk : blockfn) : gf_ctx -> gf_ctx -> Prop :=
| used_none c : file_use blk c c
| used_enc c wr fs inf outf junk ok c1 fs1 c2 : gcmfile_encrypt blk wr fs c inf outf junk = Some (ok, c1, fs1) -> file_use blk c1 c2 -> file_use blk c c2
| used_dec c wr fs inf outf ok c1 fs1 c2 : gcmfile_decrypt blk wr fs c inf outf = Some (ok, c1, fs1) -> file_use blk c1 c2 -> file_use blk c c2
| used_iv c iv ok c1 c2 : gcmfile_setiv blk c iv = (ok, c1) -> file_use blk c1 c2 -> file_use blk c c2
| used_aad c aad ok c1 c2 : gcmfile_aad c aad = (ok, c1) -> file_use blk c1 c2 -> file_use blk c c2.
Lemma use_tables blk c c' : file_use blk c c' -> same_tables (f_gcm c') (f_gcm c).
Proof.
  induction 1 as [c|c wr fs inf outf junk ok c1 fs1 c2 R _ IH|c wr fs inf outf ok c1 fs1 c2 R _ IH|c iv ok c1 c2 R _ IH|c aad ok c1 c2 R _ IH].
  - split; reflexivity.
  - apply enc_tables in R. destruct R, IH. split; congruence.
  - apply dec_tables in R. destruct R, IH. split; congruence.
  - assert (R' : same_tables (f_gcm c1) (f_gcm c)).
    { unfold gcmfile_setiv in R. destruct (gcm_setiv blk (f_gcm c) iv) as [o g] eqn:S. injection R as _ <-. cbn [f_gcm]. unfold gcm_setiv in S. cbv zeta in S.
      destruct (blk _); injection S as _ <-; split; reflexivity. }
    destruct R', IH. split; congruence.
  - assert (R' : same_tables (f_gcm c1) (f_gcm c)).
    { unfold gcmfile_aad in R. injection R as _ <-. cbn [f_gcm]. unfold gcm_aad. split; reflexivity. }
    destruct R', IH. split; congruence.
Qed.
Lemma file_again_lemma blk tag0 c0 c iv aad fresh : gcmfile_init blk tag0 = Some c0 -> file_use blk c0 c -> gcmfile_open blk tag0 iv aad = Some fresh ->
  exists c1 c2, gcmfile_setiv blk c iv = (true, c1) /\ gcmfile_aad c1 aad = (true, c2) /\
    (forall wr fs inf outf junk, gcmfile_encrypt blk wr fs c2 inf outf junk = gcmfile_encrypt blk wr fs fresh inf outf junk) /\
    (forall wr fs inf outf, gcmfile_decrypt blk wr fs c2 inf outf = gcmfile_decrypt blk wr fs fresh inf outf).
Proof.
  intros I U O. apply use_tables in U. unfold gcmfile_open in O. rewrite I in O. cbn [bind] in O. unfold gcmfile_setiv in *.
  destruct (setiv_aad_tables blk _ _ iv aad U) as [F A]. destruct (gcm_setiv blk (f_gcm c0) iv) as [ok g0]. destruct ok; [|discriminate O]. injection O as <-.
  destruct (gcm_setiv blk (f_gcm c) iv) as [ok g]. cbn [fst snd] in F, A. subst ok. specialize (A eq_refl). do 2 eexists. split; [reflexivity|]. split; [reflexivity|].
  unfold gcmfile_encrypt, gcmfile_decrypt, gcmfile_aad. cbn [f_gcm snd]. rewrite A. split; reflexivity.
Qed.

(** ** With nothing in between *)
Lemma slices_counter E h d c data : block_function E -> ctx_ok h c -> bytes data -> data <> [] ->
  exists c', crypt_pieces d (lift E) c (chunks file_slice data) = (true, c', gctr E (inc32 (g_y c)) data) /\ ctx_ok h c' /\ g_y c' = inc32_n (nblk (length data)) (g_y c).
Proof.
  intros HE HC B NE. pose proof (chunks_small file_slice data ltac:(vm_compute; lia) ltac:(vm_compute; discriminate) B) as HS.
  destruct (chunks_last file_slice data ltac:(vm_compute; lia) NE) as (ps & q & EQ & H1 & H2).
  pose proof (concat_chunks file_slice data ltac:(vm_compute; lia)) as CC. rewrite EQ in *.
  rewrite concat_app in CC. cbn [concat] in CC. rewrite app_nil_r in CC.
  destruct (crypt_pieces_stream_last E h d ps q HE HS) with (c := c) as [len' [EL EP]]; auto.
  { eapply Forall_impl; [|exact H1]. intros p ->. reflexivity. }
  cbv zeta in EP. rewrite CC in EP. eexists. split; [exact EP|]. split; [|reflexivity].
  destruct (crypt_pieces_ok E h d _ HE HS c HC) as (c' & o & E1 & H & _). rewrite E1 in EP. injection EP as <- _. exact H.
Qed.
Lemma gctr_moved E D y k data : block_cipher E D -> block16 y -> bytes data -> 16 <= length data -> 0 < k -> (N.of_nat k < 2 ^ 32)%N ->
  gctr E (inc32 (inc32_n k y)) (gctr E (inc32 y) data) <> data.
Proof.
  intros (HE & _ & HI) Hy B L K K32 Q. assert (I : forall a b, block16 a -> block16 b -> E a = E b -> a = b) by (intros a b A Bb X; rewrite <- (HI a A), <- (HI b Bb), X; reflexivity).
  assert (Y1 : block16 (inc32 y)) by now apply inc32_block. assert (Y2 : block16 (inc32 (inc32_n k y))) by now apply inc32_block, inc32_n_block.
  pose proof (gctr_length E data HE _ Y1) as L1. apply (f_equal (firstn 16)) in Q.
  rewrite gctr_first in Q by (auto; lia). rewrite gctr_first in Q by auto.
  destruct (HE _ Y1) as [LE1 _]. destruct (HE _ Y2) as [LE2 _].
  assert (Q' : E (inc32 y) = E (inc32 (inc32_n k y))).
  { rewrite xorl_assoc in Q. apply (f_equal (xorl (firstn 16 data))) in Q.
    rewrite xorl_cancel_l in Q by (rewrite length_xorl, firstn_length; lia). rewrite OverlapCbc.xorl_self in Q.
    apply (f_equal (fun z => xorl z (E (inc32 (inc32_n k y))))) in Q. rewrite xorl_cancel_r in Q by lia.
    rewrite Q, xorl_zeros_l; [reflexivity|rewrite firstn_length; lia]. }
  apply I in Q'; auto. change (inc32_n 1 y = inc32 (inc32_n k y)) in Q'.
  assert (Z : inc32 (inc32_n k y) = inc32_n (k + 1) y) by (rewrite inc32_n_add; reflexivity). rewrite Z in Q'.
  apply (inc32_n_distinct y 1 (k + 1)) in Q'; auto; [lia|]. now replace (k + 1 - 1) with k by lia.
Qed.
Lemma file_without_setiv_lemma E D tag0 iv aad wr fs inf encf decf junk data c c1 fs1 : block_cipher E D -> bytes iv -> bytes aad -> bytes data -> fs inf = Some data ->
  inf <> encf -> inf <> tmp_path encf -> decf <> encf -> (forall p, In p [encf; tmp_path encf; decf] -> wr p = true) -> length junk = 4 -> bytes junk ->
  16 <= length data -> (N.of_nat (length data) <= 2147483647)%N -> gcmfile_open (lift E) tag0 iv aad = Some c ->
  gcmfile_encrypt (lift E) wr fs c inf encf junk = Some (true, c1, fs1) ->
  exists c2 fs2 data', gcmfile_decrypt (lift E) wr fs1 c1 encf decf = Some (true, c2, fs2) /\ fs2 decf = Some data' /\ length data' = length data /\ data' <> data.
Proof.
  intros HC Biv Ba B HF N1 N2 N3 W LJ BJ L16 LM O R. assert (HE : block_function E) by (destruct HC as [HE _]; exact HE).
  destruct (open_ok E tag0 iv aad HE Biv Ba) as (c' & O' & HK & BB & _). assert (c' = c) by congruence. subst c'. clear O O'.
  assert (NE : data <> []) by (intros ->; cbn in L16; lia).
  assert (L32 : (N.of_nat (length data) < 2 ^ 32)%N) by (change (2 ^ 32)%N with 4294967296%N; lia).
  destruct c as [g t]. cbn [f_gcm] in *.
  destruct (gcmfile_encrypt_run E _ g t wr fs inf encf junk data HE HK B HF N1 N2 (W encf ltac:(cbn; auto)) (W (tmp_path encf) ltac:(cbn; auto)) L32)
    as (g1 & g2 & tag & fs1' & P & FI & R' & F1 & _ & _). rewrite R in R'. injection R' as -> <-. clear R.
  destruct (slices_counter E _ Enc g data HE HK B NE) as (g1' & P' & HK1 & Y). rewrite P in P'. injection P' as <-.
  destruct (finish_ctx_ok _ g1 16 _ HK1 FI) as [HK2 Y2]. cbn [fst] in *.
  pose proof HK as (_ & Hy & _). assert (Hy1 : block16 (inc32 (g_y g))) by now apply inc32_block.
  set (ct := gctr E (inc32 (g_y g)) data) in *. assert (Lct : length ct = length data) by now apply gctr_length. assert (Bct : bytes ct) by now apply gctr_bytes.
  assert (LT : length tag = 16 /\ bytes tag).
  { destruct (crypt_pieces_ok E (hash_key E) Enc (chunks file_slice data)) with (c := g) as (c' & o & K1 & K2 & K3 & K4 & K5 & K6 & _); auto.
    { apply chunks_small; [vm_compute; lia|vm_compute; discriminate|exact B]. }
    rewrite P in K1. injection K1 as <- <-. destruct HK2 as [_ [_ HBUF]].
    destruct BB as [HB1 HB2]. clear - FI HBUF K5 HB1 HB2. unfold gcm_finish in FI. change (16 <? 16) with false in FI.
    cbn match in FI. rewrite K5 in FI. rewrite (firstn_all2 (n := 16) (g_base g)) in FI by lia.
    destruct (_ && _).
    - assert (g_base g = tag) by congruence. subst tag. auto.
    - match type of FI with Some (?a, ?b) = _ => assert (Ha : a = g2) by congruence; assert (Hb : b = tag) by congruence end.
      rewrite <- Hb. rewrite <- Ha in HBUF. cbn [g_buf] in HBUF. destruct HBUF as [HF1 HF2].
      rewrite firstn_all2 by lia. split; [rewrite length_xorl; lia|now apply bytes_xorl]. }
  destruct LT as [LT BT].
  set (cont := tag ++ N_to_le 4 (N.of_nat (length data)) ++ junk ++ ct) in *.
  assert (LL : length (N_to_le 4 (N.of_nat (length data))) = 4) by (unfold N_to_le; rewrite rev_length; apply length_N_to_be).
  assert (LCont : length cont = 24 + length data) by (unfold cont; rewrite !app_length; lia).
  assert (S16 : skipn 16 cont = N_to_le 4 (N.of_nat (length data)) ++ junk ++ ct) by (unfold cont; rewrite <- LT; apply skipn_app_exact).
  assert (S24 : skipn 24 cont = ct).
  { change 24 with (16 + 8). rewrite <- skipn_skipn_add, S16. rewrite app_assoc.
    replace 8 with (length (N_to_le 4 (N.of_nat (length data)) ++ junk)) by (rewrite app_length; lia). apply skipn_app_exact. }
  assert (BL : bytes (N_to_le 4 (N.of_nat (length data)))) by (apply bytes_rev, bytes_N_to_be).
  destruct (gcmfile_decrypt_run E (hash_key E) g2 tag wr fs1 encf decf cont) as (c3 & Q); auto.
  { unfold cont. repeat (apply bytes_app; split; auto). }
  { lia. } { apply W; cbn [In]; auto. } { lia. }
  cbv zeta in Q. rewrite S24, S16 in Q. rewrite <- app_assoc in Q.
  replace (firstn 4 (N_to_le 4 (N.of_nat (length data)) ++ (junk ++ ct) ++ repeat 0%N 4)) with (N_to_le 4 (N.of_nat (length data))) in Q
    by (rewrite <- LL at 2; now rewrite firstn_app_exact).
  rewrite le_to_N_to_le in Q by (cbn; lia).
  rewrite c_int_small in Q by (unfold int_max; lia). rewrite Lct in Q.
  replace (Z.of_nat (length data) =? Z.of_N (N.of_nat (length data)))%Z with true in Q by (symmetry; apply Z.eqb_eq; lia).
  rewrite Y2, Y in Q. eexists; eexists; eexists. split; [exact Q|]. split; [apply upd_same|].
  assert (NB : 0 < nblk (length data) <= length data).
  { unfold nblk. split; [apply Nat.div_str_pos; lia|]. apply Nat.div_le_upper_bound; lia. }
  split; [rewrite gctr_length; [exact Lct|exact HE|now apply inc32_block, inc32_n_block]|].
  apply (gctr_moved E D); auto; lia.
Qed.
