(** * White-box GCM: sessions and files *)
From Verif Require Import Base CbcModel CbcSpec GcmModel GcmSpec GcmProofs FileModel FileProofs CipherExt FpeModel MatModel AesSpec AesProofs WbaesModel WbaesProofs WbgcmModel WbgcmSpec WbgcmProofs WbgcmKeys.
From Coq Require Import ZArith.
Local Open Scope nat_scope.
Local Opaque gcm_mult block_mul gf_mul init_tables gcm_setiv wbgcm_setiv gcm_aad wbgcm_aad wbgcm_init aes_encrypt ee_gen_table mask_gen_table wbgcm_crypt gcm_crypt MatMulNum.

(** ** two key contexts that undo each other *)
Lemma gmix_pieces_cancel E g g' ps : block_function E -> (forall i e d, i < 16 -> byte e -> byte d -> g' i e (g i e d) = d) -> small_pieces ps ->
  forall y, block16 y -> gmix_pieces E g' y (gmix_pieces E g y ps) = ps.
Proof.
  intros HE H HS. induction HS as [|p ps [Bp Lp] HS IH]; intros y Y; [reflexivity|]. cbn [gmix_pieces]. rewrite gmix_length.
  rewrite (gmix_cancel E g g') by (auto using inc32_block). rewrite IH by now apply inc32_n_block. reflexivity.
Qed.
Section Two.
Variables (k k' : wbkey) (E : list N -> list N) (g g' : nat -> N -> N -> N).
Hypothesis S : sound k E g.
Hypothesis S' : sound k' E g'.
Hypothesis HC : forall i e d, i < 16 -> byte e -> byte d -> g' i e (g i e d) = d.
Lemma wb_roundtrip iv aad ps t : bytes iv -> bytes aad -> small_pieces ps -> t <= 16 ->
  (8 * N.of_nat (length aad) < 2 ^ 64)%N -> (8 * N.of_nat (length (concat ps)) < 2 ^ 64)%N ->
  exists cs tag tag', wbgcm_session Enc k iv aad ps t = Some (cs, tag) /\ map (@length N) cs = map (@length N) ps /\
    wbgcm_session Dec k' iv aad cs t = Some (ps, tag').
Proof.
  intros Bi Ba HS T La Lp. destruct (wb_session_any k E g S Enc iv aad ps t Bi Ba HS T La Lp) as (Y & _ & _ & HCS & E1 & _). cbv zeta in *. cbn [hashed_pieces] in *.
  pose proof (gmix_pieces_lengths E g ps (ctr0 E iv aad)) as GL.
  set (cs := gmix_pieces E g (ctr0 E iv aad) ps) in *.
  destruct (wb_session_any k' E g' S' Dec iv aad cs t Bi Ba HCS T La) as (_ & _ & _ & _ & E2 & _); [now rewrite (concat_lengths cs ps GL)|]. cbv zeta in *.
  pose proof (gmix_pieces_cancel E g g' ps (s_E k E g S) HC HS _ Y) as GX. fold cs in GX. rewrite GX in E2.
  eexists; eexists; eexists. split; [exact E1|]. split; [exact GL|]. exact E2.
Qed.
End Two.

(** ** files *)
Section File.
Variables (k : wbkey) (E : list N -> list N) (g : nat -> N -> N -> N).
Hypothesis S : sound k E g.
Let HE := s_E k E g S.
Lemma wb_slices h d b ps : small_pieces ps -> forall c, ctx_ok h c ->
  exists c', slices_run (wbgcm_slice d k) (rebase b c) ps = (rebase b c', concat (gmix_pieces E g (g_y c) ps)) /\ wbgcm_pieces d k (rebase b c) ps = (rebase b c', gmix_pieces E g (g_y c) ps).
Proof.
  intros HS. induction HS as [|p ps [Bp Lp] HS IH]; intros c HC; [exists c; auto|]. cbn [slices_run wbgcm_pieces gmix_pieces concat].
  destruct (wb_crypt_ok k E g S h d b c p (length p) HC Bp Lp (Nat.le_refl _)) as (c1 & z1 & _ & E2 & HC1 & EY). cbv zeta in E2.
  unfold wbgcm_slice at 1. rewrite E2. rewrite gmix_length, Nat.sub_diag. cbn [repeat]. rewrite app_nil_r. rewrite <- EY.
  destruct (IH c1 HC1) as (c2 & E3 & E4). exists c2. rewrite E3, E4. auto.
Qed.
Lemma chunks_gmix y data : bytes data -> concat (gmix_pieces E g y (chunks file_slice data)) = gmix E g (inc32 y) data.
Proof.
  intros B. destruct data as [|x data]; [reflexivity|]. set (l := x :: data) in *.
  destruct (chunks_last file_slice l ltac:(unfold file_slice; lia) ltac:(discriminate)) as (ps & q & EQ & H1 & H2).
  pose proof (concat_chunks file_slice l ltac:(unfold file_slice; lia)) as CC. rewrite EQ in *. rewrite concat_app in CC. cbn [concat] in CC. rewrite app_nil_r in CC.
  rewrite (gmix_pieces_concat E g) by (eapply Forall_impl; [|exact H1]; intros p ->; reflexivity). now rewrite CC.
Qed.
Lemma wb_slices_stream h d b data c : bytes data -> ctx_ok h c ->
  exists c', slices_run (wbgcm_slice d k) (rebase b c) (chunks file_slice data) = (rebase b c', gmix E g (inc32 (g_y c)) data) /\
    fst (wbgcm_pieces d k (rebase b c) (chunks file_slice data)) = rebase b c'.
Proof.
  intros B HC. pose proof (chunks_small file_slice data ltac:(unfold file_slice; lia) ltac:(unfold file_slice; lia) B) as HS.
  destruct (wb_slices h d b (chunks file_slice data) HS c HC) as (c' & E1 & E2). exists c'. rewrite E1, E2, chunks_gmix by exact B. auto.
Qed.
Lemma finish_length c t r : wbgcm_finish k c t = Some r -> length (g_base c) = 16 -> length (snd r) = t.
Proof.
  unfold wbgcm_finish. destruct (Nat.ltb_spec 16 t); [discriminate|]. intros H1 H2. destruct (_ && _); injection H1 as <-; cbn [snd]; [rewrite firstn_length; lia|now rewrite map_length, seq_length].
Qed.
Lemma wb_file_encrypt iv aad wr fs inf outf junk data : bytes iv -> bytes aad -> bytes data -> fs inf = Some data ->
  inf <> outf -> inf <> tmp_path outf -> wr outf = true -> wr (tmp_path outf) = true ->
  (8 * N.of_nat (length aad) < 2 ^ 64)%N -> (N.of_nat (length data) < 2 ^ 32)%N ->
  let ct := gmix E g (inc32 (ctr0 E iv aad)) data in
  exists os tag c1 fs1, wbgcm_session Enc k iv aad (chunks file_slice data) 16 = Some (os, tag) /\ concat os = ct /\ length tag = 16 /\
    wbgcmfile_encrypt k wr fs (wbgcm_open k iv aad) inf outf junk = Some (true, c1, tag, fs1) /\
    fs1 outf = Some (tag ++ N_to_le 4 (N.of_nat (length data)) ++ junk ++ ct) /\ fs1 (tmp_path outf) = None /\
    forall p, p <> outf -> p <> tmp_path outf -> fs1 p = fs p.
Proof.
  intros Bi Ba B HF N1 N2 W1 W2 La Ld. cbv zeta.
  pose proof (chunks_small file_slice data ltac:(unfold file_slice; lia) ltac:(unfold file_slice; lia) B) as HS.
  assert (CC : concat (chunks file_slice data) = data) by (apply concat_chunks; unfold file_slice; lia).
  destruct (wb_session_any k E g S Enc iv aad (chunks file_slice data) 16 Bi Ba HS (Nat.le_refl _) La) as (Y & _ & _ & _ & E1 & _); [rewrite CC; change (2 ^ 64)%N with (2 ^ 32 * 2 ^ 32)%N; lia|]. cbv zeta in E1.
  destruct (wb_open_ok k E g S iv aad Bi Ba) as (HC & HB & HO & _). cbv zeta in *. unfold ctr0 in *. set (c := opened E iv aad) in *.
  destruct (wb_slices_stream (hash_key E) Enc (wb_ectr k (g_y c)) data c B HC) as (c' & F1 & F2).
  match type of E1 with _ = Some (?a, ?b) => set (tag := b) in E1; set (os := a) in E1 end.
  assert (CO : concat os = gmix E g (inc32 (g_y c)) data) by (unfold os; now apply chunks_gmix). clearbody tag os.
  assert (EF : exists r, wbgcm_finish k (rebase (wb_ectr k (g_y c)) c') 16 = Some (r, tag)).
  { unfold wbgcm_session in E1. rewrite HO in E1. clearbody c. destruct (wbgcm_pieces _ _ _ _) as [c2 o2]. change (c2 = rebase (wb_ectr k (g_y c)) c') in F2. rewrite F2 in E1. clear F2.
    destruct (wbgcm_finish k (rebase (wb_ectr k (g_y c)) c') 16) as [[r tg]|]; [|discriminate]. exists r. cbn [bind snd] in E1. apply f_equal. apply f_equal. exact (f_equal (fun o => match o with Some x => snd x | None => [] end) E1). }
  destruct EF as [r EF]. exists os, tag, r. eexists. split; [exact E1|]. split; [exact CO|].
  split; [apply (finish_length _ _ _ EF); unfold rebase, wb_ectr; cbn [g_base]; now rewrite map_length, seq_length|].
  unfold wbgcmfile_encrypt, file_encrypt. rewrite HO, HF, W1, W2. cbn [negb].
  rewrite (upd_other _ outf) by auto. rewrite (upd_other _ (tmp_path outf)) by auto. rewrite HF.
  rewrite F1. change file_tag_len with 16. rewrite EF. cbn [bind]. split; [reflexivity|]. rewrite N.mod_small by auto.
  split; [|split].
  - rewrite upd_other by (intros H; symmetry in H; exact (tmp_neq _ H)). rewrite upd_same. now rewrite <- app_assoc.
  - apply upd_same.
  - intros p P1 P2. rewrite !upd_other by auto. reflexivity.
Qed.
(** decryption writes what the counter stream makes of the body; the recorded tag is not looked at *)
Lemma wb_file_decrypt iv aad wr fs inf outf tag junk ct : bytes iv -> bytes aad -> bytes ct -> length tag = 16 -> length junk = 4 ->
  fs inf = Some (tag ++ N_to_le 4 (N.of_nat (length ct)) ++ junk ++ ct) -> inf <> outf -> wr outf = true -> (N.of_nat (length ct) <= 2147483647)%N ->
  exists c2 tag2, wbgcmfile_decrypt k wr fs (wbgcm_open k iv aad) inf outf = Some (true, c2, tag2, upd fs outf (Some (gmix E g (inc32 (ctr0 E iv aad)) ct))).
Proof.
  intros Bi Ba B LT LJ HF NE W HM. destruct (wb_open_ok k E g S iv aad Bi Ba) as (HC & HB & HO & _). cbv zeta in *. unfold ctr0. set (c := opened E iv aad) in *.
  assert (Y : block16 (g_y c)) by apply HC.
  destruct (wb_finish_ok k E g S (hash_key E) (g_y c) c 16 HC Y HB (Nat.le_refl _)) as (r & _ & _ & R1 & R2 & R3 & _).
  unfold wbgcmfile_decrypt, file_decrypt. rewrite HO, HF. set (cont := tag ++ _) in *.
  assert (LL : length (N_to_le 4 (N.of_nat (length ct))) = 4) by (unfold N_to_le; rewrite rev_length; apply length_N_to_be).
  assert (LCont : length cont = 24 + length ct) by (unfold cont; rewrite !app_length; lia).
  assert (S16 : skipn 16 cont = N_to_le 4 (N.of_nat (length ct)) ++ junk ++ ct) by (unfold cont; rewrite <- LT; apply skipn_app_exact).
  assert (S8 : skipn 8 (N_to_le 4 (N.of_nat (length ct)) ++ junk ++ ct) = ct).
  { rewrite app_assoc. replace 8 with (length (N_to_le 4 (N.of_nat (length ct)) ++ junk)) by (rewrite app_length; lia). apply skipn_app_exact. }
  destruct (Nat.eqb_spec (length cont) 0); [lia|]. change file_tag_len with 16. change size_len with 8. rewrite S16.
  destruct (Nat.eqb_spec (length (N_to_le 4 (N.of_nat (length ct)) ++ junk ++ ct)) 0) as [Z|_]; [rewrite app_length in Z; lia|].
  rewrite W. cbn [negb]. destruct (path_dec inf outf); [contradiction|]. rewrite R3. cbn [bind]. rewrite S8.
  destruct (N.ltb_spec int_max (N.of_nat (length ct))) as [L|_]; [unfold int_max in L; lia|].
  destruct (wb_slices_stream (hash_key E) Dec (wb_ectr k (g_y c)) ct (fst r) B R2) as (c' & F1 & _). rewrite F1, R1. eexists; eexists.
  assert (F8 : firstn 8 (N_to_le 4 (N.of_nat (length ct)) ++ junk ++ ct) = N_to_le 4 (N.of_nat (length ct)) ++ junk).
  { rewrite app_assoc. replace 8 with (length (N_to_le 4 (N.of_nat (length ct)) ++ junk)) at 1 by (rewrite app_length; lia). apply firstn_app_exact. }
  rewrite F8. rewrite <- app_assoc.
  replace (firstn 4 (N_to_le 4 (N.of_nat (length ct)) ++ _)) with (N_to_le 4 (N.of_nat (length ct))) by (rewrite <- LL at 2; now rewrite firstn_app_exact).
  rewrite le_to_N_to_le by (cbn; lia). rewrite c_int_small by (unfold int_max; lia).
  replace (Z.of_nat (length ct) =? Z.of_N (N.of_nat (length ct)))%Z with true by (symmetry; apply Z.eqb_eq; lia). reflexivity.
Qed.
End File.
