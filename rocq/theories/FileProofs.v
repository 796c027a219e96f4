From Verif Require Import Base CbcModel CbcSpec CbcProofs GcmModel GcmSpec GfProofs GcmProofs Toy FileModel.
Local Open Scope nat_scope.
Local Opaque gcm_mult block_mul.

Lemma chunks_last {A} n (l : list A) : 0 < n -> l <> [] ->
  exists ps q, chunks n l = ps ++ [q] /\ Forall (fun p => length p = n) ps /\ 0 < length q <= n.
Proof.
  intros Hn. remember (length l) as k eqn:Hk. revert l Hk.
  induction k as [k IH] using lt_wf_ind. intros l Hk NE. subst k.
  rewrite chunks_eq by auto. destruct (Nat.le_gt_cases (length l) n) as [L|L].
  - exists [], l. rewrite firstn_all2, skipn_all2 by lia. rewrite chunks_nil. repeat split; auto.
    destruct l; [contradiction|cbn; lia].
  - destruct (IH (length (skipn n l)) ltac:(rewrite skipn_length; lia) (skipn n l) eq_refl) as (ps & q & E & H1 & H2).
    { intros Z. apply (f_equal (@length A)) in Z. rewrite skipn_length in Z. cbn in Z. lia. }
    exists (firstn n l :: ps), q. rewrite E. split; [reflexivity|]. split; auto.
    constructor; auto. rewrite firstn_length. lia.
Qed.

Lemma chunks_small n l : 0 < n -> (N.of_nat n <= 2147483647)%N -> bytes l -> small_pieces (chunks n l).
Proof.
  intros Hn Hm B. destruct l as [|x l]; [rewrite chunks_nil; constructor|].
  destruct (chunks_last n (x :: l) Hn ltac:(discriminate)) as (ps & q & E & H1 & H2).
  pose proof (bytes_chunks n (x :: l) Hn B) as HB. rewrite E in *.
  apply Forall_app in HB as [B1 B2]. apply Forall_app. split.
  - rewrite Forall_forall in *. intros p Hp. split; auto. rewrite (H1 p Hp). lia.
  - inversion B2; subst. constructor; [split; auto; lia|constructor].
Qed.

Lemma slices_pieces E h d ps : block_function E -> small_pieces ps -> forall c, ctx_ok h c ->
  forall ok c' o, crypt_pieces d (lift E) c ps = (ok, c', o) ->
  slices_run (gcm_slice d (lift E)) c ps = (c', o).
Proof.
  intros HE HS. induction HS as [|p ps [Bp Lp] HS IH]; intros c HC ok c' o; cbn [crypt_pieces slices_run].
  - now intros [= <- <- <-].
  - unfold gcm_slice at 1. destruct (gcm_crypt d (lift E) c p (length p)) as [[ok1 c1] o1] eqn:E1.
    destruct (gcm_crypt_ctx_ok E h d c p (length p) ok1 c1 o1 HE HC Bp Lp ltac:(lia) E1) as (-> & HC1 & Bo & Lo).
    destruct (crypt_pieces d (lift E) c1 ps) as [[ok2 c2] o2] eqn:E2. intros [= <- <- <-].
    rewrite (IH c1 HC1 _ _ _ E2). rewrite Lo, Nat.sub_diag. cbn [repeat]. now rewrite app_nil_r.
Qed.

Lemma gcm_crypt_nil d E c : (g_len c < 2 ^ 64)%N -> gcm_crypt d (lift E) c [] 0 = (true, c, []).
Proof.
  intros L. unfold gcm_crypt. change (0 <? length (@nil N)) with false. cbn match.
  change (c_int (N.of_nat (length (@nil N)))) with 0%Z. cbn [Z.to_nat firstn].
  rewrite chunks_nil. cbn [crypt_loop]. rewrite Z.add_0_r, Z.mod_small by lia. rewrite N2Z.id. destruct c; reflexivity.
Qed.

(** the slices of a file give the key stream of one call *)
Lemma slices_stream E h d c data : block_function E -> ctx_ok h c -> bytes data ->
  exists c', crypt_pieces d (lift E) c (chunks file_slice data) = (true, c', gctr E (inc32 (g_y c)) data) /\
    slices_run (gcm_slice d (lift E)) c (chunks file_slice data) = (c', gctr E (inc32 (g_y c)) data).
Proof.
  intros HE HC B. pose proof (chunks_small file_slice data ltac:(unfold file_slice; lia) ltac:(unfold file_slice; lia) B) as HS.
  destruct data as [|x data].
  - rewrite chunks_nil. exists c. split; reflexivity.
  - set (l := x :: data) in *.
    destruct (chunks_last file_slice l ltac:(unfold file_slice; lia) ltac:(discriminate)) as (ps & q & EQ & H1 & H2).
    pose proof (concat_chunks file_slice l ltac:(unfold file_slice; lia)) as CC. rewrite EQ in *.
    rewrite concat_app in CC. cbn [concat] in CC. rewrite app_nil_r in CC.
    destruct (crypt_pieces_stream_last E h d ps q HE HS) with (c := c) as [len' [EL EP]]; auto.
    { eapply Forall_impl; [|exact H1]. intros p ->. reflexivity. }
    cbv zeta in EP. rewrite CC in EP. eexists. split; [exact EP|].
    eapply slices_pieces; eauto.
Qed.

(** the file session and the standard *)
Lemma session_slices E d iv aad data t : block_function E -> bytes iv -> bytes aad -> bytes data ->
  (8 * N.of_nat (length iv) < 2 ^ 32)%N -> (8 * N.of_nat (length aad) < 2 ^ 64)%N ->
  (8 * N.of_nat (length data) < 2 ^ 64)%N -> t <= 16 ->
  let o := gctr E (inc32 (J0 E iv)) data in
  gcm_session d (lift E) iv aad (chunks file_slice data) t = Some (o, gcm_tag E iv aad (hashed d data o) t).
Proof.
  intros HE Biv Ba B Hiv Ha Hd Ht. cbv zeta. destruct data as [|x data].
  - rewrite chunks_nil.
    pose proof (session_spec E d iv aad [] [] t HE Biv Ba) as SS. cbn [app concat] in SS.
    assert (HP : small_pieces [[]]) by (constructor; [split; [constructor|cbn [length]; lia]|constructor]).
    specialize (SS HP (Forall_nil _) Hiv Ha Hd Ht). cbv zeta in SS. rewrite <- SS. clear SS.
    unfold gcm_session. destruct (gcm_init_spec E HE) as (HH & HL & _ & EI & HT). rewrite EI. cbn [bind].
    rewrite gcm_setiv_spec by auto. cbn [crypt_pieces length].
    rewrite gcm_crypt_nil by (unfold gcm_aad; cbn [g_len]; lia). reflexivity.
  - set (l := x :: data) in *.
    pose proof (chunks_small file_slice l ltac:(unfold file_slice; lia) ltac:(unfold file_slice; lia) B) as HS.
    destruct (chunks_last file_slice l ltac:(unfold file_slice; lia) ltac:(discriminate)) as (ps & q & EQ & H1 & H2).
    pose proof (concat_chunks file_slice l ltac:(unfold file_slice; lia)) as CC. rewrite EQ in *.
    rewrite concat_app in CC. cbn [concat] in CC. rewrite app_nil_r in CC.
    pose proof (session_spec E d iv aad ps q t HE Biv Ba HS) as SS. cbv zeta in SS. rewrite CC in SS.
    apply SS; auto. eapply Forall_impl; [|exact H1]. intros p ->. reflexivity.
Qed.

Lemma open_ok E tag0 iv aad : block_function E -> bytes iv -> bytes aad ->
  exists c, gcmfile_open (lift E) tag0 iv aad = Some c /\ ctx_ok (hash_key E) (f_gcm c) /\ block16 (g_base (f_gcm c)) /\
    forall d ps t, gcm_session d (lift E) iv aad ps t =
      let '(ok2, c2, out) := crypt_pieces d (lift E) (f_gcm c) ps in
      if ok2 : bool then do ft <- gcm_finish c2 t; Some (out, snd ft) else None.
Proof.
  intros HE Biv Ba. unfold gcmfile_open, gcmfile_init, gcm_session, gcmfile_setiv, gcmfile_aad.
  destruct (gcm_init_spec E HE) as (HH & HL & _ & EI & HT). rewrite EI. cbn [bind f_gcm f_tag].
  set (c0 := mkgcm _ _ _ _ _ _ _).
  destruct (setiv_ctx_ok E c0 iv HE HT Biv) as (c1 & E1 & HC1 & HB). rewrite E1. cbn [snd f_gcm].
  eexists. split; [reflexivity|]. split; [now apply aad_ctx_ok|]. split; [exact HB|]. reflexivity.
Qed.

Lemma finish_ctx_ok h c t r : ctx_ok h c -> gcm_finish c t = Some r ->
  ctx_ok h (fst r) /\ g_y (fst r) = g_y c.
Proof.
  intros HC. unfold gcm_finish. destruct (16 <? t); [discriminate|]. destruct (_ && _).
  - intros [= <-]. auto.
  - intros [= <-]. cbn [fst g_y]. split; auto. destruct HC as [HK [Hy Hb]]. split; [exact HK|].
    cbn [g_y g_buf]. split; auto.
    match goal with |- context [xor_into _ ?w] => set (work := w) end.
    assert (W : block16 work).
    { split; [reflexivity|]. unfold work, put_u32_be. cbn [app]. repeat constructor; apply N.mod_lt; discriminate. }
    rewrite xor_into_full by (destruct Hb, W; lia).
    rewrite (gcm_mult_block _ _ h) by (auto; now apply block16_xorl). apply block_mul_block.
Qed.
Lemma finish16_some c : exists r, gcm_finish c 16 = Some r.
Proof. unfold gcm_finish. change (16 <? 16) with false. cbn match. destruct (_ && _); eauto. Qed.

Lemma upd_same fs p v : upd fs p v p = v.
Proof. unfold upd. destruct (path_dec p p); congruence. Qed.
Lemma upd_other fs p v q : q <> p -> upd fs p v q = fs q.
Proof. unfold upd. destruct (path_dec q p); congruence. Qed.
Lemma tmp_neq p : tmp_path p <> p.
Proof. intros H. apply (f_equal (@length N)) in H. unfold tmp_path in H. rewrite app_length in H. cbn in H. lia. Qed.

(** encryption *)
Lemma gcmfile_encrypt_run E h c tagf wr fs inf outf junk data :
  block_function E -> ctx_ok h c -> bytes data -> fs inf = Some data ->
  inf <> outf -> inf <> tmp_path outf -> wr outf = true -> wr (tmp_path outf) = true ->
  (N.of_nat (length data) < 2 ^ 32)%N ->
  let ct := gctr E (inc32 (g_y c)) data in
  exists c1 c2 tag fs1, crypt_pieces Enc (lift E) c (chunks file_slice data) = (true, c1, ct) /\
    gcm_finish c1 16 = Some (c2, tag) /\
    gcmfile_encrypt (lift E) wr fs (mkgf c tagf) inf outf junk = Some (true, mkgf c2 tag, fs1) /\
    fs1 outf = Some (tag ++ N_to_le 4 (N.of_nat (length data)) ++ junk ++ ct) /\
    fs1 (tmp_path outf) = None /\
    forall p, p <> outf -> p <> tmp_path outf -> fs1 p = fs p.
Proof.
  intros HE HC B HF N1 N2 W1 W2 HL. cbv zeta.
  destruct (slices_stream E h Enc c data HE HC B) as (c1 & E1 & E2).
  destruct (finish16_some c1) as [[c2 tag] E3].
  exists c1, c2, tag. eexists. split; [exact E1|]. split; [exact E3|].
  unfold gcmfile_encrypt, file_encrypt. cbn [f_gcm]. rewrite HF, W1, W2. cbn [negb].
  rewrite (upd_other _ outf) by auto. rewrite (upd_other _ (tmp_path outf)) by auto. rewrite HF.
  rewrite E2. change file_tag_len with 16. rewrite E3. cbn [bind].
  split; [reflexivity|]. rewrite N.mod_small by auto.
  split; [|split].
  - rewrite upd_other by (intros H; symmetry in H; exact (tmp_neq _ H)). rewrite upd_same. now rewrite <- app_assoc.
  - apply upd_same.
  - intros p P1 P2. rewrite !upd_other by auto. reflexivity.
Qed.

(** decryption of any container of at least 17 bytes *)
Lemma gcmfile_decrypt_run E h c tagf wr fs inf outf cont :
  block_function E -> ctx_ok h c -> bytes cont -> fs inf = Some cont -> 17 <= length cont ->
  inf <> outf -> wr outf = true -> (N.of_nat (length cont) <= 2147483647 + 24)%N ->
  let body := skipn 24 cont in
  let recorded := c_int (le_to_N (firstn 4 (skipn 16 cont ++ repeat 0%N 4))) in
  exists c2, gcmfile_decrypt (lift E) wr fs (mkgf c tagf) inf outf =
    Some ((Z.of_nat (length body) =? recorded)%Z, c2, upd fs outf (Some (gctr E (inc32 (g_y c)) body))).
Proof.
  intros HE HC B HF HL NE W HM. cbv zeta. unfold gcmfile_decrypt, file_decrypt. cbn [f_gcm]. rewrite HF.
  destruct (Nat.eqb_spec (length cont) 0); [lia|].
  change file_tag_len with 16. change size_len with 8.
  destruct (Nat.eqb_spec (length (skipn 16 cont)) 0) as [Z|Z]; [rewrite skipn_length in Z; lia|].
  rewrite W. cbn [negb]. destruct (path_dec inf outf); [contradiction|].
  destruct (finish16_some c) as [[c1 tag] E3]. rewrite E3. cbn [bind].
  destruct (finish_ctx_ok h c 16 _ HC E3) as [HC1 HY]. cbn [fst] in *.
  rewrite skipn_skipn_add. change (16 + 8) with 24.
  destruct (N.ltb_spec int_max (N.of_nat (length (skipn 24 cont)))) as [L|L]; [rewrite skipn_length in L; unfold int_max in L; lia|].
  destruct (slices_stream E h Dec c1 (skipn 24 cont) HE HC1 (bytes_skipn _ _ B)) as (c2 & E1 & E2).
  rewrite E2. eexists. rewrite HY. f_equal. f_equal. f_equal. f_equal. f_equal. f_equal.
  set (r := skipn 16 cont) in *. clearbody r. revert Z. clear.
  intros Z. destruct r as [|x0 [|x1 [|x2 [|x3 [|x4 [|x5 [|x6 [|x7 r]]]]]]]]; reflexivity.
Qed.

Lemma le_to_N_to_le n x : (x < 256 ^ N.of_nat n)%N -> le_to_N (N_to_le n x) = x.
Proof. intros H. unfold le_to_N, N_to_le. rewrite rev_involutive. now apply be_to_N_to_be. Qed.

(** data of the examples *)
Definition path_in : path := [105; 110]%N.
Definition path_enc : path := [101; 110; 99]%N.
Definition path_dec' : path := [100; 101; 99]%N.
Definition file_data : list N := map (fun i => (N.of_nat i * 7) mod 256)%N (seq 0 150).
Definition fs0 : fsys := upd (fun _ => None) path_in (Some file_data).
Definition wr_all : path -> bool := fun _ => true.

Lemma gcmfile_roundtrip_lemma : forall E tag0 iv aad wr fs inf encf decf junk data,
  block_function E -> bytes iv -> bytes aad -> bytes data -> fs inf = Some data ->
  inf <> encf -> inf <> tmp_path encf -> decf <> encf ->
  (forall p, In p [encf; tmp_path encf; decf] -> wr p = true) -> length junk = 4 -> bytes junk ->
  (N.of_nat (length data) <= 2147483647)%N ->
  exists c tag ct c1 fs1 c2 fs2,
    gcmfile_open (lift E) tag0 iv aad = Some c /\
    gcmfile_encrypt (lift E) wr fs c inf encf junk = Some (true, c1, fs1) /\
    fs1 encf = Some (tag ++ N_to_le 4 (N.of_nat (length data)) ++ junk ++ ct) /\
    length tag = 16 /\ length ct = length data /\ fs1 (tmp_path encf) = None /\
    (forall p, p <> encf -> p <> tmp_path encf -> fs1 p = fs p) /\
    gcmfile_decrypt (lift E) wr fs1 c encf decf = Some (true, c2, fs2) /\
    fs2 decf = Some data /\ (forall p, p <> decf -> fs2 p = fs1 p).
Proof.
  intros E tag0 iv aad wr fs inf encf decf junk data HE Biv Ba Bd HF N1 N2 N3 HW LJ BJ HM.
  destruct (open_ok E tag0 iv aad HE Biv Ba) as (c & EO & HC & HB & HS). destruct c as [g tg]. cbn [f_gcm] in *.
  assert (Hy' : block16 (inc32 (g_y g))) by (apply inc32_block; apply HC).
  destruct (gcmfile_encrypt_run E (hash_key E) g tg wr fs inf encf junk data) as (c1 & c2 & tag & fs1 & P1 & P2 & P3 & P4 & P5 & P6); auto.
  1,2: apply HW; cbn [In]; auto. 1: lia.
  cbv zeta in P1, P4. set (ct := gctr E (inc32 (g_y g)) data) in *.
  assert (LC : length ct = length data) by (now apply gctr_length).
  assert (BC : bytes ct) by (now apply gctr_bytes).
  assert (LT : length tag = 16 /\ bytes tag).
  { destruct (crypt_pieces_ok E (hash_key E) Enc (chunks file_slice data)) with (c := g) as (c' & o & K1 & K2 & K3 & K4 & K5 & K6 & _); auto.
    { apply chunks_small; auto; unfold file_slice; lia. }
    rewrite P1 in K1. injection K1 as <- <-. destruct (finish_ctx_ok _ _ _ _ K2 P2) as [[_ [_ HBUF]] _].
    cbn [fst] in HBUF.
    destruct HB as [HB1 HB2]. clear - P2 HBUF K5 HB1 HB2. unfold gcm_finish in P2. change (16 <? 16) with false in P2.
    cbn match in P2. rewrite K5 in P2. rewrite (firstn_all2 (n := 16) (g_base g)) in P2 by lia.
    destruct (_ && _).
    - assert (g_base g = tag) by congruence. subst tag. auto.
    - match type of P2 with Some (?a, ?b) = _ => assert (Ha : a = c2) by congruence; assert (Hb : b = tag) by congruence end.
      rewrite <- Hb. rewrite <- Ha in HBUF. cbn [g_buf] in HBUF. destruct HBUF as [HF1 HF2].
      rewrite firstn_all2 by lia. split; [rewrite length_xorl; lia|now apply bytes_xorl]. }
  destruct LT as [LT BT].
  set (cont := tag ++ N_to_le 4 (N.of_nat (length data)) ++ junk ++ ct) in *.
  assert (LL : length (N_to_le 4 (N.of_nat (length data))) = 4) by (unfold N_to_le; rewrite rev_length; apply length_N_to_be).
  assert (LCont : length cont = 24 + length data) by (unfold cont; rewrite !app_length; lia).
  assert (S16 : skipn 16 cont = N_to_le 4 (N.of_nat (length data)) ++ junk ++ ct) by (unfold cont; rewrite <- LT; apply skipn_app_exact).
  assert (S24 : skipn 24 cont = ct).
  { change 24 with (16 + 8). rewrite <- skipn_skipn_add, S16. rewrite app_assoc.
    replace 8 with (length (N_to_le 4 (N.of_nat (length data)) ++ junk)) by (rewrite app_length; lia). apply skipn_app_exact. }
  assert (BL : bytes (N_to_le 4 (N.of_nat (length data)))) by (apply bytes_rev, bytes_N_to_be).
  destruct (gcmfile_decrypt_run E (hash_key E) g tg wr fs1 encf decf cont) as (c3 & Q); auto.
  { unfold cont. repeat (apply bytes_app; split; auto). }
  { lia. } { apply HW; cbn [In]; auto. } { lia. }
  cbv zeta in Q. rewrite S24, S16 in Q.
  exists (mkgf g tg), tag, ct, (mkgf c2 tag), fs1, c3. eexists.
  split; [exact EO|]. split; [exact P3|]. split; [exact P4|]. split; [exact LT|]. split; [exact LC|].
  split; [exact P5|]. split; [exact P6|].
  rewrite <- app_assoc in Q.
  replace (firstn 4 (N_to_le 4 (N.of_nat (length data)) ++ (junk ++ ct) ++ repeat 0%N 4)) with (N_to_le 4 (N.of_nat (length data))) in Q
    by (rewrite <- LL at 2; now rewrite firstn_app_exact).
  rewrite le_to_N_to_le in Q by (cbn; lia).
  rewrite c_int_small in Q by (unfold int_max; lia). rewrite LC in Q.
  replace (Z.of_nat (length data) =? Z.of_N (N.of_nat (length data)))%Z with true in Q by (symmetry; apply Z.eqb_eq; lia).
  split; [exact Q|]. split; [rewrite upd_same; unfold ct; rewrite gctr_involutive by auto; reflexivity|].
  intros p Hp. now apply upd_other.
Qed.

Lemma gcmfile_conforms_lemma : forall E tag0 iv aad wr fs inf encf junk data c,
  block_function E -> bytes iv -> bytes aad -> bytes data -> fs inf = Some data ->
  inf <> encf -> inf <> tmp_path encf -> wr encf = true -> wr (tmp_path encf) = true ->
  (8 * N.of_nat (length iv) < 2 ^ 32)%N -> (8 * N.of_nat (length aad) < 2 ^ 64)%N ->
  (N.of_nat (length data) <= 2147483647)%N ->
  gcmfile_open (lift E) tag0 iv aad = Some c ->
  let ct := gcm_ciphertext E iv data in
  exists c1 fs1, gcmfile_encrypt (lift E) wr fs c inf encf junk = Some (true, c1, fs1) /\
    f_tag c1 = gcm_tag E iv aad ct 16 /\
    fs1 encf = Some (gcm_tag E iv aad ct 16 ++ N_to_le 4 (N.of_nat (length data)) ++ junk ++ ct).
Proof.
  intros E tag0 iv aad wr fs inf encf junk data c HE Biv Ba Bd HF N1 N2 W1 W2 Hiv Ha HM HO ct.
  destruct (open_ok E tag0 iv aad HE Biv Ba) as (c' & EO & HC & HB & HS). rewrite HO in EO. injection EO as <-.
  destruct c as [g tg]. cbn [f_gcm] in *.
  destruct (gcmfile_encrypt_run E (hash_key E) g tg wr fs inf encf junk data) as (c1 & c2 & tag & fs1 & P1 & P2 & P3 & P4 & P5 & P6); auto.
  1: lia.
  pose proof (session_slices E Enc iv aad data 16 HE Biv Ba Bd Hiv Ha ltac:(lia) ltac:(lia)) as SS. cbv zeta in SS.
  rewrite HS, P1, P2 in SS. cbn [bind snd hashed] in SS. injection SS as SS1 SS2.
  exists (mkgf c2 tag), fs1. split; [exact P3|]. cbn [f_tag].
  cbv zeta in P4. rewrite SS1 in P4. rewrite SS2 in P4 |- *. split; [reflexivity|exact P4].
Qed.

Lemma gcmfile_tamper_refuted_lemma : forall E c wr fs inf outf tag len junk ct,
  block_function E -> reachable (lift E) (f_gcm c) -> bytes ct -> bytes tag -> bytes junk ->
  length tag = 16 -> length junk = 4 -> (N.of_nat (length ct) <= 2147483647)%N ->
  len = N_to_le 4 (N.of_nat (length ct)) ->
  fs inf = Some (tag ++ len ++ junk ++ ct) -> inf <> outf -> wr outf = true ->
  exists c2, gcmfile_decrypt (lift E) wr fs c inf outf =
    Some (true, c2, upd fs outf (Some (gctr E (inc32 (g_y (f_gcm c))) ct))).
Proof.
  intros E c wr fs inf outf tag len junk ct HE HR Bc Bt BJ LT LJ HM -> HF NE W. destruct c as [g tg]. cbn [f_gcm] in *.
  pose proof (reachable_ctx_ok E g HE HR) as HC.
  set (cont := tag ++ N_to_le 4 (N.of_nat (length ct)) ++ junk ++ ct) in *.
  assert (LL : length (N_to_le 4 (N.of_nat (length ct))) = 4) by (unfold N_to_le; rewrite rev_length; apply length_N_to_be).
  assert (LCont : length cont = 24 + length ct) by (unfold cont; rewrite !app_length; lia).
  assert (S16 : skipn 16 cont = N_to_le 4 (N.of_nat (length ct)) ++ junk ++ ct) by (unfold cont; rewrite <- LT; apply skipn_app_exact).
  assert (S24 : skipn 24 cont = ct).
  { change 24 with (16 + 8). rewrite <- skipn_skipn_add, S16. rewrite app_assoc.
    replace 8 with (length (N_to_le 4 (N.of_nat (length ct)) ++ junk)) by (rewrite app_length; lia). apply skipn_app_exact. }
  assert (BL : bytes (N_to_le 4 (N.of_nat (length ct)))) by (apply bytes_rev, bytes_N_to_be).
  destruct (gcmfile_decrypt_run E (hash_key E) g tg wr fs inf outf cont) as (c3 & Q); auto.
  { unfold cont. repeat (apply bytes_app; split; auto). } { lia. } { lia. }
  cbv zeta in Q. rewrite S24, S16 in Q. exists c3. rewrite Q.
  rewrite <- app_assoc.
  replace (firstn 4 (N_to_le 4 (N.of_nat (length ct)) ++ (junk ++ ct) ++ repeat 0%N 4)) with (N_to_le 4 (N.of_nat (length ct)))
    by (rewrite <- LL at 2; now rewrite firstn_app_exact).
  rewrite le_to_N_to_le by (cbn; lia).
  rewrite c_int_small by (unfold int_max; lia).
  replace (Z.of_nat (length ct) =? Z.of_N (N.of_nat (length ct)))%Z with true by (symmetry; apply Z.eqb_eq; lia).
  reflexivity.
Qed.

Lemma gcmfile_tamper_witness_refuted_lemma : exists E c iv aad cont c1 fs1,
  block_function E /\ gcmfile_open (lift E) [] iv aad = Some c /\
  gcmfile_encrypt (lift E) wr_all fs0 c path_in path_enc [0; 0; 0; 0]%N = Some (true, c1, fs1) /\
  fs1 path_enc = Some cont /\
  let forged := set cont 24 (N.lxor (get cont 24) 1) in
  forged <> cont /\
  exists c2 fs2 out, gcmfile_decrypt (lift E) wr_all (upd fs1 path_enc (Some forged)) c path_enc path_dec' = Some (true, c2, fs2) /\
    fs2 path_dec' = Some out /\ out <> file_data.
Proof.
  exists toyE. eexists. exists gcm_iv12, gcm_aad5. eexists. eexists. eexists.
  split; [apply toy_is_block_cipher|]. split; [vm_compute; reflexivity|]. split; [vm_compute; reflexivity|].
  split; [vm_compute; reflexivity|]. split; [vm_compute; discriminate|].
  eexists; eexists; eexists. split; [vm_compute; reflexivity|]. split; [vm_compute; reflexivity|]. vm_compute; discriminate.
Qed.

Lemma gcmfile_size_check_lemma : forall E c wr fs inf outf cont,
  block_function E -> reachable (lift E) (f_gcm c) -> bytes cont -> fs inf = Some cont -> 17 <= length cont ->
  inf <> outf -> wr outf = true -> (N.of_nat (length cont) <= 2147483647 + 24)%N ->
  let body := skipn 24 cont in
  let recorded := c_int (le_to_N (firstn 4 (skipn 16 cont ++ repeat 0%N 4))) in
  exists ret c2, gcmfile_decrypt (lift E) wr fs c inf outf =
    Some (ret, c2, upd fs outf (Some (gctr E (inc32 (g_y (f_gcm c))) body))) /\
    (ret = true <-> Z.of_nat (length body) = recorded).
Proof.
  intros E c wr fs inf outf cont HE HR B HF HL NE W HM body recorded. destruct c as [g tg]. cbn [f_gcm] in *.
  destruct (gcmfile_decrypt_run E (hash_key E) g tg wr fs inf outf cont) as (c3 & Q); auto.
  { now apply reachable_ctx_ok. }
  cbv zeta in Q. fold body recorded in Q. eexists; eexists. split; [exact Q|]. apply Z.eqb_eq.
Qed.

Lemma gcmfile_open_failure_refuted_lemma : forall blk wr fs c inf outf junk,
  (fs inf = None \/ wr outf = false \/ wr (tmp_path outf) = false -> gcmfile_encrypt blk wr fs c inf outf junk = None) /\
  (fs inf = None \/ wr outf = false \/ (exists cont, fs inf = Some cont /\ length cont <= 16) ->
   gcmfile_decrypt blk wr fs c inf outf = None).
Proof.
  intros blk wr fs c inf outf junk. unfold gcmfile_encrypt, file_encrypt, gcmfile_decrypt, file_decrypt. split.
  - intros H. destruct (fs inf) as [d|]; [|reflexivity].
    destruct H as [H|[H|H]]; [discriminate| |]; rewrite H; cbn [negb]; auto.
    destruct (negb (wr (tmp_path outf))); reflexivity.
  - intros H. destruct (fs inf) as [d|] eqn:EF; [|reflexivity].
    destruct (length d =? 0); [reflexivity|].
    destruct (Nat.eqb_spec (length (skipn file_tag_len d)) 0) as [Z|Z]; [reflexivity|].
    destruct H as [H|[H|[cont [H1 H2]]]]; [discriminate|rewrite H; reflexivity|].
    injection H1 as <-. exfalso. apply Z. rewrite skipn_length. unfold file_tag_len. lia.
Qed.

Lemma gcmfile_in_place_refuted_lemma : forall blk wr fs c p junk data r,
  fs p = Some data -> gcm_finish (f_gcm c) 16 = Some r -> wr p = true -> wr (tmp_path p) = true ->
  exists c1 fs1, gcmfile_encrypt blk wr fs c p p junk = Some (true, c1, fs1) /\
    fs1 p = Some (snd r ++ [0; 0; 0; 0]%N ++ junk).
Proof.
  intros blk wr fs c p junk data [g t] HF HT W1 W2. unfold gcmfile_encrypt, file_encrypt. rewrite HF, W1, W2. cbn [negb].
  rewrite upd_same. rewrite chunks_nil. cbn [slices_run]. change file_tag_len with 16. rewrite HT. cbn [bind].
  eexists; eexists. split; [reflexivity|].
  rewrite upd_other by (intros H; symmetry in H; exact (tmp_neq _ H)). rewrite upd_same. cbn [snd length].
  rewrite app_nil_r. reflexivity.
Qed.
