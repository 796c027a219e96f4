(** * Which files the GCM file functions touch, and exactly when they are defined (C53, C92, C93) *)
From Verif Require Import Base CbcModel GcmModel FileModel FileProofs WbaesModel WbgcmModel.
Local Open Scope nat_scope.

Section Any.
  Variable C : Type.
  Variable crypt : C -> list N -> C * list N.
  Variable finish : C -> option (C * list N).
  Hypothesis fin : forall c, finish c <> None.

  Lemma enc_undef wr fs c inf outf junk :
    file_encrypt crypt finish wr fs c inf outf junk = None <-> fs inf = None \/ wr outf = false \/ wr (tmp_path outf) = false.
  Proof.
    unfold file_encrypt. destruct (fs inf) as [d|]; [|split; auto].
    destruct (wr (tmp_path outf)); cbn [negb]; [|split; auto]. destruct (wr outf); cbn [negb]; [|split; auto].
    cbv zeta. destruct (slices_run crypt c _) as [c1 ct]. specialize (fin c1).
    destruct (finish c1) as [[c2 tag]|]; [|congruence]. cbn [bind]. split; [discriminate|]. intros [H|[H|H]]; discriminate H.
  Qed.
  Lemma dec_undef wr fs c inf outf :
    file_decrypt crypt finish wr fs c inf outf = None <->
    fs inf = None \/ wr outf = false \/ inf = outf \/ (exists cont, fs inf = Some cont /\ (length cont <= 16 \/ (int_max + 24 < N.of_nat (length cont))%N)).
  Proof.
    unfold file_decrypt. destruct (fs inf) as [cont|]; [|split; auto].
    destruct (Nat.eqb_spec (length cont) 0) as [Z|Z].
    { split; [|reflexivity]. intros _. right. right. right. exists cont. split; [reflexivity|]. left. lia. }
    cbv zeta. rewrite !skipn_length. unfold file_tag_len, size_len.
    destruct (Nat.eqb_spec (length cont - 16) 0) as [Z1|Z1].
    { split; [|reflexivity]. intros _. right. right. right. exists cont. split; [reflexivity|]. left. lia. }
    destruct (wr outf); cbn [negb]; [|split; auto]. destruct (path_dec inf outf) as [P|P]; [split; auto|].
    specialize (fin c). destruct (finish c) as [[c1 tag]|]; [|congruence]. cbn [bind].
    destruct (N.ltb_spec int_max (N.of_nat (length cont - 16 - 8))) as [L|L].
    - split; [|reflexivity]. intros _. right. right. right. exists cont. split; [reflexivity|]. right. lia.
    - destruct (slices_run crypt c1 _) as [c2 o]. split; [discriminate|].
      intros [H|[H|[H|(x & [= <-] & [H|H])]]]; [discriminate|discriminate|contradiction|lia|lia].
  Qed.
  Lemma enc_frame wr fs c inf outf junk ok c1 tag fs1 :
    file_encrypt crypt finish wr fs c inf outf junk = Some (ok, c1, tag, fs1) ->
    ok = true /\ fs1 (tmp_path outf) = None /\ (forall p, p <> outf -> p <> tmp_path outf -> fs1 p = fs p) /\
    exists ct, fs1 outf = Some (tag ++ (N_to_le 4 (N.of_nat (length (match (upd (upd fs (tmp_path outf) (Some [])) outf (Some [])) inf with Some d => d | None => [] end)) mod 2 ^ 32) ++ junk) ++ ct).
  Proof.
    unfold file_encrypt. destruct (fs inf) as [d|]; [|discriminate].
    destruct (wr (tmp_path outf)); cbn [negb]; [|discriminate]. destruct (wr outf); cbn [negb]; [|discriminate].
    cbv zeta. destruct (slices_run crypt c _) as [c0 ct]. destruct (finish c0) as [[c2 t]|]; [|discriminate]. cbn [bind].
    intros [= <- <- <- <-]. split; [reflexivity|]. split; [apply upd_same|]. split.
    - intros p H1 H2. rewrite !upd_other by auto. reflexivity.
    - exists ct. rewrite upd_other by (intros H; symmetry in H; exact (tmp_neq _ H)). apply upd_same.
  Qed.
  Lemma dec_frame wr fs c inf outf ok c1 tag fs1 :
    file_decrypt crypt finish wr fs c inf outf = Some (ok, c1, tag, fs1) -> forall p, p <> outf -> fs1 p = fs p.
  Proof.
    unfold file_decrypt. destruct (fs inf) as [cont|]; [|discriminate]. destruct (length cont =? 0); [discriminate|].
    cbv zeta. destruct (length (skipn file_tag_len cont) =? 0); [discriminate|]. destruct (wr outf); cbn [negb]; [|discriminate].
    destruct (path_dec inf outf); [discriminate|]. destruct (finish c) as [[c0 t]|]; [|discriminate]. cbn [bind].
    destruct (int_max <? _)%N; [discriminate|]. destruct (slices_run crypt c0 _) as [c2 o]. intros [= <- <- <- <-] p H. now apply upd_other.
  Qed.
  Lemma enc_length : (forall c p, length (snd (crypt c p)) = length p) -> forall ps c, length (snd (slices_run crypt c ps)) = length (concat ps).
  Proof.
    intros L. induction ps as [|p ps IH]; intros c; [reflexivity|]. cbn [slices_run concat]. specialize (L c p).
    destruct (crypt c p) as [c1 o]. specialize (IH c1). destruct (slices_run crypt c1 ps) as [c2 o2]. cbn [snd] in *.
    rewrite !app_length. lia.
  Qed.
  (** a temporary name that is in use: its contents are lost, and with them the input when it is the input *)
  Lemma enc_tmp wr fs c outf junk d r : finish c = Some r -> fs (tmp_path outf) = Some d -> wr outf = true -> wr (tmp_path outf) = true ->
    file_encrypt crypt finish wr fs c (tmp_path outf) outf junk =
      Some (true, fst r, snd r, upd (upd (upd (upd (upd fs (tmp_path outf) (Some [])) outf (Some [])) (tmp_path outf) (Some [])) outf
        (Some (snd r ++ ([0; 0; 0; 0]%N ++ junk) ++ []))) (tmp_path outf) None).
  Proof.
    intros HT HF W1 W2. unfold file_encrypt. rewrite HF, W1, W2. cbn [negb].
    rewrite (upd_other _ outf) by (exact (tmp_neq _)). rewrite upd_same. rewrite chunks_nil. cbn [slices_run]. rewrite HT. destruct r as [c2 t]. reflexivity.
  Qed.
  (** a file too large for an int *)
  Variable P : C -> Prop.
  Hypothesis Pfin : forall c r, P c -> finish c = Some r -> length (snd r) = 16.
  Hypothesis Pstep : forall c p, P c -> P (fst (crypt c p)).
  Hypothesis Plen : forall c p, length (snd (crypt c p)) = length p.
  Lemma slices_keep : forall ps c, P c -> P (fst (slices_run crypt c ps)) /\ length (snd (slices_run crypt c ps)) = length (concat ps).
  Proof.
    induction ps as [|p ps IH]; intros c H; [split; [exact H|reflexivity]|]. cbn [slices_run concat]. pose proof (Pstep c p H) as H1. pose proof (Plen c p) as L1.
    destruct (crypt c p) as [c1 o]. destruct (IH c1 H1) as [H2 L2]. destruct (slices_run crypt c1 ps) as [c2 o2]. cbn [fst snd] in *.
    rewrite !app_length. split; [exact H2|lia].
  Qed.
  Lemma enc_large wr fs c inf outf junk d : P c ->
    fs inf = Some d -> inf <> outf -> inf <> tmp_path outf -> wr outf = true -> wr (tmp_path outf) = true -> length junk = 4 ->
    (int_max < N.of_nat (length d))%N ->
    exists c1 tag fs1 ct, file_encrypt crypt finish wr fs c inf outf junk = Some (true, c1, tag, fs1) /\
      fs1 outf = Some (tag ++ (N_to_le 4 (N.of_nat (length d) mod 2 ^ 32) ++ junk) ++ ct) /\ length tag = 16 /\ length ct = length d.
  Proof.
    intros HP HF N1 N2 W1 W2 LJ LD. unfold file_encrypt at 1. rewrite HF, W1, W2. cbn [negb].
    rewrite !upd_other by auto. rewrite HF. cbv zeta. destruct (slices_keep (chunks file_slice d) c HP) as [HP1 LL].
    rewrite concat_chunks in LL by (unfold file_slice; lia).
    destruct (slices_run crypt c (chunks file_slice d)) as [c1 ct]. cbn [fst snd] in *. pose proof (fin c1) as F. pose proof (Pfin c1) as LT1.
    destruct (finish c1) as [[c2 t]|]; [|congruence]. cbn [bind]. specialize (LT1 _ HP1 eq_refl). cbn [snd] in LT1.
    eexists _, _, _, ct. split; [reflexivity|]. split; [|auto].
    rewrite upd_other by (intros H; symmetry in H; exact (tmp_neq _ H)). apply upd_same.
  Qed.
End Any.
Lemma large_no_way_back C crypt finish wr fs (c : C) inf outf (tag junk ct : list N) (n : N) :
  (forall c : C, finish c <> None) ->
  fs inf = Some (tag ++ (N_to_le 4 n ++ junk) ++ ct) -> length tag = 16 -> length junk = 4 -> (int_max < N.of_nat (length ct))%N ->
  file_decrypt crypt finish wr fs c inf outf = None.
Proof.
  intros fin HF LT LJ LC. apply (dec_undef C crypt finish fin). right. right. right. eexists. split; [exact HF|]. right.
  rewrite !app_length, LT, LJ. change (length (N_to_le 4 n)) with 4. lia.
Qed.

(** ** The two families *)
Lemma gcm_fin c : gcm_finish c file_tag_len <> None.
Proof. destruct (finish16_some c) as [r E]. change file_tag_len with 16. rewrite E. discriminate. Qed.
Lemma wb_fin k c : wbgcm_finish k c file_tag_len <> None.
Proof. unfold wbgcm_finish. change (16 <? file_tag_len) with false. cbn match. destruct (_ && _); discriminate. Qed.
Lemma crypt_loop_len blk HH HL d : forall cs y buf out, length (snd (crypt_loop blk HH HL d cs y buf out)) <= length out + length (concat cs).
Proof.
  induction cs as [|p cs IH]; intros y buf out; cbn [crypt_loop concat]; [cbn [snd length]; lia|]. cbv zeta. rewrite app_length.
  destruct (blk (ctr_incr y)) as [e|]; [|cbn [snd]; lia].
  match goal with |- context [crypt_loop blk HH HL d cs ?a ?b ?c] => specialize (IH a b c) end.
  rewrite app_length, length_xorl in IH. lia.
Qed.
Lemma gcm_slice_len d blk c p : length (snd (gcm_slice d blk c p)) = length p.
Proof.
  unfold gcm_slice, gcm_crypt. destruct (length p <? length p); [cbn [snd length]; rewrite app_length, repeat_length; cbn [length]; lia|]. cbv zeta.
  set (data := firstn _ p). pose proof (crypt_loop_len blk (g_HH c) (g_HL c) d (chunks 16 data) (g_y c) (g_buf c) []) as L.
  destruct (crypt_loop _ _ _ _ _ _ _ _) as [[[ok y] buf] o]. cbn [snd length] in *. rewrite app_length, repeat_length.
  rewrite concat_chunks in L by lia. unfold data in L. rewrite firstn_length in L. lia.
Qed.
Lemma gcm_slice_base d blk c p : g_base (fst (gcm_slice d blk c p)) = g_base c.
Proof.
  unfold gcm_slice, gcm_crypt. destruct (length p <? length p); [reflexivity|]. cbv zeta. destruct (crypt_loop _ _ _ _ _ _ _ _) as [[[ok y] buf] o]. reflexivity.
Qed.
Lemma gcm_mult_len HH HL x : length (gcm_mult HH HL x) = 16.
Proof. unfold gcm_mult. destruct (fold_left _ _ _) as [a b]. reflexivity. Qed.
Lemma some_snd {A B} (P : B -> Prop) (x : A) (y : B) r : Some (x, y) = Some r -> P y -> P (snd r).
Proof. intros E. assert (X : (x, y) = r) by congruence. now rewrite <- X. Qed.
Lemma gcm_tag_len c r : length (g_base c) = 16 -> gcm_finish c file_tag_len = Some r -> length (snd r) = 16.
Proof.
  intros H. unfold gcm_finish. cbv zeta. change (16 <? file_tag_len) with false. cbn match. change file_tag_len with 16.
  destruct (_ && _); intros E; apply (some_snd (fun t => length t = 16)) in E; try exact E.
  - rewrite firstn_length. lia.
  - rewrite length_xorl, !firstn_length, gcm_mult_len. lia.
Qed.
Lemma wb_loop_len k HH HL d : forall cs y buf out, length (snd (wbgcm_loop k HH HL d cs y buf out)) = length out + length (concat cs).
Proof.
  induction cs as [|p cs IH]; intros y buf out; cbn [wbgcm_loop concat]; [cbn [snd length]; lia|]. cbv zeta. rewrite app_length.
  rewrite IH, app_length, map_length, seq_length. lia.
Qed.
Lemma wb_slice_len d k c p : length (snd (wbgcm_slice d k c p)) = length p.
Proof.
  unfold wbgcm_slice, wbgcm_crypt. destruct (length p <? length p); [cbn [snd length]; rewrite app_length, repeat_length; cbn [length]; lia|]. cbv zeta.
  set (data := firstn _ p). pose proof (wb_loop_len k (g_HH c) (g_HL c) d (chunks 16 data) (g_y c) (g_buf c) []) as L.
  destruct (wbgcm_loop _ _ _ _ _ _ _ _) as [[y buf] o]. cbn [snd length] in *. rewrite app_length, repeat_length.
  rewrite concat_chunks in L by lia. unfold data in L. rewrite firstn_length in L. lia.
Qed.
Lemma wb_slice_base d k c p : g_base (fst (wbgcm_slice d k c p)) = g_base c.
Proof.
  unfold wbgcm_slice, wbgcm_crypt. destruct (length p <? length p); [reflexivity|]. cbv zeta. destruct (wbgcm_loop _ _ _ _ _ _ _ _) as [[y buf] o]. reflexivity.
Qed.
Lemma wb_tag_len k c r : length (g_base c) = 16 -> wbgcm_finish k c file_tag_len = Some r -> length (snd r) = 16.
Proof.
  intros H. unfold wbgcm_finish. cbv zeta. change (16 <? file_tag_len) with false. cbn match. change file_tag_len with 16.
  destruct (_ && _); intros E; apply (some_snd (fun t => length t = 16)) in E; try exact E.
  - rewrite firstn_length. lia.
  - now rewrite map_length, seq_length.
Qed.

(** the calls fail to return exactly in these cases *)
Definition enc_blocked (wr : path -> bool) (fs : fsys) (inf outf : path) : Prop :=
  fs inf = None \/ wr outf = false \/ wr (tmp_path outf) = false.
Definition dec_blocked (wr : path -> bool) (fs : fsys) (inf outf : path) : Prop :=
  fs inf = None \/ wr outf = false \/ inf = outf \/
  (exists cont, fs inf = Some cont /\ (length cont <= 16 \/ (2147483647 + 24 < N.of_nat (length cont))%N)).
Lemma gcmfile_defined_lemma : forall blk wr fs c inf outf junk,
  (gcmfile_encrypt blk wr fs c inf outf junk = None <-> enc_blocked wr fs inf outf) /\
  (gcmfile_decrypt blk wr fs c inf outf = None <-> dec_blocked wr fs inf outf).
Proof.
  intros blk wr fs c inf outf junk. unfold gcmfile_encrypt, gcmfile_decrypt. split.
  - pose proof (enc_undef _ (gcm_slice Enc blk) (fun g => gcm_finish g file_tag_len) gcm_fin wr fs (f_gcm c) inf outf junk) as H1.
    destruct (file_encrypt _ _ _ _ _ _ _ _) as [[[[a1 a2] a3] a4]|]; [|split; [intros _; apply H1; reflexivity|reflexivity]]. cbn [bind].
    split; [discriminate|]. intros E. apply H1 in E. discriminate E.
  - pose proof (dec_undef _ (gcm_slice Dec blk) (fun g => gcm_finish g file_tag_len) gcm_fin wr fs (f_gcm c) inf outf) as H2.
    destruct (file_decrypt _ _ _ _ _ _ _) as [[[[a1 a2] a3] a4]|]; [|split; [intros _; apply H2; reflexivity|reflexivity]]. cbn [bind].
    split; [discriminate|]. intros E. apply H2 in E. discriminate E.
Qed.
Lemma wbgcmfile_defined_lemma : forall k wr fs c inf outf junk,
  (wbgcmfile_encrypt k wr fs c inf outf junk = None <-> enc_blocked wr fs inf outf) /\
  (wbgcmfile_decrypt k wr fs c inf outf = None <-> dec_blocked wr fs inf outf).
Proof.
  intros k wr fs c inf outf junk. split.
  - exact (enc_undef _ (wbgcm_slice Enc k) (fun g => wbgcm_finish k g file_tag_len) (wb_fin k) wr fs c inf outf junk).
  - exact (dec_undef _ (wbgcm_slice Dec k) (fun g => wbgcm_finish k g file_tag_len) (wb_fin k) wr fs c inf outf).
Qed.
Lemma gcmfile_frame_lemma : forall blk wr fs c inf outf junk ok c1 fs1,
  (gcmfile_encrypt blk wr fs c inf outf junk = Some (ok, c1, fs1) ->
     ok = true /\ fs1 (tmp_path outf) = None /\ fs1 outf <> None /\ forall p, p <> outf -> p <> tmp_path outf -> fs1 p = fs p) /\
  (gcmfile_decrypt blk wr fs c inf outf = Some (ok, c1, fs1) -> forall p, p <> outf -> fs1 p = fs p).
Proof.
  intros blk wr fs c inf outf junk ok c1 fs1. unfold gcmfile_encrypt, gcmfile_decrypt. split.
  - destruct (file_encrypt _ _ _ _ _ _ _ _) as [[[[a1 a2] a3] a4]|] eqn:E; cbn [bind]; [|discriminate]. intros [= <- <- <-].
    apply enc_frame in E. destruct E as (H1 & H2 & H3 & ct & H4). split; [exact H1|]. split; [exact H2|]. split; [rewrite H4; discriminate|exact H3].
  - destruct (file_decrypt _ _ _ _ _ _ _) as [[[[a1 a2] a3] a4]|] eqn:E; cbn [bind]; [|discriminate]. intros [= <- <- <-]. exact (dec_frame _ _ _ _ _ _ _ _ _ _ _ _ E).
Qed.
Lemma wbgcmfile_frame_lemma : forall k wr fs c inf outf junk ok c1 tag fs1,
  (wbgcmfile_encrypt k wr fs c inf outf junk = Some (ok, c1, tag, fs1) ->
     ok = true /\ fs1 (tmp_path outf) = None /\ fs1 outf <> None /\ forall p, p <> outf -> p <> tmp_path outf -> fs1 p = fs p) /\
  (wbgcmfile_decrypt k wr fs c inf outf = Some (ok, c1, tag, fs1) -> forall p, p <> outf -> fs1 p = fs p).
Proof.
  intros k wr fs c inf outf junk ok c1 tag fs1. split.
  - intros E. apply enc_frame in E. destruct E as (H1 & H2 & H3 & ct & H4). split; [exact H1|]. split; [exact H2|]. split; [rewrite H4; discriminate|exact H3].
  - intros E. exact (dec_frame _ _ _ _ _ _ _ _ _ _ _ _ E).
Qed.
Lemma tmp_input_fs (fs : fsys) outf v w : let fs1 := upd (upd (upd (upd (upd fs (tmp_path outf) (Some [])) outf (Some [])) (tmp_path outf) (Some [])) outf (Some v)) (tmp_path outf) w in
  fs1 (tmp_path outf) = w /\ fs1 outf = Some v.
Proof. cbv zeta. split; [apply upd_same|]. rewrite upd_other by (intros H; symmetry in H; exact (tmp_neq _ H)). apply upd_same. Qed.
Lemma gcmfile_tmp_input_lemma : forall blk wr fs c outf junk d, fs (tmp_path outf) = Some d -> wr outf = true -> wr (tmp_path outf) = true ->
  exists c1 fs1 r, gcmfile_encrypt blk wr fs c (tmp_path outf) outf junk = Some (true, c1, fs1) /\ fs1 (tmp_path outf) = None /\
    gcm_finish (f_gcm c) 16 = Some r /\ fs1 outf = Some (snd r ++ [0; 0; 0; 0]%N ++ junk).
Proof.
  intros blk wr fs c outf junk d HF W1 W2. destruct (finish16_some (f_gcm c)) as [r HT].
  pose proof (enc_tmp _ (gcm_slice Enc blk) (fun g => gcm_finish g file_tag_len) wr fs (f_gcm c) outf junk d r HT HF W1 W2) as E.
  unfold gcmfile_encrypt. rewrite E. cbn [bind]. eexists _, _, r. split; [reflexivity|].
  destruct (tmp_input_fs fs outf (snd r ++ ([0; 0; 0; 0]%N ++ junk) ++ []) None) as [F1 F2]. cbv zeta in F1, F2. split; [exact F1|]. split; [exact HT|].
  rewrite F2, app_nil_r. reflexivity.
Qed.
Lemma wbgcmfile_tmp_input_lemma : forall k wr fs c outf junk d, fs (tmp_path outf) = Some d -> wr outf = true -> wr (tmp_path outf) = true ->
  exists c1 tag fs1, wbgcmfile_encrypt k wr fs c (tmp_path outf) outf junk = Some (true, c1, tag, fs1) /\ fs1 (tmp_path outf) = None /\
    wbgcm_finish k c 16 = Some (c1, tag) /\ fs1 outf = Some (tag ++ [0; 0; 0; 0]%N ++ junk).
Proof.
  intros k wr fs c outf junk d HF W1 W2. destruct (wbgcm_finish k c file_tag_len) as [r|] eqn:HT; [|destruct (wb_fin k c HT)].
  pose proof (enc_tmp _ (wbgcm_slice Enc k) (fun g => wbgcm_finish k g file_tag_len) wr fs c outf junk d r HT HF W1 W2) as E.
  unfold wbgcmfile_encrypt. rewrite E. eexists _, _, _. split; [reflexivity|].
  destruct (tmp_input_fs fs outf (snd r ++ ([0; 0; 0; 0]%N ++ junk) ++ []) None) as [F1 F2]. cbv zeta in F1, F2. split; [exact F1|].
  split; [rewrite <- surjective_pairing; exact HT|]. rewrite F2, app_nil_r. reflexivity.
Qed.
Lemma gcmfile_large_lemma : forall blk wr fs c inf outf junk data, length (g_base (f_gcm c)) = 16 ->
  fs inf = Some data -> inf <> outf -> inf <> tmp_path outf -> wr outf = true -> wr (tmp_path outf) = true -> length junk = 4 ->
  (2147483647 < N.of_nat (length data))%N ->
  exists c1 fs1 cont, gcmfile_encrypt blk wr fs c inf outf junk = Some (true, c1, fs1) /\ fs1 outf = Some cont /\ length cont = length data + 24 /\
    forall blk' wr' c' decf, gcmfile_decrypt blk' wr' fs1 c' outf decf = None.
Proof.
  intros blk wr fs c inf outf junk data HB HF N1 N2 W1 W2 LJ LD.
  destruct (enc_large _ (gcm_slice Enc blk) (fun g => gcm_finish g file_tag_len) gcm_fin (fun g => length (g_base g) = 16) gcm_tag_len
    (fun c p H => eq_trans (f_equal (@length N) (gcm_slice_base Enc blk c p)) H) (gcm_slice_len Enc blk) wr fs (f_gcm c) inf outf junk data HB HF N1 N2 W1 W2 LJ LD)
    as (c1 & tag & fs1 & ct & E & F & LT & LC).
  unfold gcmfile_encrypt. rewrite E. cbn [bind]. eexists _, fs1, _. split; [reflexivity|]. split; [exact F|].
  split; [rewrite !app_length, LT, LJ, LC; change (length (N_to_le 4 (N.of_nat (length data) mod 2 ^ 32))) with 4; lia|].
  intros blk' wr' c' decf. unfold gcmfile_decrypt. rewrite (large_no_way_back _ _ _ _ _ _ _ _ _ _ _ _ gcm_fin F LT LJ); [reflexivity|]. rewrite LC. exact LD.
Qed.
Lemma wbgcmfile_large_lemma : forall k wr fs c inf outf junk data, length (g_base c) = 16 ->
  fs inf = Some data -> inf <> outf -> inf <> tmp_path outf -> wr outf = true -> wr (tmp_path outf) = true -> length junk = 4 ->
  (2147483647 < N.of_nat (length data))%N ->
  exists c1 tag fs1 cont, wbgcmfile_encrypt k wr fs c inf outf junk = Some (true, c1, tag, fs1) /\ fs1 outf = Some cont /\ length cont = length data + 24 /\
    forall k' wr' c' decf, wbgcmfile_decrypt k' wr' fs1 c' outf decf = None.
Proof.
  intros k wr fs c inf outf junk data HB HF N1 N2 W1 W2 LJ LD.
  destruct (enc_large _ (wbgcm_slice Enc k) (fun g => wbgcm_finish k g file_tag_len) (wb_fin k) (fun g => length (g_base g) = 16) (wb_tag_len k)
    (fun c p H => eq_trans (f_equal (@length N) (wb_slice_base Enc k c p)) H) (wb_slice_len Enc k) wr fs c inf outf junk data HB HF N1 N2 W1 W2 LJ LD)
    as (c1 & tag & fs1 & ct & E & F & LT & LC).
  unfold wbgcmfile_encrypt. rewrite E. eexists _, _, fs1, _. split; [reflexivity|]. split; [exact F|].
  split; [rewrite !app_length, LT, LJ, LC; change (length (N_to_le 4 (N.of_nat (length data) mod 2 ^ 32))) with 4; lia|].
  intros k' wr' c' decf. unfold wbgcmfile_decrypt. rewrite (large_no_way_back _ _ _ _ _ _ _ _ _ _ _ _ (wb_fin k') F LT LJ); [reflexivity|]. rewrite LC. exact LD.
Qed.
