(** * White-box GCM: what both variants compute *)
From Verif Require Import Base CbcModel CbcSpec GcmModel GcmSpec GcmProofs FileModel FileProofs CipherExt FpeModel MatModel AesSpec AesProofs WbaesModel WbaesProofs WbgcmModel WbgcmSpec WbgcmProofs WbgcmKeys WbgcmThms.
From Coq Require Import ZArith.
Local Open Scope nat_scope.
Local Opaque gcm_mult block_mul gf_mul init_tables gcm_setiv wbgcm_setiv gcm_aad wbgcm_aad wbgcm_init aes_encrypt ee_gen_table mask_gen_table wbgcm_crypt gcm_crypt wbgcm_session gcm_session MatMulNum.
Notation xor_g := (fun (_ : nat) e d => N.lxor e d).
Lemma xor_sound_tag E y s t : block16 (E y) -> block16 s -> t <= 16 -> tag_of E xor_g y s t = xorl (firstn t (E y)) (firstn t s).
Proof.
  intros [L1 _] [L2 _] T. apply list_ext; [unfold tag_of; rewrite map_length, seq_length, length_xorl, !firstn_length; lia|].
  intros i I. unfold tag_of in I. rewrite map_length, seq_length in I. unfold tag_of. rewrite get_map_seq' by exact I. rewrite get_xorl by (rewrite firstn_length; lia). now rewrite !get_firstn by exact I.
Qed.
Lemma crypt_pieces_gmix E h d ps : block_function E -> small_pieces ps -> forall c, ctx_ok h c -> exists c', crypt_pieces d (lift E) c ps = (true, c', concat (gmix_pieces E xor_g (g_y c) ps)).
Proof.
  intros HE HS. induction HS as [|p ps [Bp Lp] HS IH]; intros c HC; [exists c; reflexivity|]. cbn [crypt_pieces gmix_pieces concat].
  pose proof (gcm_crypt_spec E h d c p (length p) HE HC Bp Lp (Nat.le_refl _)) as ES. cbv zeta in ES.
  destruct (gcm_crypt d (lift E) c p (length p)) as [[ok c1] o] eqn:E1. pose proof E1 as E1'. eapply (gcm_crypt_ctx_ok E h) in E1'; auto. destruct E1' as (-> & HC1 & _ & _).
  destruct (IH c1 HC1) as (c' & E2). rewrite E2. exists c'. assert (EO : o = gctr E (inc32 (g_y c)) p) by exact (f_equal snd ES). assert (EC := f_equal (fun x => g_y (snd (fst x))) ES). cbn [fst snd g_y] in EC.
  rewrite EC, EO. rewrite gmix_xor; [reflexivity|exact HE|]. apply inc32_block, HC.
Qed.
Section Xor.
Variables (k : wbkey) (E : list N -> list N).
Hypothesis S : sound k E xor_g.
Let HE := s_E k E _ S.
Lemma xor_session d iv aad ps t : bytes iv -> bytes aad -> small_pieces ps -> t <= 16 ->
  (8 * N.of_nat (length aad) < 2 ^ 64)%N -> (8 * N.of_nat (length (concat ps)) < 2 ^ 64)%N -> nothing aad ps = false ->
  exists os tag, wbgcm_session d k iv aad ps t = Some (os, tag) /\ map (@length N) os = map (@length N) ps /\ gcm_session d (lift E) iv aad ps t = Some (concat os, tag).
Proof.
  intros Bi Ba HS T La Lp NN. destruct (wb_session_any k E _ S d iv aad ps t Bi Ba HS T La Lp) as (Y & BS & _ & HCS & E1 & E2). cbv zeta in *. rewrite NN in *.
  destruct (wb_open_ok k E _ S iv aad Bi Ba) as (HC & _ & _ & HSS & _). cbv zeta in *.
  destruct (E2 t T) as (z & E3). rewrite xor_sound_tag in E1 by (auto; now apply HE). eexists; eexists. split; [exact E1|]. split; [apply gmix_pieces_lengths|].
  destruct (crypt_pieces_gmix E _ d ps HE HS _ HC) as (c' & E4). fold (ctr0 E iv aad) in E4. pose proof (HSS d ps t) as E5. rewrite E4 in E5. 
  destruct d; cbn [hashed_pieces] in *.
  - destruct (session_inverse E iv aad ps (gmix_pieces E xor_g (ctr0 E iv aad) ps) t HE Bi Ba HS T) as (ct & tag & F1 & _ & F2).
    destruct (gcm_finish c' t) as [ft|]; [|rewrite F1 in E5; discriminate E5]. cbn [bind] in E5. rewrite F1 in E5.
    assert (EC : ct = concat (gmix_pieces E xor_g (ctr0 E iv aad) ps)) by exact (f_equal (fun o => match o with Some x => fst x | None => [] end) E5).
    specialize (F2 (gmix_pieces_lengths E xor_g ps (ctr0 E iv aad)) (eq_sym EC)). rewrite F2 in E3. rewrite F1, EC. apply f_equal. apply f_equal.
    exact (f_equal (fun o => match o with Some x => snd x | None => [] end) E3).
  - destruct (gcm_finish c' t) as [ft|]; [|rewrite E3 in E5; discriminate E5]. cbn [bind] in E5. rewrite E3 in E5. rewrite E3. apply f_equal.
    apply pair_equal_spec. split; [|reflexivity]. exact (f_equal (fun o => match o with Some x => fst x | None => [] end) E5).
Qed.
End Xor.

(** ** variant ee *)
Lemma ee_conforms_lemma : forall rnd junk key, bytes key -> 16 <= length key ->
  exists ctx, ee_gen_table rnd junk key = Ret ctx /\
  forall d iv aad ps t, bytes iv -> bytes aad -> small_pieces ps -> t <= 16 ->
    (8 * N.of_nat (length aad) < 2 ^ 64)%N -> (8 * N.of_nat (length (concat ps)) < 2 ^ 64)%N -> nothing aad ps = false ->
    exists os tag, wbgcm_session d (ee_key ctx) iv aad ps t = Some (os, tag) /\ map (@length N) os = map (@length N) ps /\
      gcm_session d (lift (aes_encrypt (firstn 16 key))) iv aad ps t = Some (concat os, tag).
Proof. intros rnd junk key B L. destruct (ee_sound rnd junk key B L) as (ctx & E & S). exists ctx. split; [exact E|]. intros. now apply xor_session. Qed.
Lemma ee_get rnd junk key ctx : bytes key -> ee_gen_table rnd junk key = Ret ctx -> sound (ee_key ctx) (aes_encrypt (firstn 16 key)) xor_g.
Proof.
  intros B E. destruct (Nat.lt_ge_cases (length key) 16) as [L|L]; [rewrite ee_short in E by exact L; discriminate|].
  destruct (ee_sound rnd junk key B L) as (ctx' & E' & S). rewrite E in E'. apply Ret_inj in E'. subst ctx'. exact S.
Qed.
Lemma ee_standard_lemma : forall rnd junk key ctx d iv aad p t, bytes key -> ee_gen_table rnd junk key = Ret ctx -> bytes iv -> bytes aad -> bytes p ->
  (8 * N.of_nat (length iv) < 2 ^ 32)%N -> (8 * N.of_nat (length aad) < 2 ^ 64)%N -> (N.of_nat (length p) <= 2147483647)%N -> t <= 16 -> nothing aad [p] = false ->
  let E := aes_encrypt (firstn 16 key) in let o := gctr E (inc32 (J0 E iv)) p in
  wbgcm_session d (ee_key ctx) iv aad [p] t = Some ([o], gcm_tag E iv aad (match d with Enc => o | Dec => p end) t).
Proof.
  intros rnd junk key ctx d iv aad p t BK EG Bi Ba Bp Li La Lp T NN. cbv zeta. pose proof (ee_get _ _ _ _ BK EG) as S.
  assert (HS : small_pieces [p]) by (constructor; [auto|constructor]). assert (LC : (8 * N.of_nat (length (concat [p])) < 2 ^ 64)%N) by (cbn [concat]; rewrite app_nil_r; lia).
  destruct (xor_session _ _ S d iv aad [p] t Bi Ba HS T La LC NN) as (os & tag & E1 & E2 & E3). rewrite E1.
  assert (HE : block_function (aes_encrypt (firstn 16 key))) by apply S.
  pose proof (session_spec _ d iv aad [] p t HE Bi Ba HS (Forall_nil _) Li La) as SS. cbn [app concat] in SS. specialize (SS ltac:(lia) T). cbv zeta in SS. rewrite SS in E3.
  destruct os as [|o [|? ?]]; try discriminate E2. cbn [concat] in E3. rewrite app_nil_r in E3. apply f_equal. apply pair_equal_spec. split.
  - f_equal. symmetry. exact (f_equal (fun o => match o with Some x => fst x | None => [] end) E3).
  - symmetry. exact (f_equal (fun o => match o with Some x => snd x | None => [] end) E3).
Qed.
Lemma ee_roundtrip_lemma : forall rnd junk key ctx iv aad ps t, bytes key -> ee_gen_table rnd junk key = Ret ctx -> bytes iv -> bytes aad -> small_pieces ps -> t <= 16 ->
  (8 * N.of_nat (length aad) < 2 ^ 64)%N -> (8 * N.of_nat (length (concat ps)) < 2 ^ 64)%N ->
  exists cs tag, wbgcm_session Enc (ee_key ctx) iv aad ps t = Some (cs, tag) /\ map (@length N) cs = map (@length N) ps /\
    wbgcm_session Dec (ee_key ctx) iv aad cs t = Some (ps, tag).
Proof.
  intros rnd junk key ctx iv aad ps t BK EG Bi Ba HS T La Lp. pose proof (ee_get _ _ _ _ BK EG) as S. set (E := aes_encrypt (firstn 16 key)) in *.
  destruct (wb_session_any _ E _ S Enc iv aad ps t Bi Ba HS T La Lp) as (Y & _ & _ & HCS & E1 & _). cbv zeta in *. cbn [hashed_pieces] in *.
  pose proof (gmix_pieces_lengths E xor_g ps (ctr0 E iv aad)) as GL. 
  pose proof (gmix_pieces_cancel E xor_g xor_g ps (s_E _ _ _ S) ltac:(intros i a d _ _ _; rewrite <- N.lxor_assoc, N.lxor_nilpotent; apply N.lxor_0_l) HS _ Y) as GX.
  set (cs := gmix_pieces E xor_g (ctr0 E iv aad) ps) in *. 
  destruct (wb_session_any _ E _ S Dec iv aad cs t Bi Ba HCS T La) as (_ & _ & _ & _ & E2 & _); [now rewrite (concat_lengths cs ps GL)|]. cbv zeta in *. cbn [hashed_pieces] in *.
  rewrite GX in E2. assert (EN : nothing aad cs = nothing aad ps) by (unfold nothing; now rewrite (concat_lengths cs ps GL)). rewrite EN in E2.
  eexists; eexists. split; [exact E1|]. split; [exact GL|]. exact E2.
Qed.
(** no additional data, no message: the tag is the encoded key stream block itself *)
Lemma ee_empty_tag_lemma : forall rnd junk key ctx d iv tag, bytes key -> ee_gen_table rnd junk key = Ret ctx -> bytes iv -> (8 * N.of_nat (length iv) < 2 ^ 32)%N ->
  wbgcm_session d (ee_key ctx) iv [] [] 16 = Some ([], tag) ->
  tag = ee_aux ctx (J0 (aes_encrypt (firstn 16 key)) iv) /\
  map (fun i => ee_III ctx i (get tag i) (ee_I ctx i 0%N)) (seq 0 16) = gcm_tag (aes_encrypt (firstn 16 key)) iv [] [] 16.
Proof.
  intros rnd junk key ctx d iv tag BK EG Bi Li E1. pose proof (ee_get _ _ _ _ BK EG) as S. set (E := aes_encrypt (firstn 16 key)) in *. assert (HE : block_function E) by apply S.
  destruct (wb_session_any _ E _ S d iv [] [] 16 Bi (Forall_nil _) (Forall_nil _) (Nat.le_refl _) ltac:(reflexivity) ltac:(reflexivity)) as (Y & _ & HJ & _ & E2 & E3). cbv zeta in *. specialize (HJ Li). rewrite HJ in *.
  change (nothing [] []) with true in *. cbn match in *. rewrite E1 in E2. assert (ET : tag = firstn 16 (wb_ectr (ee_key ctx) (J0 E iv))) by exact (f_equal (fun o => match o with Some x => snd x | None => [] end) E2).
  assert (LA : length (ee_aux ctx (J0 E iv)) = 16) by (unfold ee_aux, aux_encrypt; cbv zeta; now rewrite map_length, seq_length).
  assert (ET2 : tag = ee_aux ctx (J0 E iv)).
  { rewrite ET. unfold wb_ectr, ee_key. cbn [k_blk k_base]. rewrite firstn_all2 by (rewrite map_length, seq_length; lia). rewrite list16 by exact LA. reflexivity. }
  split; [exact ET2|]. rewrite ET2. transitivity (E (J0 E iv)).
  - destruct (HE _ Y) as [LE BE]. rewrite <- (list16 (E (J0 E iv)) LE). apply map_ext_in. intros i I. apply in_seq in I. pose proof (s_x _ _ _ S (J0 E iv) i 0%N Y ltac:(lia) ltac:(reflexivity)) as X. cbn [ee_key k_x k_base k_blk] in X. rewrite X. now rewrite N.lxor_0_r.
  - unfold gcm_tag. change (pad16 [] ++ pad16 [] ++ len64 [] ++ len64 []) with (repeat 0%N 16). rewrite ghash_zero_block. destruct (HE _ Y) as [LE BE]. rewrite xorl_zeros_l by lia. rewrite firstn_all2 by lia. reflexivity.
Qed.

(** ** variant mask *)
Definition mutual (L Li : nat -> N -> N) : Prop := forall i x, i < 16 -> byte x -> byte (L i x) /\ byte (Li i x) /\ Li i (L i x) = x /\ L i (Li i x) = x.
Lemma mask_get rnd junk key ctxs : bytes key -> mask_gen_table rnd junk key = Ret ctxs ->
  sound (mask_key (fst ctxs)) (aes_encrypt (firstn 16 key)) (g_enc (mask_L ctxs)) /\ sound (mask_key (snd ctxs)) (aes_encrypt (firstn 16 key)) (g_dec (mask_Li ctxs)) /\ mutual (mask_L ctxs) (mask_Li ctxs).
Proof.
  intros B E. destruct (Nat.lt_ge_cases (length key) 16) as [L|L]; [rewrite mask_short in E by exact L; discriminate|].
  destruct (mask_sound rnd junk key B L) as (ctx' & E' & S). rewrite E in E'. apply Ret_inj in E'. subst ctx'. exact S.
Qed.
Lemma mask_defined_lemma : forall rnd junk key, bytes key -> 16 <= length key -> exists ctxs, mask_gen_table rnd junk key = Ret ctxs.
Proof. intros rnd junk key B L. destruct (mask_sound rnd junk key B L) as (ctxs & E & _). eauto. Qed.
Lemma mask_roundtrip_good : forall key ctxs iv aad ps t, bytes key -> mask_good key ctxs -> bytes iv -> bytes aad -> small_pieces ps -> t <= 16 ->
  (8 * N.of_nat (length aad) < 2 ^ 64)%N -> (8 * N.of_nat (length (concat ps)) < 2 ^ 64)%N ->
  exists cs tag tag', wbgcm_session Enc (mask_key (fst ctxs)) iv aad ps t = Some (cs, tag) /\ map (@length N) cs = map (@length N) ps /\
    wbgcm_session Dec (mask_key (snd ctxs)) iv aad cs t = Some (ps, tag').
Proof.
  intros key ctxs iv aad ps t BK EG. destruct EG as (S & S' & M). apply (wb_roundtrip _ _ _ _ _ S S').
  intros i a d I A D. unfold g_dec, g_enc. assert (X : mask_Li ctxs i (mask_L ctxs i (N.lxor a d)) = N.lxor a d) by (apply M; [exact I|now apply byte_lxor]).
  rewrite X. rewrite <- N.lxor_assoc, N.lxor_nilpotent. apply N.lxor_0_l.
Qed.
Lemma mask_roundtrip_lemma : forall rnd junk key ctxs iv aad ps t, bytes key -> mask_gen_table rnd junk key = Ret ctxs -> bytes iv -> bytes aad -> small_pieces ps -> t <= 16 ->
  (8 * N.of_nat (length aad) < 2 ^ 64)%N -> (8 * N.of_nat (length (concat ps)) < 2 ^ 64)%N ->
  exists cs tag tag', wbgcm_session Enc (mask_key (fst ctxs)) iv aad ps t = Some (cs, tag) /\ map (@length N) cs = map (@length N) ps /\
    wbgcm_session Dec (mask_key (snd ctxs)) iv aad cs t = Some (ps, tag').
Proof. intros rnd junk key ctxs iv aad ps t BK EG. exact (mask_roundtrip_good key ctxs iv aad ps t BK (mask_get _ _ _ _ BK EG)). Qed.
Lemma bytewise_firstn F t x : t <= 16 -> bytewise F (firstn t x) = firstn t (bytewise F x).
Proof.
  intros T. apply list_ext; [now rewrite length_bytewise, !firstn_length, length_bytewise|]. intros i I. rewrite length_bytewise in I. rewrite get_bytewise by exact I. rewrite firstn_length in I.
  rewrite !get_firstn by lia. now rewrite get_bytewise by lia.
Qed.
Lemma tag_enc E L y s t : block16 (E y) -> block16 s -> t <= 16 -> tag_of E (g_enc L) y s t = bytewise L (firstn t (xorl s (E y))).
Proof.
  intros [L1 _] [L2 _] T. apply list_ext; [unfold tag_of; rewrite map_length, seq_length, length_bytewise, firstn_length, length_xorl; lia|].
  intros i I. unfold tag_of in I. rewrite map_length, seq_length in I. unfold tag_of. rewrite get_map_seq' by exact I.
  rewrite get_bytewise by (rewrite firstn_length, length_xorl; lia). rewrite get_firstn by exact I. rewrite get_xorl by lia. rewrite Nat.mod_small by lia. unfold g_enc. f_equal. apply N.lxor_comm.
Qed.
Lemma tag_dec E L y s t : block16 (E y) -> block16 s -> t <= 16 -> tag_of E (g_dec L) y s t = firstn t (xorl (bytewise L s) (E y)).
Proof.
  intros [L1 _] [L2 _] T. apply list_ext; [unfold tag_of; rewrite map_length, seq_length, firstn_length, length_xorl, length_bytewise; lia|].
  intros i I. unfold tag_of in I. rewrite map_length, seq_length in I. unfold tag_of. rewrite get_map_seq' by exact I.
  rewrite get_firstn by exact I. rewrite get_xorl by (rewrite ?length_bytewise; lia). rewrite get_bytewise by lia. rewrite Nat.mod_small by lia. unfold g_dec. apply N.lxor_comm.
Qed.
Lemma gcm_hash_block E aad c : block16 (gcm_hash E aad c).
Proof.
  unfold gcm_hash. apply ghash_from_block16; [apply zeros_block|]. rewrite !app_length. unfold len64. rewrite !length_N_to_be. pose proof (pad16_length_mod aad) as P1. pose proof (pad16_length_mod c) as P2.
  revert P1 P2. generalize (length (pad16 aad)) as n. generalize (length (pad16 c)) as m. clear. intros m n H H2. rewrite Nat.add_assoc. change (8 + 8) with (1 * 16). rewrite Nat.mod_add by lia. rewrite Nat.add_mod, H, H2 by lia. reflexivity.
Qed.
Lemma mask_enc_good : forall key ctxs iv aad ps q t, bytes key -> mask_good key ctxs -> bytes iv -> bytes aad -> small_pieces (ps ++ [q]) ->
  Forall (fun p => length p mod 16 = 0) ps -> t <= 16 ->
  (8 * N.of_nat (length iv) < 2 ^ 32)%N -> (8 * N.of_nat (length aad) < 2 ^ 64)%N -> (8 * N.of_nat (length (concat ps ++ q)) < 2 ^ 64)%N ->
  nothing aad [concat ps ++ q] = false ->
  let E := aes_encrypt (firstn 16 key) in let c := bytewise (mask_L ctxs) (gctr E (inc32 (J0 E iv)) (concat ps ++ q)) in
  exists cs, wbgcm_session Enc (mask_key (fst ctxs)) iv aad (ps ++ [q]) t = Some (cs, bytewise (mask_L ctxs) (gcm_tag E iv aad c t)) /\
    map (@length N) cs = map (@length N) (ps ++ [q]) /\ concat cs = c.
Proof.
  intros key ctxs iv aad ps q t BK EG Bi Ba HS HP T Li La Lp NN. cbv zeta. destruct EG as (S & _ & M). set (E := aes_encrypt (firstn 16 key)) in *.
  assert (HE : block_function E) by apply S. pose proof (J0_block E iv Bi) as Y.
  assert (Bm : bytes (concat ps ++ q)).
  { clear - HS. assert (G : forall l, small_pieces l -> bytes (concat l)) by (induction 1 as [|p l [B _] _ IH]; [constructor|cbn [concat]; apply bytes_app; auto]). specialize (G _ HS). rewrite concat_app in G. cbn [concat] in G. now rewrite app_nil_r in G. }
  destruct (wb_session_stream _ E _ S Enc iv aad ps q t Bi Ba HS HP T Li La Lp) as (os & F1 & F2 & F3). cbv zeta in *. cbn [hashed] in *.
  assert (EM : gmix E (g_enc (mask_L ctxs)) (inc32 (J0 E iv)) (concat ps ++ q) = bytewise (mask_L ctxs) (gctr E (inc32 (J0 E iv)) (concat ps ++ q))) by (apply gmix_outer; auto using inc32_block).
  rewrite EM in *. rewrite NN in F3. rewrite tag_enc in F3 by (auto using gcm_hash_block). exists os. auto.
Qed.
Lemma mask_enc_lemma : forall rnd junk key ctxs iv aad ps q t, bytes key -> mask_gen_table rnd junk key = Ret ctxs -> bytes iv -> bytes aad -> small_pieces (ps ++ [q]) ->
  Forall (fun p => length p mod 16 = 0) ps -> t <= 16 ->
  (8 * N.of_nat (length iv) < 2 ^ 32)%N -> (8 * N.of_nat (length aad) < 2 ^ 64)%N -> (8 * N.of_nat (length (concat ps ++ q)) < 2 ^ 64)%N ->
  nothing aad [concat ps ++ q] = false ->
  let E := aes_encrypt (firstn 16 key) in let c := bytewise (mask_L ctxs) (gctr E (inc32 (J0 E iv)) (concat ps ++ q)) in
  exists cs, wbgcm_session Enc (mask_key (fst ctxs)) iv aad (ps ++ [q]) t = Some (cs, bytewise (mask_L ctxs) (gcm_tag E iv aad c t)) /\
    map (@length N) cs = map (@length N) (ps ++ [q]) /\ concat cs = c.
Proof. intros rnd junk key ctxs iv aad ps q t BK EG. exact (mask_enc_good key ctxs iv aad ps q t BK (mask_get _ _ _ _ BK EG)). Qed.
Lemma mask_dec_good : forall key ctxs iv aad ps q t, bytes key -> mask_good key ctxs -> bytes iv -> bytes aad -> small_pieces (ps ++ [q]) ->
  Forall (fun p => length p mod 16 = 0) ps -> t <= 16 ->
  (8 * N.of_nat (length iv) < 2 ^ 32)%N -> (8 * N.of_nat (length aad) < 2 ^ 64)%N -> (8 * N.of_nat (length (concat ps ++ q)) < 2 ^ 64)%N ->
  nothing aad [concat ps ++ q] = false ->
  let E := aes_encrypt (firstn 16 key) in let c := concat ps ++ q in
  exists os, wbgcm_session Dec (mask_key (snd ctxs)) iv aad (ps ++ [q]) t = Some (os, firstn t (xorl (bytewise (mask_Li ctxs) (gcm_hash E aad c)) (E (J0 E iv)))) /\
    map (@length N) os = map (@length N) (ps ++ [q]) /\ concat os = gctr E (inc32 (J0 E iv)) (bytewise (mask_Li ctxs) c).
Proof.
  intros key ctxs iv aad ps q t BK EG Bi Ba HS HP T Li La Lp NN. cbv zeta. destruct EG as (_ & S & M). set (E := aes_encrypt (firstn 16 key)) in *.
  assert (HE : block_function E) by apply S. pose proof (J0_block E iv Bi) as Y.
  assert (Bm : bytes (concat ps ++ q)).
  { clear - HS. assert (G : forall l, small_pieces l -> bytes (concat l)) by (induction 1 as [|p l [B _] _ IH]; [constructor|cbn [concat]; apply bytes_app; auto]). specialize (G _ HS). rewrite concat_app in G. cbn [concat] in G. now rewrite app_nil_r in G. }
  destruct (wb_session_stream _ E _ S Dec iv aad ps q t Bi Ba HS HP T Li La Lp) as (os & F1 & F2 & F3). cbv zeta in *. cbn [hashed] in *.
  assert (EM : gmix E (g_dec (mask_Li ctxs)) (inc32 (J0 E iv)) (concat ps ++ q) = gctr E (inc32 (J0 E iv)) (bytewise (mask_Li ctxs) (concat ps ++ q))) by (apply gmix_inner; auto using inc32_block).
  rewrite EM in *. rewrite NN in F3. rewrite tag_dec in F3 by (auto using gcm_hash_block). exists os. auto.
Qed.
Lemma mask_dec_lemma : forall rnd junk key ctxs iv aad ps q t, bytes key -> mask_gen_table rnd junk key = Ret ctxs -> bytes iv -> bytes aad -> small_pieces (ps ++ [q]) ->
  Forall (fun p => length p mod 16 = 0) ps -> t <= 16 ->
  (8 * N.of_nat (length iv) < 2 ^ 32)%N -> (8 * N.of_nat (length aad) < 2 ^ 64)%N -> (8 * N.of_nat (length (concat ps ++ q)) < 2 ^ 64)%N ->
  nothing aad [concat ps ++ q] = false ->
  let E := aes_encrypt (firstn 16 key) in let c := concat ps ++ q in
  exists os, wbgcm_session Dec (mask_key (snd ctxs)) iv aad (ps ++ [q]) t = Some (os, firstn t (xorl (bytewise (mask_Li ctxs) (gcm_hash E aad c)) (E (J0 E iv)))) /\
    map (@length N) os = map (@length N) (ps ++ [q]) /\ concat os = gctr E (inc32 (J0 E iv)) (bytewise (mask_Li ctxs) c).
Proof. intros rnd junk key ctxs iv aad ps q t BK EG. exact (mask_dec_good key ctxs iv aad ps q t BK (mask_get _ _ _ _ BK EG)). Qed.

(** ** files *)
Lemma ee_file_lemma : forall rnd junk key ctx iv aad wr fs inf encf decf up data, bytes key -> ee_gen_table rnd junk key = Ret ctx ->
  bytes iv -> bytes aad -> bytes data -> fs inf = Some data -> inf <> encf -> inf <> tmp_path encf -> decf <> encf ->
  (forall p, In p [encf; tmp_path encf; decf] -> wr p = true) -> length up = 4 ->
  (8 * N.of_nat (length iv) < 2 ^ 32)%N -> (8 * N.of_nat (length aad) < 2 ^ 64)%N -> (N.of_nat (length data) <= 2147483647)%N ->
  let E := aes_encrypt (firstn 16 key) in let ct := gctr E (inc32 (J0 E iv)) data in let k := ee_key ctx in
  exists tag c1 fs1 c2 tag2 fs2,
    wbgcmfile_encrypt k wr fs (wbgcm_open k iv aad) inf encf up = Some (true, c1, tag, fs1) /\
    fs1 encf = Some (tag ++ N_to_le 4 (N.of_nat (length data)) ++ up ++ ct) /\ fs1 (tmp_path encf) = None /\
    (forall p, p <> encf -> p <> tmp_path encf -> fs1 p = fs p) /\
    (nothing aad [data] = false -> tag = gcm_tag E iv aad ct 16) /\
    wbgcmfile_decrypt k wr fs1 (wbgcm_open k iv aad) encf decf = Some (true, c2, tag2, fs2) /\
    fs2 decf = Some data /\ (forall p, p <> decf -> fs2 p = fs1 p).
Proof.
  intros rnd junk key ctx iv aad wr fs inf encf decf up data BK EG Bi Ba Bd HF N1 N2 N3 HW LU Li La Ld. cbv zeta. pose proof (ee_get _ _ _ _ BK EG) as S. set (E := aes_encrypt (firstn 16 key)) in *.
  assert (HE : block_function E) by apply S. pose proof (J0_block E iv Bi) as YJ. pose proof (inc32_block _ YJ) as YJ'.
  assert (W : wr encf = true /\ wr (tmp_path encf) = true /\ wr decf = true) by (repeat split; apply HW; cbn [In]; auto). destruct W as (W1 & W2 & W3).
  destruct (wb_open_ok _ E _ S iv aad Bi Ba) as (_ & _ & _ & _ & HJ & _). cbv zeta in HJ. specialize (HJ Li). fold (ctr0 E iv aad) in HJ.
  destruct (wb_file_encrypt _ E _ S iv aad wr fs inf encf up data Bi Ba Bd HF N1 N2 W1 W2 La ltac:(lia)) as (os & tag & c1 & fs1 & E1 & E2 & LT & E3 & E4 & E5 & E6). cbv zeta in *.
  rewrite HJ in *. rewrite gmix_xor in E2, E4 by auto. set (ct := gctr E (inc32 (J0 E iv)) data) in *.
  assert (LC : length ct = length data) by (now apply gctr_length). assert (BC : bytes ct) by (now apply gctr_bytes).
  rewrite <- LC in E4. destruct (wb_file_decrypt _ E _ S iv aad wr fs1 encf decf tag up ct Bi Ba BC LT LU E4 ltac:(auto) W3 ltac:(lia)) as (c2 & tag2 & E7). rewrite HJ in E7. rewrite gmix_xor in E7 by auto.
  unfold ct in E7 at 1. rewrite gctr_involutive in E7 by auto. rewrite LC in E4.
  exists tag, c1, fs1, c2, tag2. eexists. split; [exact E3|]. split; [exact E4|]. split; [exact E5|]. split; [exact E6|]. split; [|split; [exact E7|split; [apply upd_same|intros p P; now apply upd_other]]].
  intros NN. assert (CC : concat (chunks file_slice data) = data) by (apply concat_chunks; unfold file_slice; lia).
  pose proof (chunks_small file_slice data ltac:(unfold file_slice; lia) ltac:(unfold file_slice; lia) Bd) as HS.
  destruct (xor_session _ E S Enc iv aad (chunks file_slice data) 16 Bi Ba HS (Nat.le_refl _) La) as (os' & tag' & X1 & _ & X3).
  { rewrite CC. lia. } { unfold nothing in *. rewrite CC. cbn [concat] in NN. now rewrite app_nil_r in NN. }
  rewrite E1 in X1. assert (tag = tag') by exact (f_equal (fun o => match o with Some x => snd x | None => [] end) X1). subst tag'.
  pose proof (session_slices E Enc iv aad data 16 HE Bi Ba Bd Li La ltac:(lia) (Nat.le_refl _)) as SS. cbv zeta in SS. rewrite X3 in SS. cbn [hashed] in SS.
  exact (f_equal (fun o => match o with Some x => snd x | None => [] end) SS).
Qed.
Lemma mask_file_good : forall key ctxs iv aad wr fs inf encf decf up data, bytes key -> mask_good key ctxs ->
  bytes iv -> bytes aad -> bytes data -> fs inf = Some data -> inf <> encf -> inf <> tmp_path encf -> decf <> encf ->
  (forall p, In p [encf; tmp_path encf; decf] -> wr p = true) -> length up = 4 ->
  (8 * N.of_nat (length iv) < 2 ^ 32)%N -> (8 * N.of_nat (length aad) < 2 ^ 64)%N -> (N.of_nat (length data) <= 2147483647)%N ->
  let E := aes_encrypt (firstn 16 key) in let ct := bytewise (mask_L ctxs) (gctr E (inc32 (J0 E iv)) data) in
  let k := mask_key (fst ctxs) in let k' := mask_key (snd ctxs) in
  exists tag c1 fs1 c2 tag2 fs2,
    wbgcmfile_encrypt k wr fs (wbgcm_open k iv aad) inf encf up = Some (true, c1, tag, fs1) /\
    fs1 encf = Some (tag ++ N_to_le 4 (N.of_nat (length data)) ++ up ++ ct) /\ fs1 (tmp_path encf) = None /\
    (forall p, p <> encf -> p <> tmp_path encf -> fs1 p = fs p) /\
    wbgcmfile_decrypt k' wr fs1 (wbgcm_open k' iv aad) encf decf = Some (true, c2, tag2, fs2) /\
    fs2 decf = Some data /\ (forall p, p <> decf -> fs2 p = fs1 p).
Proof.
  intros key ctxs iv aad wr fs inf encf decf up data BK EG Bi Ba Bd HF N1 N2 N3 HW LU Li La Ld. cbv zeta. destruct EG as (S & S' & M). set (E := aes_encrypt (firstn 16 key)) in *.
  assert (HE : block_function E) by apply S. pose proof (J0_block E iv Bi) as YJ. pose proof (inc32_block _ YJ) as YJ'.
  assert (W : wr encf = true /\ wr (tmp_path encf) = true /\ wr decf = true) by (repeat split; apply HW; cbn [In]; auto). destruct W as (W1 & W2 & W3).
  destruct (wb_open_ok _ E _ S iv aad Bi Ba) as (_ & _ & _ & _ & HJ & _). cbv zeta in HJ. specialize (HJ Li). fold (ctr0 E iv aad) in HJ.
  destruct (wb_file_encrypt _ E _ S iv aad wr fs inf encf up data Bi Ba Bd HF N1 N2 W1 W2 La ltac:(lia)) as (os & tag & c1 & fs1 & E1 & E2 & LT & E3 & E4 & E5 & E6). cbv zeta in *.
  rewrite HJ in *. set (ct := gmix E (g_enc (mask_L ctxs)) (inc32 (J0 E iv)) data) in *.
  assert (LC : length ct = length data) by (unfold ct; apply gmix_length). assert (BC : bytes ct) by (apply gmix_bytes; auto; apply S).
  rewrite <- LC in E4. destruct (wb_file_decrypt _ E _ S' iv aad wr fs1 encf decf tag up ct Bi Ba BC LT LU E4 ltac:(auto) W3 ltac:(lia)) as (c2 & tag2 & E7). rewrite HJ in E7.
  unfold ct in E7 at 1. rewrite gmix_cancel in E7; auto.
  2: { intros i a d I A D. unfold g_dec, g_enc. assert (X : mask_Li ctxs i (mask_L ctxs i (N.lxor a d)) = N.lxor a d) by (apply M; [exact I|now apply byte_lxor]). rewrite X. rewrite <- N.lxor_assoc, N.lxor_nilpotent. apply N.lxor_0_l. }
  rewrite LC in E4. assert (EC : ct = bytewise (mask_L ctxs) (gctr E (inc32 (J0 E iv)) data)) by (apply gmix_outer; auto). rewrite EC in E4.
  exists tag, c1, fs1, c2, tag2. eexists. split; [exact E3|]. split; [exact E4|]. split; [exact E5|]. split; [exact E6|]. split; [exact E7|split; [apply upd_same|intros p P; now apply upd_other]].
Qed.
Lemma mask_file_lemma : forall rnd junk key ctxs iv aad wr fs inf encf decf up data, bytes key -> mask_gen_table rnd junk key = Ret ctxs ->
  bytes iv -> bytes aad -> bytes data -> fs inf = Some data -> inf <> encf -> inf <> tmp_path encf -> decf <> encf ->
  (forall p, In p [encf; tmp_path encf; decf] -> wr p = true) -> length up = 4 ->
  (8 * N.of_nat (length iv) < 2 ^ 32)%N -> (8 * N.of_nat (length aad) < 2 ^ 64)%N -> (N.of_nat (length data) <= 2147483647)%N ->
  let E := aes_encrypt (firstn 16 key) in let ct := bytewise (mask_L ctxs) (gctr E (inc32 (J0 E iv)) data) in
  let k := mask_key (fst ctxs) in let k' := mask_key (snd ctxs) in
  exists tag c1 fs1 c2 tag2 fs2,
    wbgcmfile_encrypt k wr fs (wbgcm_open k iv aad) inf encf up = Some (true, c1, tag, fs1) /\
    fs1 encf = Some (tag ++ N_to_le 4 (N.of_nat (length data)) ++ up ++ ct) /\ fs1 (tmp_path encf) = None /\
    (forall p, p <> encf -> p <> tmp_path encf -> fs1 p = fs p) /\
    wbgcmfile_decrypt k' wr fs1 (wbgcm_open k' iv aad) encf decf = Some (true, c2, tag2, fs2) /\
    fs2 decf = Some data /\ (forall p, p <> decf -> fs2 p = fs1 p).
Proof. intros rnd junk key ctxs iv aad wr fs inf encf decf up data BK EG. exact (mask_file_good key ctxs iv aad wr fs inf encf decf up data BK (mask_get _ _ _ _ BK EG)). Qed.
(** any tag is accepted *)
Lemma wbgcmfile_tamper_refuted_lemma : forall rnd junk key ctx ctxs iv aad wr fs inf outf tag up ct, bytes key -> ee_gen_table rnd junk key = Ret ctx -> mask_gen_table rnd junk key = Ret ctxs ->
  bytes iv -> bytes aad -> bytes ct -> length tag = 16 -> length up = 4 -> (N.of_nat (length ct) <= 2147483647)%N -> (8 * N.of_nat (length iv) < 2 ^ 32)%N ->
  fs inf = Some (tag ++ N_to_le 4 (N.of_nat (length ct)) ++ up ++ ct) -> inf <> outf -> wr outf = true ->
  let E := aes_encrypt (firstn 16 key) in
  (exists c2 tag2, wbgcmfile_decrypt (ee_key ctx) wr fs (wbgcm_open (ee_key ctx) iv aad) inf outf =
     Some (true, c2, tag2, upd fs outf (Some (gctr E (inc32 (J0 E iv)) ct)))) /\
  (exists c2 tag2, wbgcmfile_decrypt (mask_key (snd ctxs)) wr fs (wbgcm_open (mask_key (snd ctxs)) iv aad) inf outf =
     Some (true, c2, tag2, upd fs outf (Some (gctr E (inc32 (J0 E iv)) (bytewise (mask_Li ctxs) ct))))).
Proof.
  intros rnd junk key ctx ctxs iv aad wr fs inf outf tag up ct BK EG EG' Bi Ba Bc LT LU Lc Li HF NE W. cbv zeta. pose proof (ee_get _ _ _ _ BK EG) as S. destruct (mask_get _ _ _ _ BK EG') as (_ & S' & _).
  set (E := aes_encrypt (firstn 16 key)) in *. assert (HE : block_function E) by apply S. pose proof (inc32_block _ (J0_block E iv Bi)) as YJ'.
  destruct (wb_open_ok _ E _ S iv aad Bi Ba) as (_ & _ & _ & _ & HJ & _). cbv zeta in HJ. specialize (HJ Li). fold (ctr0 E iv aad) in HJ.
  split.
  - destruct (wb_file_decrypt _ E _ S iv aad wr fs inf outf tag up ct Bi Ba Bc LT LU HF NE W Lc) as (c2 & tag2 & E1). rewrite HJ, gmix_xor in E1 by auto. eauto.
  - destruct (wb_file_decrypt _ E _ S' iv aad wr fs inf outf tag up ct Bi Ba Bc LT LU HF NE W Lc) as (c2 & tag2 & E1). rewrite HJ in E1. exists c2, tag2. rewrite E1. do 5 f_equal. apply gmix_inner; auto.
Qed.
