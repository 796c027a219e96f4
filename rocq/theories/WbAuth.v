(** * What white-box GCM tags protect, and IVs used again. *)
From Verif Require Import Base CbcModel CbcSpec CbcProofs GcmModel GcmSpec GfProofs GcmProofs GfField GfGhash GcmAuth GcmAuthProps GcmReuse
  WbaesModel WbgcmModel WbgcmSpec WbgcmProofs WbgcmKeys WbgcmThms WbgcmTop AesSpec FpeModel.
From Coq Require Import ZifyBool ZifyNat ZifyN.
Local Open Scope nat_scope.
#[local] Opaque gf_mul gcm_mult block_mul gf_inv ee_gen_table mask_gen_table ee_key mask_key wbgcm_session gcm_session aes_encrypt.

Lemma ret_inj {A} (a b : A) : Ret a = Ret b -> a = b.
Proof. now injection 1. Qed.
(** Abbreviation for the specification (FIPS 197) under the first sixteen bytes of [key]; models no code. *)
Definition aes_of (key : list N) : list N -> list N := aes_encrypt (firstn 16 key).
Lemma ee_length rnd junk key ctx : bytes key -> ee_gen_table rnd junk key = Ret ctx -> 16 <= length key.
Proof. intros B R. destruct (Nat.lt_ge_cases (length key) 16) as [L|L]; [rewrite ee_short in R by exact L; discriminate|exact L]. Qed.
Lemma ee_bridge rnd junk key ctx d iv aad p t : bytes key -> ee_gen_table rnd junk key = Ret ctx -> gcm_limits iv aad p -> nothing aad [p] = false -> t <= 16 ->
  exists o tag, wbgcm_session d (ee_key ctx) iv aad [p] t = Some ([o], tag) /\ gcm_session d (lift (aes_of key)) iv aad [p] t = Some (o, tag).
Proof.
  intros B R (Biv & Ba & Bp & Liv & La & Lp) NN Ht. destruct (ee_conforms_lemma rnd junk key B (ee_length _ _ _ _ B R)) as (ctx' & R' & H). rewrite R in R'. apply ret_inj in R'. subst ctx'.
  destruct (H d iv aad [p] t Biv Ba) as (os & tag & H1 & H2 & H3); auto.
  - constructor; [split; assumption|constructor].
  - cbn [concat]. rewrite app_nil_r. lia.
  - destruct os as [|o [|o2 os]]; try discriminate H2. exists o, tag. split; [exact H1|]. cbn [concat] in H3. rewrite app_nil_r in H3. exact H3.
Qed.
Lemma ee_block_function rnd junk key ctx : bytes key -> ee_gen_table rnd junk key = Ret ctx -> block_function (aes_of key).
Proof. intros B R. exact (s_E _ _ _ (ee_get rnd junk key ctx B R)). Qed.
Lemma nothing_length aad aad' p p' : length aad = length aad' -> length p = length p' -> nothing aad [p] = nothing aad' [p'].
Proof. intros L1 L2. unfold nothing. cbn [concat]. rewrite !app_nil_r, L1, L2. reflexivity. Qed.
Lemma enc_out_limits E iv aad p ct tag : block_function E -> gcm_limits iv aad p -> gcm_session Enc (lift E) iv aad [p] 16 = Some (ct, tag) -> length ct = length p.
Proof.
  intros HE GL R. rewrite (enc_session E iv aad p HE GL) in R. injection R as <- _. apply gctr_length; [exact HE|]. apply inc32_block, J0_block. apply GL.
Qed.

Lemma ee_change_lemma : forall rnd junk rnd' junk' key ctx ctx' iv aad p ct tag, bytes key -> ee_gen_table rnd junk key = Ret ctx -> ee_gen_table rnd' junk' key = Ret ctx' ->
  hash_key (aes_encrypt (firstn 16 key)) <> repeat 0%N 16 -> gcm_limits iv aad p -> nothing aad [p] = false -> wbgcm_session Enc (ee_key ctx) iv aad [p] 16 = Some ([ct], tag) ->
  (forall i aad', bytes aad' -> length aad = length aad' -> aad <> aad' -> (forall j, j / 16 <> i -> get aad j = get aad' j) ->
     exists p' tag', wbgcm_session Dec (ee_key ctx') iv aad' [ct] 16 = Some ([p'], tag') /\ tag' <> tag) /\
  (forall i ct', bytes ct' -> length ct = length ct' -> ct <> ct' -> (forall j, j / 16 <> i -> get ct j = get ct' j) ->
     exists p' tag', wbgcm_session Dec (ee_key ctx') iv aad [ct'] 16 = Some ([p'], tag') /\ tag' <> tag).
Proof.
  intros rnd junk rnd' junk' key ctx ctx' iv aad p ct tag B R R' NZ GL NN Q. pose proof (ee_block_function _ _ _ _ B R) as HE.
  destruct (ee_bridge rnd junk key ctx Enc iv aad p 16 B R GL NN (Nat.le_refl _)) as (o & tg & Q1 & Q2). rewrite Q in Q1. injection Q1 as <- <-.
  pose proof (enc_out_limits _ _ _ _ _ _ HE GL Q2) as LC. pose proof GL as (Biv & Ba & Bp & Liv & La & Lp).
  assert (BC : bytes ct). { rewrite (enc_session _ iv aad p HE GL) in Q2. injection Q2 as Q2 _. rewrite <- Q2. apply gctr_bytes; [exact HE|exact Bp|apply inc32_block, J0_block; exact Biv]. }
  destruct (gcm_block_change_detected _ iv aad p ct tag HE NZ Biv Ba Bp Liv La Lp Q2) as [C1 C2]. split.
  - intros i aad' Ba' L D F. destruct (C1 i aad' Ba' L D F) as (p' & tag' & S1 & S2).
    destruct (ee_bridge rnd' junk' key ctx' Dec iv aad' ct 16 B R') as (o & tg & Q3 & Q4); auto.
    { unfold gcm_limits. rewrite LC, <- L. auto 10. } { rewrite <- NN. symmetry. apply nothing_length; congruence. }
    rewrite S1 in Q4. injection Q4 as <- <-. eauto.
  - intros i ct' Bc L D F. destruct (C2 i ct' Bc L D F) as (p' & tag' & S1 & S2).
    destruct (ee_bridge rnd' junk' key ctx' Dec iv aad ct' 16 B R') as (o & tg & Q3 & Q4); auto.
    { unfold gcm_limits. rewrite <- L, LC. auto 10. } { rewrite <- NN. symmetry. apply nothing_length; congruence. }
    rewrite S1 in Q4. injection Q4 as <- <-. eauto.
Qed.

(** ** IVs used again *)
Lemma ee_reuse_lemma : exists (recover : list N -> list N -> list N -> list N -> list N) (forge : list N -> list N -> list N -> list N -> list N -> list N -> list N),
  forall rnd junk key ctx iv aad u x1 x2 c1 t1 c2 t2, bytes key -> ee_gen_table rnd junk key = Ret ctx -> gcm_limits iv aad (u ++ x1) -> bytes x2 ->
  length u mod 16 = 0 -> 1 <= length x1 <= 16 -> length x2 = length x1 -> x1 <> x2 ->
  wbgcm_session Enc (ee_key ctx) iv aad [u ++ x1] 16 = Some ([c1], t1) -> wbgcm_session Enc (ee_key ctx) iv aad [u ++ x2] 16 = Some ([c2], t2) ->
  recover c1 t1 c2 t2 = aes_encrypt (firstn 16 key) (repeat 0%N 16) /\ forall aad' c', gcm_limits iv aad' c' -> nothing aad' [c'] = false ->
    exists p', wbgcm_session Dec (ee_key ctx) iv aad' [c'] 16 = Some ([p'], forge (recover c1 t1 c2 t2) aad c1 t1 aad' c').
Proof.
  destruct gcm_iv_reuse_lemma as (recover & forge & H). exists recover, forge.
  intros rnd junk key ctx iv aad u x1 x2 c1 t1 c2 t2 B R GL Bx M L1 L2 D Q1 Q2. pose proof (ee_block_function _ _ _ _ B R) as HE.
  assert (NN : forall x, 1 <= length x -> nothing aad [u ++ x] = false).
  { intros x Lx. unfold nothing. cbn [concat]. rewrite app_nil_r, app_length. apply andb_false_iff. right. apply Nat.eqb_neq. lia. }
  assert (GL2 : gcm_limits iv aad (u ++ x2)).
  { destruct GL as (G1 & G2 & G3 & G4 & G5 & G6). apply bytes_app in G3 as [G3 _]. unfold gcm_limits. rewrite app_length in *. rewrite L2. repeat (split; auto). now apply bytes_app. }
  destruct (ee_bridge rnd junk key ctx Enc iv aad (u ++ x1) 16 B R GL (NN _ (proj1 L1)) (Nat.le_refl _)) as (o & tg & W1 & S1). rewrite Q1 in W1. injection W1 as <- <-.
  destruct (ee_bridge rnd junk key ctx Enc iv aad (u ++ x2) 16 B R GL2 (NN x2 ltac:(lia)) (Nat.le_refl _)) as (o & tg & W2 & S2). rewrite Q2 in W2. injection W2 as <- <-.
  destruct (H _ iv aad u x1 x2 c1 t1 c2 t2 HE GL Bx M L1 L2 D S1 S2) as [H1 H2]. split; [exact H1|].
  intros aad' c' GL' NN'. destruct (H2 aad' c' GL') as (p' & P). destruct (ee_bridge rnd junk key ctx Dec iv aad' c' 16 B R GL' NN' (Nat.le_refl _)) as (o & tg & W & S3).
  rewrite P in S3. injection S3 as <- <-. eauto.
Qed.
Lemma mask_out rnd junk key ctxs iv aad p c t : bytes key -> mask_gen_table rnd junk key = Ret ctxs -> gcm_limits iv aad p -> p <> [] ->
  wbgcm_session Enc (mask_key (fst ctxs)) iv aad [p] 16 = Some ([c], t) ->
  c = bytewise (mask_L ctxs) (gctr (aes_encrypt (firstn 16 key)) (inc32 (J0 (aes_encrypt (firstn 16 key)) iv)) p).
Proof.
  intros B R (Biv & Ba & Bp & Liv & La & Lp) NE Q.
  destruct (mask_enc_lemma rnd junk key ctxs iv aad [] p 16 B R Biv Ba) as (cs & H1 & _ & H3); auto.
  - constructor; [split; assumption|constructor].
  - cbn [concat app]. lia.
  - unfold nothing. cbn [concat app]. rewrite app_nil_r. apply andb_false_iff. right. apply Nat.eqb_neq. destruct p; [congruence|cbn; lia].
  - cbn [app] in H1. rewrite Q in H1. injection H1 as <- _. cbn [concat app] in H3. rewrite app_nil_r in H3. exact H3.
Qed.
Lemma mask_reuse_lemma : forall rnd junk key ctxs iv aad1 aad2 p1 p2 c1 t1 c2 t2, bytes key -> mask_gen_table rnd junk key = Ret ctxs ->
  gcm_limits iv aad1 p1 -> gcm_limits iv aad2 p2 -> p1 <> [] -> p2 <> [] ->
  wbgcm_session Enc (mask_key (fst ctxs)) iv aad1 [p1] 16 = Some ([c1], t1) -> wbgcm_session Enc (mask_key (fst ctxs)) iv aad2 [p2] 16 = Some ([c2], t2) ->
  forall j, j < length p1 -> j < length p2 -> (get c1 j = get c2 j <-> get p1 j = get p2 j).
Proof.
  intros rnd junk key ctxs iv aad1 aad2 p1 p2 c1 t1 c2 t2 B R GL1 GL2 N1 N2 Q1 Q2 j J1 J2.
  destruct (mask_get rnd junk key ctxs B R) as (S0 & _ & MU). pose proof (s_E _ _ _ S0) as HE. set (E := aes_encrypt (firstn 16 key)) in *.
  rewrite (mask_out _ _ _ _ _ _ _ _ _ B R GL1 N1 Q1), (mask_out _ _ _ _ _ _ _ _ _ B R GL2 N2 Q2). fold E. clear Q1 Q2.
  assert (HY : block16 (inc32 (J0 E iv))) by (apply inc32_block, J0_block, GL1). set (y := inc32 (J0 E iv)) in *.
  pose proof (gctr_length E p1 HE y HY) as L1. pose proof (gctr_length E p2 HE y HY) as L2.
  assert (Bg1 : bytes (gctr E y p1)) by (apply gctr_bytes; auto; apply GL1). assert (Bg2 : bytes (gctr E y p2)) by (apply gctr_bytes; auto; apply GL2).
  rewrite !get_bytewise by lia.
  assert (X : N.lxor (get (gctr E y p1) j) (get (gctr E y p2) j) = N.lxor (get p1 j) (get p2 j)).
  { rewrite <- !WbgcmProofs.get_xorl by lia. now rewrite gctr_xor_prefix. }
  assert (I16 : j mod 16 < 16) by (apply Nat.mod_upper_bound; lia). split; intros H.
  - apply (f_equal (mask_Li ctxs (j mod 16))) in H.
    destruct (MU _ (get (gctr E y p1) j) I16) as (_ & _ & M1 & _); [now apply bytes_get|]. destruct (MU _ (get (gctr E y p2) j) I16) as (_ & _ & M2 & _); [now apply bytes_get|].
    rewrite M1, M2 in H. rewrite H, N.lxor_nilpotent in X. symmetry in X. now apply N.lxor_eq in X.
  - rewrite H, N.lxor_nilpotent in X. apply N.lxor_eq in X. now rewrite X.
Qed.
