(** * White-box GCM, variant mask: two messages under one IV differ by a linear function of the messages' difference. *)
From Verif Require Import Base CbcModel CbcSpec CbcProofs GcmModel GcmSpec GcmProofs GcmAuth GcmReuse FpeModel MatModel MatSpec MatProofs GaussProofs ComProofs Wbsm4Proofs AesSpec AesModel AesProofs
  WbaesModel WbaesProofs WbgcmModel WbgcmSpec WbgcmProofs WbgcmKeys WbgcmThms WbgcmTop WbAuth.
From Coq Require Import ZifyBool ZifyNat ZifyN.
Local Open Scope nat_scope.
Local Opaque MatMulVec MatMulNum MatMulMat genMatpair genPermutation genMatpairs genPermutations aes_encrypt expandKey shifted_key gen_encodings gen_tables aux_encrypt ex_in perm8 mask_gen_aes.
Lemma mask_L_lxor rnd junk key ctxs : bytes key -> mask_gen_table rnd junk key = Ret ctxs ->
  forall i x y, i < 16 -> mask_L ctxs i (N.lxor x y) = N.lxor (mask_L ctxs i x) (mask_L ctxs i y).
Proof.
  intros BK R. assert (LK : 16 <= length key).
  { destruct (Nat.lt_ge_cases (length key) 16) as [L|L]; [|exact L]. rewrite mask_short in R by exact L. discriminate. }
  unfold mask_gen_table in R.
  destruct (mask_aes_ok rnd junk key BK LK) as (T & ib & p1 & E1 & _). rewrite E1, obind_ret in R. cbn match in R.
  destruct (mask_aes_ok (fun n => rnd (p1 + n)) (fun n => junk (p1 + n)) key BK LK) as (T' & ib' & p2 & E2 & _). rewrite E2, obind_ret in R. cbn match in R.
  set (rnd' := fun n => rnd (p1 + p2 + n)) in R. set (junk' := fun n => junk (p1 + p2 + n)) in R. clearbody rnd' junk'. unfold mask_gen_gcm in R.
  destruct (genMatpairs_ok 8 48 rnd' size8 0) as (Ls & q1 & E3 & HL). rewrite E3, obind_ret in R. cbn match in R.
  destruct (genPermutations 256 64 rnd' junk' q1) as [Ns q2]. cbv zeta in R. apply ret_inj in R. subst ctxs.
  intros i x y I. unfold mask_L. cbn [snd mk_L1]. apply mul_lxor8. apply HL. lia.
Qed.
Lemma mask_xor_lemma : forall rnd junk key ctxs, bytes key -> mask_gen_table rnd junk key = Ret ctxs ->
  exists f : nat -> N -> N, (forall i x y, i < 16 -> f i (N.lxor x y) = N.lxor (f i x) (f i y)) /\ (forall i x y, i < 16 -> byte x -> byte y -> f i x = f i y -> x = y) /\
  forall iv aad1 aad2 p1 p2 c1 t1 c2 t2, gcm_limits iv aad1 p1 -> gcm_limits iv aad2 p2 -> p1 <> [] -> p2 <> [] ->
  wbgcm_session Enc (mask_key (fst ctxs)) iv aad1 [p1] 16 = Some ([c1], t1) -> wbgcm_session Enc (mask_key (fst ctxs)) iv aad2 [p2] 16 = Some ([c2], t2) ->
  forall j, j < length p1 -> j < length p2 -> N.lxor (get c1 j) (get c2 j) = f (j mod 16) (N.lxor (get p1 j) (get p2 j)).
Proof.
  intros rnd junk key ctxs B R. pose proof (mask_L_lxor rnd junk key ctxs B R) as LX.
  destruct (mask_get rnd junk key ctxs B R) as (S0 & _ & MU). pose proof (s_E _ _ _ S0) as HE. exists (mask_L ctxs). split; [exact LX|]. split.
  { intros i x y I X Y H. apply (f_equal (mask_Li ctxs i)) in H. destruct (MU i x I X) as (_ & _ & M1 & _). destruct (MU i y I Y) as (_ & _ & M2 & _). congruence. }
  intros iv aad1 aad2 p1 p2 c1 t1 c2 t2 GL1 GL2 N1 N2 Q1 Q2 j J1 J2.
  rewrite (mask_out rnd junk key ctxs iv aad1 p1 c1 t1 B R GL1 N1 Q1), (mask_out rnd junk key ctxs iv aad2 p2 c2 t2 B R GL2 N2 Q2).
  set (E := aes_encrypt (firstn 16 key)) in *. assert (HY : block16 (inc32 (J0 E iv))) by (apply inc32_block, J0_block, GL1). set (y := inc32 (J0 E iv)) in *.
  pose proof (gctr_length E p1 HE y HY) as L1. pose proof (gctr_length E p2 HE y HY) as L2.
  rewrite !get_bytewise by lia. assert (I16 : j mod 16 < 16) by (apply Nat.mod_upper_bound; lia). rewrite <- LX by exact I16.
  f_equal. rewrite <- !WbgcmProofs.get_xorl by lia. now rewrite gctr_xor_prefix.
Qed.
