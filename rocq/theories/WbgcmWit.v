(** * White-box GCM: key contexts from a constant random sequence *)
From Verif Require Import Base CbcModel CbcSpec GcmModel GcmSpec GcmProofs FileModel FileProofs CipherExt FpeModel MatModel MatSpec MatProofs GaussProofs ComProofs Wbsm4Proofs AesSpec AesModel AesProofs WbaesModel WbaesProofs WbgcmModel WbgcmSpec WbgcmProofs WbgcmKeys WbgcmThms WbgcmTop.
From Coq Require Import ZArith.
Local Open Scope nat_scope.
Definition ones : nat -> N := fun _ => 1%N.
Definition blank : nat -> nat -> N := fun _ _ => 0%N.
Definition A8 : list N := [254; 255; 129; 193; 225; 241; 249; 253]%N.
Definition B8 : list N := [224; 48; 24; 12; 6; 3; 65; 192]%N.
Lemma one_matpair pos : exists pos', genMatpair 8 ones pos = Ret (A8, B8, pos').
Proof. eexists. vm_compute. reflexivity. Qed.
Definition shift256 : list N := fst (fst (genPermutation 256 ones 0 (repeat 0%N 256))).
Definition unshift256 : list N := snd (fst (genPermutation 256 ones 0 (repeat 0%N 256))).
Lemma one_perm pos : exists pos', genPermutation 256 ones pos (map (blank pos) (seq 0 256)) = (shift256, unshift256, pos').
Proof. eexists. vm_compute. reflexivity. Qed.
Local Opaque genMatpair genPermutation.
Lemma ones_pairs k : forall pos, exists pos', genMatpairs 8 k ones pos = Ret (repeat (A8, B8) k, pos').
Proof.
  induction k as [|k IH]; intros pos; [exists pos; reflexivity|]. cbn [genMatpairs repeat]. destruct (one_matpair pos) as (p & E). rewrite E, obind_ret. cbn match.
  destruct (IH p) as (p' & E'). rewrite E', obind_ret. exists p'. reflexivity.
Qed.
Lemma ones_perms k : forall pos, exists pos', genPermutations 256 k ones blank pos = (repeat (shift256, unshift256) k, pos').
Proof.
  induction k as [|k IH]; intros pos; [exists pos; reflexivity|]. cbn [genPermutations repeat]. destruct (one_perm pos) as (p & E). rewrite E.
  destruct (IH p) as (p' & E'). rewrite E'. exists p'. reflexivity.
Qed.
Lemma pr_repeat x k i : i < k -> pr (repeat x k) i = x.
Proof. intros I. unfold pr. revert i I. induction k as [|k IH]; intros [|i] I; cbn; try lia; [reflexivity|apply IH; lia]. Qed.
Local Opaque genMatpairs genPermutations shift256 unshift256 MatMulNum MatMulVec.
Lemma ones_encodings {A} (fin : nat -> list (list N * list N) * A) e a : gen_encodings ones blank fin = Ret (e, a) -> (forall i, i < 16 -> e_ex_out e i = (A8, B8)).
Proof.
  unfold gen_encodings. destruct (ones_pairs 144 0) as (p1 & E1). rewrite E1, obind_ret. cbn match.
  destruct (genMatpairs_ok 32 36 ones Wbsm4Proofs.size32 p1) as (MBs & p2 & E2 & _). rewrite E2, obind_ret. cbn match.
  destruct (ones_pairs 32 p2) as (p3 & E3). rewrite E3, obind_ret. cbn match.
  destruct (genPermutations 16 2304 ones blank p3) as [o p4]. destruct (genPermutations 16 1152 ones blank p4) as [o1 p5]. destruct (genPermutations 16 576 ones blank p5) as [o2 p6]. destruct (fin p6) as [ins a'].
  intros H i I. apply Ret_inj in H. apply pair_equal_spec in H as [<- _]. cbn [e_ex_out]. apply pr_repeat. lia.
Qed.
Lemma ones_fin pos i : i < 16 -> fst (snd (fin_ee ones blank pos)) i = (shift256, unshift256).
Proof.
  intros I. unfold fin_ee. destruct (genPermutations 16 32 ones blank pos) as [ins p]. destruct (ones_perms 32 p) as (p' & E). rewrite E. cbn [fst snd]. apply pr_repeat. lia.
Qed.
Local Opaque gen_encodings fin_ee fin_mask gen_tables aux_encrypt ex_in expandKey shifted_key aes_encrypt perm8.
Lemma ee_ones key : bytes key -> 16 <= length key -> exists ctx, ee_gen_table ones blank key = Ret ctx /\
  forall b, block16 b -> ee_aux ctx b = map (fun j => (perm8 shift256 (MatMulNum 8 A8 (get (aes_encrypt (firstn 16 key) b) j)) mod 256)%N) (seq 0 16).
Proof.
  intros BK LK. unfold ee_gen_table. destruct (Nat.ltb_spec (length key) 16); [lia|]. cbv zeta.
  destruct (gen_encodings_ok ones blank (fin_ee ones blank)) as (e & pos & E & G); [intros p i I; now apply fin_ee_ok|]. rewrite E, obind_ret.
  pose proof (ones_encodings _ _ _ E) as HX. pose proof (fun i => ones_fin pos i) as HP. destruct (snd (fin_ee ones blank pos)) as [out1 out2]. cbn [fst] in HP.
  eexists. split; [reflexivity|]. intros b B. unfold ee_aux. cbn [ee_t]. rewrite (aux_ok e key _ G LK BK b B). apply map_ext_in. intros j J. apply in_seq in J. rewrite HX, HP by lia. reflexivity.
Qed.
Lemma mask_ones key : bytes key -> 16 <= length key -> exists ctxs, mask_gen_table ones blank key = Ret ctxs /\
  forall i, i < 16 -> mk_L1 (fst ctxs) i = B8 /\ mk_L1 (snd ctxs) i = A8.
Proof.
  intros BK LK. unfold mask_gen_table.
  destruct (mask_aes_ok ones blank key BK LK) as (T & ib & p1 & E1 & _). rewrite E1, obind_ret. cbn match.
  destruct (mask_aes_ok (fun n => ones (p1 + n)) (fun n => blank (p1 + n)) key BK LK) as (T' & ib' & p2 & E2 & H2). rewrite E2, obind_ret. cbn match.
  change (fun n => ones (p1 + p2 + n)) with ones. unfold mask_gen_gcm. destruct (ones_pairs 48 0) as (q & E3). rewrite E3, obind_ret. cbn match.
  destruct (genPermutations 256 64 ones _ q) as [Ns q2]. cbv zeta. eexists. split; [reflexivity|]. intros i I. cbn [fst snd mk_L1]. rewrite pr_repeat by lia. auto.
Qed.
(** ** the two refutations *)
Definition wkey : list N := map N.of_nat (seq 0 16).
Definition wiv : list N := repeat 0%N 12.
Local Opaque ee_gen_table mask_gen_table wbgcm_session ee_key mask_key.
Local Transparent shift256 MatMulNum MatMulVec aes_encrypt perm8 genPermutation.
Lemma ee_empty_tag_refuted_lemma : exists rnd junk key ctx iv tag, bytes key /\ 16 <= length key /\ bytes iv /\ ee_gen_table rnd junk key = Ret ctx /\
  wbgcm_session Enc (ee_key ctx) iv [] [] 16 = Some ([], tag) /\ tag <> gcm_tag (aes_encrypt (firstn 16 key)) iv [] [] 16.
Proof.
  assert (BK : bytes wkey) by (repeat constructor). assert (LK : 16 <= length wkey) by (vm_compute; lia). assert (BI : bytes wiv) by (repeat constructor).
  destruct (ee_ones wkey BK LK) as (ctx & E1 & H). pose proof (ee_get _ _ _ _ BK E1) as S.
  destruct (wb_session_any _ _ _ S Enc wiv [] [] 16 BI (Forall_nil _) (Forall_nil _) (Nat.le_refl _) ltac:(reflexivity) ltac:(reflexivity)) as (_ & _ & _ & _ & E2 & _). cbv zeta in E2. cbn [gmix_pieces] in E2.
  pose proof (ee_empty_tag_lemma _ _ _ _ Enc wiv _ BK E1 BI ltac:(reflexivity) E2) as [ET _].
  exists ones, blank, wkey, ctx, wiv. eexists. split; [exact BK|]. split; [exact LK|]. split; [exact BI|]. split; [exact E1|]. split; [exact E2|].
  rewrite ET. rewrite H by (apply J0_block; exact BI). clear. intros X. apply (f_equal (fun l => get l 0)) in X. revert X. vm_compute. discriminate.
Qed.
Lemma mask_tag_refuted_lemma : exists rnd junk key ctxs iv aad p c tag p' tag', bytes key /\ 16 <= length key /\ bytes iv /\ bytes aad /\ bytes p /\ mask_gen_table rnd junk key = Ret ctxs /\
  wbgcm_session Enc (mask_key (fst ctxs)) iv aad [p] 16 = Some ([c], tag) /\
  wbgcm_session Dec (mask_key (snd ctxs)) iv aad [c] 16 = Some ([p'], tag') /\ p' = p /\ tag' <> tag.
Proof.
  assert (BK : bytes wkey) by (repeat constructor). assert (LK : 16 <= length wkey) by (vm_compute; lia). assert (BI : bytes wiv) by (repeat constructor).
  set (p := [1; 2; 3]%N). assert (BP : bytes p) by (repeat constructor). assert (HS : small_pieces [p]) by (apply small_pieces_check; reflexivity).
  destruct (mask_ones wkey BK LK) as (ctxs & E1 & H). exists ones, blank, wkey, ctxs, wiv, [].
  destruct (mask_enc_lemma _ _ _ _ wiv [] [] p 16 BK E1 BI (Forall_nil _) HS (Forall_nil _) (Nat.le_refl _) ltac:(reflexivity) ltac:(reflexivity) ltac:(reflexivity) ltac:(reflexivity)) as (cs & S1 & S2 & S3). cbn [app concat] in S1, S2, S3.
  assert (HL : forall x, bytewise (mask_L ctxs) x = bytewise (fun _ => MatMulNum 8 A8) x) by (intros x; unfold bytewise, mask_L; apply map_ext; intros n; rewrite (proj2 (H (n mod 16) ltac:(apply Nat.mod_upper_bound; lia))); reflexivity).
  assert (HLi : forall x, bytewise (mask_Li ctxs) x = bytewise (fun _ => MatMulNum 8 B8) x) by (intros x; unfold bytewise, mask_Li; apply map_ext; intros n; rewrite (proj1 (H (n mod 16) ltac:(apply Nat.mod_upper_bound; lia))); reflexivity).
  destruct cs as [|c [|? ?]]; try discriminate S2. cbn [concat] in S3. rewrite app_nil_r in S3. rewrite !HL in S1. rewrite HL in S3.
  assert (HC : small_pieces [c]) by (apply small_pieces_check; rewrite S3; vm_compute; reflexivity).
  destruct (mask_dec_lemma _ _ _ _ wiv [] [] c 16 BK E1 BI (Forall_nil _) HC (Forall_nil _) (Nat.le_refl _) ltac:(reflexivity) ltac:(reflexivity)) as (os & T1 & T2 & T3); [rewrite S3; vm_compute; reflexivity|rewrite S3; vm_compute; reflexivity|]. cbn [app concat] in T1, T2, T3.
  destruct os as [|o [|? ?]]; try discriminate T2. cbn [concat] in T3. rewrite app_nil_r in T3. rewrite HLi in T1, T3.
  exists p, c. eexists. exists o. eexists. split; [exact BK|]. split; [exact LK|]. split; [exact BI|]. split; [constructor|]. split; [exact BP|]. split; [exact E1|]. split; [exact S1|]. split; [exact T1|]. split.
  - rewrite T3, S3. vm_compute. reflexivity.
  - rewrite S3. clear. intros X. apply (f_equal (fun l => get l 0)) in X. revert X. vm_compute. discriminate.
Qed.
