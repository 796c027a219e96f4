(** * White-box GCM: the key contexts of both variants are sound *)
From Verif Require Import Base CbcModel CbcSpec GcmModel FpeModel MatModel MatSpec MatProofs GaussProofs ComProofs Wbsm4Proofs AesSpec AesModel AesProofs WbaesModel WbaesProofs WbgcmModel WbgcmSpec WbgcmProofs.
From Coq Require Import ZArith.
Local Open Scope nat_scope.
Local Opaque MatMulVec MatMulNum MatMulMat genMatpair genPermutation genMatpairs genPermutations aes_encrypt expandKey shifted_key gen_encodings gen_tables aux_encrypt ex_in perm8.
Lemma mul_lxor8' P x y : mutually_inverse 8 (fst P) (snd P) -> MatMulNum 8 (snd P) (N.lxor x y) = N.lxor (MatMulNum 8 (snd P) x) (MatMulNum 8 (snd P) y).
Proof. intros (_ & M & _). rewrite !(MatMulNum_eq 8 (snd P)). apply mulv_lxor; [exact size8|exact M]. Qed.
Lemma mul_lxor8 P x y : mutually_inverse 8 (fst P) (snd P) -> MatMulNum 8 (fst P) (N.lxor x y) = N.lxor (MatMulNum 8 (fst P) x) (MatMulNum 8 (fst P) y).
Proof. intros (M & _). rewrite !(MatMulNum_eq 8 (fst P)). apply mulv_lxor; [exact size8|exact M]. Qed.
Lemma mul_inv8' P x : mutually_inverse 8 (fst P) (snd P) -> byte x -> MatMulNum 8 (fst P) (MatMulNum 8 (snd P) x) = x.
Proof. intros H B. apply (mul_inv8 (snd P, fst P)); [|exact B]. cbn [fst snd]. now apply inverse_sym. Qed.
Lemma perm8_ok P x : perm 256 P -> byte x -> byte (perm8 (fst P) x) /\ perm8 (snd P) (perm8 (fst P) x) = x.
Proof. intros H B. exact (perm_val 256 P x H B). Qed.
Lemma byte_lxor a b : byte a -> byte b -> byte (N.lxor a b).
Proof. intros A B. change (vector 8 (N.lxor a b)). now apply vector_lxor. Qed.

(** ** variant ee *)
Lemma fin_ee_ok rnd junk pos : (forall i, i < 32 -> perm 16 (pr (fst (fin_ee rnd junk pos)) i)) /\
  (forall i, i < 16 -> perm 256 (fst (snd (fin_ee rnd junk pos)) i) /\ perm 256 (snd (snd (fin_ee rnd junk pos)) i)).
Proof.
  unfold fin_ee. pose proof (genPermutations_ok 16 32 rnd junk pos) as H. cbv zeta in H. destruct (genPermutations 16 32 rnd junk pos) as [o p]. cbn [fst snd] in *.
  pose proof (genPermutations_ok 256 32 rnd junk p) as H'. cbv zeta in H'. destruct (genPermutations 256 32 rnd junk p) as [o' p']. cbn [fst snd] in *.
  split; [exact H|]. intros i I. split; apply H'; lia.
Qed.
Lemma ee_sound rnd junk key : bytes key -> 16 <= length key ->
  exists ctx, ee_gen_table rnd junk key = Ret ctx /\ sound (ee_key ctx) (aes_encrypt (firstn 16 key)) (fun _ e d => N.lxor e d).
Proof.
  intros BK LK. unfold ee_gen_table. destruct (Nat.ltb_spec (length key) 16); [lia|]. cbv zeta.
  destruct (gen_encodings_ok rnd junk (fin_ee rnd junk)) as (e & pos & E & G); [intros p i I; now apply fin_ee_ok|]. rewrite E, obind_ret.
  destruct (fin_ee_ok rnd junk pos) as [_ HP]. destruct (snd (fin_ee rnd junk pos)) as [out1 out2]. cbn [fst snd] in HP.
  eexists. split; [reflexivity|].
  assert (HB : block_function (aes_encrypt (firstn 16 key))) by (intros b Bb; apply block16_aes_encrypt; auto; now apply K16).
  set (T := gen_tables e (shifted_key (expandKey key)) (fun j => perm8 (fst (out1 j)))).
  assert (X : forall y i d, block16 y -> i < 16 -> byte d -> 
    MatMulNum 8 (snd (e_ex_out e i)) (N.lxor (perm8 (snd (out1 i)) (get (aux_encrypt T (ex_in T y)) i)) (perm8 (snd (out2 i)) (perm8 (fst (out2 i)) (MatMulNum 8 (fst (e_ex_out e i)) d)))) = N.lxor (get (aes_encrypt (firstn 16 key) y) i) d).
  { intros y i d Y I D. unfold T. rewrite (aux_ok e key _ G LK BK y Y). rewrite get_map_seq by exact I.
    pose proof (g_ex_out e G i I) as M. destruct (HP i I) as [P1 P2]. assert (BA : byte (get (aes_encrypt (firstn 16 key) y) i)) by apply bytes_get, HB, Y.
    destruct (perm8_ok _ _ P1 (mul_byte8 _ (get (aes_encrypt (firstn 16 key) y) i) M)) as [Q1 Q2]. destruct (perm8_ok _ _ P2 (mul_byte8 _ d M)) as [Q3 Q4].
    rewrite N.mod_small by exact Q1. rewrite Q2, Q4. rewrite <- mul_lxor8 by exact M. apply mul_inv8; [exact M|]. now apply byte_lxor. }
  constructor.
  - exact HB.
  - intros i I. cbn [ee_key k_h k_blk]. unfold ee_aux. cbn [ee_t ee_I ee_III]. fold T. etransitivity; [apply X; [apply zeros_block|exact I|reflexivity]|]. apply N.lxor_0_r.
  - intros y i d Y I D. cbn [ee_key k_x k_base k_blk]. unfold ee_aux. cbn [ee_t ee_I ee_III]. fold T. now apply X.
  - intros i a d I A D. now apply byte_lxor.
Qed.
Lemma ee_short rnd junk key : length key < 16 -> ee_gen_table rnd junk key = Undef.
Proof. intros L. unfold ee_gen_table. destruct (Nat.ltb_spec (length key) 16); [reflexivity|lia]. Qed.

(** ** variant mask *)
Lemma fin_mask_ok rnd junk pos : (forall i, i < 32 -> perm 16 (pr (fst (fin_mask rnd junk pos)) i)) /\
  (forall i j, i < 16 -> j < 2 -> perm 16 (fst (snd (fin_mask rnd junk pos)) i j)).
Proof.
  unfold fin_mask. pose proof (genPermutations_ok 16 64 rnd junk pos) as H. cbv zeta in H. destruct (genPermutations 16 64 rnd junk pos) as [o p]. cbn [fst snd] in *.
  split; intros; [rewrite pr_map by assumption|]; apply H; lia.
Qed.
Lemma mask_aes_ok rnd junk key : bytes key -> 16 <= length key ->
  exists T ib pos, mask_gen_aes rnd junk key = Ret (T, ib, pos) /\ forall y i, block16 y -> i < 16 -> ib i (get (aux_encrypt T (ex_in T y)) i) = get (aes_encrypt (firstn 16 key) y) i.
Proof.
  intros BK LK. unfold mask_gen_aes. destruct (Nat.ltb_spec (length key) 16); [lia|]. cbv zeta.
  destruct (gen_encodings_ok rnd junk (fin_mask rnd junk)) as (e & pos & E & G); [intros p i I; now apply fin_mask_ok|]. rewrite E, obind_ret.
  destruct (fin_mask_ok rnd junk pos) as [_ HP]. destruct (snd (fin_mask rnd junk pos)) as [out p]. cbn [fst snd] in HP.
  eexists; eexists; exists p. split; [reflexivity|]. intros y i Y I. rewrite (aux_ok e key _ G LK BK y Y). rewrite get_map_seq by exact I.
  apply typeIb_out; auto. apply bytes_get. apply block16_aes_encrypt; auto. now apply K16.
Qed.
(** how the two sides combine the key stream with data *)
Definition g_enc (L : nat -> N -> N) : nat -> N -> N -> N := fun i e d => L i (N.lxor e d).
Definition g_dec (L' : nat -> N -> N) : nat -> N -> N -> N := fun i e d => N.lxor e (L' i d).
Lemma mask_xor a b c : N.lxor (N.lxor a b) (N.lxor c b) = N.lxor a c.
Proof. rewrite (N.lxor_comm c b), N.lxor_assoc, <- (N.lxor_assoc b b c), N.lxor_nilpotent, N.lxor_0_l. reflexivity. Qed.
(** the byte functions of a pair of key contexts: what the encrypting side applies, and its inverse *)
Definition mask_L (ctxs : mask_ctx * mask_ctx) (i : nat) (x : N) : N := MatMulNum 8 (mk_L1 (snd ctxs) i) x.
Definition mask_Li (ctxs : mask_ctx * mask_ctx) (i : nat) (x : N) : N := MatMulNum 8 (mk_L1 (fst ctxs) i) x.
(** the two key contexts from what they are made of *)
Definition mask_pair (enc dec : wbtables * (nat -> N -> N)) (Ls Ns : list (list N * list N)) (mE mD : nat -> N) : mask_ctx * mask_ctx :=
  let L1 i := pr Ls (3 * i) in let L2 i := pr Ls (3 * i + 1) in let L3 i := pr Ls (3 * i + 2) in
  let N1 i := pr Ns (4 * i) in let N2 i := pr Ns (4 * i + 1) in let N3 i := pr Ns (4 * i + 2) in let N4 i := pr Ns (4 * i + 3) in
  (mkmask true (fst enc) (fun i j => N.lxor (snd enc i j) (mE i))
     (fun i j => perm8 (fst (N1 i)) (MatMulNum 8 (fst (L2 i)) (MatMulNum 8 (fst (L1 i)) (N.lxor j (mE i)))))
     (fun i j => perm8 (fst (N2 i)) (MatMulNum 8 (fst (L2 i)) (MatMulNum 8 (fst (L1 i)) j)))
     (fun i j k => MatMulNum 8 (snd (L2 i)) (N.lxor (perm8 (snd (N1 i)) j) (perm8 (snd (N2 i)) k)))
     (fun i => snd (L1 i)),
   mkmask false (fst dec) (fun i j => N.lxor (snd dec i j) (mD i))
     (fun i j => perm8 (fst (N3 i)) (MatMulNum 8 (fst (L3 i)) (N.lxor (MatMulNum 8 (snd (L1 i)) j) (mD i))))
     (fun i j => perm8 (fst (N4 i)) (MatMulNum 8 (fst (L3 i)) j))
     (fun i j k => MatMulNum 8 (snd (L3 i)) (N.lxor (perm8 (snd (N3 i)) j) (perm8 (snd (N4 i)) k)))
     (fun i => fst (L1 i))).
Definition aes_tables (key : list N) (T : wbtables) (ib : nat -> N -> N) : Prop :=
  forall y i, block16 y -> i < 16 -> ib i (get (aux_encrypt T (ex_in T y)) i) = get (aes_encrypt (firstn 16 key) y) i.
Definition mask_good (key : list N) (ctxs : mask_ctx * mask_ctx) : Prop :=
    sound (mask_key (fst ctxs)) (aes_encrypt (firstn 16 key)) (g_enc (mask_L ctxs)) /\
    sound (mask_key (snd ctxs)) (aes_encrypt (firstn 16 key)) (g_dec (mask_Li ctxs)) /\
    (forall i x, i < 16 -> byte x -> byte (mask_L ctxs i x) /\ byte (mask_Li ctxs i x) /\ mask_Li ctxs i (mask_L ctxs i x) = x /\ mask_L ctxs i (mask_Li ctxs i x) = x).
Lemma mask_pair_sound key T ib T' ib' Ls Ns mE mD : bytes key -> 16 <= length key -> aes_tables key T ib -> aes_tables key T' ib' ->
  (forall i, i < 48 -> mutually_inverse 8 (fst (pr Ls i)) (snd (pr Ls i))) -> (forall i, i < 64 -> perm 256 (pr Ns i)) -> (forall i, byte (mE i)) -> (forall i, byte (mD i)) ->
  mask_good key (mask_pair (T, ib) (T', ib') Ls Ns mE mD).
Proof.
  intros BK LK H1 H2 HL HN BmE BmD. set (ctxs := mask_pair (T, ib) (T', ib') Ls Ns mE mD). unfold mask_good.
  unfold ctxs, mask_pair, mask_L, mask_Li. cbv zeta. cbn [fst snd mk_L1]. clear ctxs.
  assert (HB : block_function (aes_encrypt (firstn 16 key))) by (intros b Bb; apply block16_aes_encrypt; auto; now apply K16).
  assert (BE : forall y i, block16 y -> byte (get (aes_encrypt (firstn 16 key) y) i)) by (intros; apply bytes_get, HB; auto).
  assert (XE : forall y i d, block16 y -> i < 16 -> byte d ->
    MatMulNum 8 (snd (pr Ls (3 * i + 1)))
      (N.lxor (perm8 (snd (pr Ns (4 * i))) (perm8 (fst (pr Ns (4 * i))) (MatMulNum 8 (fst (pr Ls (3 * i + 1))) (MatMulNum 8 (fst (pr Ls (3 * i))) (N.lxor d (mE i))))))
              (perm8 (snd (pr Ns (4 * i + 1))) (perm8 (fst (pr Ns (4 * i + 1))) (MatMulNum 8 (fst (pr Ls (3 * i + 1))) (MatMulNum 8 (fst (pr Ls (3 * i))) (N.lxor (ib i (get (aux_encrypt T (ex_in T y)) i)) (mE i)))))))
    = MatMulNum 8 (fst (pr Ls (3 * i))) (N.lxor (get (aes_encrypt (firstn 16 key) y) i) d)).
  { intros y i d Y I D. rewrite H1 by auto. pose proof (HL (3 * i) ltac:(lia)) as M1. pose proof (HL (3 * i + 1) ltac:(lia)) as M2.
    pose proof (HN (4 * i) ltac:(lia)) as P1. pose proof (HN (4 * i + 1) ltac:(lia)) as P2.
    rewrite (proj2 (perm8_ok _ _ P1 (mul_byte8 _ _ M2))). rewrite (proj2 (perm8_ok _ _ P2 (mul_byte8 _ _ M2))).
    rewrite mul_lxor8' by exact M2. rewrite !(mul_inv8 (pr Ls (3 * i + 1))) by (auto using mul_byte8). rewrite <- mul_lxor8 by exact M1. rewrite mask_xor. rewrite N.lxor_comm. reflexivity. }
  assert (XD : forall y i d, block16 y -> i < 16 -> byte d ->
    MatMulNum 8 (snd (pr Ls (3 * i + 2)))
      (N.lxor (perm8 (snd (pr Ns (4 * i + 2))) (perm8 (fst (pr Ns (4 * i + 2))) (MatMulNum 8 (fst (pr Ls (3 * i + 2))) (N.lxor (MatMulNum 8 (snd (pr Ls (3 * i))) d) (mD i)))))
              (perm8 (snd (pr Ns (4 * i + 3))) (perm8 (fst (pr Ns (4 * i + 3))) (MatMulNum 8 (fst (pr Ls (3 * i + 2))) (N.lxor (ib' i (get (aux_encrypt T' (ex_in T' y)) i)) (mD i))))))
    = N.lxor (get (aes_encrypt (firstn 16 key) y) i) (MatMulNum 8 (snd (pr Ls (3 * i))) d)).
  { intros y i d Y I D. rewrite H2 by auto. pose proof (HL (3 * i) ltac:(lia)) as M1. pose proof (HL (3 * i + 2) ltac:(lia)) as M2.
    pose proof (HN (4 * i + 2) ltac:(lia)) as P1. pose proof (HN (4 * i + 3) ltac:(lia)) as P2.
    rewrite (proj2 (perm8_ok _ _ P1 (mul_byte8 _ _ M2))). rewrite (proj2 (perm8_ok _ _ P2 (mul_byte8 _ _ M2))).
    rewrite mul_lxor8' by exact M2. rewrite !(mul_inv8 (pr Ls (3 * i + 2))) by (auto; apply byte_lxor; auto using mul_byte8'). rewrite mask_xor. apply N.lxor_comm. }
  assert (LP : forall i x, i < 16 -> byte x -> byte (MatMulNum 8 (fst (pr Ls (3 * i))) x) /\ byte (MatMulNum 8 (snd (pr Ls (3 * i))) x) /\
     MatMulNum 8 (snd (pr Ls (3 * i))) (MatMulNum 8 (fst (pr Ls (3 * i))) x) = x /\ MatMulNum 8 (fst (pr Ls (3 * i))) (MatMulNum 8 (snd (pr Ls (3 * i))) x) = x).
  { intros i x I X. pose proof (HL (3 * i) ltac:(lia)) as M1. auto 6 using mul_byte8, mul_byte8', mul_inv8, mul_inv8'. }
  split; [|split; [|exact LP]].
  - constructor.
    + exact HB.
    + intros i I. cbn [mask_key k_h k_blk mk_enc mk_L1 mk_I mk_II mk_III mk_Ib mk_t]. unfold mask_aux. cbn [mk_t mk_Ib fst snd]. rewrite get_map_seq by exact I.
      etransitivity; [apply f_equal; apply XE; [apply zeros_block|exact I|reflexivity]|]. rewrite N.lxor_0_r. apply LP; auto. apply BE, zeros_block.
    + intros y i d Y I D. cbn [mask_key k_x k_base k_blk mk_enc mk_L1 mk_I mk_II mk_III mk_Ib mk_t]. unfold mask_aux. cbn [mk_t mk_Ib fst snd]. rewrite get_map_seq by exact I.
      unfold g_enc. now apply XE.
    + intros i a d I A D. unfold g_enc. apply LP; auto. now apply byte_lxor.
  - constructor.
    + exact HB.
    + intros i I. cbn [mask_key k_h k_blk mk_enc mk_L1 mk_I mk_II mk_III mk_Ib mk_t]. unfold mask_aux. cbn [mk_t mk_Ib fst snd]. rewrite get_map_seq by exact I.
      etransitivity; [apply XD; [apply zeros_block|exact I|apply LP; [exact I|reflexivity]]|]. rewrite (proj1 (proj2 (proj2 (LP i 0%N I ltac:(reflexivity))))). apply N.lxor_0_r.
    + intros y i d Y I D. cbn [mask_key k_x k_base k_blk mk_enc mk_L1 mk_I mk_II mk_III mk_Ib mk_t]. unfold mask_aux. cbn [mk_t mk_Ib fst snd]. rewrite get_map_seq by exact I.
      unfold g_dec. now apply XD.
    + intros i a d I A D. unfold g_dec. apply byte_lxor; [exact A|]. now apply LP.
Qed.
Lemma mask_sound rnd junk key : bytes key -> 16 <= length key ->
  exists ctxs, mask_gen_table rnd junk key = Ret ctxs /\
    sound (mask_key (fst ctxs)) (aes_encrypt (firstn 16 key)) (g_enc (mask_L ctxs)) /\
    sound (mask_key (snd ctxs)) (aes_encrypt (firstn 16 key)) (g_dec (mask_Li ctxs)) /\
    (forall i x, i < 16 -> byte x -> byte (mask_L ctxs i x) /\ byte (mask_Li ctxs i x) /\ mask_Li ctxs i (mask_L ctxs i x) = x /\ mask_L ctxs i (mask_Li ctxs i x) = x).
Proof.
  intros BK LK. unfold mask_gen_table.
  destruct (mask_aes_ok rnd junk key BK LK) as (T & ib & p1 & E1 & H1). rewrite E1, obind_ret. cbn match.
  destruct (mask_aes_ok (fun n => rnd (p1 + n)) (fun n => junk (p1 + n)) key BK LK) as (T' & ib' & p2 & E2 & H2). rewrite E2, obind_ret. cbn match.
  set (rnd' := fun n => rnd (p1 + p2 + n)). set (junk' := fun n => junk (p1 + p2 + n)). clearbody rnd' junk'. unfold mask_gen_gcm.
  destruct (genMatpairs_ok 8 48 rnd' size8 0) as (Ls & q1 & E3 & HL). rewrite E3, obind_ret. cbn match.
  pose proof (genPermutations_ok 256 64 rnd' junk' q1) as HN. cbv zeta in HN. destruct (genPermutations 256 64 rnd' junk' q1) as [Ns q2]. cbn [fst] in HN. cbv zeta.
  eexists. split; [reflexivity|]. apply (mask_pair_sound key T ib T' ib' Ls Ns (genRandomMask rnd' q2) (genRandomMask rnd' (q2 + 16)) BK LK H1 H2 HL HN);
    intros; unfold genRandomMask; apply N.mod_lt; discriminate.
Qed.
Lemma mask_short rnd junk key : length key < 16 -> mask_gen_table rnd junk key = Undef.
Proof. intros L. unfold mask_gen_table, mask_gen_aes. destruct (Nat.ltb_spec (length key) 16); [reflexivity|lia]. Qed.
