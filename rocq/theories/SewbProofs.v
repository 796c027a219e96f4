(** * Proofs about SE-WBSM4 *)
From Verif Require Import GfProofs Base Word32 CbcSpec GcmModel Sm4Model Sm4Spec Sm4Proofs FpeModel MatModel MatSpec MatProofs GaussProofs ComProofs
  Wbsm4Model Wbsm4Proofs Wbsm4Enc Wbsm4Spec SewbTables SewbPairs SewbModel.
From Coq Require Import ZArith.
Local Open Scope nat_scope.
Local Opaque MatMulVec MatMulNum MatMulMat genaffinepair affinemix affinecom4 genaffinepairs SE_A SE_B std_sbox identityM.

Lemma sbox_same : sm4_sbox = SBOX. Proof. reflexivity. Qed.
Lemma L_same : SE_L_matrix = L_matrix. Proof. reflexivity. Qed.
Lemma se_sub_tau x : se_sub x = tau x.
Proof.
  unfold se_sub. cbv zeta. rewrite sbox_same, !SBOX_ok by apply byte_at_byte. rewrite <- sm4_sub_tau. unfold sm4_sub.
  rewrite !sbox_ok by apply byte_at_byte. pose proof (std_sbox_byte _ (byte_at_byte x 24)) as B. set (a := std_sbox (byte_at x 24)) in *.
  replace (w32 (N.shiftl a 24)) with (N.shiftl a 24); [reflexivity|]. unfold w32. rewrite N.mod_small; [reflexivity|].
  rewrite N.shiftl_mul_pow2. unfold byte in B. change (2 ^ 24)%N with 16777216%N. lia.
Qed.
Lemma block_tau k x : k < 4 -> block 4 8 k (tau x) = std_sbox (block 4 8 k x).
Proof.
  intros K. rewrite <- !byte_at_block by exact K. unfold tau, of_bytes, word_bytes.
  assert (E : N_to_be 4 (be_to_N (map std_sbox (N_to_be 4 x))) = map std_sbox (N_to_be 4 x)).
  { rewrite (N_to_be4 x). cbn [map]. apply (N_to_be_to_N [_; _; _; _]). repeat constructor; apply std_sbox_byte, byte_at_byte. }
  set (y := be_to_N _) in *. rewrite !N_to_be4 in E. cbn [map] in E. clearbody y. apply (f_equal (fun l => nth k l 0%N)) in E.
  destruct k as [|[|[|[|]]]]; [exact E|exact E|exact E|exact E|lia].
Qed.
Section Stored.
Variable n : nat -> N.
Hypothesis N4 : forall j, (n j < 2039)%N.
Let A j := nth (N.to_nat (n j)) SE_A aff0.
Let B j := nth (N.to_nat (n j)) SE_B aff0.
Let AA := affinecom4 8 (A 0) (A 1) (A 2) (A 3).
Let BB := affinecom4 8 (B 0) (B 1) (B 2) (B 3).
Lemma A_aff j : affine 8 (A j). Proof. apply (stored_pair (n j) (N4 j)). Qed.
Lemma B_aff j : affine 8 (B j). Proof. apply (stored_pair (n j) (N4 j)). Qed.
Lemma AA_aff : affine 32 AA. Proof. apply (affine_affinecom4 8); auto using A_aff. Qed.
Lemma BB_aff : affine 32 BB. Proof. apply (affine_affinecom4 8); auto using B_aff. Qed.
Lemma sel4_fun (f : nat -> aff) k : k < 4 -> sel4 (f 0) (f 1) (f 2) (f 3) k = f k.
Proof. intros K. destruct k as [|[|[|[|]]]]; [| | | |lia]; reflexivity. Qed.
Lemma equivalence z : word z -> affineU 32 BB (tau (affineU 32 AA z)) = tau z.
Proof.
  intros W. apply (vector_ext_block 4 8).
  - apply (vector_affineU 32); auto using size32, BB_aff.
  - apply tau_word.
  - intros k K. rewrite block_tau by exact K. unfold BB, AA.
    rewrite (affinecom4_block 8 (B 0) (B 1) (B 2) (B 3)) by auto using B_aff. rewrite block_tau by exact K.
    rewrite (affinecom4_block 8 (A 0) (A 1) (A 2) (A 3)) by auto using A_aff.
    rewrite (sel4_fun A), (sel4_fun B) by exact K. apply (stored_pair (n k) (N4 k)). apply (vector_block 4 8).
Qed.
End Stored.

Lemma mod2039 x : (x mod 2039 < 2039)%N. Proof. now apply N.mod_lt. Qed.
Lemma affine_K rk : word rk -> affine 32 (mkaff (identityM 32) rk).
Proof. intros W. split; [apply identity_spec; apply size32|exact W]. Qed.
Lemma affineU_K rk x : word x -> affineU 32 (mkaff (identityM 32) rk) x = N.lxor x rk.
Proof. intros W. unfold affineU. cbn [a_mat a_vec]. rewrite mulv_identity; auto using size32. apply identity_spec, size32. Qed.
Lemma affine_L : affine 32 (mkaff SE_L_matrix 0%N).
Proof. rewrite L_same. split; [apply matrix_L|reflexivity]. Qed.
Lemma affineU_L x : word x -> affineU 32 (mkaff SE_L_matrix 0%N) x = Lin x.
Proof. intros W. unfold affineU. cbn [a_mat a_vec]. rewrite L_same, L_matrix_Lin by exact W. apply N.lxor_0_r. Qed.

(** what the encryption uses of the context *)
Definition se_holds (P : list (aff * aff)) (rk : list N) (ctx : sectx) : Prop :=
  (forall i, i < 32 -> exists rnd pos, (nth i (se_M ctx) [], nth i (se_C ctx) aff0, nth i (se_D ctx) aff0) = se_gen_round P rk rnd pos i) /\
  forall i, i < 4 -> nth i (se_SE ctx) aff0 = pair_fst P i /\ nth i (se_FE ctx) aff0 = pair_snd P (35 - i).
Lemma se_round_spec P rk ctx i X : inv_pairs 32 36 P -> i < 32 -> se_holds P rk ctx -> word (get rk i) -> st_word X ->
  se_round ctx (enc P i X) i = enc P (i + 1) (round T X (get rk i)).
Proof.
  intros [_ HP] I [H _] Wrk HX. destruct (H i I) as (rnd & pos & E). unfold se_gen_round in E. cbv zeta in E. injection E as EM EC ED.
  destruct X as [[[X0 X1] X2] X3]. destruct HX as (W0 & W1 & W2 & W3). unfold enc, se_round, round. cbv zeta. rewrite EM, EC, ED. clear EM EC ED. cbn [nth].
  set (n := fun j => (draw rnd (pos + 5 * i + j) mod 2039)%N).
  assert (N4 : forall j, (n j < 2039)%N) by (intros; apply mod2039).
  pose proof (AA_aff n N4) as AAA. pose proof (BB_aff n N4) as ABB. pose proof (equivalence n N4) as EQ. cbv zeta in AAA, ABB, EQ. unfold n in AAA, ABB, EQ.
  set (AA := affinecom4 8 (nth _ SE_A _) _ _ _) in *. set (BB := affinecom4 8 (nth _ SE_B _) _ _ _) in *. clearbody AA BB. clear n N4.
  match goal with |- context [N.lxor (a_vec (affinemix _ _ _)) (draw rnd ?q)] => set (t := draw rnd q) end. assert (Wt : word t) by apply word_draw. clearbody t.
  set (K := mkaff (identityM 32) (get rk i)). assert (AK : affine 32 K) by now apply affine_K.
  set (L := mkaff SE_L_matrix 0%N). pose proof affine_L as AL. fold L in AL.
  assert (PV : forall k x, k < 36 -> vector 32 (affineU 32 (pair_fst P k) x)) by (intros; apply vector_affineU; auto using size32; apply HP; auto).
  assert (PI : forall k x, k < 36 -> word x -> affineU 32 (pair_snd P k) (affineU 32 (pair_fst P k) x) = x) by (intros; apply (HP k); auto).
  assert (PA : forall k, k < 36 -> affine 32 (pair_fst P k) /\ affine 32 (pair_snd P k)) by (intros; split; apply HP; auto).
  assert (LM : forall k x, k < 3 -> word x -> affineU 32 (affinemix 32 AA (affinemix 32 K (pair_snd P (i + 1 + k)))) (affineU 32 (pair_fst P (i + 1 + k)) x) = affineU 32 AA (N.lxor x (get rk i))).
  { intros k x K3 W. destruct (PA (i + 1 + k) ltac:(lia)). rewrite affinemix_spec by auto using size32, affine_affinemix.
    rewrite affinemix_spec by auto using size32. rewrite PI by (auto; lia). unfold K. now rewrite affineU_K. }
  pose proof (LM 0 X1 ltac:(lia) W1) as E1. pose proof (LM 1 X2 ltac:(lia) W2) as E2. pose proof (LM 2 X3 ltac:(lia) W3) as E3.
  replace (i + 1 + 0) with (i + 1) in * by lia. replace (i + 1 + 1) with (i + 2) in * by lia. replace (i + 1 + 2) with (i + 3) in * by lia. replace (i + 1 + 3) with (i + 4) by lia.
  rewrite E1, E2, E3. rewrite affine_three by auto using size32.
  replace (N.lxor (N.lxor (N.lxor X1 (get rk i)) (N.lxor X2 (get rk i))) (N.lxor X3 (get rk i))) with (N.lxor (N.lxor (N.lxor X1 X2) X3) (get rk i)) by xors.
  set (z := N.lxor (N.lxor (N.lxor X1 X2) X3) (get rk i)). assert (Wz : word z) by (unfold z; auto using word_lxor). clearbody z.
  rewrite se_sub_tau.
  destruct (PA (i + 4) ltac:(lia)) as [AP4 _]. destruct (PA i ltac:(lia)) as [_ API].
  change (mkaff (a_mat ?a) (N.lxor (a_vec ?a) ?t)) with (add_vec a t).
  set (C := affinemix 32 (pair_fst P (i + 4)) (pair_snd P i)). set (D := affinemix 32 (pair_fst P (i + 4)) (affinemix 32 L BB)).
  change (mkaff (a_mat C) (N.lxor (a_vec C) t)) with (add_vec C t).
  change (mkaff (a_mat D) (N.lxor (a_vec D) (N.lxor (a_vec (pair_fst P (i + 4))) t))) with (add_vec D (N.lxor (a_vec (pair_fst P (i + 4))) t)).
  rewrite !affineU_add_vec. unfold C, D. rewrite !affinemix_spec by auto using size32, affine_affinemix. rewrite PI by (auto; lia).
  rewrite EQ by exact Wz. unfold L. rewrite affineU_L by apply tau_word. fold (T z). set (V := T z). assert (WV : word V) by apply T_word. clearbody V.
  assert (G : N.lxor (N.lxor (affineU 32 (pair_fst P (i + 4)) X0) t) (N.lxor (affineU 32 (pair_fst P (i + 4)) V) (N.lxor (a_vec (pair_fst P (i + 4))) t))
    = affineU 32 (pair_fst P (i + 4)) (N.lxor X0 V)).
  { unfold affineU. rewrite mulv_lxor by (auto using size32; apply AP4). xors. }
  rewrite G. reflexivity.
Qed.
Lemma se_rounds_spec P rk ctx : inv_pairs 32 36 P -> se_holds P rk ctx -> Forall word rk -> length rk = 32 -> forall k i X, i + k <= 32 -> st_word X ->
  fold_left (se_round ctx) (seq i k) (enc P i X) = enc P (i + k) (rounds T (firstn k (skipn i rk)) X).
Proof.
  intros HP H Wrk L. induction k as [|k IH]; intros i X IK HX; [cbn [seq fold_left firstn]; rewrite Nat.add_0_r; reflexivity|].
  cbn [seq fold_left]. assert (Wi : word (get rk i)).
  { rewrite Forall_forall in Wrk. apply Wrk, nth_In. lia. }
  rewrite (se_round_spec P rk) by (auto; lia). rewrite skipn_cons_get by lia. cbn [firstn rounds fold_left]. rewrite Nat.add_1_r.
  rewrite IH; [|lia|apply round_word; [intros; apply T_word|exact HX]]. unfold rounds. cbn [fold_left]. f_equal. lia.
Qed.
Lemma se_gen_table_ok rnd ctx key : bytes key -> exists P ctx', se_gen_table rnd ctx key = Ret ctx' /\ inv_pairs 32 36 P /\ se_encmode ctx' = se_encmode ctx /\
  se_holds P (wb_keys (se_encmode ctx) key) ctx'.
Proof.
  intros BK. unfold se_gen_table. cbv zeta. rewrite wb_keys_init by exact BK. destruct (genaffinepairs_inv 32 36 rnd size32 0) as (P & pos & E & HP).
  rewrite E, obind_ret. cbv beta iota. exists P. eexists. split; [reflexivity|]. split; [exact HP|]. split; [reflexivity|]. split.
  - intros i I. exists rnd, pos. cbn [se_M se_C se_D]. rewrite !map_map.
    set (f := se_gen_round P (wb_keys (se_encmode ctx) key) rnd pos). clearbody f.
    rewrite (nth_indep _ [] (fst (fst (f 0)))) by (rewrite map_length, seq_length; exact I). rewrite (map_nth (fun x => fst (fst (f x)))).
    rewrite (nth_indep _ aff0 (snd (fst (f 0)))) by (rewrite map_length, seq_length; exact I). rewrite (map_nth (fun x => snd (fst (f x)))).
    rewrite (nth_indep _ aff0 (snd (f 0))) by (rewrite map_length, seq_length; exact I). rewrite (map_nth (fun x => snd (f x))).
    rewrite seq_nth by exact I. cbn [plus]. now destruct (f i) as [[? ?] ?].
  - intros i I. cbn [se_SE se_FE]. destruct i as [|[|[|[|]]]]; [| | | |lia]; split; reflexivity.
Qed.
Lemma se_encrypt_spec P rk ctx b : inv_pairs 32 36 P -> se_holds P rk ctx -> Forall word rk -> length rk = 32 -> block16 b ->
  se_encrypt ctx b = st_to (swap (rounds T rk (st_of b))).
Proof.
  intros HP H Wrk Lrk Bb. pose proof (st_of_word b Bb) as W. unfold se_encrypt. cbv zeta. pose proof H as [_ HE].
  assert (S : forall i, i < 4 -> nth i (se_SE ctx) aff0 = pair_fst P i) by (intros; now apply HE).
  assert (F : forall i, i < 4 -> nth i (se_FE ctx) aff0 = pair_snd P (35 - i)) by (intros; now apply HE).
  rewrite !S, !F by lia. clear S F HE.
  assert (E : (affineU 32 (pair_fst P 0) (GET32 b 0), affineU 32 (pair_fst P 1) (GET32 b 4), affineU 32 (pair_fst P 2) (GET32 b 8), affineU 32 (pair_fst P 3) (GET32 b 12)) = enc P 0 (st_of b)).
  { destruct Bb as [L B]. rewrite !GET32_be by exact B. clear W. do 16 (destruct b as [|? b]; [discriminate|]). destruct b; [|discriminate]. clear L B. reflexivity. }
  rewrite E. rewrite (se_rounds_spec P rk) by (auto; lia). cbn [plus skipn]. rewrite firstn_all2 by lia.
  assert (WX : st_word (rounds T rk (st_of b))) by (apply rounds_word; auto using T_word). destruct (rounds T rk (st_of b)) as [[[x0 x1] x2] x3]. destruct WX as (W0 & W1 & W2 & W3).
  unfold enc. cbn [plus Nat.sub]. destruct HP as [_ HP].
  assert (PI : forall k x, k < 36 -> word x -> affineU 32 (pair_snd P k) (affineU 32 (pair_fst P k) x) = x) by (intros; apply (HP k); auto).
  rewrite !PI by (auto; lia). unfold swap, st_to, word_bytes. now rewrite !put_u32_be_spec.
Qed.
Lemma std_roundtrip key b : block16 key -> block16 b -> std_decrypt key (std_encrypt key b) = b.
Proof.
  intros K B. unfold std_decrypt, std_encrypt.
  rewrite st_of_to by (apply swap_word, rounds_word; auto using T_word, st_of_word). rewrite rounds_undo. now apply st_to_of.
Qed.
Lemma std_roundtrip' key b : block16 key -> block16 b -> std_encrypt key (std_decrypt key b) = b.
Proof.
  intros K B. unfold std_decrypt, std_encrypt.
  rewrite st_of_to by (apply swap_word, rounds_word; auto using T_word, st_of_word). rewrite <- (rev_involutive (round_keys key)) at 1. rewrite rounds_undo. now apply st_to_of.
Qed.

Local Open Scope nat_scope.
Lemma se_wbsm4_conforms_lemma : forall rnd ctx key, bytes key ->
  exists ctx', se_gen_table rnd ctx key = Ret ctx' /\
    forall b, block16 b -> se_encrypt ctx' b = sm4_for (se_encmode ctx) key b /\ se_decrypt ctx' b = sm4_for (se_encmode ctx) key b.
Proof.
  intros rnd ctx key BK. destruct (se_gen_table_ok rnd ctx key BK) as (P & ctx' & E & HP & _ & H). exists ctx'. split; [exact E|].
  intros b Bb. unfold se_decrypt. rewrite (se_encrypt_spec P (wb_keys (se_encmode ctx) key)) by (auto using wb_keys_word, length_wb_keys).
  unfold sm4_for, wb_keys, std_decrypt, std_encrypt. destruct (se_encmode ctx =? 0)%Z; split; reflexivity.
Qed.

Lemma se_wbsm4_roundtrip_lemma : forall rnd rnd' ctx ctx' em key b, bytes key -> block16 b -> em <> 0%Z ->
  se_gen_table rnd (se_context_init em) key = Ret ctx -> se_gen_table rnd' (se_context_init 0) key = Ret ctx' ->
  se_decrypt ctx' (se_encrypt ctx b) = b /\ se_encrypt ctx (se_decrypt ctx' b) = b.
Proof.
  intros rnd rnd' ctx ctx' em key b BK Bb EM E E'.
  destruct (se_wbsm4_conforms_lemma rnd (se_context_init em) key BK) as (c & F & H). destruct (se_wbsm4_conforms_lemma rnd' (se_context_init 0) key BK) as (c' & F' & H').
  rewrite E in F. injection F as <-. rewrite E' in F'. injection F' as <-. pose proof (normal_key_block key BK) as NK.
  assert (S1 : forall x, sm4_for em key x = std_encrypt (normal_key key) x) by (intros; unfold sm4_for; apply Z.eqb_neq in EM; now rewrite EM).
  assert (S0 : forall x, sm4_for 0 key x = std_decrypt (normal_key key) x) by (intros; unfold sm4_for; now rewrite Z.eqb_refl).
  cbn [se_encmode se_context_init] in H, H'.
  assert (B1 : block16 (std_encrypt (normal_key key) b)) by apply st_to_block.
  assert (B2 : block16 (std_decrypt (normal_key key) b)) by apply st_to_block.
  split.
  - rewrite (proj1 (H b Bb)), S1. rewrite (proj2 (H' _ B1)), S0. now apply std_roundtrip.
  - rewrite (proj2 (H' b Bb)), S0. rewrite (proj1 (H _ B2)), S1. now apply std_roundtrip'.
Qed.

Lemma stored_maps_are_self_equivalences_lemma : forall n x, (n < 2039)%N -> byte x ->
  affineU 8 (nth (N.to_nat n) SE_B aff0) (get sm4_sbox (N.to_nat (affineU 8 (nth (N.to_nat n) SE_A aff0) x))) = get sm4_sbox (N.to_nat x).
Proof.
  intros n x L X. destruct (stored_pair n L) as (A & B & H). rewrite sbox_same. rewrite !Wbsm4Proofs.SBOX_ok by (auto; now apply affineU_byte). now apply H.
Qed.
