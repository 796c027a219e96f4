(** * White-box SM4: proofs of the properties *)
From Verif Require Import Base Word32 CbcModel CbcSpec CbcProofs GcmModel GcmSpec GcmProofs Toy CipherExt Sm4Model Sm4Spec Sm4Proofs FpeModel MatModel Wbsm4Model Wbsm4Spec Wbsm4Proofs Wbsm4Enc WbkeyModel WbkeyProofs.
From Coq Require Import ZArith.
Local Open Scope nat_scope.
Local Opaque MatMulVec MatMulNum MatMulMat genaffinepair affinemix affinecom4 genaffinepairs wRandomShuffleU8.

Local Open Scope nat_scope.
Lemma wbsm4_conforms_lemma : forall rnd rs junk em key b, bytes key -> block16 b ->
  exists ctx, wbsm4_gen_table rnd rs (wbsm4_context_init junk em 0) key = Ret ctx /\ wbsm4_encrypt ctx b = Ret (sm4_for em key b).
Proof.
  intros rnd rs junk em key b BK Bb. assert (A : apart false (placement rs 0) = true) by (apply apart_zeros; now rewrite zeros_placement, length_placement).
  destruct (gen_table_ok rnd rs (wbsm4_context_init junk em 0) key 0 BK eq_refl A) as (P & R & ctx & E & G). exists ctx. split; [exact E|].
  rewrite (encrypt_generated P R rnd em key 0 (placement rs 0) (wbsm4_context_init junk em 0) ctx b); auto using zeros_placement, length_placement.
  - unfold sm4_for, wb_keys, std_encrypt, std_decrypt. destruct (em =? 0)%Z; reflexivity.
  - rewrite (all_zeros (placement rs 0)) by now rewrite zeros_placement, length_placement. apply quiet_zeros.
Qed.

Lemma wbsm4_dummy_conforms_partial_lemma : forall rnd rs junk em d key b ctx, bytes key -> block16 b -> length rs = 32 + d ->
  (forall i, i < 32 + 4 * d -> N.lxor (N.lxor (N.lxor (junk (LDD i 0 0%N)) (junk (LDD i 1 0%N))) (junk (LDD i 2 0%N))) (junk (LDD i 3 0%N)) = 0%N) ->
  wbsm4_gen_table rnd rs (wbsm4_context_init junk em d) key = Ret ctx -> wbsm4_encrypt ctx b = Ret (sm4_for em key b).
Proof.
  intros rnd rs junk em d key b ctx BK Bb L J E. 
  destruct (apart false (placement rs d)) eqn:A.
  - destruct (gen_table_ok rnd rs (wbsm4_context_init junk em d) key d BK eq_refl A) as (P & R & ctx' & E' & G). rewrite E in E'. injection E' as <-.
    rewrite (encrypt_generated P R rnd em key d (placement rs d) (wbsm4_context_init junk em d) ctx b); auto using zeros_placement, length_placement.
    + unfold sm4_for, wb_keys, std_encrypt, std_decrypt. destruct (em =? 0)%Z; reflexivity.
    + apply quiet_bound. rewrite length_spread_placement. intros k K. unfold dd0, sum4. cbn [w_mem wbsm4_context_init]. apply J. lia.
  - rewrite (gen_table_undef rnd rs (wbsm4_context_init junk em d) key d) in E by auto. discriminate E.
Qed.

Lemma wbsm4_one_dummy_generates_lemma : forall rnd rs junk em d key, bytes key -> d <= 1 ->
  exists ctx, wbsm4_gen_table rnd rs (wbsm4_context_init junk em d) key = Ret ctx.
Proof.
  intros rnd rs junk em d key BK D. assert (A : apart false (placement rs d) = true).
  { destruct d as [|[|]]; [| |lia].
    - apply apart_zeros. now rewrite zeros_placement, length_placement.
    - apply apart_one; [now rewrite zeros_placement, length_placement|discriminate]. }
  destruct (gen_table_ok rnd rs (wbsm4_context_init junk em d) key d BK eq_refl A) as (P & R & ctx & E & _). now exists ctx.
Qed.

Lemma wbsm4_one_dummy_exact_lemma : forall rs, length rs = 33 -> exists g, g <= 31 /\ forall rnd junk em key ctx b, bytes key -> block16 b -> memory junk ->
  wbsm4_gen_table rnd rs (wbsm4_context_init junk em 1) key = Ret ctx ->
  (wbsm4_encrypt ctx b = Ret (sm4_for em key b) <->
   forall i, g <= i < g + 4 -> N.lxor (N.lxor (N.lxor (junk (LDD i 0 0%N)) (junk (LDD i 1 0%N))) (junk (LDD i 2 0%N))) (junk (LDD i 3 0%N)) = 0%N).
Proof.
  intros rs L. assert (Z : zeros (placement rs 1) = 32) by apply zeros_placement. assert (LP : length (placement rs 1) = 33) by apply length_placement.
  pose proof (last_placement rs 1 L) as LA. destruct (first_dummy (placement rs 1)) as (k & e & post & EP & NE); [lia|].
  rewrite EP in Z, LP. rewrite zeros_app, zeros_repeat0 in Z. cbn [zeros] in Z. apply N.eqb_neq in NE. rewrite NE in Z. rewrite app_length, repeat_length in LP. cbn [length] in LP.
  assert (PZ : post = repeat 0%N (length post)) by (apply all_zeros; lia).
  assert (K : k <= 31).
  { destruct post as [|p post]; [|cbn [length] in LP; lia]. rewrite EP in LA. rewrite last_last in LA. subst e. discriminate NE. }
  exists k. split; [exact K|]. intros rnd junk em key ctx b BK Bb M E.
  assert (A : apart false (placement rs 1) = true) by (apply apart_one; [now rewrite zeros_placement, length_placement|discriminate]).
  destruct (gen_table_ok rnd rs (wbsm4_context_init junk em 1) key 1 BK eq_refl A) as (P & R & ctx' & E' & G). rewrite E in E'. injection E' as <-.
  pose proof G as G'. rewrite EP in G'.
  destruct (encrypt_noisy P R rnd em key 1 (repeat 0%N k) e post (wbsm4_context_init junk em 1) ctx b G' BK Bb) as [_ H]; auto.
  - now apply N.eqb_neq.
  - rewrite zeros_app, zeros_repeat0. cbn [zeros]. rewrite NE. lia.
  - rewrite app_length, repeat_length. cbn [length]. lia.
  - apply quiet_zeros.
  - rewrite PZ. apply quiet_zeros.
  - rewrite spread_zeros, repeat_length in H. cbn [w_mem wbsm4_context_init] in H.
    assert (ES : sm4_for em key b = st_to (swap (rounds T (wb_keys em key) (st_of b)))) by (unfold sm4_for, wb_keys, std_encrypt, std_decrypt; destruct (em =? 0)%Z; reflexivity).
    rewrite ES, H. unfold dd4, dd0, sum4. split.
    + intros Q. injection Q as Q0 Q1 Q2 Q3. intros i I. assert (C : i = k \/ i = k + 1 \/ i = k + 2 \/ i = k + 3) by lia.
      destruct C as [C|[C|[C|C] ] ]; rewrite C; assumption.
    + intros Q. rewrite !Q by lia. reflexivity.
Qed.

Lemma wbsm4_dummy_conforms_refuted_lemma : forall rs d, 1 <= d -> length rs = 32 + d -> exists junk, memory junk /\
  forall rnd em key ctx b, bytes key -> block16 b -> wbsm4_gen_table rnd rs (wbsm4_context_init junk em d) key = Ret ctx ->
  exists c, wbsm4_encrypt ctx b = Ret c /\ c <> sm4_for em key b.
Proof.
  intros rs d D L. assert (Z : zeros (placement rs d) = 32) by apply zeros_placement. assert (LP : length (placement rs d) = 32 + d) by apply length_placement.
  destruct (first_dummy (placement rs d)) as (k & e & post & EP & NE); [lia|].
  set (junk := fun l => match l with LDD i 0 0%N => if i =? k then 1%N else 0%N | _ => 0%N end).
  assert (J0 : forall i, dd0 junk i = if i =? k then 1%N else 0%N) by (intros i; unfold dd0, sum4, junk; destruct (i =? k); reflexivity).
  exists junk. split.
  { intros l. assert (Q : junk l = 0%N \/ junk l = 1%N); [|destruct Q as [-> | ->]; reflexivity].
    unfold junk. destruct l as [i a j x|i j x|i [|j] [|x]|i j x|i j x|i j x]; auto. destruct (i =? k); auto. }
  intros rnd em key ctx b BK Bb E. destruct (apart false (placement rs d)) eqn:A.
  2: { rewrite (gen_table_undef rnd rs (wbsm4_context_init junk em d) key d) in E by auto. discriminate E. }
  destruct (gen_table_ok rnd rs (wbsm4_context_init junk em d) key d BK eq_refl A) as (P & R & ctx' & E' & G). rewrite E in E'. injection E' as <-.
  rewrite EP in G, Z, LP.
  destruct (encrypt_noisy P R rnd em key d (repeat 0%N k) e post (wbsm4_context_init junk em d) ctx b G BK Bb) as [(c & C) H]; auto.
  - intros l. cbn [w_mem wbsm4_context_init]. assert (Q : junk l = 0%N \/ junk l = 1%N); [|destruct Q as [-> | ->]; reflexivity].
    unfold junk. destruct l as [i a j x|i j x|i [|j] [|x]|i j x|i j x|i j x]; auto. destruct (i =? k); auto.
  - apply quiet_zeros.
  - apply quiet_far. intros i I. rewrite spread_zeros, repeat_length in I. cbn [w_mem wbsm4_context_init]. rewrite J0. destruct (Nat.eqb_spec i k); [lia|reflexivity].
  - exists c. split; [exact C|]. intros Q. rewrite spread_zeros, repeat_length in H. cbn [w_mem wbsm4_context_init] in H.
    assert (ES : sm4_for em key b = st_to (swap (rounds T (wb_keys em key) (st_of b)))) by (unfold sm4_for, wb_keys, std_encrypt, std_decrypt; destruct (em =? 0)%Z; reflexivity).
    rewrite <- ES in H. rewrite Q in C. apply H in C. unfold dd4 in C. rewrite !J0, Nat.eqb_refl in C. discriminate C.
Qed.

Lemma wbsm4_dummy_generates_refuted_lemma : forall d, 2 <= d -> exists rs, length rs = 32 + d /\
  forall rnd junk em key, bytes key -> wbsm4_gen_table rnd rs (wbsm4_context_init junk em d) key = Undef.
Proof.
  intros d D. exists (repeat 0%N (32 + d)). rewrite repeat_length. split; [reflexivity|]. intros rnd junk em key BK.
  apply (gen_table_undef _ _ _ _ d); auto; [apply repeat_length|]. now apply placement_zeros_apart.
Qed.

Lemma wbsm4_many_dummies_refuted_lemma : forall d, 32 < d -> forall rnd rs junk em key, length rs = 32 + d -> bytes key ->
  wbsm4_gen_table rnd rs (wbsm4_context_init junk em d) key = Undef.
Proof.
  intros d D rnd rs junk em key L BK. apply (gen_table_undef _ _ _ _ d); auto. destruct (apart false (placement rs d)) eqn:A; [|reflexivity].
  apply apart_count_last in A; [rewrite zeros_placement, length_placement in A; lia| |now apply last_placement].
  intros Q. apply (f_equal (@length N)) in Q. rewrite length_placement in Q. discriminate Q.
Qed.

Lemma wbsm4_gcm_conforms_lemma : forall ctx em d key iv aad p t, holds ctx em key -> em <> 0%Z -> bytes iv -> bytes aad -> bytes p ->
  (8 * N.of_nat (length iv) < 2 ^ 32)%N -> (8 * N.of_nat (length aad) < 2 ^ 64)%N ->
  (N.of_nat (length p) <= 2147483647)%N -> t <= 16 ->
  let E := std_encrypt (normal_key key) in
  let o := gctr E (inc32 (J0 E iv)) p in
  gcm_session d (lift (wb_run ctx)) iv aad [p] t = Some (o, gcm_tag E iv aad (match d with Enc => o | Dec => p end) t).
Proof.
  intros ctx em d key iv aad p t H NE Hiv Ha Hp L1 L2 L3 Ht. apply gcm_session_impl; try assumption.
  - intros b Bb. unfold wb_run. rewrite (H b Bb). unfold sm4_for. apply Z.eqb_neq in NE. now rewrite NE.
  - intros b _. apply st_to_block.
Qed.

Lemma wbsm4_cbc_conforms_lemma : forall ctx em key m out cap iv, holds ctx em key -> em <> 0%Z -> bytes m -> block16 iv ->
  (N.of_nat (length (lib_padded m)) <= int_max)%N -> length (lib_padded m) <= cap -> length out = cap ->
  wrapper_cbc_encrypt false (lift (wb_run ctx)) m out cap iv =
  Some {| cr_ret := true;
          cr_out := cbc_encrypt_bytes (std_encrypt (normal_key key)) iv (lib_padded m) ++ skipn (length (lib_padded m)) out;
          cr_use := Some (N.of_nat (length (lib_padded m)));
          cr_iv := iv |}.
Proof.
  intros ctx em key m out cap iv H NE Hm Hiv L1 L2 L3. apply cbc_encrypt_impl; try assumption.
  - intros b Bb. unfold wb_run. rewrite (H b Bb). unfold sm4_for. apply Z.eqb_neq in NE. now rewrite NE.
  - intros b _. apply st_to_block.
Qed.

Lemma wbsm4_cbc_roundtrip_lemma : forall ce cd em key m iv out1 cap1 out2 cap2, holds ce em key -> em <> 0%Z -> holds cd 0 key -> 
  bytes m -> m <> [] -> recoverable m -> block16 iv -> (N.of_nat (length (lib_padded m)) <= int_max)%N ->
  length out1 = cap1 -> length (lib_padded m) <= cap1 -> length out2 = cap2 -> length (lib_padded m) <= cap2 ->
  exists r d,
    wrapper_cbc_encrypt false (lift (wb_run ce)) m out1 cap1 iv = Some r /\ cr_ret r = true /\
    wrapper_cbc_decrypt (lift (wb_run cd)) (firstn (length (lib_padded m)) (cr_out r))
      (length (lib_padded m)) out2 cap2 iv = Some d /\ cr_ret d = true /\
    cr_use d = Some (N.of_nat (length m)) /\ firstn (length m) (cr_out d) = m.
Proof.
  intros ce cd em key m iv out1 cap1 out2 cap2 HE NE HD Hm Hne Hrec Hiv L1 L2 L3 L4 L5. apply Z.eqb_neq in NE.
  assert (RE : forall b, block16 b -> wb_run ce b = std_encrypt (normal_key key) b).
  { intros b Bb. unfold wb_run. rewrite (HE b Bb). unfold sm4_for. now rewrite NE. }
  assert (RD : forall b, block16 b -> wb_run cd b = std_decrypt (normal_key key) b).
  { intros b Bb. unfold wb_run. rewrite (HD b Bb). reflexivity. }
  assert (HC : block_cipher (wb_run ce) (wb_run cd)).
  { split; [|split].
    - intros b Bb. rewrite RE by exact Bb. apply st_to_block.
    - intros b Bb. rewrite RD by exact Bb. apply st_to_block.
    - intros b Bb. rewrite RE by exact Bb. rewrite RD by apply st_to_block. unfold std_decrypt, std_encrypt.
      rewrite st_of_to by (apply swap_word, rounds_word; auto using T_word, st_of_word). rewrite rounds_undo. now apply st_to_of. }
  destruct (cbc_roundtrip_partial_lemma _ _ m iv out1 cap1 out2 cap2 HC Hm Hne Hiv L1 L2 L3 L4 L5)
    as (r & d & u & H1 & H2 & H3 & H4 & H5 & H6 & H7 & H8).
  exists r, d. rewrite (proj2 H8 Hrec) in H7. tauto.
Qed.

Lemma wbsm4_keyfile_roundtrip_lemma : forall ctx ctx2 rest b, w_rounds ctx <= w_alloc ctx -> 4 <= w_rounds ctx -> (N.of_nat (w_rounds ctx) < 2 ^ 31)%N ->
  (- 2 ^ 31 <= w_encmode ctx < 2 ^ 31)%Z -> (forall l, in_range (w_rounds ctx) l -> word (w_mem ctx l)) -> w_rounds ctx <= w_alloc ctx2 ->
  exists file ctx', wbsm4_key2file true ctx = Ret file /\ wbsm4_file2key ctx2 (Some (file ++ rest)) = Ret (true, ctx') /\
    w_rounds ctx' = w_rounds ctx /\ w_encmode ctx' = w_encmode ctx /\ wbsm4_encrypt ctx' b = wbsm4_encrypt ctx b.
Proof.
  intros ctx ctx2 rest b A R4 R E M A2. destruct (file2key_ok ctx2 (w_rounds ctx) (w_encmode ctx) (w_mem ctx) rest R E M A2) as (m & EQ & H & _).
  exists (key_file (w_rounds ctx) (w_encmode ctx) (w_mem ctx)), (mkwctx (w_rounds ctx) (w_encmode ctx) (w_alloc ctx2) m).
  split; [now apply key2file_eq|]. split; [exact EQ|]. split; [reflexivity|]. split; [reflexivity|].
  apply encrypt_ext; auto.
Qed.

Lemma wbsm4_keyfile_truncated_lemma : forall ctx ctx2 file n, w_rounds ctx <= w_alloc ctx -> (N.of_nat (w_rounds ctx) < 2 ^ 31)%N -> w_rounds ctx <= w_alloc ctx2 ->
  wbsm4_key2file true ctx = Ret file -> n < length file -> exists ctx', wbsm4_file2key ctx2 (Some (firstn n file)) = Ret (false, ctx').
Proof.
  intros ctx ctx2 file n A R A2 E L. rewrite key2file_eq in E by exact A. injection E as <-. 
  eapply (file2key_short ctx2 (w_rounds ctx) (w_encmode ctx) (w_mem ctx)); auto. exists (skipn n (key_file (w_rounds ctx) (w_encmode ctx) (w_mem ctx))).
  split; [|symmetry; apply firstn_skipn]. intros Q. apply (f_equal (@length N)) in Q. rewrite skipn_length in Q. cbn [length] in Q. lia.
Qed.

Lemma wbsm4_keyfile_rounds_refuted_lemma : forall ctx ctx2 file rest, w_rounds ctx <= w_alloc ctx -> (N.of_nat (w_rounds ctx) < 2 ^ 31)%N -> w_alloc ctx2 < w_rounds ctx ->
  wbsm4_key2file true ctx = Ret file -> wbsm4_file2key ctx2 (Some (file ++ rest)) = Undef.
Proof.
  intros ctx ctx2 file rest A R A2 E. rewrite key2file_eq in E by exact A. injection E as <-. now apply file2key_overflow.
Qed.

Lemma wbsm4_keyfile_short_refuted_lemma : forall (ctx : wctx) (r em : Z), (- 2 ^ 31 <= r <= 0)%Z -> (- 2 ^ 31 <= em < 2 ^ 31)%Z ->
  exists file, length file = 24 /\ wbsm4_file2key ctx (Some file) = Ret (true, mkwctx 0 em (w_alloc ctx) (w_mem ctx)).
Proof.
  intros ctx r em R E. exists (header ++ int_bytes r ++ int_bytes em). split; [rewrite !app_length, !length_int; reflexivity|]. now apply file2key_empty.
Qed.

Lemma wbsm4_keyfile_missing_refuted_lemma : forall ctx, wbsm4_file2key ctx None = Undef /\ wbsm4_key2file false ctx = Undef.
Proof. intros ctx. split; reflexivity. Qed.

Lemma wbsm4_keyfile_generated_lemma : forall rnd rs junk em d key ctx ctx2 b, bytes key -> length rs = 32 + d -> memory junk -> (N.of_nat d < 2 ^ 28)%N -> (- 2 ^ 31 <= em < 2 ^ 31)%Z ->
  wbsm4_gen_table rnd rs (wbsm4_context_init junk em d) key = Ret ctx -> 32 + 4 * d <= w_alloc ctx2 ->
  exists file ctx', wbsm4_key2file true ctx = Ret file /\ wbsm4_file2key ctx2 (Some file) = Ret (true, ctx') /\
    w_encmode ctx' = em /\ wbsm4_encrypt ctx' b = wbsm4_encrypt ctx b.
Proof.
  intros rnd rs junk em d key ctx ctx2 b BK L M D E G A2. destruct (apart false (placement rs d)) eqn:A.
  2: { rewrite (gen_table_undef rnd rs (wbsm4_context_init junk em d) key d) in G by auto. discriminate G. }
  destruct (gen_table_ok rnd rs (wbsm4_context_init junk em d) key d BK eq_refl A) as (P & R & ctx' & E' & GG). rewrite G in E'. injection E' as <-.
  destruct GG as (G1 & G2 & G3 & HP & HR & LL & (pos & EX)). cbn [wbsm4_context_init w_rounds w_encmode w_alloc w_mem] in *.
  destruct (wbsm4_keyfile_roundtrip_lemma ctx ctx2 [] b) as (file & c' & F1 & F2 & F3 & F4 & F5); try (rewrite ?G1, ?G2, ?G3; lia).
  - intros l Hl. rewrite G1 in Hl. pose proof (fun q j x => layout_words P R _ rnd _ _ HP HR M (placement rs d) 0 0 LL ltac:(rewrite zeros_placement; lia) q j x) as W.
    rewrite length_spread_placement in W. destruct l as [i k j x|i j x|i j x|i j x|i j x|i j x]; cbn [in_range] in Hl.
    1: apply (W i j x); lia. 1, 2, 3: apply (W i j x); lia.
    all: destruct (EX i j x ltac:(lia)) as [X1 X2]; rewrite ?X1, ?X2; apply affine_entry_word; apply (proj2 HP); lia.
  - exists file, c'. rewrite app_nil_r in F2. rewrite F4, G2. auto.
Qed.
