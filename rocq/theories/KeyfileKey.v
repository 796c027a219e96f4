(** * The key in white-box SM4 key files *)
From Verif Require Import Base Word32 CbcModel CbcSpec GcmModel Sm4Model Sm4Spec Sm4Proofs FpeModel MatModel Wbsm4Model Wbsm4Spec Wbsm4Proofs Wbsm4Enc WbkeyModel WbkeyProofs Wbsm4Thms Wbsm4Key.
From Coq Require Import ZArith.
Local Open Scope nat_scope.
Local Opaque MatMulVec MatMulNum MatMulMat genaffinepair affinemix affinecom4 genaffinepairs wRandomShuffleU8.

Lemma fold_in {A B : Type} (f g : A -> B -> A) l : (forall a i, In i l -> f a i = g a i) -> forall a, fold_left f l a = fold_left g l a.
Proof. induction l as [|i l IH]; intros H a; [reflexivity|]. cbn [fold_left]. rewrite H by (now left). apply IH. intros b j J. apply H. now right. Qed.
Lemma round_ext m1 m2 W i s : i < W -> (forall l, in_range W l -> m1 l = m2 l) -> wb_round m1 s i = wb_round m2 s i.
Proof.
  intros I M. destruct s as [[[x0 x1] x2] x3]. unfold wb_round.
  assert (MM : forall m x, m < 3 -> lookup (fun j y => m1 (LMM i m j y)) x = lookup (fun j y => m2 (LMM i m j y)) x).
  { intros m x Lm. apply lookup_ext. intros j y J Y. apply M. cbn [in_range]. repeat split; auto; lia. }
  assert (CC : forall x, lookup (fun j y => m1 (LCC i j y)) x = lookup (fun j y => m2 (LCC i j y)) x).
  { intros x. apply lookup_ext. intros j y J Y. apply M. cbn [in_range]. repeat split; auto; lia. }
  assert (DD : forall x, lookup (fun j y => m1 (LDD i j y)) x = lookup (fun j y => m2 (LDD i j y)) x).
  { intros x. apply lookup_ext. intros j y J Y. apply M. cbn [in_range]. repeat split; auto; lia. }
  assert (TT : forall x, lookup (fun j y => m1 (LTable i j y)) x = lookup (fun j y => m2 (LTable i j y)) x).
  { intros x. apply lookup_ext. intros j y J Y. apply M. cbn [in_range]. repeat split; auto; lia. }
  rewrite !MM, TT, CC, DD by lia. reflexivity.
Qed.
Lemma idle_ext m1 m2 W i : i < W -> (forall l, in_range W l -> m1 l = m2 l) -> idle m1 i = idle m2 i.
Proof.
  intros I M. apply Bool.eq_true_iff_eq. rewrite !idle_ok.
  split; intros H j x J X; [rewrite <- M by (cbn [in_range]; repeat split; auto)|rewrite M by (cbn [in_range]; repeat split; auto)]; now apply H.
Qed.
#[local] Opaque idle.
Lemma real_ext m1 m2 W : (forall l, in_range W l -> m1 l = m2 l) -> real_rounds m1 W = real_rounds m2 W.
Proof.
  intros M. unfold real_rounds. apply filter_ext_in. intros i I. apply in_seq in I. f_equal. apply (idle_ext m1 m2 W); [lia|exact M].
Qed.
Lemma real_in m W i n : In i (firstn n (real_rounds m W)) -> i < W.
Proof.
  intros I. assert (J : In i (real_rounds m W)) by (rewrite <- (firstn_skipn n (real_rounds m W)); apply in_or_app; now left).
  unfold real_rounds in J. apply filter_In in J as [J _]. apply in_seq in J. lia.
Qed.
#[local] Opaque wb_round real_rounds.
Lemma wb_real_ext c1 c2 n b : w_rounds c1 = w_rounds c2 -> 4 <= w_rounds c1 -> (forall l, in_range (w_rounds c1) l -> w_mem c1 l = w_mem c2 l) ->
  wb_real c1 n b = wb_real c2 n b.
Proof.
  intros R R4 M. unfold wb_real. cbv zeta. rewrite <- R, <- (real_ext _ _ _ M).
  assert (SE : forall i x, i < 4 -> lookup (fun j y => w_mem c1 (LSE i j y)) x = lookup (fun j y => w_mem c2 (LSE i j y)) x).
  { intros i x I. apply lookup_ext. intros j y J Y. apply M. cbn [in_range]. repeat split; auto; lia. }
  rewrite !SE by lia. apply fold_in. intros s i I. apply real_in in I. now apply (round_ext _ _ (w_rounds c1)).
Qed.
Lemma keyfile_key_lemma rnd rs junk em d key ctx ctx2 file rest : bytes key -> length rs = 32 + d -> memory junk -> (N.of_nat d < 2 ^ 28)%N -> (- 2 ^ 31 <= em < 2 ^ 31)%Z ->
  wbsm4_gen_table rnd rs (wbsm4_context_init junk em d) key = Ret ctx -> wbsm4_key2file true ctx = Ret file -> 32 + 4 * d <= w_alloc ctx2 ->
  exists ctx', wbsm4_file2key ctx2 (Some (file ++ rest)) = Ret (true, ctx') /\ read_sm4 (wb_real ctx') (w_encmode ctx') = normal_key key.
Proof.
  intros BK L M D E G KF A2. pose proof G as G0. destruct (apart false (placement rs d)) eqn:A.
  2: { rewrite (gen_table_undef rnd rs (wbsm4_context_init junk em d) key d) in G by auto. discriminate G. }
  destruct (wbsm4_held rnd rs junk em d key ctx BK L G0) as (P0 & HP0 & H0).
  destruct (gen_table_ok rnd rs (wbsm4_context_init junk em d) key d BK eq_refl A) as (P & R & ctx' & E' & GG). rewrite G in E'. injection E' as <-.
  destruct GG as (G1 & G2 & G3 & HP & HR & LL & (pos & EX)). cbn [wbsm4_context_init w_rounds w_encmode w_alloc w_mem] in *.
  rewrite key2file_eq in KF by lia. injection KF as <-.
  destruct (file2key_ok ctx2 (w_rounds ctx) (w_encmode ctx) (w_mem ctx) rest) as (m & EQ & H & _); try (rewrite ?G1, ?G2, ?G3; lia).
  - intros l Hl. rewrite G1 in Hl. pose proof (fun q j x => layout_words P R _ rnd _ _ HP HR M (placement rs d) 0 0 LL ltac:(rewrite zeros_placement; lia) q j x) as W.
    rewrite length_spread_placement in W. destruct l as [i k j x|i j x|i j x|i j x|i j x|i j x]; cbn [in_range] in Hl.
    1: apply (W i j x); lia. 1, 2, 3: apply (W i j x); lia.
    all: destruct (EX i j x ltac:(lia)) as [X1 X2]; rewrite ?X1, ?X2; apply affine_entry_word; apply (proj2 HP); lia.
  - exists (mkwctx (w_rounds ctx) (w_encmode ctx) (w_alloc ctx2) m). split; [exact EQ|]. cbn [w_encmode]. rewrite G2.
    apply (key_lemma P0 _ em key HP0 BK). intros n b N Bb. rewrite <- (H0 n b N Bb). apply wb_real_ext; [reflexivity|cbn [w_rounds]; lia|].
    intros l Hl. cbn [w_rounds w_mem] in *. now apply H.
Qed.
