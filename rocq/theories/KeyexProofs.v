(** * Proofs about keystore.c and about contexts copied and cleared as bytes *)
From Verif Require Import Base Word32 CbcSpec GcmModel FpeModel FileModel Sm4Spec MatModel Sm4Model Wbsm4Model Wbsm4Spec Wbsm4Proofs Wbsm4Thms KeyexModel.
From Coq Require Import ZArith.
Local Open Scope nat_scope.
Local Opaque MatMulVec MatMulNum MatMulMat genaffinepair affinemix affinecom4 genaffinepairs wRandomShuffleU8.

Lemma Ret_inj {A} (x y : A) : Ret x = Ret y -> x = y.
Proof. now intros [= ->]. Qed.
Lemma upd_same fs p v : upd fs p v p = v.
Proof. unfold upd. destruct (path_dec p p); congruence. Qed.
Lemma upd_other fs p v q : q <> p -> upd fs p v q = fs q.
Proof. unfold upd. destruct (path_dec q p); congruence. Qed.

Lemma keystore_roundtrip_lemma wr room fs buf len p fs' : wr p = true -> len <= length buf -> len <= room ->
  keystore_key_to_file wr room fs buf len p = Ret (true, fs') ->
  (forall q, q <> p -> fs' q = fs q) /\
  forall part old, len <= length old -> keystore_file_to_key fs' part old len p = Ret (true, firstn len buf ++ skipn len old).
Proof.
  intros W L R E. unfold keystore_key_to_file in E. rewrite W in E. cbn [negb] in E.
  destruct (Nat.ltb_spec (length buf) len); [lia|]. apply Ret_inj in E. injection E as <-. split.
  - intros q Q. now apply upd_other.
  - intros part old O. unfold keystore_file_to_key. rewrite upd_same.
    destruct (Nat.ltb_spec (length old) len); [lia|].
    assert (E : firstn room (firstn len buf) = firstn len buf) by (apply firstn_all2; rewrite firstn_length; lia).
    rewrite E. rewrite firstn_length. destruct (Nat.ltb_spec (min len (length buf)) len); [lia|].
    now rewrite firstn_firstn, Nat.min_id.
Qed.
Lemma keystore_succeeds wr room fs buf len p : wr p = true -> len <= length buf ->
  exists fs', keystore_key_to_file wr room fs buf len p = Ret (true, fs').
Proof.
  intros W L. unfold keystore_key_to_file. rewrite W. cbn [negb]. destruct (Nat.ltb_spec (length buf) len); [lia|]. eauto.
Qed.

(** ** The structure *)
Definition seen (l : loc) : Prop := match l with LSE i _ _ | LFE i _ _ => i < 4 | _ => True end.
Lemma lookup_ext T T' x : (forall j y, T j y = T' j y) -> lookup T x = lookup T' x.
Proof. intros H. unfold lookup. now rewrite !H. Qed.
Lemma wb_round_ext m m' s i : (forall l, seen l -> m l = m' l) -> wb_round m s i = wb_round m' s i.
Proof.
  intros H. destruct s as [[[x0 x1] x2] x3]. unfold wb_round. cbv zeta.
  assert (L : forall g : nat -> N -> loc, (forall j x, seen (g j x)) -> forall x, lookup (fun j y => m (g j y)) x = lookup (fun j y => m' (g j y)) x)
    by (intros g S x; apply lookup_ext; intros; now apply H).
  rewrite (L (LMM i 0)), (L (LMM i 1)), (L (LMM i 2)), (L (LTable i)), (L (LCC i)), (L (LDD i)) by (intros; exact I). reflexivity.
Qed.
Lemma wb_rounds_ext m m' is : (forall l, seen l -> m l = m' l) -> forall s, fold_left (wb_round m) is s = fold_left (wb_round m') is s.
Proof.
  intros H. induction is as [|i is IH]; intros s; cbn [fold_left]; [reflexivity|]. rewrite (wb_round_ext m m' s i H). apply IH.
Qed.
Lemma wbsm4_encrypt_ext r e e' a m m' b : (forall l, seen l -> m l = m' l) ->
  wbsm4_encrypt (mkwctx r e a m) b = wbsm4_encrypt (mkwctx r e' a m') b.
Proof.
  intros H. unfold wbsm4_encrypt. cbn [w_mem w_rounds w_alloc]. destruct (a <? r); [reflexivity|].
  assert (S : forall i x, i < 4 -> lookup (fun j x => m (LSE i j x)) x = lookup (fun j x => m' (LSE i j x)) x)
    by (intros; apply lookup_ext; intros; now apply H).
  assert (F : forall i x, i < 4 -> lookup (fun j x => m (LFE i j x)) x = lookup (fun j x => m' (LFE i j x)) x)
    by (intros; apply lookup_ext; intros; now apply H).
  rewrite !S by lia. rewrite (wb_rounds_ext m m' _ H). destruct (fold_left _ _ _) as [[[x0 x1] x2] x3]. now rewrite !F by lia.
Qed.

Lemma hupd_same h a v : hupd h a v a = v.
Proof. unfold hupd. now rewrite N.eqb_refl. Qed.
(** the structure after generation *)
Lemma ws_gen_inv rnd rs h s key h' s' : ws_gen_table rnd rs h s key = Ret (h', s') ->
  exists c c', ws_view h s = Ret c /\ wbsm4_gen_table rnd rs c key = Ret c' /\
    h' = hupd h (s_ptr s) (Some (w_alloc c', w_mem c')) /\ s' = mkws (s_rounds s) (s_encmode s) (s_ptr s) (w_mem c').
Proof.
  unfold ws_gen_table. destruct (ws_view h s) as [c| |] eqn:V; try discriminate. cbn [obind].
  destruct (wbsm4_gen_table rnd rs c key) as [c'| |] eqn:G; try discriminate. cbn [obind]. intros E. apply Ret_inj in E.
  exists c, c'. split; [reflexivity|]. split; [exact G|]. injection E as <- <-. split; reflexivity.
Qed.
(** generation keeps the number of rounds and the mode; its SE and FE tables depend on the random numbers only *)
Lemma gen_table_shape rnd rs c key c' : wbsm4_gen_table rnd rs c key = Ret c' ->
  w_rounds c' = w_rounds c /\ w_encmode c' = w_encmode c /\ w_alloc c' = w_alloc c.
Proof.
  unfold wbsm4_gen_table. destruct (genaffinepairs 32 36 rnd 0) as [[P pos]| |]; try discriminate. cbn [obind].
  destruct (gen_rounds P (seq 0 32) rnd pos) as [[R pos']| |]; try discriminate. cbn [obind].
  match goal with |- context [ofold ?f ?l ?s] => destruct (ofold f l s) as [[[[m fl] p] q]| |] end; try discriminate. cbn [obind]. intros E. apply Ret_inj in E. rewrite <- E. auto.
Qed.
Lemma gen_steps_same R rk rk' rnd l : forall m f p q m1 f1 p1 q1 m' m2 f2 p2 q2,
  ofold (gen_step R rk rnd) l (m, f, p, q) = Ret (m1, f1, p1, q1) ->
  ofold (gen_step R rk' rnd) l (m', f, p, q) = Ret (m2, f2, p2, q2) -> q1 = q2.
Proof.
  induction l as [|[i d] l IH]; intros m f p q m1 f1 p1 q1 m' m2 f2 p2 q2 E1 E2.
  - cbn [ofold] in *. apply Ret_inj in E1, E2. congruence.
  - cbn [ofold] in *. unfold gen_step at 1 in E1. unfold gen_step at 1 in E2. destruct (d =? 0)%N.
    + cbv zeta in E1, E2. match type of E1 with context [match ?o with Some _ => _ | None => Undef end] => destruct o as [r|] end; try discriminate. cbn [obind] in *.
      exact (IH _ _ _ _ _ _ _ _ _ _ _ _ _ E1 E2).
    + cbn [obind] in *. exact (IH _ _ _ _ _ _ _ _ _ _ _ _ _ E1 E2).
Qed.
Lemma gen_table_external rnd rs c1 k1 c1' c2 k2 c2' : w_rounds c1 = w_rounds c2 ->
  wbsm4_gen_table rnd rs c1 k1 = Ret c1' -> wbsm4_gen_table rnd rs c2 k2 = Ret c2' ->
  forall l, in_struct l = true -> seen l -> w_mem c1' l = w_mem c2' l.
Proof.
  intros HR E1 E2. unfold wbsm4_gen_table in E1, E2.
  destruct (genaffinepairs 32 36 rnd 0) as [[P pos]| |]; try discriminate. cbn [obind] in E1, E2.
  destruct (gen_rounds P (seq 0 32) rnd pos) as [[R pos']| |]; try discriminate. cbn [obind] in E1, E2.
  rewrite HR in E1.
  match type of E1 with context [ofold ?f ?l ?s] => destruct (ofold f l s) as [[[[m1 f1] p1] q1]| |] eqn:F1 end; try discriminate.
  match type of E2 with context [ofold ?f ?l ?s] => destruct (ofold f l s) as [[[[m2 f2] p2] q2]| |] eqn:F2 end; try discriminate. cbn [obind] in E1, E2.
  pose proof (gen_steps_same _ _ _ _ _ _ _ _ _ _ _ _ _ _ _ _ _ _ F1 F2) as Q. rewrite Q in E1.
  apply Ret_inj in E1, E2. intros l I S. rewrite <- E1, <- E2. cbn [w_mem]. unfold external.
  destruct l; try discriminate I; cbn [seen] in S; destruct (Nat.ltb_spec i 4); (reflexivity || lia).
Qed.

Lemma ws_conforms rnd rs junk h a em key : bytes key ->
  exists h1 s1, ws_gen_table rnd rs (fst (ws_init junk h a em 0)) (snd (ws_init junk h a em 0)) key = Ret (h1, s1) /\
    s_ptr s1 = a /\ s_rounds s1 = 32 /\ s_encmode s1 = em /\ (exists tab, h1 a = Some (32, tab)) /\
    forall b, block16 b -> ws_encrypt h1 s1 b = Ret (sm4_for em key b).
Proof.
  intros BK. cbn [ws_init fst snd]. unfold ws_gen_table, ws_view. cbn [s_ptr s_rounds s_encmode s_arrays]. rewrite hupd_same. cbn [obind].
  set (j := fun l => if in_struct l then junk l else junk l).
  change (mkwctx (32 + 4 * 0) em (32 + 4 * 0) j) with (wbsm4_context_init j em 0).
  destruct (wbsm4_conforms_lemma rnd rs j em key (repeat 0%N 16) BK) as (c & E & _).
  { split; [reflexivity|]. repeat constructor. }
  rewrite E. cbn [obind]. eexists _, _. split; [reflexivity|]. cbn [s_ptr s_rounds s_encmode]. split; [reflexivity|]. split; [reflexivity|]. split; [reflexivity|].
  destruct (gen_table_shape _ _ _ _ _ E) as (Sr & Se & Sa). unfold wbsm4_context_init in Sr, Se, Sa. cbn [w_rounds w_encmode w_alloc] in Sr, Se, Sa.
  split. { exists (w_mem c). rewrite hupd_same, Sa. reflexivity. }
  intros b Bb. unfold ws_encrypt, ws_view. cbn [s_ptr s_rounds s_encmode s_arrays]. rewrite hupd_same. cbn [obind].
  destruct (wbsm4_conforms_lemma rnd rs j em key b BK Bb) as (c' & E' & H). rewrite E in E'. apply Ret_inj in E'. subst c'.
  etransitivity; [|exact H]. rewrite Sa. destruct c as [r e al m]. cbn [w_rounds w_encmode w_alloc w_mem] in *. subst r e al.
  apply wbsm4_encrypt_ext. intros l _. now destruct (in_struct l).
Qed.

Lemma ws_free_encrypts_zero h s b : h 0%N = None -> ws_encrypt (fst (ws_context_free h s)) (snd (ws_context_free h s)) b = Ret (repeat 0%N 16).
Proof.
  intros H. unfold ws_encrypt, ws_view, ws_context_free. cbn [fst snd s_ptr s_rounds s_encmode s_arrays]. rewrite H. reflexivity.
Qed.
Lemma wbsm4_alias_lemma rnd rs junk h a em k1 k2 h1 s1 s0 rnd2 rs2 : bytes k1 -> bytes k2 ->
  ws_gen_table rnd rs (fst (ws_init junk h a em 0)) (snd (ws_init junk h a em 0)) k1 = Ret (h1, s1) ->
  let s2 := wbsm4_bytes2key s0 (wbsm4_key2bytes s1) in
  exists h2 s1', ws_gen_table rnd2 rs2 h1 s1 k2 = Ret (h2, s1') /\
    (rnd2 = rnd -> rs2 = rs -> forall b, block16 b -> ws_encrypt h2 s2 b = Ret (sm4_for em k2 b)).
Proof.
  intros B1 B2 E s2. subst s2. cbn [wbsm4_bytes2key wbsm4_key2bytes k_struct].
  destruct (ws_gen_inv _ _ _ _ _ _ _ E) as (c & c1 & V & G & -> & ->). cbn [ws_init fst snd s_ptr s_rounds s_encmode] in *.
  unfold ws_view in V. cbn [s_ptr s_rounds s_encmode s_arrays] in V. rewrite hupd_same in V. apply Ret_inj in V. subst c.
  destruct (gen_table_shape _ _ _ _ _ G) as (Sr & Se & Sa). cbn [w_rounds w_encmode w_alloc] in Sr, Se, Sa.
  unfold ws_gen_table, ws_view. cbn [s_ptr s_rounds s_encmode s_arrays]. rewrite !hupd_same. cbn [obind].
  set (j := fun l => if in_struct l then w_mem c1 l else w_mem c1 l). rewrite Sa.
  change (mkwctx (32 + 4 * 0) em (32 + 4 * 0) j) with (wbsm4_context_init j em 0).
  destruct (wbsm4_conforms_lemma rnd2 rs2 j em k2 (repeat 0%N 16) B2) as (c2 & E2 & _).
  { split; [reflexivity|]. repeat constructor. }
  rewrite E2. cbn [obind]. eexists _, _. split; [reflexivity|]. intros -> -> b Bb.
  destruct (gen_table_shape _ _ _ _ _ E2) as (Tr & Te & Ta). cbn [wbsm4_context_init w_rounds w_encmode w_alloc] in Tr, Te, Ta.
  unfold ws_encrypt, ws_view. cbn [s_ptr s_rounds s_encmode s_arrays]. rewrite !hupd_same. cbn [obind].
  destruct (wbsm4_conforms_lemma rnd rs j em k2 b B2 Bb) as (c' & E' & H). rewrite E2 in E'. apply Ret_inj in E'. subst c'.
  etransitivity; [|exact H]. 
  pose proof (fun R => gen_table_external rnd rs _ k1 c1 (wbsm4_context_init j em 0) k2 c2 R G E2) as X. specialize (X eq_refl).
  clearbody j. destruct c2 as [r e al m]. cbn [w_rounds w_encmode w_alloc w_mem] in *. subst r e al.
  apply wbsm4_encrypt_ext. intros l S. destruct (in_struct l) eqn:I; [|reflexivity]. now apply X.
Qed.
