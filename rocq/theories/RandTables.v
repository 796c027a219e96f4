(** * White-box tables over the real generator *)
From Verif Require Import Base Word32 CbcSpec Sm4Model Sm4Spec FpeModel MatModel MatSpec MatProofs GaussProofs ComProofs Wbsm4Model Wbsm4Proofs Wbsm4Enc Wbsm4Spec Wbsm4Thms KeyexModel KeyexProofs SewbModel SewbProofs AesSpec AesProofs WbaesModel WbaesProofs WbaesThms WbgcmModel WbgcmSpec WbgcmProofs WbgcmKeys RandModel RandProofs RandRefine.
From Coq Require Import ZArith.
Local Open Scope nat_scope.
Local Opaque MatMulVec MatMulNum MatMulMat genaffinepair genMatpair genPermutation affinemix affinecom4 genaffinepairs genMatpairs genPermutations permuteQPR.

(** ** Generation succeeds *)
Lemma s_genMatpair_ret n clk s : size n -> exists A B s', s_genMatpair n clk s = Ret (A, B, s').
Proof.
  intro S. unfold s_genMatpair. cbv zeta. destruct (genMatpair_lemma n (rng_stream (reseed clk (reseed clk s))) 0 S) as (A & B & p & E & _).
  rewrite E. cbn [obind]. eauto.
Qed.
Lemma s_genaffinepair_ret n clk s : size n -> exists a b s', s_genaffinepair n clk s = Ret (a, b, s').
Proof.
  intro S. unfold s_genaffinepair. destruct (s_genMatpair_ret n clk s S) as (A & B & s' & ->). cbn [obind].
  destruct (s_randV n clk s'). eauto.
Qed.
Lemma s_genaffinepairs_ret n clk : size n -> forall k s, exists l s', s_genaffinepairs n k clk s = Ret (l, s').
Proof.
  intro S. induction k as [|k IH]; intro s; cbn [s_genaffinepairs]; [eauto|].
  destruct (s_genaffinepair_ret n clk s S) as (a & b & s1 & ->). cbn [obind]. destruct (IH s1) as (l & s2 & ->). cbn [obind]. eauto.
Qed.
Lemma s_genMatpairs_ret n clk : size n -> forall k s, exists l s', s_genMatpairs n k clk s = Ret (l, s').
Proof.
  intro S. induction k as [|k IH]; intro s; cbn [s_genMatpairs]; [eauto|].
  destruct (s_genMatpair_ret n clk s S) as (a & b & s1 & ->). cbn [obind]. destruct (IH s1) as (l & s2 & ->). cbn [obind]. eauto.
Qed.
Lemma s_gen_round_ret P i clk s : exists r s', s_gen_round P i clk s = Ret (r, s').
Proof.
  unfold s_gen_round. destruct (s_genaffinepairs_ret 8 clk size8 4 s) as (E & s1 & ->). cbn [obind]. cbv zeta.
  destruct (s_genaffinepair_ret 32 clk s1 size32) as (Q & Q' & s2 & ->). cbn [obind]. destruct (cus_random s2). eauto.
Qed.
Lemma s_gen_rounds_ret P clk : forall is s, exists l s', s_gen_rounds P is clk s = Ret (l, s').
Proof.
  induction is as [|i is IH]; intro s; cbn [s_gen_rounds]; [eauto|].
  destruct (s_gen_round_ret P i clk s) as (r & s1 & ->). cbn [obind]. destruct (IH s1) as (l & s2 & ->). cbn [obind]. eauto.
Qed.

(** ** White-box SM4 *)
Definition l_draw (rnd : nat -> N) (pos : nat) : outcome (N * nat) := Ret (draw rnd pos, pos + 1).
Lemma lifts_draw : lifts l_draw (fun s => Ret (cus_random s)).
Proof.
  intros s v s' H. unfold cus_random in H. injection H as E _.
  exists [v]. assert (V : (v < 4294967296)%N) by (rewrite <- E; apply permuteQPR_lt, lxor_lt32; [apply w32_lt|reflexivity]).
  split; [constructor; [exact V|constructor]|]. intros rnd pos T. unfold l_draw. specialize (T 0 ltac:(cbn; lia)). rewrite Nat.add_0_r in T. cbn [nth] in T.
  rewrite T. reflexivity.
Qed.
Definition round_of (P : list (aff * aff)) (i : nat) (Eij : list (aff * aff)) (QQ : aff * aff) (temp_u32 : N) : wround :=
  let Ei_inv := affinecom4 8 (pair_snd Eij 0) (pair_snd Eij 1) (pair_snd Eij 2) (pair_snd Eij 3) in
  let M k := affinemix 32 Ei_inv (pair_snd P (i + 1 + k)) in
  let C := affinemix 32 (pair_fst P (i + 4)) (pair_snd P i) in
  let D := affinemix 32 (pair_fst P (i + 4)) (snd QQ) in
  let C := mkaff (a_mat C) (N.lxor (a_vec C) temp_u32) in
  let D := mkaff (a_mat D) (N.lxor (a_vec D) (N.lxor (a_vec (pair_fst P (i + 4))) temp_u32)) in
  mkwround Eij (fst QQ) M C D.
Lemma s_gen_round_l P i clk s : s_gen_round P i clk s =
  obind (s_genaffinepairs 8 4 clk s) (fun r => obind (s_genaffinepair 32 clk (snd r)) (fun q => obind (Ret (cus_random (snd q))) (fun t => Ret (round_of P i (fst r) (fst q) (fst t), snd t)))).
Proof.
  unfold s_gen_round. destruct (s_genaffinepairs 8 4 clk s) as [[E p]| |]; cbn [obind fst snd]; try reflexivity.
  destruct (s_genaffinepair 32 clk p) as [[[Q Q'] q]| |]; cbn [obind fst snd]; try reflexivity.
Qed.
Lemma lifts_gen_round P i clk : lifts (gen_round P i) (s_gen_round P i clk).
Proof.
  eapply lifts_ext; [| |apply (lifts_bind (genaffinepairs 8 4) (fun Eij => obnd (genaffinepair 32) (fun QQ => obnd l_draw (fun t _ pos => Ret (round_of P i Eij QQ t, pos))))
     (s_genaffinepairs 8 4 clk) (fun Eij s => obind (s_genaffinepair 32 clk s) (fun q => obind (Ret (cus_random (snd q))) (fun t => Ret (round_of P i Eij (fst q) (fst t), snd t)))))].
  - intros. unfold obnd, gen_round. destruct (genaffinepairs 8 4 rnd pos) as [[E p]| |]; cbn [obind fst snd]; try reflexivity.
    destruct (genaffinepair 32 rnd p) as [[[Q Q'] q]| |]; reflexivity.
  - intros. unfold s_gen_round. destruct (s_genaffinepairs 8 4 clk s) as [[E p]| |]; cbn [obind fst snd]; try reflexivity.
    destruct (s_genaffinepair 32 clk p) as [[[Q Q'] q]| |]; cbn [obind fst snd]; try reflexivity.
  - apply lifts_genaffinepairs.
  - intro Eij. apply (lifts_bind (genaffinepair 32) (fun QQ => obnd l_draw (fun t _ pos => Ret (round_of P i Eij QQ t, pos))) (s_genaffinepair 32 clk)
      (fun QQ s => obind (Ret (cus_random s)) (fun t => Ret (round_of P i Eij QQ (fst t), snd t)))).
    + apply lifts_genaffinepair.
    + intro QQ. apply (lifts_bind l_draw (fun t _ pos => Ret (round_of P i Eij QQ t, pos)) (fun s => Ret (cus_random s)) (fun t s => Ret (round_of P i Eij QQ t, s))).
      * apply lifts_draw.
      * intro t. apply lifts_ret.
Qed.
Lemma lifts_gen_rounds P clk : forall is, lifts (gen_rounds P is) (s_gen_rounds P is clk).
Proof.
  induction is as [|i is IH]; [apply lifts_ret|].
  eapply lifts_ext; [| |apply (lifts_bind (gen_round P i) (fun r => obnd (gen_rounds P is) (fun l _ pos => Ret (r :: l, pos))) (s_gen_round P i clk)
     (fun r s => obind (s_gen_rounds P is clk s) (fun x => Ret (r :: fst x, snd x))))].
  - intros. unfold obnd. cbn [gen_rounds]. destruct (gen_round P i rnd pos) as [[r p]| |]; cbn [obind fst snd]; try reflexivity.
    destruct (gen_rounds P is rnd p) as [[l q]| |]; reflexivity.
  - intros. cbn [s_gen_rounds]. destruct (s_gen_round P i clk s) as [[r p]| |]; cbn [obind fst snd]; try reflexivity.
    destruct (s_gen_rounds P is clk p) as [[l q]| |]; reflexivity.
  - apply lifts_gen_round.
  - intro r. apply (lifts_bind (gen_rounds P is) (fun l _ pos => Ret (r :: l, pos)) (s_gen_rounds P is clk) (fun l s => Ret (r :: l, s))); [exact IH|intro; apply lifts_ret].
Qed.
(** the sequence that starts with [l] and goes on as the generator does *)
Definition rnd_then (l : list N) (s : rng) (k : nat) : N := if k <? length l then nth k l 0%N else rng_stream s (k - length l).
Lemma tape_rnd_then l s : words l -> tape l (rnd_then l s) 0.
Proof.
  intros W k K. unfold draw, rnd_then. cbn [Nat.add]. rewrite (proj2 (Nat.ltb_lt _ _) K). apply N.mod_small. unfold words in W. rewrite Forall_forall in W. apply W, nth_In, K.
Qed.
Lemma draw_rnd_then l s k : draw (rnd_then l s) (length l + k) = draw (rng_stream s) k.
Proof. unfold draw, rnd_then. rewrite (proj2 (Nat.ltb_ge _ _)) by lia. do 2 f_equal. lia. Qed.

Section Shift.
  Variables (rnd rnd' : nat -> N) (n : nat).
  Hypothesis H : forall k, draw rnd' (n + k) = draw rnd k.
  Lemma mask_shift p j : mask rnd' (n + p) j = mask rnd p j.
  Proof. unfold mask. rewrite <- !Nat.add_assoc, !H. reflexivity. Qed.
  Lemma affine_entry_shift A p j x : affine_entry A rnd' (n + p) j x = affine_entry A rnd p j x.
  Proof. unfold affine_entry. now rewrite mask_shift. Qed.
  Lemma table_entry_shift r rk p j x : table_entry r rk rnd' (n + p) j x = table_entry r rk rnd p j x.
  Proof. unfold table_entry. now rewrite mask_shift. Qed.
  Definition simst (a b : (loc -> N) * bool * Z * nat) : Prop :=
    (forall l, fst (fst (fst a)) l = fst (fst (fst b)) l) /\ snd (fst (fst a)) = snd (fst (fst b)) /\ snd (fst a) = snd (fst b) /\ snd b = n + snd a.
  Definition simo (a b : outcome ((loc -> N) * bool * Z * nat)) : Prop :=
    match a, b with Ret x, Ret y => simst x y | Undef, Undef => True | Abort, Abort => True | _, _ => False end.
  Lemma gen_step_shift R rk a b id : simst a b -> simo (gen_step R rk rnd a id) (gen_step R rk rnd' b id).
  Proof.
    destruct a as [[[m f] pt] p]. destruct b as [[[m' f'] pt'] p']. intros (A & B & C & D). cbn [fst snd] in *. subst f' pt' p'.
    unfold gen_step. destruct id as [i d]. destruct (d =? 0)%N.
    - cbv zeta. match goal with |- context [match ?X with Some _ => _ | None => _ end] => destruct X as [r|]; [|exact I] end.
      repeat split; cbn [fst snd]; [|lia]. intro l. unfold real_round. rewrite <- !Nat.add_assoc. destruct l; rewrite ?affine_entry_shift, ?table_entry_shift, A; reflexivity.
    - repeat split; cbn [fst snd]. intro l. unfold dummy_round. destruct l; rewrite A; reflexivity.
  Qed.
  Lemma gen_fold_shift R rk : forall ids a b, simst a b -> simo (ofold (gen_step R rk rnd) ids a) (ofold (gen_step R rk rnd') ids b).
  Proof.
    induction ids as [|id ids IH]; intros a b S; cbn [ofold]; [exact S|].
    pose proof (gen_step_shift R rk a b id S) as G. destruct (gen_step R rk rnd a id), (gen_step R rk rnd' b id); cbn [simo] in G; try contradiction; cbn [obind]; auto.
  Qed.
  Lemma external_shift P p m m' l : (forall l, m l = m' l) -> external P rnd p m l = external P rnd' (n + p) m' l.
  Proof. intro M. unfold external. destruct l; rewrite ?affine_entry_shift, M; reflexivity. Qed.
End Shift.
(** two contexts that hold the same *)
Definition same_wctx (a b : wctx) : Prop :=
  w_rounds a = w_rounds b /\ w_encmode a = w_encmode b /\ w_alloc a = w_alloc b /\ forall l, w_mem a l = w_mem b l.
Lemma same_wctx_encrypt a b x : same_wctx a b -> wbsm4_encrypt a x = wbsm4_encrypt b x.
Proof. destruct a as [r e al m], b as [r' e' al' m']. intros (A & B & C & D). cbn in *. subst. apply wbsm4_encrypt_ext. intros l _. apply D. Qed.
Lemma s_wbsm4_instance clk s rs ctx key :
  exists rnd, match s_wbsm4_gen_table clk s rs ctx key, wbsm4_gen_table rnd rs ctx key with
              | Ret (c, _), Ret c' => same_wctx c c' | Undef, Undef => True | Abort, Abort => True | _, _ => False end.
Proof.
  unfold s_wbsm4_gen_table, wbsm4_gen_table. cbv zeta.
  destruct (s_genaffinepairs_ret 32 clk size32 36 (seed_time clk s)) as (P & s1 & E1). rewrite E1. cbn [obind].
  destruct (s_gen_rounds_ret P clk (seq 0 32) s1) as (R & s2 & E2). rewrite E2. cbn [obind].
  destruct (lifts_genaffinepairs 32 36 clk _ _ _ E1) as (l1 & W1 & R1). destruct (lifts_gen_rounds P clk (seq 0 32) _ _ _ E2) as (l2 & W2 & R2).
  assert (W : words (l1 ++ l2)) by (apply Forall_app; now split).
  exists (rnd_then (l1 ++ l2) s2). pose proof (tape_rnd_then (l1 ++ l2) s2 W) as T. apply tape_app in T. destruct T as [T1 T2].
  rewrite (R1 _ _ T1). cbn [obind]. rewrite (R2 _ _ T2). cbn [obind]. rewrite <- Nat.add_assoc, <- app_length. cbn [Nat.add].
  set (rk := sm4_init_key_mode _ _ _). set (ids := combine _ _).
  pose proof (gen_fold_shift (rng_stream s2) (rnd_then (l1 ++ l2) s2) (length (l1 ++ l2)) (draw_rnd_then _ _) R rk ids
     (w_mem ctx, false, 0%Z, 0) (w_mem ctx, false, 0%Z, length (l1 ++ l2))) as G.
  assert (S : simst (length (l1 ++ l2)) (w_mem ctx, false, 0%Z, 0) (w_mem ctx, false, 0%Z, length (l1 ++ l2))) by (repeat split; cbn [snd]; lia).
  specialize (G S). clear S.
  destruct (ofold (gen_step R rk (rng_stream s2)) ids (w_mem ctx, false, 0%Z, 0)) as [[[[m f] pt] p]| |];
  destruct (ofold (gen_step R rk (rnd_then (l1 ++ l2) s2)) ids (w_mem ctx, false, 0%Z, length (l1 ++ l2))) as [[[[m' f'] pt'] p']| |]; cbn [simo] in G; try contradiction; cbn [obind]; auto.
  destruct G as (A & B & C & D). cbn [fst snd] in *. subst p'. repeat split. intro l. cbn [w_mem]. apply external_shift; [apply draw_rnd_then|exact A].
Qed.
Lemma s_wbsm4_conforms_lemma : forall clk s rs junk em key b, bytes key -> block16 b ->
  exists ctx s', s_wbsm4_gen_table clk s rs (wbsm4_context_init junk em 0) key = Ret (ctx, s') /\ wbsm4_encrypt ctx b = Ret (sm4_for em key b).
Proof.
  intros clk s rs junk em key b K B. destruct (s_wbsm4_instance clk s rs (wbsm4_context_init junk em 0) key) as (rnd & I).
  destruct (wbsm4_conforms_lemma rnd rs junk em key b K B) as (c & E & X). rewrite E in I.
  destruct (s_wbsm4_gen_table clk s rs (wbsm4_context_init junk em 0) key) as [[c' s']| |]; try contradiction.
  exists c', s'. split; [reflexivity|]. now rewrite (same_wctx_encrypt _ _ _ I).
Qed.
(** ** SE-WBSM4 *)
Lemma s_se_instance clk s ctx key : exists rnd c s', s_se_gen_table clk s ctx key = Ret (c, s') /\ se_gen_table rnd ctx key = Ret c.
Proof.
  unfold s_se_gen_table, se_gen_table. cbv zeta.
  destruct (s_genaffinepairs_ret 32 clk size32 36 (seed_time clk s)) as (P & s1 & E1). rewrite E1. cbn [obind].
  destruct (lifts_genaffinepairs 32 36 clk _ _ _ E1) as (l1 & W1 & R1).
  exists (rnd_then l1 s1). rewrite (R1 _ _ (tape_rnd_then l1 s1 W1)). cbn [obind Nat.add].
  eexists; eexists. split; [reflexivity|]. set (rk := sm4_init_key_mode _ _ _).
  rewrite (map_ext (se_gen_round P rk (rnd_then l1 s1) (length l1)) (se_gen_round P rk (rng_stream s1) 0)); [reflexivity|].
  intro i. unfold se_gen_round. cbv zeta. rewrite <- !Nat.add_assoc, !draw_rnd_then. reflexivity.
Qed.
Lemma s_se_conforms_lemma : forall clk s ctx key, bytes key ->
  exists ctx' s', s_se_gen_table clk s ctx key = Ret (ctx', s') /\
    forall b, block16 b -> se_encrypt ctx' b = sm4_for (se_encmode ctx) key b /\ se_decrypt ctx' b = sm4_for (se_encmode ctx) key b.
Proof.
  intros clk s ctx key K. destruct (s_se_instance clk s ctx key) as (rnd & c & s' & E & F). exists c, s'. split; [exact E|].
  destruct (se_wbsm4_conforms_lemma rnd ctx key K) as (c' & F' & X). rewrite F in F'. injection F' as <-. exact X.
Qed.
