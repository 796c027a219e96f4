(** * What the seeding of the generator means for the tables *)
From Verif Require Import Base Word32 CbcSpec Sm4Model Sm4Spec FpeModel MatModel MatSpec MatProofs GaussProofs ComProofs Wbsm4Model Wbsm4Spec Wbsm4Proofs SewbModel GcmModel AesSpec AesProofs WbaesModel WbaesProofs WbgcmModel WbgcmSpec WbgcmProofs WbgcmKeys WbgcmTop RandModel RandProofs RandRefine RandTables RandEnc.
From Coq Require Import ZArith.
Local Open Scope nat_scope.
Local Opaque round_of MatMulVec MatMulNum MatMulMat genMatpair genPermutation genMatpairs genPermutations permuteQPR gen_tables affinemix affinecom4.

(** ** Two runs that read the same clock *)
Section Two.
  Variables clk clk' : nat -> N.
  (** the two states have the same randseed and will read the same seconds *)
  Definition aligned (s s' : rng) : Prop :=
    r_seed s = r_seed s' /\ forall k, w32 (clk (r_calls s + k)) = w32 (clk' (r_calls s' + k)).
  Definition alike (s s' : rng) : Prop := aligned s s' /\ r_index s = r_index s' /\ r_off s = r_off s'.
  Lemma aligned_next s s' i j i' j' r : aligned s s' -> aligned (mkrng i j r (S (r_calls s))) (mkrng i' j' r (S (r_calls s'))).
  Proof. intros [_ B]. split; [reflexivity|]. intro k. cbn [r_calls]. specialize (B (S k)). now rewrite !Nat.add_succ_r in B. Qed.
  Lemma alike_reseed s s' : aligned s s' -> alike (reseed clk s) (reseed clk' s').
  Proof.
    intros A. pose proof A as [E B]. specialize (B 0). rewrite !Nat.add_0_r in B. unfold reseed, InitRandom, alike. cbn [r_index r_off r_seed r_calls].
    rewrite E, B. split; [now apply aligned_next|auto].
  Qed.
  Lemma alike_seed_time s s' : aligned s s' -> alike (seed_time clk s) (seed_time clk' s').
  Proof.
    intros A. pose proof A as [E B]. specialize (B 0). rewrite !Nat.add_0_r in B. unfold seed_time, InitRandom, alike. cbn [r_index r_off r_seed r_calls].
    rewrite E, B. split; [now apply aligned_next|auto].
  Qed.
  Lemma alike_stream s s' : alike s s' -> forall n, rng_stream s n = rng_stream s' n.
  Proof. intros (_ & A & B) n. unfold rng_stream. now rewrite A, B. Qed.
  Lemma alike_adv s s' n : alike s s' -> alike (rng_adv s n) (rng_adv s' n).
  Proof. intros ([A B] & C & D). unfold alike, aligned, rng_adv. cbn [r_index r_off r_seed r_calls]. rewrite C, D. auto. Qed.
  (** results that agree, with states in the relation *)
  Definition sim {A} (R : rng -> rng -> Prop) (x y : outcome (A * rng)) : Prop :=
    match x, y with Ret (a, s), Ret (b, s') => a = b /\ R s s' | Undef, Undef => True | Abort, Abort => True | _, _ => False end.
  Lemma sim_bind {A B} R R' (x y : outcome (A * rng)) (f g : A -> rng -> outcome (B * rng)) :
    sim R x y -> (forall a s s', R s s' -> sim R' (f a s) (g a s')) -> sim R' (obind x (fun r => f (fst r) (snd r))) (obind y (fun r => g (fst r) (snd r))).
  Proof.
    destruct x as [[a s]| |], y as [[b s']| |]; cbn [sim obind fst snd]; try contradiction; auto. intros [-> H] F. now apply F.
  Qed.
  Lemma sim_local {A} (f : (nat -> N) -> nat -> outcome (A * nat)) s s' : local f -> (exists a p, f (rng_stream s) 0 = Ret (a, p)) -> alike s s' ->
    sim alike (obind (f (rng_stream s) 0) (fun r => Ret (fst r, rng_adv s (snd r)))) (obind (f (rng_stream s') 0) (fun r => Ret (fst r, rng_adv s' (snd r)))).
  Proof.
    intros L (a & p & E) H. destruct (L _ _ _ _ E) as [_ R]. rewrite E.
    rewrite (R (rng_stream s') 0) by (apply tape_drawn; intros k _; unfold draw; now rewrite (alike_stream _ _ H)).
    rewrite drawn_length, Nat.sub_0_r. cbn [obind fst snd sim Nat.add]. split; [reflexivity|]. now apply alike_adv.
  Qed.
  Lemma sim_weaken {A} (R R' : rng -> rng -> Prop) (x y : outcome (A * rng)) : (forall s s', R s s' -> R' s s') -> sim R x y -> sim R' x y.
  Proof. intro H. destruct x as [[a s]| |], y as [[b s']| |]; cbn; try tauto. intros [-> S]. auto. Qed.
  Lemma alike_aligned s s' : alike s s' -> aligned s s'. Proof. now intros [H _]. Qed.
  Lemma genMatpair_ret n rnd pos : size n -> exists a p, genMatpair n rnd pos = Ret (a, p).
  Proof. intro S. destruct (genMatpair_lemma n rnd pos S) as (A & B & p & E & _). rewrite E. eauto. Qed.
  Lemma sim_genMatpair n s s' : size n -> aligned s s' -> sim alike (s_genMatpair n clk s) (s_genMatpair n clk' s').
  Proof.
    intros S H. unfold s_genMatpair. cbv zeta.
    pose proof (sim_local (genMatpair n) _ _ (local_genMatpair n) (genMatpair_ret n _ 0 S) (alike_reseed _ _ (alike_aligned _ _ (alike_reseed _ _ H)))) as X.
    destruct (genMatpair n (rng_stream (reseed clk (reseed clk s))) 0) as [[[A B] p]| |], (genMatpair n (rng_stream (reseed clk' (reseed clk' s'))) 0) as [[[A' B'] p']| |]; exact X.
  Qed.
  Lemma sim_randV n s s' : aligned s s' -> sim alike (Ret (s_randV n clk s)) (Ret (s_randV n clk' s')).
  Proof.
    intros H. unfold s_randV. cbv zeta.
    pose proof (sim_local (l_randV n) _ _ (local_randV n) (ex_intro _ _ (ex_intro _ _ (f_equal Ret (surjective_pairing _)))) (alike_reseed _ _ H)) as X. unfold l_randV in X.
    destruct (randV n (rng_stream (reseed clk s)) 0), (randV n (rng_stream (reseed clk' s')) 0). exact X.
  Qed.
  Lemma sim_genaffinepair n s s' : size n -> aligned s s' -> sim alike (s_genaffinepair n clk s) (s_genaffinepair n clk' s').
  Proof.
    intros S H. unfold s_genaffinepair. pose proof (sim_genMatpair n s s' S H) as X.
    destruct (s_genMatpair n clk s) as [[[A B] t]| |], (s_genMatpair n clk' s') as [[[A' B'] t']| |]; cbn [sim obind] in *; try contradiction; auto.
    destruct X as [E X]. injection E as <- <-. pose proof (sim_randV n t t' (alike_aligned _ _ X)) as Y. destruct (s_randV n clk t), (s_randV n clk' t'). cbn in Y. destruct Y as [<- Y]. cbn. auto.
  Qed.
  Lemma sim_genaffinepairs n k : size n -> forall s s', aligned s s' -> sim aligned (s_genaffinepairs n k clk s) (s_genaffinepairs n k clk' s').
  Proof.
    intros S. induction k as [|k IH]; intros s s' H; cbn [s_genaffinepairs]; [now split|].
    pose proof (sim_genaffinepair n s s' S H) as X.
    destruct (s_genaffinepair n clk s) as [[[a b] t]| |], (s_genaffinepair n clk' s') as [[[a' b'] t']| |]; cbn [sim obind] in *; try contradiction; auto.
    destruct X as [E X]. injection E as <- <-. specialize (IH t t' (alike_aligned _ _ X)).
    destruct (s_genaffinepairs n k clk t) as [[l u]| |], (s_genaffinepairs n k clk' t') as [[l' u']| |]; cbn [sim obind] in *; try contradiction; auto.
    destruct IH as [-> IH]. auto.
  Qed.
  Lemma sim_genaffinepairs' n k s s' : size n -> aligned s s' -> sim alike (s_genaffinepairs n (S k) clk s) (s_genaffinepairs n (S k) clk' s').
  Proof.
    intros S. revert s s'. induction k as [|k IH]; intros s s' H.
    - cbn [s_genaffinepairs]. pose proof (sim_genaffinepair n s s' S H) as X.
      destruct (s_genaffinepair n clk s) as [[[a b] t]| |], (s_genaffinepair n clk' s') as [[[a' b'] t']| |]; cbn [sim obind] in *; try contradiction; auto.
      destruct X as [E X]. injection E as <- <-. auto.
    - cbn [s_genaffinepairs] in *. pose proof (sim_genaffinepair n s s' S H) as X.
      destruct (s_genaffinepair n clk s) as [[[a b] t]| |], (s_genaffinepair n clk' s') as [[[a' b'] t']| |]; cbn [sim obind] in *; try contradiction; auto.
      destruct X as [E X]. injection E as <- <-. specialize (IH t t' (alike_aligned _ _ X)).
      match goal with |- context [obind (obind ?x ?f) ?g] => destruct (obind x f) as [[l u]| |] end;
      match goal with |- context [obind (obind ?x ?f) ?g] => destruct (obind x f) as [[l' u']| |] end; cbn [sim obind] in *; try contradiction; auto.
      destruct IH as [-> IH]. auto.
  Qed.
  Lemma sim_genMatpairs n k : size n -> forall s s', aligned s s' -> sim aligned (s_genMatpairs n k clk s) (s_genMatpairs n k clk' s').
  Proof.
    intros S. induction k as [|k IH]; intros s s' H; cbn [s_genMatpairs]; [now split|].
    pose proof (sim_genMatpair n s s' S H) as X.
    destruct (s_genMatpair n clk s) as [[[a b] t]| |], (s_genMatpair n clk' s') as [[[a' b'] t']| |]; cbn [sim obind] in *; try contradiction; auto.
    destruct X as [E X]. injection E as <- <-. specialize (IH t t' (alike_aligned _ _ X)).
    destruct (s_genMatpairs n k clk t) as [[l u]| |], (s_genMatpairs n k clk' t') as [[l' u']| |]; cbn [sim obind] in *; try contradiction; auto.
    destruct IH as [-> IH]. auto.
  Qed.
  Lemma alike_cus_random s s' : alike s s' -> fst (cus_random s) = fst (cus_random s') /\ alike (snd (cus_random s)) (snd (cus_random s')).
  Proof. intros ([A B] & C & D). unfold cus_random, alike, aligned. cbn [fst snd r_index r_off r_seed r_calls]. rewrite C, D. auto. Qed.
  Lemma sim_gen_round P i s s' : aligned s s' -> sim alike (s_gen_round P i clk s) (s_gen_round P i clk' s').
  Proof.
    intros H. rewrite (s_gen_round_l P i clk s), (s_gen_round_l P i clk' s').
    apply (sim_bind aligned _ _ _ (fun E z => obind (s_genaffinepair 32 clk z) (fun q => obind (Ret (cus_random (snd q))) (fun t => Ret (round_of P i E (fst q) (fst t), snd t))))
      (fun E z => obind (s_genaffinepair 32 clk' z) (fun q => obind (Ret (cus_random (snd q))) (fun t => Ret (round_of P i E (fst q) (fst t), snd t))))).
    { apply sim_genaffinepairs; [exact size8|exact H]. }
    intros E t t' X. apply (sim_bind alike _ _ _ (fun q z => obind (Ret (cus_random z)) (fun t => Ret (round_of P i E q (fst t), snd t))) (fun q z => obind (Ret (cus_random z)) (fun t => Ret (round_of P i E q (fst t), snd t)))).
    { apply sim_genaffinepair; [exact size32|exact X]. }
    intros q u u' Y. destruct (alike_cus_random _ _ Y) as [Z Z']. destruct (cus_random u) as [v w], (cus_random u') as [v' w']. cbn [fst snd obind] in *. rewrite Z. split; [reflexivity|exact Z'].
  Qed.
  Lemma sim_gen_rounds P : forall is s s', alike s s' -> sim alike (s_gen_rounds P is clk s) (s_gen_rounds P is clk' s').
  Proof.
    induction is as [|i is IH]; intros s s' H; cbn [s_gen_rounds]; [now split|]. pose proof (sim_gen_round P i s s' (alike_aligned _ _ H)) as X.
    destruct (s_gen_round P i clk s) as [[r t]| |], (s_gen_round P i clk' s') as [[r' t']| |]; cbn [sim obind] in *; try contradiction; auto. destruct X as [<- X].
    specialize (IH t t' X).
    destruct (s_gen_rounds P is clk t) as [[l u]| |], (s_gen_rounds P is clk' t') as [[l' u']| |]; cbn [sim obind] in *; try contradiction; auto.
    destruct IH as [-> IH]. auto.
  Qed.
  Lemma sim_wbsm4 s s' rs ctx key : aligned s s' ->
    match s_wbsm4_gen_table clk s rs ctx key, s_wbsm4_gen_table clk' s' rs ctx key with
    | Ret (c, t), Ret (c', t') => same_wctx c c' /\ alike t t' | Undef, Undef => True | Abort, Abort => True | _, _ => False end.
  Proof.
    intros H. unfold s_wbsm4_gen_table. cbv zeta. pose proof (sim_genaffinepairs' 32 35 _ _ size32 (alike_aligned _ _ (alike_seed_time _ _ H))) as X.
    destruct (s_genaffinepairs 32 36 clk (seed_time clk s)) as [[P t]| |], (s_genaffinepairs 32 36 clk' (seed_time clk' s')) as [[P' t']| |]; cbn [sim obind] in *; try contradiction; auto. destruct X as [<- X].
    pose proof (sim_gen_rounds P (seq 0 32) t t' X) as Y.
    destruct (s_gen_rounds P (seq 0 32) clk t) as [[R u]| |], (s_gen_rounds P (seq 0 32) clk' t') as [[R' u']| |]; cbn [sim obind] in *; try contradiction; auto. destruct Y as [<- Y].
    set (rk := sm4_init_key_mode _ _ _). set (ids := combine _ _).
    assert (D : forall k, draw (rng_stream u') (0 + k) = draw (rng_stream u) k) by (intro k; unfold draw; now rewrite (alike_stream _ _ Y)).
    pose proof (gen_fold_shift (rng_stream u) (rng_stream u') 0 D R rk ids (w_mem ctx, false, 0%Z, 0) (w_mem ctx, false, 0%Z, 0) ltac:(repeat split)) as G.
    destruct (ofold (gen_step R rk (rng_stream u)) ids (w_mem ctx, false, 0%Z, 0)) as [[[[m f] pt] p]| |];
    destruct (ofold (gen_step R rk (rng_stream u')) ids (w_mem ctx, false, 0%Z, 0)) as [[[[m' f'] pt'] p']| |]; cbn [simo] in G; try contradiction; cbn [obind]; auto.
    destruct G as (A & _ & _ & E). cbn [fst snd Nat.add] in *. subst p'. split; [|now apply alike_adv]. repeat split. intro l. cbn [w_mem].
    exact (external_shift (rng_stream u) (rng_stream u') 0 D P p m m' l A).
  Qed.
  Lemma sim_se s s' ctx key : aligned s s' -> sim alike (s_se_gen_table clk s ctx key) (s_se_gen_table clk' s' ctx key).
  Proof.
    intros H. unfold s_se_gen_table. cbv zeta. pose proof (sim_genaffinepairs' 32 35 _ _ size32 (alike_aligned _ _ (alike_seed_time _ _ H))) as X.
    destruct (s_genaffinepairs 32 36 clk (seed_time clk s)) as [[P t]| |], (s_genaffinepairs 32 36 clk' (seed_time clk' s')) as [[P' t']| |]; cbn [sim obind] in *; try contradiction; auto. destruct X as [<- X].
    set (rk := sm4_init_key_mode _ _ _).
    rewrite (map_ext (se_gen_round P rk (rng_stream t) 0) (se_gen_round P rk (rng_stream t') 0)); [split; [reflexivity|now apply alike_adv]|].
    intro i. unfold se_gen_round. cbv zeta. unfold draw. rewrite !(alike_stream _ _ X). reflexivity.
  Qed.
  Lemma sim_encodings {A} (fin : fin_t A) junk junk' s s' : local (l_fin fin) -> aligned s s' ->
    sim alike (s_gen_encodings clk s junk fin) (s_gen_encodings clk' s' junk' fin).
  Proof.
    intros L H. rewrite (s_gen_encodings_l fin junk clk s), (s_gen_encodings_l fin junk' clk' s').
    apply (sim_bind aligned _ _ _ (fun Ls z => obind (s_genMatpairs 32 36 clk z) (fun r2 => obind (s_genMatpairs 8 32 clk (snd r2)) (fun r3 => obind (s_seg (l_nib fin) clk (snd r3)) (fun r => Ret (put_enc Ls (fst r2) (fst r3) (fst r), snd r)))))
      (fun Ls z => obind (s_genMatpairs 32 36 clk' z) (fun r2 => obind (s_genMatpairs 8 32 clk' (snd r2)) (fun r3 => obind (s_seg (l_nib fin) clk' (snd r3)) (fun r => Ret (put_enc Ls (fst r2) (fst r3) (fst r), snd r)))))).
    { apply sim_genMatpairs; [exact size8|exact H]. }
    intros Ls t t' X. apply (sim_bind aligned _ _ _ (fun MBs z => obind (s_genMatpairs 8 32 clk z) (fun r3 => obind (s_seg (l_nib fin) clk (snd r3)) (fun r => Ret (put_enc Ls MBs (fst r3) (fst r), snd r))))
      (fun MBs z => obind (s_genMatpairs 8 32 clk' z) (fun r3 => obind (s_seg (l_nib fin) clk' (snd r3)) (fun r => Ret (put_enc Ls MBs (fst r3) (fst r), snd r))))).
    { apply sim_genMatpairs; [exact size32|exact X]. }
    intros MBs u u' Y. apply (sim_bind aligned _ _ _ (fun exs z => obind (s_seg (l_nib fin) clk z) (fun r => Ret (put_enc Ls MBs exs (fst r), snd r)))
      (fun exs z => obind (s_seg (l_nib fin) clk' z) (fun r => Ret (put_enc Ls MBs exs (fst r), snd r)))).
    { apply sim_genMatpairs; [exact size8|exact Y]. }
    intros exs v v' Z. apply (sim_bind alike alike _ _ (fun x z => Ret (put_enc Ls MBs exs x, z)) (fun x z => Ret (put_enc Ls MBs exs x, z))).
    - unfold s_seg. cbv zeta. apply sim_local; [now apply local_nib| |now apply alike_seed_time].
      unfold l_nib, obnd, l_perms, l_fin. cbn [obind fst snd]. match goal with |- context [fin ?a ?b] => destruct (fin a b) as [ins [a0 p3]] end. cbn [obind]. eauto.
    - intros x z z' W. now split.
  Qed.
End Two.

(** ** How often the clock is read *)
Lemma calls_genMatpair n clk s A B s' : s_genMatpair n clk s = Ret (A, B, s') -> r_calls s' = r_calls s + 2.
Proof.
  unfold s_genMatpair. cbv zeta. destruct (genMatpair n (rng_stream (reseed clk (reseed clk s))) 0) as [[[A' B'] p]| |]; try discriminate. cbn [obind].
  intro E. apply Ret_inj in E. injection E as _ _ <-. cbn [rng_adv reseed InitRandom r_calls]. lia.
Qed.
Lemma calls_genMatpairs n clk : forall k s l s', s_genMatpairs n k clk s = Ret (l, s') -> r_calls s' = r_calls s + 2 * k.
Proof.
  induction k as [|k IH]; intros s l s' E; cbn [s_genMatpairs] in E.
  - apply Ret_inj in E. injection E as _ <-. lia.
  - destruct (s_genMatpair n clk s) as [[[A B] t]| |] eqn:F; try discriminate. cbn [obind] in E. apply calls_genMatpair in F.
    destruct (s_genMatpairs n k clk t) as [[l' u]| |] eqn:G; try discriminate. cbn [obind] in E. apply Ret_inj in E. injection E as _ <-.
    apply IH in G. lia.
Qed.
(** the sequence after InitRandom((unsigned int) time(NULL)) at time T *)
Definition clock_stream (T : N) : nat -> N := rng_stream (InitRandom (w32 T) rng0).
Lemma seed_time_stream clk s : forall n, rng_stream (seed_time clk s) n = clock_stream (clk (r_calls s)) n.
Proof. reflexivity. Qed.
Lemma nib_of {A} (fin : fin_t A) junk clk s e a s' : local (l_fin fin) -> s_gen_encodings clk s junk fin = Ret (e, a, s') ->
  r_calls s' = r_calls s + 425 /\
  exists Ls MBs exs x p, l_nib fin (clock_stream (clk (r_calls s + 424))) 0 = Ret (x, p) /\ (e, a) = put_enc Ls MBs exs x.
Proof.
  intros L. rewrite s_gen_encodings_l. destruct (s_genMatpairs 8 144 clk s) as [[Ls s1]| |] eqn:E1; try discriminate. cbn [obind fst snd].
  destruct (s_genMatpairs 32 36 clk s1) as [[MBs s2]| |] eqn:E2; try discriminate. cbn [obind fst snd].
  destruct (s_genMatpairs 8 32 clk s2) as [[exs s3]| |] eqn:E3; try discriminate. cbn [obind fst snd].
  apply calls_genMatpairs in E1, E2, E3. assert (C : r_calls s3 = r_calls s + 424) by lia. clear E1 E2 E3. unfold s_seg. cbv zeta.
  destruct (l_nib fin (rng_stream (seed_time clk s3)) 0) as [[x p]| |] eqn:F; try discriminate. cbn [obind fst snd]. intro E. apply Ret_inj in E.
  split; [apply (f_equal snd) in E; cbn [snd] in E; rewrite <- E; cbn [rng_adv seed_time InitRandom r_calls]; lia|].
  exists Ls, MBs, exs, x, p. split; [|now apply (f_equal fst) in E].
  destruct (local_nib fin L _ _ _ _ F) as [_ R]. rewrite (R (clock_stream (clk (r_calls s + 424))) 0).
  - rewrite drawn_length. do 2 f_equal. lia.
  - apply tape_drawn. intros k _. unfold draw. rewrite seed_time_stream, C. reflexivity.
Qed.
(** ** The nibble encodings of white-box AES are a function of one reading of the clock *)
Definition same_nibbles (e e' : encodings) : Prop :=
  e_II e = e_II e' /\ e_III e = e_III e' /\ e_IV_II1 e = e_IV_II1 e' /\ e_IV_III1 e = e_IV_III1 e' /\
  e_IV_II2 e = e_IV_II2 e' /\ e_IV_III2 e = e_IV_III2 e' /\ e_in e = e_in e'.
Lemma wbaes_nibbles_lemma clk clk' s s' junk junk' key key' ctx ctx' e e' t t' :
  s_wbaes_gen_table clk s junk key = Ret (ctx, e, t) -> s_wbaes_gen_table clk' s' junk' key' = Ret (ctx', e', t') ->
  w32 (clk (r_calls s + 424)) = w32 (clk' (r_calls s' + 424)) -> same_nibbles e e'.
Proof.
  unfold s_wbaes_gen_table. destruct (length key <? 16); [discriminate|]. destruct (length key' <? 16); [discriminate|]. cbv zeta.
  destruct (s_gen_encodings clk s junk (s_fin_wbaes junk)) as [[[e0 a] t0]| |] eqn:E; try discriminate.
  destruct (s_gen_encodings clk' s' junk' (s_fin_wbaes junk')) as [[[e0' a'] t0']| |] eqn:E'; try discriminate. cbn [obind].
  intros X X' C. apply Ret_inj in X, X'. apply (f_equal fst) in X, X'. cbn [fst] in X, X'. apply (f_equal snd) in X, X'. cbn [snd] in X, X'. subst e0 e0'.
  destruct (nib_of _ _ _ _ _ _ _ (local_fin_mask junk) E) as (_ & Ls & MBs & exs & x & p & F & G).
  destruct (nib_of _ _ _ _ _ _ _ (local_fin_mask junk') E') as (_ & Ls' & MBs' & exs' & x' & p' & F' & G').
  unfold clock_stream in F, F'. rewrite C in F.
  assert (FF : forall rnd, l_nib (s_fin_wbaes junk) rnd 0 = l_nib (s_fin_wbaes junk') rnd 0).
  { intro rnd. unfold l_nib, obnd, l_perms, l_fin, s_fin_wbaes. cbn [obind fst snd].
    match goal with |- context [fin_mask ?r junk ?q] => rewrite (fin_mask_junk r junk q), (fin_mask_junk r junk' q) end. reflexivity. }
  rewrite FF in F. rewrite F in F'. apply Ret_inj in F'. injection F' as <- _.
  destruct x as [[[o o1] o2] [ins b]]. cbn [put_enc] in G, G'. injection G as -> _. injection G' as -> _.
  unfold same_nibbles, enc_of. cbn. repeat split.
Qed.
(** ** The masks of the variant mask too *)
Definition clock_mask (T : N) (i : nat) : N := (draw (clock_stream T) i mod 256)%N.
Lemma s_mask_aes_calls clk s junk key T ib s' : s_mask_gen_aes clk s junk key = Ret (T, ib, s') -> r_calls s' = r_calls s + 425.
Proof.
  unfold s_mask_gen_aes. destruct (length key <? 16); [discriminate|]. cbv zeta.
  destruct (s_gen_encodings clk s junk (s_fin_wbaes junk)) as [[[e0 a] t0]| |] eqn:E; try discriminate. cbn [obind]. intro X. apply Ret_inj in X. apply (f_equal snd) in X. cbn [snd] in X. subst t0.
  now destruct (nib_of _ _ _ _ _ _ _ (local_fin_mask junk) E).
Qed.
Lemma list16' (l : list N) : length l = 16 -> map (get l) (seq 0 16) = l.
Proof. intro L. do 17 (destruct l as [|? l]; try discriminate). reflexivity. Qed.
Lemma mask_clock_lemma clk s junk key ce cd s' : bytes key -> s_mask_gen_table clk s junk key = Ret (ce, cd, s') ->
  forall b, block16 b ->
    mask_aux ce b = map (fun i => N.lxor (get (aes_encrypt (firstn 16 key) b) i) (clock_mask (clk (r_calls s + 946)) i)) (seq 0 16) /\
    mask_aux cd b = map (fun i => N.lxor (get (aes_encrypt (firstn 16 key) b) i) (clock_mask (clk (r_calls s + 947)) i)) (seq 0 16).
Proof.
  intros BK. unfold s_mask_gen_table. destruct (Nat.lt_ge_cases (length key) 16) as [L|LK].
  { unfold s_mask_gen_aes at 1. rewrite (proj2 (Nat.ltb_lt _ _) L). discriminate. }
  destruct (s_mask_aes_ok clk s (junk 0) key BK LK) as (T & ib & s1 & E1 & H1). rewrite E1. cbn [obind].
  destruct (s_mask_aes_ok clk s1 (junk 1) key BK LK) as (T' & ib' & s2 & E2 & H2). rewrite E2. cbn [obind]. unfold s_mask_gen_gcm.
  apply s_mask_aes_calls in E1, E2.
  destruct (s_genMatpairs_ret 8 clk size8 48 s2) as (Ls & s3 & E3). rewrite E3. cbn [obind]. apply calls_genMatpairs in E3.
  assert (C : r_calls s3 = r_calls s + 946) by lia. clear E1 E2 E3.
  destruct (genPermutations 256 64 (rng_stream s3) (junk 2) 0) as [Ns q2]. cbv zeta.
  unfold s_genRandomMask. cbv zeta. set (sa := seed_time clk (rng_adv s3 q2)). set (sb := seed_time clk (rng_adv sa 16)).
  intro E. apply Ret_inj in E. apply (f_equal fst) in E. cbn [fst] in E.
  pose proof (f_equal fst E) as Ee. pose proof (f_equal snd E) as Ed. cbn [fst snd] in Ee, Ed. clear E. rewrite <- Ee, <- Ed. clear Ee Ed.
  assert (MA : forall i, genRandomMask (rng_stream sa) 0 i = clock_mask (clk (r_calls s + 946)) i).
  { intro i. unfold genRandomMask, clock_mask, draw. cbn [Nat.add]. unfold sa. rewrite seed_time_stream. cbn [rng_adv r_calls]. now rewrite C. }
  assert (MB : forall i, genRandomMask (rng_stream sb) 0 i = clock_mask (clk (r_calls s + 947)) i).
  { intro i. unfold genRandomMask, clock_mask, draw. cbn [Nat.add]. unfold sb. rewrite seed_time_stream. unfold sa. cbn [rng_adv seed_time InitRandom r_calls]. rewrite C. replace (S (r_calls s + 946)) with (r_calls s + 947) by lia. reflexivity. }
  intros b Bb. unfold mask_aux. cbn [mk_t mk_Ib]. split; apply map_ext_in; intros i I; apply in_seq in I; cbn [fst snd].
  - rewrite MA, (H1 b i Bb) by lia. reflexivity.
  - rewrite MB, (H2 b i Bb) by lia. reflexivity.
Qed.
