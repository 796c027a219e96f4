(** * White-box AES tables over the real generator *)
From Verif Require Import Base Word32 CbcSpec Sm4Model Sm4Spec FpeModel MatModel MatSpec MatProofs GaussProofs ComProofs Wbsm4Proofs AesSpec AesProofs WbaesModel WbaesProofs WbgcmModel WbgcmSpec WbgcmProofs WbgcmKeys RandModel RandProofs RandRefine RandTables.
From Coq Require Import ZArith.
Local Open Scope nat_scope.
Local Opaque MatMulVec MatMulNum MatMulMat genMatpair genPermutation genMatpairs genPermutations permuteQPR s_genMatpairs gen_tables.

Definition mats := list (list N * list N).
Definition enc_of (Ls MBs exs : mats) (o o1 o2 ins : mats) : encodings :=
  mkenc
    (fun i j => pr Ls (16 * i + j)) (fun i j => pr MBs (4 * i + j)) (fun i => pr exs (2 * i)) (fun i => pr exs (2 * i + 1))
    (fun i j k => pr o (2 * (128 * i + 8 * j + k))) (fun i j k => pr o (2 * (128 * i + 8 * j + k) + 1))
    (fun i j k => pr o1 (2 * (64 * i + 8 * j + k))) (fun i j k => pr o1 (2 * (64 * i + 8 * j + k) + 1))
    (fun i j k => pr o2 (2 * (32 * i + 8 * j + k))) (fun i j k => pr o2 (2 * (32 * i + 8 * j + k) + 1))
    (fun i j => pr ins (2 * i + j)).
Definition fin_t A := (nat -> N) -> nat -> mats * (A * nat).
Definition l_fin {A} (fin : fin_t A) rnd pos : outcome (mats * A * nat) := let '(ins, (a, p)) := fin rnd pos in Ret (ins, a, p).
(** the permutations of one key schedule *)
Definition l_nib {A} (fin : fin_t A) : (nat -> N) -> nat -> outcome (mats * mats * mats * (mats * A) * nat) :=
  obnd (l_perms 16 2304) (fun o => obnd (l_perms 16 1152) (fun o1 => obnd (l_perms 16 576) (fun o2 => obnd (l_fin fin) (fun r _ pos => Ret (o, o1, o2, r, pos))))).
Definition put_enc {A} (Ls MBs exs : mats) (x : mats * mats * mats * (mats * A)) : encodings * A :=
  let '(o, o1, o2, (ins, a)) := x in (enc_of Ls MBs exs o o1 o2 ins, a).
Definition l_enc {A} (fin : fin_t A) : (nat -> N) -> nat -> outcome (encodings * A * nat) :=
  obnd (genMatpairs 8 144) (fun Ls => obnd (genMatpairs 32 36) (fun MBs => obnd (genMatpairs 8 32) (fun exs =>
  obnd (l_nib fin) (fun x _ pos => Ret (put_enc Ls MBs exs x, pos))))).
Lemma local_nib {A} (fin : fin_t A) : local (l_fin fin) -> local (l_nib fin).
Proof. intro H. unfold l_nib. repeat (apply local_bind; [apply local_perms || exact H|intro]). apply local_ret. Qed.
Definition s_seg {A} (f : (nat -> N) -> nat -> outcome (A * nat)) (clk : nat -> N) (s : rng) : outcome (A * rng) :=
  let s := seed_time clk s in obind (f (rng_stream s) 0) (fun r => Ret (fst r, rng_adv s (snd r))).
Lemma s_gen_encodings_l {A} (fin : fin_t A) junk clk s :
  s_gen_encodings clk s junk fin =
  obind (s_genMatpairs 8 144 clk s) (fun r1 => obind (s_genMatpairs 32 36 clk (snd r1)) (fun r2 => obind (s_genMatpairs 8 32 clk (snd r2)) (fun r3 =>
  obind (s_seg (l_nib fin) clk (snd r3)) (fun r => Ret (put_enc (fst r1) (fst r2) (fst r3) (fst r), snd r))))).
Proof.
  unfold s_gen_encodings. destruct (s_genMatpairs 8 144 clk s) as [[Ls s1]| |]; cbn [obind fst snd]; try reflexivity.
  destruct (s_genMatpairs 32 36 clk s1) as [[MBs s2]| |]; cbn [obind fst snd]; try reflexivity.
  destruct (s_genMatpairs 8 32 clk s2) as [[exs s3]| |]; cbn [obind fst snd]; try reflexivity.
  unfold s_seg. cbv zeta. generalize (seed_time clk s3). intro s4. unfold nibble_encodings, l_nib, obnd, l_perms, l_fin. cbn [obind fst snd]. rewrite (genPermutations_junk _ _ _ junk).
  destruct (genPermutations 16 2304 (rng_stream s4) junk0 0) as [o p]. cbn [fst snd]. rewrite (genPermutations_junk _ _ _ junk).
  destruct (genPermutations 16 1152 (rng_stream s4) junk0 p) as [o1 p1]. cbn [fst snd]. rewrite (genPermutations_junk _ _ _ junk).
  destruct (genPermutations 16 576 (rng_stream s4) junk0 p1) as [o2 p2]. cbn [fst snd].
  destruct (fin (rng_stream s4) p2) as [ins [a p3]]. reflexivity.
Qed.
Lemma lifts_enc {A} (fin : fin_t A) junk clk : local (l_fin fin) ->
  lifts (l_enc fin) (fun s => s_gen_encodings clk s junk fin).
Proof.
  intros H. eapply lifts_ext; [intros; reflexivity| |].
  2: { apply (lifts_bind (genMatpairs 8 144) (fun Ls => obnd (genMatpairs 32 36) (fun MBs => obnd (genMatpairs 8 32) (fun exs => obnd (l_nib fin) (fun x _ pos => Ret (put_enc Ls MBs exs x, pos)))))
      (s_genMatpairs 8 144 clk) (fun Ls s => obind (s_genMatpairs 32 36 clk s) (fun r => obind (s_genMatpairs 8 32 clk (snd r)) (fun r2 =>
        obind ((s_seg (l_nib fin) clk) (snd r2)) (fun r3 => Ret (put_enc Ls (fst r) (fst r2) (fst r3), snd r3)))))).
    - apply lifts_genMatpairs.
    - intro Ls. apply (lifts_bind (genMatpairs 32 36) (fun MBs => obnd (genMatpairs 8 32) (fun exs => obnd (l_nib fin) (fun x _ pos => Ret (put_enc Ls MBs exs x, pos)))) (s_genMatpairs 32 36 clk)
        (fun MBs s => obind (s_genMatpairs 8 32 clk s) (fun r2 =>
        obind ((s_seg (l_nib fin) clk) (snd r2)) (fun r3 => Ret (put_enc Ls MBs (fst r2) (fst r3), snd r3))))).
      + apply lifts_genMatpairs.
      + intro MBs. apply (lifts_bind (genMatpairs 8 32) (fun exs => obnd (l_nib fin) (fun x _ pos => Ret (put_enc Ls MBs exs x, pos))) (s_genMatpairs 8 32 clk)
        (fun exs s => obind ((s_seg (l_nib fin) clk) s) (fun r3 => Ret (put_enc Ls MBs exs (fst r3), snd r3)))).
        * apply lifts_genMatpairs.
        * intro exs. apply (lifts_bind (l_nib fin) (fun x _ pos => Ret (put_enc Ls MBs exs x, pos)) (s_seg (l_nib fin) clk)
            (fun x s => Ret (put_enc Ls MBs exs x, s))).
          -- apply (lifts_seg (l_nib fin) (seed_time clk)). now apply local_nib.
          -- intro x. apply lifts_ret. }
  intro s. symmetry. apply s_gen_encodings_l.
Qed.
(** [gen_encodings] is the first of them, at draw 0 *)
Lemma gen_encodings_l {A B} (fin : fin_t A) (fin' : nat -> mats * B) rnd junk (f : A * nat -> B) :
  (forall p, fin' p = (fst (fin rnd p), f (snd (fin rnd p)))) ->
  gen_encodings rnd junk fin' = obind (l_enc fin rnd 0) (fun r => Ret (fst (fst r), f (snd (fst r), snd r))).
Proof.
  intro H. unfold gen_encodings, l_enc, obnd.
  destruct (genMatpairs 8 144 rnd 0) as [[Ls s1]| |]; cbn [obind fst snd]; try reflexivity.
  destruct (genMatpairs 32 36 rnd s1) as [[MBs s2]| |]; cbn [obind fst snd]; try reflexivity.
  destruct (genMatpairs 8 32 rnd s2) as [[exs s3]| |]; cbn [obind fst snd]; try reflexivity.
  unfold l_nib, obnd, l_perms, l_fin. cbn [obind fst snd]. rewrite (genPermutations_junk _ _ _ junk).
  destruct (genPermutations 16 2304 rnd junk0 s3) as [o p]. cbn [fst snd]. rewrite (genPermutations_junk _ _ _ junk).
  destruct (genPermutations 16 1152 rnd junk0 p) as [o1 p1]. cbn [fst snd]. rewrite (genPermutations_junk _ _ _ junk).
  destruct (genPermutations 16 576 rnd junk0 p1) as [o2 p2]. cbn [fst snd obind]. rewrite H.
  destruct (fin rnd p2) as [ins [a p3]]. reflexivity.
Qed.
Lemma s_gen_encodings_ret {A} (fin : fin_t A) junk clk s : exists e a s', s_gen_encodings clk s junk fin = Ret (e, a, s').
Proof.
  unfold s_gen_encodings. destruct (s_genMatpairs_ret 8 clk size8 144 s) as (Ls & s1 & ->). cbn [obind].
  destruct (s_genMatpairs_ret 32 clk size32 36 s1) as (MBs & s2 & ->). cbn [obind].
  destruct (s_genMatpairs_ret 8 clk size8 32 s2) as (exs & s3 & ->). cbn [obind]. cbv zeta.
  destruct (nibble_encodings (rng_stream (seed_time clk s3)) junk) as [[[o o1] o2] p].
  destruct (fin (rng_stream (seed_time clk s3)) p) as [ins [a q]]. eauto.
Qed.
Lemma s_enc_instance {A} (fin : fin_t A) junk clk s : local (l_fin fin) ->
  exists l e a s', s_gen_encodings clk s junk fin = Ret (e, a, s') /\ words l /\ runs (l_enc fin) l (e, a).
Proof.
  intro H. destruct (s_gen_encodings_ret fin junk clk s) as (e & a & s' & E).
  destruct (lifts_enc fin junk clk H s (e, a) s' E) as (l & W & R). exists l, e, a, s'. auto.
Qed.

(** ** The three sets of external encodings *)
Lemma fin_mask_junk rnd junk pos : fin_mask rnd junk pos = fin_mask rnd junk0 pos.
Proof. unfold fin_mask. now rewrite (genPermutations_junk _ _ _ junk). Qed.
Lemma local_fin_mask junk : local (l_fin (s_fin_wbaes junk)).
Proof.
  refine (local_ext _ _ _ (local_bind (l_perms 16 64) (fun o _ pos => Ret (map (fun n => pr o (2 * n)) (seq 0 32), fun i j => pr o (2 * (2 * i + j) + 1), pos)) (local_perms 16 64) _)).
  - intros. unfold obnd, l_perms, l_fin, s_fin_wbaes. rewrite fin_mask_junk. unfold fin_mask. cbn [obind]. destruct (genPermutations 16 64 rnd junk0 pos) as [o p]. reflexivity.
  - intro. apply local_ret.
Qed.
Lemma local_fin_ee junk : local (l_fin (s_fin_ee junk)).
Proof.
  refine (local_ext _ _ _ (local_bind (l_perms 16 32) (fun ins => obnd (l_perms 256 32) (fun o _ pos => Ret (ins, (fun i => pr o (2 * i), fun i => pr o (2 * i + 1)), pos))) (local_perms 16 32) _)).
  - intros. unfold obnd, l_perms, l_fin, s_fin_ee. rewrite (genPermutations_junk _ _ _ junk). cbn [obind]. destruct (genPermutations 16 32 rnd junk0 pos) as [ins p]. cbn [fst snd].
    rewrite (genPermutations_junk _ _ _ junk). destruct (genPermutations 256 32 rnd junk0 p) as [o q]. reflexivity.
  - intro. apply local_bind; [apply local_perms|intro; apply local_ret].
Qed.
Lemma s_wbaes_instance clk s junk key : 16 <= length key ->
  exists rnd ctx e s', s_wbaes_gen_table clk s junk key = Ret (ctx, e, s') /\ wbaes_gen_table rnd junk key = Ret ctx.
Proof.
  intro LK. unfold s_wbaes_gen_table, wbaes_gen_table. destruct (Nat.ltb_spec (length key) 16); [lia|]. cbv zeta.
  destruct (s_enc_instance (s_fin_wbaes junk) junk clk s (local_fin_mask junk)) as (l & e & a & s' & E & W & R). rewrite E. cbn [obind].
  exists (rnd_of l). eexists; eexists; eexists. split; [reflexivity|].
  rewrite (gen_encodings_l (s_fin_wbaes junk) (fin_wbaes (rnd_of l) junk) (rnd_of l) junk fst).
  - rewrite (R (rnd_of l) 0 (tape_rnd_of l W)). cbn [obind fst snd]. reflexivity.
  - intro p. unfold s_fin_wbaes, fin_wbaes, fin_mask. destruct (genPermutations 16 64 (rnd_of l) junk p). reflexivity.
Qed.
Lemma s_ee_instance clk s junk key : 16 <= length key ->
  exists rnd ctx s', s_ee_gen_table clk s junk key = Ret (ctx, s') /\ ee_gen_table rnd junk key = Ret ctx.
Proof.
  intro LK. unfold s_ee_gen_table, ee_gen_table. destruct (Nat.ltb_spec (length key) 16); [lia|]. cbv zeta.
  destruct (s_enc_instance (s_fin_ee junk) junk clk s (local_fin_ee junk)) as (l & e & [a1 a2] & s' & E & W & R). rewrite E. cbn [obind].
  exists (rnd_of l). eexists; eexists. split; [reflexivity|].
  rewrite (gen_encodings_l (s_fin_ee junk) (fin_ee (rnd_of l) junk) (rnd_of l) junk fst).
  - rewrite (R (rnd_of l) 0 (tape_rnd_of l W)). cbn [obind fst snd]. reflexivity.
  - intro p. unfold s_fin_ee, fin_ee. destruct (genPermutations 16 32 (rnd_of l) junk p) as [ins q]. destruct (genPermutations 256 32 (rnd_of l) junk q). reflexivity.
Qed.
Lemma s_mask_aes_ok clk s junk key : bytes key -> 16 <= length key ->
  exists T ib s', s_mask_gen_aes clk s junk key = Ret (T, ib, s') /\ aes_tables key T ib.
Proof.
  intros BK LK. unfold s_mask_gen_aes. destruct (Nat.ltb_spec (length key) 16) as [|L]; [lia|]. cbv zeta.
  destruct (s_enc_instance (s_fin_wbaes junk) junk clk s (local_fin_mask junk)) as (l & e & a & s' & E & W & R). rewrite E. cbn [obind].
  eexists; eexists; eexists. split; [reflexivity|].
  destruct (mask_aes_ok (rnd_of l) junk key BK LK) as (T & ib & p & E1 & H). unfold mask_gen_aes in E1. rewrite (proj2 (Nat.ltb_ge _ _) L) in E1. cbv zeta in E1.
  rewrite (gen_encodings_l (s_fin_wbaes junk) (fin_mask (rnd_of l) junk) (rnd_of l) junk (fun x => x)) in E1 by (intro q; unfold s_fin_wbaes; destruct (fin_mask (rnd_of l) junk q); reflexivity).
  rewrite (R (rnd_of l) 0 (tape_rnd_of l W)) in E1. cbn [obind fst snd] in E1. apply Ret_inj in E1. injection E1 as E1 E2 _. unfold aes_tables. rewrite E1, E2. exact H.
Qed.
Lemma s_mask_ok clk s junk key : bytes key -> 16 <= length key ->
  exists ce cd s', s_mask_gen_table clk s junk key = Ret (ce, cd, s') /\ mask_good key (ce, cd).
Proof.
  intros BK LK. unfold s_mask_gen_table.
  destruct (s_mask_aes_ok clk s (junk 0) key BK LK) as (T & ib & s1 & -> & H1). cbn [obind].
  destruct (s_mask_aes_ok clk s1 (junk 1) key BK LK) as (T' & ib' & s2 & -> & H2). cbn [obind]. unfold s_mask_gen_gcm.
  destruct (s_genMatpairs_ret 8 clk size8 48 s2) as (Ls & s3 & E3). rewrite E3. cbn [obind].
  assert (HL : forall i, i < 48 -> mutually_inverse 8 (fst (pr Ls i)) (snd (pr Ls i))).
  { destruct (lifts_genMatpairs 8 48 clk _ _ _ E3) as (l & W & R). specialize (R (rnd_of l) 0 (tape_rnd_of l W)).
    destruct (genMatpairs_ok 8 48 (rnd_of l) size8 0) as (Ls' & q & E & H). rewrite E in R. apply Ret_inj in R. injection R as -> _. exact H. }
  pose proof (genPermutations_ok 256 64 (rng_stream s3) (junk 2) 0) as HN. cbv zeta in HN. destruct (genPermutations 256 64 (rng_stream s3) (junk 2) 0) as [Ns q2]. cbn [fst] in HN. cbv zeta.
  unfold s_genRandomMask. cbv zeta. set (sa := seed_time clk (rng_adv s3 q2)). set (sb := seed_time clk (rng_adv sa 16)).
  eexists; eexists; eexists. split; [reflexivity|].
  apply (mask_pair_sound key T ib T' ib' Ls Ns (genRandomMask (rng_stream sa) 0) (genRandomMask (rng_stream sb) 0) BK LK H1 H2 HL HN);
    intros; unfold genRandomMask; apply N.mod_lt; discriminate.
Qed.
