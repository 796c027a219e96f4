(** * GCM contexts whose recorded length of additional data is not that of the message. *)
From Verif Require Import Base CbcModel CbcSpec CbcProofs GcmModel GcmSpec GfProofs GcmProofs GfField GfGhash GcmAuth GcmIv OverlapGcm.
From Coq Require Import ZifyBool ZifyNat ZifyN.
Local Open Scope nat_scope.
#[local] Opaque gf_mul gcm_mult block_mul gf_inv.

(** client scenario: one encryption or decryption with the context as it is, and its 16-byte tag *)
Definition tagged (d : dir) (blk : blockfn) (c : gcm_ctx) (p : list N) : option (list N * list N) :=
  let '(ok, c', out) := gcm_crypt d blk c p (length p) in
  if ok : bool then do r <- gcm_finish c' 16; Some (out, snd r) else None.
(** the context with another recorded length *)
Definition with_add (n : N) (c : gcm_ctx) : gcm_ctx := mkgcm (g_len c) n (g_HL c) (g_HH c) (g_base c) (g_y c) (g_buf c).

Lemma block_mul_inj h x y : block16 h -> be_to_N h <> 0%N -> block16 x -> block16 y -> block_mul x h = block_mul y h -> x = y.
Proof.
  intros H NZ X Y Q. destruct (list_eq_dec N.eq_dec x y) as [|D]; [assumption|exfalso].
  apply (ghash_one_block h [] x y []); auto; try (now constructor).
  cbn [app]. rewrite !app_nil_r. change (ghash h) with (ghash_from h (repeat 0%N 16)). rewrite !ghash_from_one by (apply X || apply Y).
  rewrite !xorl_zeros_l by (destruct X, Y; lia). exact Q.
Qed.
Lemma lens_inj a b l : (a < 2 ^ 64)%N -> (b < 2 ^ 64)%N -> N_to_be 8 a ++ N_to_be 8 l = N_to_be 8 b ++ N_to_be 8 l -> a = b.
Proof.
  intros A B Q. apply app_inv_tail in Q. apply (f_equal be_to_N) in Q. rewrite !be_to_N_to_be in Q; auto.
Qed.
Lemma lens_blk a l : block16 (N_to_be 8 a ++ N_to_be 8 l).
Proof. split; [now rewrite app_length, !length_N_to_be|]. apply bytes_app; split; apply bytes_N_to_be. Qed.
Lemma finish_mul h c : keyed h c -> block16 (g_buf c) -> block16 (g_base c) -> (0 < g_len c)%N -> (8 * g_len c < 2 ^ 64)%N -> (8 * g_add_len c < 2 ^ 64)%N ->
  exists c', gcm_finish c 16 = Some (c', xorl (g_base c) (block_mul (xorl (g_buf c) (N_to_be 8 (8 * g_add_len c) ++ N_to_be 8 (8 * g_len c))) h)).
Proof.
  intros K B BB L0 L A. unfold gcm_finish. change (16 <? 16) with false. cbn match. rewrite !w64_small by lia.
  destruct (N.eqb_spec (g_len c * 8) 0) as [Z|Z]; [lia|]. cbn [andb]. rewrite len_block by lia. rewrite !(N.mul_comm _ 8).
  pose proof (lens_blk (8 * g_add_len c) (8 * g_len c)) as W.
  rewrite xor_into_full by (destruct B, W; lia). rewrite (gcm_mult_block _ _ h) by (auto; now apply block16_xorl).
  set (X := xorl (g_buf c) _). assert (BX : block16 X) by now apply block16_xorl.
  assert (LM : length (block_mul X h) = 16).
  { rewrite <- (xorl_zeros_l X 16) by (destruct BX; lia). rewrite <- ghash_from_one by apply BX.
    apply ghash_from_block16; [apply block16_zeros|]. destruct BX as [-> _]. reflexivity. }
  rewrite (firstn_all2 (g_base c)) by (destruct BB; lia). rewrite (firstn_all2 (block_mul X h)) by lia. eexists. reflexivity.
Qed.
Lemma stale_tag E d c n p : block_function E -> hash_key E <> repeat 0%N 16 -> ctx_ok (hash_key E) c -> block16 (g_base c) -> g_len c = 0%N -> bytes p -> p <> [] ->
  (N.of_nat (length p) <= 2147483647)%N -> (8 * g_add_len c < 2 ^ 64)%N -> (8 * n < 2 ^ 64)%N -> g_add_len c <> n ->
  exists o t1 t2, tagged d (lift E) c p = Some (o, t1) /\ tagged d (lift E) (with_add n c) p = Some (o, t2) /\ t1 <> t2.
Proof.
  intros HE NZ HC BB L0 Bp NE Lp A1 A2 D. pose proof (hash_key_nz E HE NZ) as NZ'. pose proof (hash_key_block E HE) as HK.
  assert (HC2 : ctx_ok (hash_key E) (with_add n c)) by exact HC.
  unfold tagged. pose proof (gcm_crypt_spec E _ d c p (length p) HE HC Bp Lp (Nat.le_refl _)) as E1. cbv zeta in E1. rewrite E1.
  pose proof (gcm_crypt_spec E _ d _ p (length p) HE HC2 Bp Lp (Nat.le_refl _)) as E2. cbv zeta in E2. rewrite E2.
  unfold with_add. cbn [g_len g_add_len g_HL g_HH g_base g_y g_buf]. rewrite L0, N.add_0_l.
  assert (PL : 0 < length p) by (destruct p; [congruence|cbn; lia]). rewrite w64_small by lia.
  set (o := gctr E (inc32 (g_y c)) p). set (buf := ghash_from (hash_key E) (g_buf c) (pad16 (hashed d p o))).
  destruct HC as (K & Hy & Hb).
  assert (BF : block16 buf) by (apply ghash_from_block16; [exact Hb|apply pad16_length_mod]).
  match goal with |- context [gcm_finish ?a 16] => match goal with |- context [gcm_finish ?b 16] => lazymatch a with b => fail | _ => idtac end;
    destruct (finish_mul (hash_key E) a K BF BB) as [f1 F1]; cbn [g_len g_add_len]; try lia;
    destruct (finish_mul (hash_key E) b K BF BB) as [f2 F2]; cbn [g_len g_add_len]; try lia end end.
  rewrite F1, F2. cbn [bind snd g_base g_buf g_len g_add_len]. do 3 eexists. split; [reflexivity|]. split; [reflexivity|].
  intro Q. pose proof (lens_blk (8 * g_add_len c) (8 * N.of_nat (length p))) as W1. pose proof (lens_blk (8 * n) (8 * N.of_nat (length p))) as W2.
  assert (ML : forall x, block16 x -> length (block_mul x (hash_key E)) = 16).
  { intros x X. rewrite <- (xorl_zeros_l x 16) by (destruct X; lia). rewrite <- ghash_from_one by apply X.
    apply ghash_from_block16; [apply block16_zeros|]. destruct X as [-> _]. reflexivity. }
  apply OverlapGcm.xorl_inj in Q.
  2,3: rewrite ?ML by (now apply block16_xorl); destruct BB; lia.
  apply (block_mul_inj _ _ _ HK NZ') in Q; [|now apply block16_xorl|now apply block16_xorl].
  apply OverlapGcm.xorl_inj in Q; [|destruct BF, W1, W2; lia|destruct W1, W2; lia].
  first [apply lens_inj in Q; lia].
Qed.

(** ** C12 *)
Definition no_aad (o : gcm_op) : Prop := match o with OpAad _ => False | _ => True end.
Lemma step_add blk c o c' : no_aad o -> gcm_step blk c o = Some c' -> g_add_len c' = g_add_len c.
Proof.
  destruct o as [iv|a|d x n|n]; cbn [no_aad gcm_step]; intros NA R; [| contradiction | |].
  - injection R as <-. unfold gcm_setiv. cbv zeta. destruct (blk _); reflexivity.
  - injection R as <-. unfold gcm_crypt. destruct (n <? length x); [reflexivity|]. cbv zeta. destruct (crypt_loop _ _ _ _ _ _ _ _) as [[[? ?] ?] ?]. reflexivity.
  - unfold gcm_finish in R. destruct (16 <? n); [discriminate|]. cbn [bind] in R. destruct (_ && _); injection R as <-; reflexivity.
Qed.
Lemma run_add blk ops : Forall no_aad ops -> forall c c', gcm_run blk c ops = Some c' -> g_add_len c' = g_add_len c.
Proof.
  induction 1 as [|o ops NA _ IH]; intros c c'; cbn [gcm_run]; [intros [= <-]; reflexivity|].
  destruct (gcm_step blk c o) as [c1|] eqn:S1; [|discriminate]. cbn [bind]. intros R. apply IH in R. apply step_add in S1; [congruence|exact NA].
Qed.
Lemma gcm_run_app blk a b : forall c, gcm_run blk c (a ++ b) = do c1 <- gcm_run blk c a; gcm_run blk c1 b.
Proof. induction a as [|o a IH]; intros c; [reflexivity|]. cbn [app gcm_run]. destruct (gcm_step blk c o); [apply IH|reflexivity]. Qed.
Lemma stale_reuse_lemma : forall E c0 ops a rest c iv d p, block_function E -> hash_key E <> repeat 0%N 16 -> gcm_init (lift E) = Some c0 ->
  gcm_run (lift E) c0 (ops ++ OpAad a :: rest) = Some c -> Forall no_aad rest -> a <> [] -> (8 * N.of_nat (length a) < 2 ^ 64)%N ->
  bytes iv -> bytes p -> p <> [] -> (N.of_nat (length p) <= 2147483647)%N ->
  exists fresh used o t1 t2, gcm_setiv (lift E) c0 iv = (true, fresh) /\ gcm_setiv (lift E) c iv = (true, used) /\
    tagged d (lift E) fresh p = Some (o, t1) /\ tagged d (lift E) used p = Some (o, t2) /\ t1 <> t2.
Proof.
  intros E c0 ops a rest c iv d p HE NZ HI R NA NEa La Biv Bp NE Lp. destruct (gcm_run_tables _ _ _ _ R) as [T1 T2].
  destruct (gcm_init_spec E HE) as (HH & HL & _ & EI & HT). rewrite EI in HI. injection HI as HI. subst c0. cbn [g_HH g_HL] in T1, T2.
  set (c0 := mkgcm _ _ _ _ _ _ _) in *.
  rewrite gcm_run_app in R. destruct (gcm_run (lift E) c0 ops) as [cm|]; [|discriminate R]. cbn [bind gcm_run gcm_step] in R.
  apply run_add in R; [|exact NA]. unfold gcm_aad in R. cbn [g_add_len] in R. rewrite w64_small in R by lia.
  assert (K : keyed (hash_key E) c) by (unfold keyed; rewrite T1, T2; exact HT).
  rewrite (setiv_actual E c0 iv) by auto. rewrite (setiv_actual E c iv) by auto. rewrite T1, T2, R.
  set (f := mkgcm 0 (g_add_len c0) _ _ _ _ _). pose proof (iv_start_block E iv Biv) as SB.
  destruct (stale_tag E d f (N.of_nat (length a)) p) as (o & t1 & t2 & G1 & G2 & G3); auto.
  - split; [exact HT|]. split; [exact SB|apply block16_zeros].
  - now apply HE.
  - reflexivity.
  - destruct a; [congruence|]. cbn. lia.
  - exists f, (with_add (N.of_nat (length a)) f), o, t1, t2. repeat split; auto.
Qed.

(** ** C13 *)
Lemma stale_pieces_lemma : forall E c0 iv c a b d p, block_function E -> hash_key E <> repeat 0%N 16 -> gcm_init (lift E) = Some c0 -> gcm_setiv (lift E) c0 iv = (true, c) ->
  bytes iv -> bytes a -> bytes b -> a <> [] -> length a mod 16 = 0 -> (8 * N.of_nat (length (a ++ b)) < 2 ^ 64)%N -> bytes p -> p <> [] -> (N.of_nat (length p) <= 2147483647)%N ->
  exists o t1 t2, tagged d (lift E) (gcm_aad c (a ++ b)) p = Some (o, t1) /\ tagged d (lift E) (gcm_aad (gcm_aad c a) b) p = Some (o, t2) /\ t1 <> t2.
Proof.
  intros E c0 iv c a b d p HE NZ HI SI Biv Ba Bb NEa Ma La Bp NE Lp.
  destruct (gcm_init_spec E HE) as (HH & HL & _ & EI & HT). rewrite EI in HI. injection HI as HI. subst c0.
  rewrite setiv_actual in SI by auto. injection SI as SI. pose proof (iv_start_block E iv Biv) as SB.
  assert (HC : ctx_ok (hash_key E) c) by (subst c; split; [exact HT|]; split; [exact SB|apply block16_zeros]).
  assert (BB : block16 (g_base c)) by (subst c; now apply HE). assert (L0 : g_len c = 0%N) by (subst c; reflexivity). clear SI.
  rewrite app_length in La. assert (LA : 0 < length a) by (destruct a; [congruence|cbn; lia]).
  assert (Bab : bytes (a ++ b)) by (apply bytes_app; auto).
  assert (Q : gcm_aad (gcm_aad c a) b = with_add (N.of_nat (length b)) (gcm_aad c (a ++ b))).
  { rewrite (gcm_aad_spec (hash_key E) (gcm_aad c a) b) by (auto using aad_ctx_ok; lia). rewrite (gcm_aad_spec (hash_key E) c a) by (auto; lia).
    rewrite (gcm_aad_spec (hash_key E) c (a ++ b)) by (auto; rewrite app_length; lia). unfold with_add. cbn [g_len g_add_len g_HL g_HH g_base g_y g_buf]. f_equal.
    rewrite (pad16_aligned a) by exact Ma. rewrite <- ghash_from_app by exact Ma. f_equal. unfold pad16. rewrite app_length.
    rewrite <- app_assoc. f_equal. f_equal. f_equal. rewrite Nat.add_mod, Ma by lia. cbn [Nat.add]. rewrite Nat.mod_mod by lia. reflexivity. }
  rewrite Q. apply stale_tag; auto.
  - now apply aad_ctx_ok.
  - unfold gcm_aad. cbn [g_add_len]. rewrite w64_small; rewrite app_length; lia.
  - lia.
  - unfold gcm_aad. cbn [g_add_len]. rewrite w64_small; rewrite app_length; lia.
Qed.
