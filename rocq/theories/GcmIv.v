(** * Initialisation vectors of GCM: proofs. *)
From Verif Require Import Base CbcModel CbcSpec CbcProofs GcmModel GcmSpec GfProofs GcmProofs GfField GfGhash GcmAuth.
From Coq Require Import ZifyBool ZifyNat ZifyN.
Local Open Scope nat_scope.
#[local] Opaque gf_mul gcm_mult block_mul.

(** the pre-counter block setiv computes, for IVs of every length *)
Definition iv_start (E : list N -> list N) (iv : list N) : list N :=
  if length iv =? 12 then iv ++ [0; 0; 0; 1]%N
  else ghash (hash_key E) (pad16 iv ++ repeat 0%N 12 ++ N_to_be 4 (8 * N.of_nat (length iv))).
Lemma iv_tail_block n : block16 (repeat 0%N 12 ++ N_to_be 4 n).
Proof. split; [rewrite app_length, repeat_length, length_N_to_be; reflexivity|]. apply bytes_app. split; [apply bytes_repeat; reflexivity|apply bytes_N_to_be]. Qed.
Lemma iv_str_mod iv b : block16 b -> length (pad16 iv ++ b) mod 16 = 0.
Proof. intros [L _]. rewrite app_length, L, Nat.add_mod, pad16_length_mod by lia. reflexivity. Qed.
Lemma iv_start_block E iv : bytes iv -> block16 (iv_start E iv).
Proof.
  intros B. unfold iv_start. destruct (Nat.eqb_spec (length iv) 12) as [L|L].
  - split; [rewrite app_length, L; reflexivity|]. apply bytes_app. split; [exact B|]. repeat constructor.
  - apply ghash_block16, iv_str_mod, iv_tail_block.
Qed.
Lemma setiv_actual E c iv : block_function E -> keyed (hash_key E) c -> bytes iv ->
  gcm_setiv (lift E) c iv = (true, mkgcm 0 (g_add_len c) (g_HL c) (g_HH c) (E (iv_start E iv)) (iv_start E iv) (repeat 0%N 16)).
Proof.
  intros HE HK Biv. unfold gcm_setiv, lift.
  match goal with |- context [if length iv =? 12 then ?a else ?b] =>
    assert (EY : (if length iv =? 12 then a else b) = iv_start E iv) end.
  { unfold iv_start. destruct (Nat.eqb_spec (length iv) 12) as [L|L].
    - do 12 (destruct iv as [|? iv]; [discriminate|]). destruct iv; [|discriminate]. reflexivity.
    - change (ghash (hash_key E)) with (ghash_from (hash_key E) (repeat 0%N 16)).
      rewrite ghash_from_app by apply pad16_length_mod.
      rewrite (absorb_spec _ _ (hash_key E)) by (auto; apply block16_zeros).
      set (g := ghash_from _ _ (pad16 iv)).
      assert (G : block16 g) by (apply ghash_from_block16; [apply block16_zeros|apply pad16_length_mod]).
      assert (EW : put_u32_be (w64 (N.of_nat (length iv) * 8)) = N_to_be 4 (8 * N.of_nat (length iv))).
      { rewrite put_u32_be_spec, N.mul_comm. unfold w64. change (2 ^ 64)%N with (256 ^ N.of_nat 8)%N. apply N_to_be_mod. lia. }
      rewrite EW. pose proof (iv_tail_block (8 * N.of_nat (length iv))) as B16.
      rewrite xor_into_full by (destruct G, B16; lia).
      rewrite (gcm_mult_block _ _ (hash_key E)) by (auto; now apply block16_xorl).
      rewrite ghash_from_one by apply B16. reflexivity. }
  cbv zeta in EY |- *. rewrite EY. reflexivity.
Qed.
Lemma session_start E d iv aad p t : block_function E -> bytes iv -> bytes aad -> bytes p -> (8 * N.of_nat (length aad) < 2 ^ 64)%N -> (N.of_nat (length p) <= 2147483647)%N -> t <= 16 ->
  exists tag, gcm_session d (lift E) iv aad [p] t = Some (gctr E (inc32 (iv_start E iv)) p, tag).
Proof.
  intros HE Biv Ba Bp La Lp Ht. unfold gcm_session. destruct (gcm_init_spec E HE) as (HH & HL & _ & EI & HT). rewrite EI. cbn [bind].
  set (c0 := mkgcm _ _ _ _ _ _ _). rewrite (setiv_actual E c0 iv) by auto. set (c1 := mkgcm 0 (g_add_len c0) _ _ _ _ _).
  assert (HC1 : ctx_ok (hash_key E) c1) by (split; [exact HT|split; [now apply iv_start_block|apply block16_zeros]]).
  pose proof (gcm_aad_spec _ c1 aad HC1 Ba ltac:(lia)) as EA. pose proof (aad_ctx_ok _ c1 aad HC1 Ba) as HC2.
  rewrite EA in HC2 |- *. match type of HC2 with ctx_ok _ ?x => set (c2 := x) in * end.
  assert (HS : small_pieces ([] ++ [p])) by (constructor; [split; assumption|constructor]).
  destruct (crypt_pieces_stream_last E _ d [] p HE HS (Forall_nil _) c2 HC2) as [len' [EL EP]]. cbv zeta in EP. cbn [app concat] in EP. rewrite EP.
  match goal with |- context [gcm_finish ?x t] => destruct (gcm_finish x t) as [r|] eqn:EF end.
  - cbn [bind]. exists (snd r). reflexivity.
  - exfalso. unfold gcm_finish in EF. cbv zeta in EF. destruct (Nat.ltb_spec 16 t); [lia|]. destruct (_ && _) in EF; discriminate.
Qed.

(** ** IVs of 2^29 bytes and more *)
Lemma N_to_be_8 n : N_to_be 8 n = N_to_be 4 (n / 2 ^ 32) ++ N_to_be 4 n.
Proof. exact (N_to_be_app 4 4 n). Qed.
Lemma start_J0 E iv : block_function E -> bytes iv -> length iv <> 12 -> (2 ^ 32 <= 8 * N.of_nat (length iv) < 2 ^ 64)%N -> hash_key E <> repeat 0%N 16 ->
  iv_start E iv <> J0 E iv.
Proof.
  intros HE Biv L12 HL HN. unfold iv_start, J0. destruct (Nat.eqb_spec (length iv) 12); [contradiction|].
  pose proof (ghash_one_block (hash_key E) (pad16 iv) (repeat 0%N 12 ++ N_to_be 4 (8 * N.of_nat (length iv))) (repeat 0%N 8 ++ len64 iv) []) as HG.
  rewrite !app_nil_r in HG. apply HG.
  - now apply hash_key_block.
  - now apply hash_key_nz.
  - apply pad16_length_mod.
  - reflexivity.
  - apply iv_tail_block.
  - split; [rewrite app_length, repeat_length, len64_length; reflexivity|]. apply bytes_app. split; [apply bytes_repeat; reflexivity|apply len64_bytes].
  - now apply bytes_pad16.
  - constructor.
  - intros X. change (repeat 0%N 12) with (repeat 0%N 8 ++ repeat 0%N 4) in X. rewrite <- app_assoc in X. apply app_inv_head in X.
    unfold len64 in X. rewrite N_to_be_8 in X. apply app_inv_tail in X. apply (f_equal be_to_N) in X. change (be_to_N (repeat 0%N 4)) with 0%N in X.
    rewrite be_to_N_to_be in X.
    + assert (1 <= 8 * N.of_nat (length iv) / 2 ^ 32)%N by (apply N.div_le_lower_bound; lia). lia.
    + change (256 ^ N.of_nat 4)%N with (2 ^ 32)%N. apply N.div_lt_upper_bound; [lia|]. change (2 ^ 32 * 2 ^ 32)%N with (2 ^ 64)%N. lia.
Qed.
Lemma inc32_inj x y : block16 x -> block16 y -> inc32 x = inc32 y -> x = y.
Proof.
  intros [Lx Bx] [Ly By] EQ. pose proof (inc32_n_value 1 x (conj Lx Bx)) as [X1 X2]. pose proof (inc32_n_value 1 y (conj Ly By)) as [Y1 Y2].
  cbn [inc32_n] in *. rewrite EQ, Y1 in X1. rewrite EQ, Y2 in X2.
  rewrite <- (firstn_skipn 12 x), <- (firstn_skipn 12 y), <- X1. f_equal. apply be_to_N_inj; [rewrite !skipn_length; lia|now apply bytes_skipn|now apply bytes_skipn|].
  pose proof (be_to_N_bound _ (bytes_skipn 12 _ Bx)) as Ux. pose proof (be_to_N_bound _ (bytes_skipn 12 _ By)) as Uy. rewrite skipn_length, Lx in Ux. rewrite skipn_length, Ly in Uy.
  change (256 ^ N.of_nat (16 - 12))%N with (2 ^ 32)%N in *. set (a := be_to_N (skipn 12 x)) in *. set (b := be_to_N (skipn 12 y)) in *.
  pose proof (N.div_mod (a + N.of_nat 1) (2 ^ 32) ltac:(lia)) as Da. pose proof (N.div_mod (b + N.of_nat 1) (2 ^ 32) ltac:(lia)) as Db.
  pose proof (N.mod_lt (a + N.of_nat 1) (2 ^ 32) ltac:(lia)). pose proof (N.mod_lt (b + N.of_nat 1) (2 ^ 32) ltac:(lia)). rewrite X2 in Db.
  assert (((a + N.of_nat 1) / 2 ^ 32 <= 1)%N) by (apply N.div_le_upper_bound; lia). assert (((b + N.of_nat 1) / 2 ^ 32 <= 1)%N) by (apply N.div_le_upper_bound; lia). nia.
Qed.
Lemma gctr_first E y p : 16 <= length p -> block16 (E y) -> firstn 16 (gctr E y p) = xorl (firstn 16 p) (E y).
Proof.
  intros HL [LE _]. rewrite <- (firstn_skipn 16 p) at 1. rewrite gctr_block by (rewrite firstn_length; lia). rewrite (firstn_all2 (E y)) by lia.
  assert (L16 : length (xorl (firstn 16 p) (E y)) = 16) by (rewrite length_xorl, firstn_length, LE; lia).
  rewrite firstn_app, L16, Nat.sub_diag, firstn_O, app_nil_r. apply firstn_all2. lia.
Qed.
Lemma keystream_differs E D y y' p : block_cipher E D -> block16 y -> block16 y' -> y <> y' -> 16 <= length p -> gctr E (inc32 y) p <> gctr E (inc32 y') p.
Proof.
  intros (HE & _ & HD) Hy Hy' HN HL EQ. apply (f_equal (firstn 16)) in EQ. pose proof (inc32_block y Hy) as Iy. pose proof (inc32_block y' Hy') as Iy'.
  pose proof (HE _ Iy) as [L1 B1]. pose proof (HE _ Iy') as [L2 B2]. rewrite !gctr_first in EQ by (assumption || now split).
  rewrite !(xorl_comm (firstn 16 p)) in EQ. apply xorl_inj_l in EQ; [|rewrite L1, firstn_length; lia|rewrite L2, firstn_length; lia].
  apply (f_equal D) in EQ. rewrite !HD in EQ by assumption. apply inc32_inj in EQ; try assumption. contradiction.
Qed.
Lemma gcm_long_iv_lemma : forall E D iv aad p t, block_cipher E D -> hash_key E <> repeat 0%N 16 -> bytes iv -> bytes aad -> bytes p ->
  (2 ^ 32 <= 8 * N.of_nat (length iv) < 2 ^ 64)%N -> (8 * N.of_nat (length aad) < 2 ^ 64)%N -> 16 <= length p -> (N.of_nat (length p) <= 2147483647)%N -> t <= 16 ->
  exists ct tag, gcm_session Enc (lift E) iv aad [p] t = Some (ct, tag) /\ ct <> gcm_ciphertext E iv p.
Proof.
  intros E D iv aad p t HC HN Biv Ba Bp Liv La Lp Lp' Ht. pose proof HC as (HE & _). destruct (session_start E Enc iv aad p t HE Biv Ba Bp La Lp' Ht) as [tag HS].
  exists (gctr E (inc32 (iv_start E iv)) p), tag. split; [exact HS|]. unfold gcm_ciphertext.
  apply (keystream_differs E D); try assumption; [now apply iv_start_block|now apply J0_block|]. apply start_J0; try assumption. intros X. rewrite X in Liv. vm_compute in Liv. destruct Liv as [Z _]. now apply Z.
Qed.

(** ** different IVs *)
Lemma gcm_iv12_lemma : forall E iv iv' n n' b, length iv = 12 -> length iv' = 12 -> bytes iv -> bytes iv' -> (N.of_nat n < 2 ^ 32)%N -> (N.of_nat n' < 2 ^ 32)%N -> iv <> iv' ->
  In b (iv_start E iv :: counter_blocks n (iv_start E iv)) -> In b (iv_start E iv' :: counter_blocks n' (iv_start E iv')) -> False.
Proof.
  assert (H : forall E iv n b, length iv = 12 -> bytes iv -> (N.of_nat n < 2 ^ 32)%N -> In b (iv_start E iv :: counter_blocks n (iv_start E iv)) -> firstn 12 b = iv).
  { intros E iv n b L B Hn HI. set (y := iv_start E iv) in *. assert (Hy : block16 y) by now apply iv_start_block.
    assert (Ey : firstn 12 y = iv) by (unfold y, iv_start; rewrite L; cbn [Nat.eqb]; rewrite firstn_app, L, Nat.sub_diag, firstn_O, app_nil_r; apply firstn_all2; lia).
    destruct HI as [<-|HI]; [exact Ey|]. apply (In_nth _ _ []) in HI. destruct HI as (i & Hi & <-). rewrite length_counter_blocks in Hi.
    rewrite counter_blocks_nth by assumption. rewrite <- Ey. apply (inc32_n_value (S i) y Hy). }
  intros E iv iv' n n' b L L' B B' Hn Hn' HN HI HI'. apply HN. rewrite <- (H E iv n b L B Hn HI). now apply (H E iv' n' b L' B' Hn').
Qed.
(** the same length, at most one block *)
Lemma gcm_iv_short_lemma : forall E iv iv', block_function E -> hash_key E <> repeat 0%N 16 -> bytes iv -> bytes iv' -> length iv = length iv' -> length iv <= 16 ->
  iv <> iv' -> iv_start E iv <> iv_start E iv'.
Proof.
  intros E iv iv' HE HN B B' HL H16 Hne. unfold iv_start. rewrite <- HL. destruct (length iv =? 12); [intros X; now apply app_inv_tail in X|].
  set (w := repeat 0%N 12 ++ N_to_be 4 (8 * N.of_nat (length iv))). destruct (Nat.eq_dec (length iv) 0) as [Z|Z].
  { destruct iv; [|discriminate]. destruct iv'; [contradiction|discriminate]. }
  assert (P16 : forall x, bytes x -> length x = length iv -> block16 (pad16 x)).
  { intros x Bx Lx. split; [|now apply bytes_pad16]. unfold pad16. rewrite app_length, repeat_length, Lx. destruct (Nat.eq_dec (length iv) 16) as [E16|N16].
    - rewrite E16. reflexivity.
    - rewrite (Nat.mod_small (length iv)), Nat.mod_small by lia. lia. }
  pose proof (ghash_one_block (hash_key E) [] (pad16 iv) (pad16 iv') w) as HG. cbn [app] in HG. apply HG.
  - now apply hash_key_block.
  - now apply hash_key_nz.
  - reflexivity.
  - unfold w. rewrite (proj1 (iv_tail_block _)). reflexivity.
  - now apply P16.
  - now apply P16.
  - constructor.
  - apply iv_tail_block.
  - intros X. apply Hne. now apply pad16_inj.
Qed.
Definition iv_zero : list N := repeat 0%N 32.
Definition iv_clash (E : list N -> list N) : list N := N_to_be 16 (2 ^ 127) ++ hash_key E.
Lemma gcm_iv_clash_lemma : forall E, block_function E -> iv_zero <> iv_clash E /\ length iv_zero = 32 /\ length (iv_clash E) = 32 /\ bytes iv_zero /\ bytes (iv_clash E) /\
  forall d aad ps t, gcm_session d (lift E) iv_zero aad ps t = gcm_session d (lift E) (iv_clash E) aad ps t.
Proof.
  intros E HE. pose proof (hash_key_block E HE) as [LH BH].
  assert (L1 : length (iv_clash E) = 32) by (unfold iv_clash; rewrite app_length, length_N_to_be, LH; reflexivity).
  assert (B0 : bytes iv_zero) by (apply bytes_repeat; reflexivity).
  assert (B1 : bytes (iv_clash E)) by (apply bytes_app; split; [apply bytes_N_to_be|exact BH]).
  split.
  { intros X. apply (f_equal (fun l => get l 0)) in X. vm_compute in X. discriminate. }
  split; [reflexivity|]. split; [exact L1|]. split; [exact B0|]. split; [exact B1|].
  assert (ES : iv_start E iv_zero = iv_start E (iv_clash E)).
  { unfold iv_start. rewrite L1. change (length iv_zero) with 32. change (32 =? 12) with false. cbn match.
    set (w := repeat 0%N 12 ++ N_to_be 4 (8 * N.of_nat 32)). pose proof (iv_tail_block (8 * N.of_nat 32)) as [Lw Bw]. fold w in Lw, Bw.
    rewrite !pad16_aligned by (rewrite ?L1; reflexivity).
    assert (M : forall x, length x = 32 -> length (x ++ w) mod 16 = 0) by (intros x Hx; rewrite app_length, Hx, Lw; reflexivity).
    apply be_to_N_inj.
    - destruct (ghash_block16 (hash_key E) _ (M iv_zero eq_refl)) as [-> _]. destruct (ghash_block16 (hash_key E) _ (M _ L1)) as [-> _]. reflexivity.
    - apply ghash_block16, M. reflexivity.
    - apply ghash_block16, M, L1.
    - rewrite !ghash_N; try (apply M; (reflexivity || exact L1)); try (split; assumption); try (apply bytes_app; split; assumption).
      change iv_zero with (repeat 0%N 16 ++ repeat 0%N 16). unfold iv_clash. rewrite <- !app_assoc.
      rewrite (chunks_app 16 (repeat 0%N 16) (repeat 0%N 16 ++ w)), (chunks_app 16 (repeat 0%N 16) w) by (lia || reflexivity).
      rewrite (chunks_app 16 (N_to_be 16 (2 ^ 127)) (hash_key E ++ w)) by (lia || apply length_N_to_be). rewrite (chunks_app 16 (hash_key E) w) by (lia || exact LH).
      cbn [map]. rewrite !gfold_cons. change (be_to_N (repeat 0%N 16)) with 0%N. rewrite (be_to_N_to_be 16 (2 ^ 127)) by reflexivity.
      f_equal. rewrite !N.lxor_0_l. change (2 ^ 127)%N with gf_one. rewrite mul_1_l, N.lxor_nilpotent, !mul_0_l. rewrite ?N.lxor_0_l, ?mul_0_l. reflexivity. }
  intros d aad ps t. unfold gcm_session. destruct (gcm_init_spec E HE) as (HH & HL & _ & EI & HT). rewrite EI. cbn [bind].
  rewrite !setiv_actual by assumption. rewrite ES. reflexivity.
Qed.
Lemma setiv_y E c0 iv : block_function E -> gcm_init (lift E) = Some c0 -> bytes iv -> g_y (snd (gcm_setiv (lift E) c0 iv)) = iv_start E iv.
Proof.
  intros HE HI Biv. destruct (gcm_init_spec E HE) as (HH & HL & _ & EI & HT). rewrite EI in HI.
  assert (X : c0 = mkgcm 0 0 HL HH (repeat 0%N 16) (repeat 0%N 16) (repeat 0%N 16)) by congruence. rewrite X.
  rewrite setiv_actual by assumption. reflexivity.
Qed.
Lemma gcm_iv12_disjoint_lemma : forall E c0 iv iv' n n' b, block_function E -> gcm_init (lift E) = Some c0 ->
  length iv = 12 -> length iv' = 12 -> bytes iv -> bytes iv' -> (N.of_nat n < 2 ^ 32)%N -> (N.of_nat n' < 2 ^ 32)%N -> iv <> iv' ->
  let y := g_y (snd (gcm_setiv (lift E) c0 iv)) in let y' := g_y (snd (gcm_setiv (lift E) c0 iv')) in
  In b (y :: counter_blocks n y) -> In b (y' :: counter_blocks n' y') -> False.
Proof.
  intros E c0 iv iv' n n' b HE HI L L' B B' Hn Hn' HN. cbv zeta. rewrite !setiv_y by assumption. now apply gcm_iv12_lemma.
Qed.
Lemma gcm_iv_short_session_lemma : forall E D d iv iv' aad p t r r', block_cipher E D -> hash_key E <> repeat 0%N 16 -> bytes iv -> bytes iv' -> bytes aad -> bytes p ->
  length iv = length iv' -> length iv <= 16 -> iv <> iv' -> (8 * N.of_nat (length aad) < 2 ^ 64)%N -> 16 <= length p -> (N.of_nat (length p) <= 2147483647)%N -> t <= 16 ->
  gcm_session d (lift E) iv aad [p] t = Some r -> gcm_session d (lift E) iv' aad [p] t = Some r' -> fst r <> fst r'.
Proof.
  intros E D d iv iv' aad p t r r' HC HN B B' Ba Bp HL H16 Hne La Lp Lp' Ht HR HR'. pose proof HC as (HE & _).
  destruct (session_start E d iv aad p t HE B Ba Bp La Lp' Ht) as [tag HS]. destruct (session_start E d iv' aad p t HE B' Ba Bp La Lp' Ht) as [tag' HS'].
  rewrite HS in HR. rewrite HS' in HR'. assert (X : r = (gctr E (inc32 (iv_start E iv)) p, tag)) by congruence. assert (X' : r' = (gctr E (inc32 (iv_start E iv')) p, tag')) by congruence.
  rewrite X, X'. cbn [fst]. apply (keystream_differs E D); try assumption; [now apply iv_start_block|now apply iv_start_block|]. now apply gcm_iv_short_lemma.
Qed.
