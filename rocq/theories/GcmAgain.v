(** * GCM: IVs of different lengths, and asking for the tag again. *)
From Verif Require Import Base CbcModel CbcSpec CbcProofs GcmModel GcmSpec GfProofs GcmProofs GfField GfGhash GcmAuth GcmIv.
From Coq Require Import ZifyBool ZifyNat ZifyN.
Local Open Scope nat_scope.
#[local] Opaque gf_mul gcm_mult block_mul gf_inv.

(** ** The 16-byte IV with a given pre-counter block *)
Definition len_word : N := be_to_N (repeat 0%N 12 ++ N_to_be 4 128).
Definition iv_preimage (h j : N) : N := gf_mul (N.lxor (gf_mul j (gf_inv h)) len_word) (gf_inv h).
Lemma mul_inv_r a h : blk128 a -> blk128 h -> h <> 0%N -> gf_mul (gf_mul a (gf_inv h)) h = a.
Proof.
  intros A H NZ. pose proof (gf_inv_bound h H) as I. rewrite <- mul_assoc by assumption. rewrite gf_inv_l by assumption. now apply mul_1_r.
Qed.
Lemma len_word_blk : blk128 len_word.
Proof. reflexivity. Qed.
Definition other_iv (E : list N -> list N) (iv : list N) : list N := N_to_be 16 (iv_preimage (be_to_N (hash_key E)) (be_to_N (iv_start E iv))).
Lemma other_iv_start E iv : block_function E -> hash_key E <> repeat 0%N 16 -> bytes iv -> iv_start E (other_iv E iv) = iv_start E iv.
Proof.
  intros HE NZ B. pose proof (hash_key_nz E HE NZ) as NZ'. pose proof (hash_key_block E HE) as HK. pose proof (block16_N _ HK) as HB.
  pose proof (iv_start_block E iv B) as SB. pose proof (block16_N _ SB) as SN. pose proof (gf_inv_bound _ HB) as IB.
  assert (L16 : length (other_iv E iv) = 16) by apply length_N_to_be.
  assert (Bo : bytes (other_iv E iv)) by apply bytes_N_to_be.
  assert (SO : block16 (iv_start E (other_iv E iv))) by now apply iv_start_block.
  assert (PB : blk128 (iv_preimage (be_to_N (hash_key E)) (be_to_N (iv_start E iv)))) by (apply mul_bound; exact IB).
  apply be_to_N_inj; [destruct SO, SB; lia|apply SO|apply SB|].
  unfold iv_start at 1. rewrite L16. change (16 =? 12) with false. cbn match. change (8 * N.of_nat 16)%N with 128%N.
  pose proof (iv_tail_block 128) as W. rewrite pad16_aligned by (now rewrite L16).
  assert (M : length (other_iv E iv ++ repeat 0%N 12 ++ N_to_be 4 128) mod 16 = 0) by (rewrite app_length, L16; destruct W as [-> _]; reflexivity).
  rewrite ghash_N; [|exact HK|exact M|apply bytes_app; split; [exact Bo|apply W]].
  rewrite chunks_app by (lia || exact L16). rewrite (chunks_short (repeat 0%N 12 ++ N_to_be 4 128)) by (destruct W; lia).
  cbn [map]. rewrite !gfold_cons. change (gfold (be_to_N (hash_key E)) [] ?x) with x. fold len_word. rewrite N.lxor_0_l.
  unfold other_iv at 1. rewrite be_to_N_to_be by exact PB. unfold iv_preimage.
  rewrite mul_inv_r by (try apply lxor_blk; try apply mul_bound; assumption || apply len_word_blk).
  rewrite N.lxor_assoc, N.lxor_nilpotent, N.lxor_0_r. now apply mul_inv_r.
Qed.
Lemma gcm_iv_lengths_lemma : forall E iv, block_function E -> hash_key E <> repeat 0%N 16 -> bytes iv ->
  exists iv', length iv' = 16 /\ bytes iv' /\ forall d aad ps t, gcm_session d (lift E) iv' aad ps t = gcm_session d (lift E) iv aad ps t.
Proof.
  intros E iv HE NZ B. exists (other_iv E iv). assert (L16 : length (other_iv E iv) = 16) by apply length_N_to_be.
  assert (Bo : bytes (other_iv E iv)) by apply bytes_N_to_be. split; [exact L16|]. split; [exact Bo|].
  intros d aad ps t. unfold gcm_session. destruct (gcm_init_spec E HE) as (HH & HL & _ & EI & HT). rewrite EI. cbn [bind].
  rewrite !setiv_actual by assumption. rewrite (other_iv_start E iv HE NZ B). reflexivity.
Qed.

(** ** Several calls of WBCRYPTO_gcm_finish *)
(** client scenario: tags of the given lengths, one after the other *)
Fixpoint finishes (c : gcm_ctx) (ts : list nat) : option (list (list N)) :=
  match ts with [] => Some [] | t :: ts => do r <- gcm_finish c t; do l <- finishes (fst r) ts; Some (snd r :: l) end.
(** init, setiv, aad, one encryption or decryption, then the tags *)
Definition gcm_tags (d : dir) (blk : blockfn) (iv aad p : list N) (ts : list nat) : option (list N * list (list N)) :=
  do c0 <- gcm_init blk;
  let '(ok1, c1) := gcm_setiv blk c0 iv in
  if ok1 : bool then
    let '(ok2, c2, out) := gcm_crypt d blk (gcm_aad c1 aad) p (length p) in
    if ok2 : bool then do l <- finishes c2 ts; Some (out, l) else None
  else None.
(** what a tag is when the block of lengths has been hashed i times *)
Definition tag_again (E : list N -> list N) (iv aad c : list N) (i t : nat) : list N :=
  firstn t (xorl (ghash (hash_key E) (pad16 aad ++ pad16 c ++ concat (repeat (len64 aad ++ len64 c) i))) (E (J0 E iv))).
Lemma lens_block aad c : block16 (len64 aad ++ len64 c).
Proof. split; [apply lens_length|apply bytes_app; split; apply len64_bytes]. Qed.
Lemma concat_repeat_snoc {A} (l : list A) i : concat (repeat l (S i)) = concat (repeat l i) ++ l.
Proof.
  induction i as [|i IH]; [cbn; now rewrite app_nil_r|]. change (concat (repeat l (S (S i)))) with (l ++ concat (repeat l (S i))). rewrite IH at 1. change (concat (repeat l (S i))) with (l ++ concat (repeat l i)). now rewrite app_assoc.
Qed.
Lemma concat_repeat_mod (l : list N) i : length l = 16 -> length (concat (repeat l i)) mod 16 = 0.
Proof. intro L. induction i as [|i IH]; [reflexivity|]. cbn [repeat concat]. rewrite app_length, L. now rewrite mod_add16. Qed.
Lemma repeat_zero_ghash h i : ghash_from h (repeat 0%N 16) (concat (repeat (repeat 0%N 16) i)) = repeat 0%N 16.
Proof.
  induction i as [|i IH]; [reflexivity|]. rewrite concat_repeat_snoc, ghash_from_app by (apply concat_repeat_mod; reflexivity). rewrite IH. exact (ghash_zero_block h).
Qed.
Lemma ghash_again_mod aad c i : length (pad16 aad ++ pad16 c ++ concat (repeat (len64 aad ++ len64 c) i)) mod 16 = 0.
Proof.
  rewrite !app_length. pose proof (pad16_length_mod aad). pose proof (pad16_length_mod c). pose proof (concat_repeat_mod (len64 aad ++ len64 c) i (lens_length aad c)). lia.
Qed.
Lemma finishes_spec E iv aad c HL HH y : block_function E -> bytes iv -> tables_ok HH HL (be_to_N (hash_key E)) ->
  (8 * N.of_nat (length aad) < 2 ^ 64)%N -> (8 * N.of_nat (length c) < 2 ^ 64)%N -> forall ts i, Forall (fun t => t <= 16) ts ->
  finishes (mkgcm (N.of_nat (length c)) (N.of_nat (length aad)) HL HH (E (J0 E iv)) y
    (ghash_from (hash_key E) (repeat 0%N 16) (pad16 aad ++ pad16 c ++ concat (repeat (len64 aad ++ len64 c) i)))) ts
  = Some (map (fun k => tag_again E iv aad c (S i + k) (nth k ts 0)) (seq 0 (length ts))).
Proof.
  intros HE Biv HT La Lc. induction ts as [|t ts IH]; intros i F; [reflexivity|]. apply Forall_cons_iff in F. destruct F as [Ft F].
  cbn [finishes length seq map]. unfold gcm_finish. cbn [g_len g_add_len g_HL g_HH g_base g_y g_buf]. destruct (Nat.ltb_spec 16 t); [lia|].
  rewrite !w64_small by lia. set (g := ghash_from _ _ _).
  assert (G : block16 g) by (apply ghash_from_block16; [apply block16_zeros|apply ghash_again_mod]).
  set (L := len64 aad ++ len64 c) in *. pose proof (lens_block aad c) as W. fold L in W.
  assert (HB : block16 (E (J0 E iv))) by (now apply HE, J0_block).
  assert (NX : block_mul (xorl g L) (hash_key E) = ghash_from (hash_key E) (repeat 0%N 16) (pad16 aad ++ pad16 c ++ concat (repeat L (S i)))).
  { rewrite concat_repeat_snoc, !(app_assoc (pad16 aad)), (app_assoc (pad16 aad ++ pad16 c)). rewrite (ghash_from_app _ _ L).
    - rewrite ghash_from_one by apply W. f_equal. f_equal. unfold g. f_equal. now rewrite app_assoc.
    - rewrite <- app_assoc. apply ghash_again_mod. }
  assert (T : forall u, xorl (firstn t (E (J0 E iv))) (firstn t u) = firstn t (xorl u (E (J0 E iv)))) by (intro u; now rewrite firstn_xorl, xorl_comm).
  assert (TL : forall s, map (fun k => tag_again E iv aad c (S i + k) (nth k (t :: ts) 0)) (seq (S s) (length ts)) =
               map (fun k => tag_again E iv aad c (S (S i) + k) (nth k ts 0)) (seq s (length ts))).
  { intro s. rewrite <- seq_shift, map_map. apply map_ext. intro k. cbn [nth]. f_equal. lia. }
  destruct (N.eqb_spec (N.of_nat (length c) * 8) 0) as [Z1|Z1]; destruct (N.eqb_spec (N.of_nat (length aad) * 8) 0) as [Z2|Z2]; cbn [andb bind fst snd].
  1: { assert (C0 : c = []) by (destruct c; cbn [length] in *; [auto|lia]). assert (A0 : aad = []) by (destruct aad; cbn [length] in *; [auto|lia]).
       subst c aad. assert (L0 : L = repeat 0%N 16) by reflexivity.
       assert (GZ : forall k, ghash_from (hash_key E) (repeat 0%N 16) (pad16 [] ++ pad16 [] ++ concat (repeat L k)) = repeat 0%N 16)
         by (intro k; rewrite L0; cbn [app pad16 length]; apply repeat_zero_ghash).
       specialize (IH (S i) F). fold L in IH. rewrite (GZ (S i)) in IH. unfold g. rewrite (GZ i). rewrite IH. cbn [bind]. rewrite TL. f_equal. f_equal.
       unfold tag_again. fold L. change (ghash (hash_key E)) with (ghash_from (hash_key E) (repeat 0%N 16)). cbn [nth]. rewrite (GZ (S i + 0)).
       rewrite xorl_zeros_l by (destruct HB; lia). reflexivity. }
  all: rewrite len_block by lia; rewrite !(N.mul_comm (N.of_nat _) 8); fold (len64 aad); fold (len64 c); fold L.
  all: rewrite xor_into_full by (destruct G, W; lia).
  all: rewrite (gcm_mult_block _ _ (hash_key E)) by (auto; now apply block16_xorl).
  all: rewrite NX; rewrite IH by exact F; cbn [bind]; rewrite TL; f_equal; f_equal; rewrite T; unfold tag_again; cbn [nth]; rewrite Nat.add_0_r; reflexivity.
Qed.
Lemma gcm_tags_lemma : forall E d iv aad p ts, block_function E -> bytes iv -> bytes aad -> bytes p ->
  (8 * N.of_nat (length iv) < 2 ^ 32)%N -> (8 * N.of_nat (length aad) < 2 ^ 64)%N -> (N.of_nat (length p) <= 2147483647)%N -> Forall (fun t => t <= 16) ts ->
  let o := gcm_ciphertext E iv p in let c := match d with Enc => o | Dec => p end in
  gcm_tags d (lift E) iv aad p ts = Some (o, map (fun k => tag_again E iv aad c (S k) (nth k ts 0)) (seq 0 (length ts))).
Proof.
  intros E d iv aad p ts HE Biv Ba Bp Liv La Lp F. cbv zeta. unfold gcm_tags.
  destruct (gcm_init_spec E HE) as (HH & HL & _ & EI & HT). rewrite EI. cbn [bind]. set (c0 := mkgcm _ _ _ _ _ _ _).
  rewrite (gcm_setiv_spec E c0 iv) by auto. set (c1 := mkgcm 0 (g_add_len c0) _ _ _ _ _). assert (HJ := J0_block E iv Biv).
  assert (HC1 : ctx_ok (hash_key E) c1) by (split; [exact HT|split; [exact HJ|apply block16_zeros]]).
  pose proof (gcm_aad_spec _ c1 aad HC1 Ba ltac:(lia)) as EA. pose proof (aad_ctx_ok _ c1 aad HC1 Ba) as HC2.
  rewrite EA in HC2 |- *. unfold c1 in HC2 |- *. cbn [g_len g_add_len g_HL g_HH g_base g_y g_buf] in HC2 |- *.
  match type of HC2 with ctx_ok _ ?x => set (c2 := x) in * end.
  pose proof (gcm_crypt_spec E _ d c2 p (length p) HE HC2 Bp Lp (Nat.le_refl _)) as ES. cbv zeta in ES. rewrite ES.
  unfold c2. cbn [g_len g_add_len g_HL g_HH g_base g_y g_buf]. set (o := gctr E (inc32 (J0 E iv)) p). fold (gcm_ciphertext E iv p) in o.
  set (hs := match d with Enc => o | Dec => p end). assert (Lo : length hs = length p).
  { unfold hs. destruct d; [|reflexivity]. apply gctr_length; [exact HE|now apply inc32_block]. }
  rewrite N.add_0_l. rewrite w64_small by lia.
  pose proof (finishes_spec E iv aad hs HL HH (inc32_n (nblk (length p)) (J0 E iv)) HE Biv HT La ltac:(lia) ts 0 F) as FS.
  change (concat (repeat (len64 aad ++ len64 hs) 0)) with (@nil N) in FS. rewrite app_nil_r in FS. rewrite Lo in FS.
  rewrite ghash_from_app in FS by apply pad16_length_mod.
  replace (hashed d p o) with hs by (unfold hs; destruct d; reflexivity).
  unfold c0. cbn [g_len g_add_len g_HL g_HH g_base g_y g_buf]. rewrite FS. cbn [bind]. reflexivity.
Qed.

Lemma tag_again_1 E iv aad c t : tag_again E iv aad c 1 t = gcm_tag E iv aad c t.
Proof. unfold tag_again, gcm_tag. cbn [repeat concat]. now rewrite app_nil_r, <- ?app_assoc. Qed.
Lemma tag_again_eq E iv aad c i j : block_function E -> bytes iv -> tag_again E iv aad c i 16 = tag_again E iv aad c j 16 ->
  ghash (hash_key E) (pad16 aad ++ pad16 c ++ concat (repeat (len64 aad ++ len64 c) i)) = ghash (hash_key E) (pad16 aad ++ pad16 c ++ concat (repeat (len64 aad ++ len64 c) j)).
Proof.
  intros HE Biv Q. unfold tag_again in Q. assert (HB : block16 (E (J0 E iv))) by (now apply HE, J0_block).
  pose proof (ghash_block16 (hash_key E) _ (ghash_again_mod aad c i)) as A. pose proof (ghash_block16 (hash_key E) _ (ghash_again_mod aad c j)) as B.
  rewrite !firstn_all2 in Q by (rewrite length_xorl; destruct A, B; lia). destruct A, B, HB. eapply xorl_inj_l; [| |exact Q]; lia.
Qed.
(** the second tag as an equation in the field *)
Lemma second_tag_eq E iv aad c : block_function E -> bytes iv -> bytes aad -> bytes c -> tag_again E iv aad c 2 16 = tag_again E iv aad c 1 16 ->
  let t := be_to_N (ghash (hash_key E) (hashed_str aad c)) in
  gf_mul t (N.lxor (be_to_N (hash_key E)) gf_one) = gf_mul (be_to_N (len64 aad ++ len64 c)) (be_to_N (hash_key E)).
Proof.
  intros HE Biv Ba Bc Q t. apply tag_again_eq in Q; [|exact HE|exact Biv]. pose proof (hash_key_block E HE) as HK. pose proof (lens_block aad c) as W.
  cbn [repeat concat] in Q. rewrite app_nil_r in Q.
  replace (pad16 aad ++ pad16 c ++ (len64 aad ++ len64 c) ++ len64 aad ++ len64 c) with (hashed_str aad c ++ (len64 aad ++ len64 c)) in Q by (unfold hashed_str; now rewrite <- !app_assoc).
  replace (pad16 aad ++ pad16 c ++ len64 aad ++ len64 c) with (hashed_str aad c) in Q by reflexivity.
  change (ghash (hash_key E)) with (ghash_from (hash_key E) (repeat 0%N 16)) in Q, t. rewrite ghash_from_app in Q by apply hashed_str_mod. rewrite ghash_from_one in Q by apply W.
  pose proof (ghash_from_block16 (hash_key E) (repeat 0%N 16) _ block16_zeros (hashed_str_mod aad c)) as GB.
  apply (f_equal be_to_N) in Q. rewrite block_mul_N in Q by exact HK. rewrite be_to_N_xorl in Q by (destruct GB, W; assumption || lia). fold t in Q.
  rewrite mul_lxor_l in Q. rewrite mul_lxor_r. assert (TB : blk128 t) by (apply block16_N; exact GB). rewrite (mul_1_r t TB). rewrite <- Q at 2.
  rewrite <- N.lxor_assoc, N.lxor_nilpotent. apply N.lxor_0_l.
Qed.
Lemma gcm_second_tag_lemma : forall E iv aad c c', block_function E -> hash_key E <> repeat 0%N 16 -> hash_key E <> N_to_be 16 (2 ^ 127) ->
  bytes iv -> bytes aad -> block16 c -> block16 c' -> c <> c' ->
  tag_again E iv aad c 2 16 <> tag_again E iv aad c 1 16 \/ tag_again E iv aad c' 2 16 <> tag_again E iv aad c' 1 16.
Proof.
  intros E iv aad c c' HE NZ N1 Biv Ba [Lc Bc] [Lc' Bc'] NE.
  destruct (list_eq_dec N.eq_dec (tag_again E iv aad c 2 16) (tag_again E iv aad c 1 16)) as [Q|]; [|now left]. right. intro Q'.
  apply second_tag_eq in Q; [|assumption..]. apply second_tag_eq in Q'; [|assumption..]. cbv zeta in Q, Q'.
  assert (EL : len64 c' = len64 c) by (apply len64_eq; lia). rewrite EL in Q'. rewrite <- Q in Q'. clear Q.
  pose proof (hash_key_block E HE) as HK. pose proof (hash_key_nz E HE NZ) as NZ'. pose proof (block16_N _ HK) as HB.
  apply mul_inj_l in Q'; [|apply block16_N, ghash_block16, hashed_str_mod|apply block16_N, ghash_block16, hashed_str_mod|apply lxor_blk; [exact HB|apply gf_one_blk]|].
  - apply be_to_N_inj in Q'.
    + unfold hashed_str in Q'. rewrite EL, !(pad16_aligned c'), !(pad16_aligned c) in Q' by (rewrite ?Lc, ?Lc'; reflexivity).
      revert Q'. assert (LM : length (len64 aad ++ len64 c) mod 16 = 0) by now rewrite lens_length. assert (NE' : c' <> c) by congruence.
      exact (ghash_one_block _ (pad16 aad) c' c (len64 aad ++ len64 c) HK NZ' (pad16_length_mod aad) LM (conj Lc' Bc') (conj Lc Bc) (bytes_pad16 _ Ba) (proj2 (lens_block aad c)) NE').
    + destruct (ghash_block16 (hash_key E) _ (hashed_str_mod aad c')) as [-> _]. destruct (ghash_block16 (hash_key E) _ (hashed_str_mod aad c)) as [-> _]. reflexivity.
    + apply ghash_block16, hashed_str_mod.
    + apply ghash_block16, hashed_str_mod.
  - intro Z. apply N.lxor_eq in Z. apply N1. destruct HK as [LK BK]. rewrite <- (N_to_be_to_N _ BK), LK. f_equal. exact Z.
Qed.
Lemma gcm_finish_again_lemma : forall E d iv aad p p' r r', block_function E -> hash_key E <> repeat 0%N 16 -> hash_key E <> N_to_be 16 (2 ^ 127) ->
  bytes iv -> bytes aad -> (8 * N.of_nat (length iv) < 2 ^ 32)%N -> (8 * N.of_nat (length aad) < 2 ^ 64)%N -> block16 p -> block16 p' -> p <> p' ->
  gcm_tags d (lift E) iv aad p [16; 16] = Some r -> gcm_tags d (lift E) iv aad p' [16; 16] = Some r' ->
  nth 1 (snd r) [] <> nth 0 (snd r) [] \/ nth 1 (snd r') [] <> nth 0 (snd r') [].
Proof.
  intros E d iv aad p p' r r' HE NZ N1 Biv Ba Liv La [Lp Bp] [Lp' Bp'] NE R R'.
  assert (F : Forall (fun t => t <= 16) [16; 16]) by (repeat constructor).
  assert (I : (N.of_nat (length p) <= 2147483647)%N /\ (N.of_nat (length p') <= 2147483647)%N) by (rewrite Lp, Lp'; split; discriminate). destruct I as [I I'].
  rewrite (gcm_tags_lemma E d iv aad p [16; 16] HE Biv Ba Bp Liv La I F) in R. rewrite (gcm_tags_lemma E d iv aad p' [16; 16] HE Biv Ba Bp' Liv La I' F) in R'.
  assert (J : block16 (inc32 (J0 E iv))) by (now apply inc32_block, J0_block).
  assert (C : forall q, block16 q -> block16 (gcm_ciphertext E iv q)).
  { intros q [Lq Bq]. split; [unfold gcm_ciphertext; rewrite gctr_length by assumption; exact Lq|now apply gctr_bytes]. }
  assert (CN : gcm_ciphertext E iv p <> gcm_ciphertext E iv p').
  { intro Q. apply NE. rewrite <- (gctr_involutive E p HE _ J), <- (gctr_involutive E p' HE _ J). unfold gcm_ciphertext in Q. now rewrite Q. }
  pose proof (f_equal (fun o => match o with Some x => snd x | None => [] end) R) as S1. pose proof (f_equal (fun o => match o with Some x => snd x | None => [] end) R') as S2.
  cbv beta iota in S1, S2. rewrite <- S1, <- S2. cbn [length seq map nth snd].
  destruct d; (apply gcm_second_tag_lemma; try assumption; try (split; assumption)); apply C; split; assumption.
Qed.
