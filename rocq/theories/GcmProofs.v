(** * Lemmas about the GCM model *)
From Verif Require Import Base CbcModel CbcSpec CbcProofs GcmModel GcmSpec GfProofs Toy.
Local Open Scope nat_scope.

(** ** induction by 16-byte blocks with a short tail *)
Lemma blocks_ind {A} (P : list A -> Prop) :
  P [] -> (forall p, 0 < length p < 16 -> P p) ->
  (forall b s, length b = 16 -> P s -> P (b ++ s)) -> forall l, P l.
Proof.
  intros H0 H1 H2 l. remember (length l) as n eqn:E. revert l E.
  induction n as [n IH] using lt_wf_ind. intros l E.
  destruct (Nat.lt_ge_cases (length l) 16) as [L|L].
  - destruct l as [|x l]; auto. apply H1. cbn [length] in *. lia.
  - rewrite <- (firstn_skipn 16 l). apply H2.
    + rewrite firstn_length. lia.
    + apply (IH (length (skipn 16 l))); auto. rewrite skipn_length. lia.
Qed.
Lemma chunks_short {A} (p : list A) : 0 < length p <= 16 -> chunks 16 p = [p].
Proof.
  intros H. rewrite chunks_eq; [|lia|destruct p; cbn in *; [lia|discriminate]].
  rewrite firstn_all2, skipn_all2 by lia. now rewrite chunks_nil.
Qed.
Lemma pad16_nil : pad16 [] = [].
Proof. reflexivity. Qed.
Lemma pad16_short p : 0 < length p < 16 -> pad16 p = p ++ repeat 0%N (16 - length p).
Proof.
  intros H. unfold pad16. do 2 f_equal. rewrite (Nat.mod_small (length p)) by lia.
  apply Nat.mod_small. lia.
Qed.
Lemma mod_add16 k : (16 + k) mod 16 = k mod 16.
Proof. replace (16 + k) with (k + 1 * 16) by lia. apply Nat.mod_add. lia. Qed.
Lemma pad16_app b s : length b = 16 -> pad16 (b ++ s) = b ++ pad16 s.
Proof.
  intros H. unfold pad16. rewrite app_length, H, mod_add16. now rewrite app_assoc.
Qed.
Lemma pad16_aligned s : length s mod 16 = 0 -> pad16 s = s.
Proof. intros H. unfold pad16. rewrite H. cbn. apply app_nil_r. Qed.
Lemma pad16_length_mod s : length (pad16 s) mod 16 = 0.
Proof.
  unfold pad16. rewrite app_length, repeat_length.
  pose proof (Nat.mod_upper_bound (length s) 16 ltac:(lia)).
  rewrite Nat.add_mod by lia. rewrite (Nat.mod_mod (16 - _)) by lia.
  rewrite <- Nat.add_mod by lia.
  rewrite (Nat.div_mod (length s) 16) at 1 by lia.
  replace (16 * (length s / 16) + length s mod 16 + (16 - length s mod 16))
    with (0 + (length s / 16 + 1) * 16) by lia. rewrite Nat.mod_add by lia. reflexivity.
Qed.
Lemma pad16_app_aligned a s : length a mod 16 = 0 -> pad16 (a ++ s) = a ++ pad16 s.
Proof.
  intros H. unfold pad16. rewrite app_length. rewrite Nat.add_mod by lia. rewrite H, Nat.add_0_l.
  rewrite Nat.mod_mod by lia. now rewrite app_assoc.
Qed.
Lemma bytes_pad16 s : bytes s -> bytes (pad16 s).
Proof. intros H. apply bytes_app. split; auto. apply bytes_repeat. unfold byte; lia. Qed.

Lemma fold_left_cons {A B} (f : A -> B -> A) b l a : fold_left f (b :: l) a = fold_left f l (f a b).
Proof. reflexivity. Qed.

(** ** GHASH from an arbitrary accumulator *)
Definition ghash_from (H acc s : list N) : list N :=
  fold_left (fun Y X => block_mul (xorl Y X) H) (chunks 16 s) acc.
Lemma ghash_from_nil H a : ghash_from H a [] = a.
Proof. reflexivity. Qed.
Lemma ghash_from_block H a b s : length b = 16 ->
  ghash_from H a (b ++ s) = ghash_from H (block_mul (xorl a b) H) s.
Proof. intros L. unfold ghash_from. now rewrite chunks_app by (auto; lia). Qed.
Lemma ghash_from_one H a b : length b = 16 -> ghash_from H a b = block_mul (xorl a b) H.
Proof. intros L. rewrite <- (app_nil_r b) at 1. rewrite ghash_from_block by auto. apply ghash_from_nil. Qed.
Lemma ghash_from_app H s1 s2 : length s1 mod 16 = 0 -> forall a,
  ghash_from H a (s1 ++ s2) = ghash_from H (ghash_from H a s1) s2.
Proof.
  intros Hm. by_blocks s1.
  - intros a. reflexivity.
  - intros b s Hb _ IH a. rewrite <- app_assoc.
    rewrite (ghash_from_block H a b (s ++ s2)), (ghash_from_block H a b s) by auto. apply IH.
Qed.
Lemma block_mul_block X H : block16 (block_mul X H).
Proof. split; [apply length_N_to_be|apply bytes_N_to_be]. Qed.
Lemma ghash_from_block16 H a s : block16 a -> length s mod 16 = 0 -> block16 (ghash_from H a s).
Proof.
  intros Ha Hm. revert a Ha. by_blocks s; auto.
  intros b s' Hb _ IH a Ha. rewrite ghash_from_block by auto. apply IH. apply block_mul_block.
Qed.

(** ** gcm_mult and absorb *)
Definition keyed (h : list N) (c : gcm_ctx) : Prop := tables_ok (g_HH c) (g_HL c) (be_to_N h).

Lemma gcm_mult_block HH HL h x : tables_ok HH HL (be_to_N h) -> block16 x ->
  gcm_mult HH HL x = block_mul x h.
Proof. intros HT Hx. unfold block_mul. now apply gcm_mult_spec. Qed.
Local Opaque gcm_mult block_mul.

Lemma xor_into_full a p : length a = length p -> xor_into a p = xorl a p.
Proof.
  intros H. unfold xor_into. rewrite firstn_all2, skipn_all2 by lia. apply app_nil_r.
Qed.
Lemma xor_into_pad a p : length a = 16 -> length p <= 16 ->
  xor_into a p = xorl a (p ++ repeat 0%N (16 - length p)).
Proof.
  intros H1 H2. unfold xor_into.
  rewrite <- (firstn_skipn (length p) a) at 3.
  rewrite xorl_app by (rewrite firstn_length; lia).
  f_equal. rewrite xorl_zeros_r; auto. rewrite skipn_length. lia.
Qed.

Lemma absorb_block HH HL acc b s : length b = 16 ->
  absorb HH HL acc (b ++ s) = absorb HH HL (gcm_mult HH HL (xor_into acc b)) s.
Proof. intros L. unfold absorb. rewrite chunks_app by (auto; lia). rewrite fold_left_cons. reflexivity. Qed.
Lemma absorb_short HH HL acc p : 0 < length p <= 16 ->
  absorb HH HL acc p = gcm_mult HH HL (xor_into acc p).
Proof. intros L. unfold absorb. rewrite chunks_short by auto. rewrite fold_left_cons. reflexivity. Qed.
Lemma absorb_spec HH HL h data : tables_ok HH HL (be_to_N h) -> bytes data -> forall acc, block16 acc ->
  absorb HH HL acc data = ghash_from h acc (pad16 data).
Proof.
  intros HT. pattern data. apply blocks_ind; clear data.
  - intros _ acc _. reflexivity.
  - intros p Hp Bp acc Ha. rewrite absorb_short by lia.
    rewrite pad16_short by auto.
    assert (block16 (p ++ repeat 0%N (16 - length p))).
    { split; [rewrite app_length, repeat_length; lia|]. apply bytes_app. split; auto.
      apply bytes_repeat. unfold byte; lia. }
    destruct Ha as [La Ba].
    rewrite xor_into_pad by lia. rewrite (gcm_mult_block _ _ h); auto.
    + rewrite ghash_from_one; auto. apply H.
    + apply block16_xorl; auto. split; auto.
  - intros b s Hb IH Bs acc Ha. apply bytes_app in Bs as [Bb Bs].
    rewrite pad16_app, ghash_from_block by auto.
    rewrite absorb_block by auto.
    assert (block16 (xorl acc b)) by (apply block16_xorl; auto; split; auto).
    rewrite xor_into_full by (destruct Ha; lia).
    rewrite (gcm_mult_block _ _ h) by auto. apply IH; auto. apply block_mul_block.
Qed.

(** ** the counter *)
Lemma inc32_block y : block16 y -> block16 (inc32 y).
Proof.
  intros [L B]. unfold inc32. split.
  - rewrite app_length, length_N_to_be, firstn_length. lia.
  - apply bytes_app. split; [now apply bytes_firstn|apply bytes_N_to_be].
Qed.
Lemma ctr_incr_spec y : block16 y -> ctr_incr y = inc32 y.
Proof.
  intros [L B].
  destruct (length16_destruct y L) as (a0&a1&a2&a3&a4&a5&a6&a7&a8&a9&a10&a11&a12&a13&a14&a15&->).
  repeat match goal with H : bytes (_ :: _) |- _ => inversion H; clear H; subst
                       | H : Forall _ (_ :: _) |- _ => inversion H; clear H; subst end.
  unfold byte in *.
  unfold inc32. cbn [firstn skipn app].
  unfold ctr_incr, ctr_incr_from.
  change (16 - 1) with 15. change (15 - 1) with 14. change (14 - 1) with 13. change (13 - 1) with 12.
  cbn [set get nth].
  assert (HN : forall p q r s, (p < 256 -> q < 256 -> r < 256 -> s < 256 ->
     be_to_N [p;q;r;s] = (be_to_N [a12;a13;a14;a15] + 1) mod 2 ^ 32 ->
     [a0;a1;a2;a3;a4;a5;a6;a7;a8;a9;a10;a11;p;q;r;s] =
     [a0;a1;a2;a3;a4;a5;a6;a7;a8;a9;a10;a11] ++ N_to_be 4 ((be_to_N [a12;a13;a14;a15] + 1) mod 2 ^ 32))%N).
  { intros p q r s Hp Hq Hr Hs E. rewrite <- E.
    assert (EN : N_to_be 4 (be_to_N [p;q;r;s]) = [p;q;r;s])
      by (apply (N_to_be_to_N [p;q;r;s]); repeat constructor; auto).
    rewrite EN. reflexivity. }
  unfold be_to_N in HN; cbn [fold_left] in HN. change (2 ^ 32)%N with 4294967296%N in *.
  cbn [app] in HN |- *.
  repeat match goal with |- context [N.eqb ?a ?b] => destruct (N.eqb_spec a b) end;
   apply HN; lia.
Qed.

Lemma inc32_n_block k : forall y, block16 y -> block16 (inc32_n k y).
Proof. induction k; intros y H; cbn; auto. apply IHk. now apply inc32_block. Qed.
Lemma inc32_n_add a b y : inc32_n (a + b) y = inc32_n b (inc32_n a y).
Proof. revert y; induction a; intros y; cbn; auto. Qed.
Lemma inc32_n_swap k : forall y, inc32_n k (inc32 y) = inc32 (inc32_n k y).
Proof. induction k as [|k IH]; intros y; cbn [inc32_n]; auto. Qed.
Lemma nblk_add16 n : nblk (16 + n) = S (nblk n).
Proof. unfold nblk. replace (16 + n + 15) with (n + 15 + 1 * 16) by lia. rewrite Nat.div_add by lia. lia. Qed.
Lemma nblk_short n : 0 < n <= 16 -> nblk n = 1.
Proof. unfold nblk. intros H. symmetry. apply (Nat.div_unique _ _ _ (n - 1)); lia. Qed.
Lemma nblk_add n k : n mod 16 = 0 -> nblk (n + k) = nblk n + nblk k.
Proof.
  intros H. unfold nblk. pose proof (Nat.div_mod n 16 ltac:(lia)) as E. rewrite H in E.
  rewrite E. set (q := n / 16).
  replace (16 * q + 0 + k + 15) with (k + 15 + q * 16) by lia.
  replace (16 * q + 0 + 15) with (15 + q * 16) by lia.
  rewrite !Nat.div_add by lia. change (15 / 16) with 0. lia.
Qed.

(** ** GCTR *)
Lemma gctr_nil E y : gctr E y [] = [].
Proof. reflexivity. Qed.
Lemma gctr_block E y b s : length b = 16 ->
  gctr E y (b ++ s) = xorl b (firstn 16 (E y)) ++ gctr E (inc32 y) s.
Proof. intros L. unfold gctr. rewrite chunks_app by (auto; lia). cbn [gctr_blocks concat]. now rewrite L. Qed.
Lemma gctr_short E y p : 0 < length p <= 16 -> gctr E y p = xorl p (firstn (length p) (E y)).
Proof. intros L. unfold gctr. rewrite chunks_short by lia. cbn. apply app_nil_r. Qed.
Lemma firstn16 b : block16 b -> firstn 16 b = b.
Proof. intros [L _]. apply firstn_all2. lia. Qed.
Lemma gctr_length E x : block_function E -> forall y, block16 y -> length (gctr E y x) = length x.
Proof.
  intros HE. pattern x. apply blocks_ind; clear x.
  - reflexivity.
  - intros p Hp y Hy. rewrite gctr_short by lia. rewrite length_xorl, firstn_length.
    destruct (HE y Hy). lia.
  - intros b s Hb IH y Hy. rewrite gctr_block by auto.
    rewrite !app_length, IH by (now apply inc32_block).
    rewrite length_xorl, firstn_length. destruct (HE y Hy). lia.
Qed.
Lemma gctr_bytes E x : block_function E -> bytes x -> forall y, block16 y -> bytes (gctr E y x).
Proof.
  intros HE. pattern x. apply blocks_ind; clear x.
  - intros _ y Hy. constructor.
  - intros p Hp Bp y Hy. rewrite gctr_short by lia. apply bytes_xorl; auto.
    apply bytes_firstn. apply HE; auto.
  - intros b s Hb IH Bs y Hy. apply bytes_app in Bs as [B1 B2]. rewrite gctr_block by auto.
    apply bytes_app. split; [|apply IH; auto; now apply inc32_block].
    apply bytes_xorl; auto. apply bytes_firstn. apply HE; auto.
Qed.
Lemma gctr_involutive E x : block_function E -> forall y, block16 y -> gctr E y (gctr E y x) = x.
Proof.
  intros HE. pattern x. apply blocks_ind; clear x.
  - reflexivity.
  - intros p Hp y Hy.
    assert (L : length (gctr E y p) = length p) by (now apply gctr_length).
    rewrite (gctr_short E y (gctr E y p)) by lia. rewrite L. rewrite gctr_short by lia.
    apply xorl_cancel_r. rewrite firstn_length. destruct (HE y Hy). lia.
  - intros b s Hb IH y Hy. destruct (HE y Hy) as [LE BE].
    rewrite (gctr_block E y b) by auto.
    rewrite gctr_block by (rewrite length_xorl, firstn_length; lia).
    rewrite IH by (now apply inc32_block). f_equal.
    apply xorl_cancel_r. rewrite firstn_length. lia.
Qed.
Lemma gctr_app E x s : length x mod 16 = 0 -> forall y,
  gctr E y (x ++ s) = gctr E y x ++ gctr E (inc32_n (nblk (length x)) y) s.
Proof.
  intros Hm. by_blocks x.
  - reflexivity.
  - intros b x' Hb _ IH y. rewrite <- app_assoc.
    rewrite (gctr_block E y b (x' ++ s)), (gctr_block E y b x') by auto.
    rewrite IH, <- app_assoc. rewrite app_length, Hb, nblk_add16. reflexivity.
Qed.

(** ** the data loop *)
Definition hashed (d : dir) (p o : list N) : list N := match d with Enc => o | Dec => p end.

Lemma crypt_loop_spec E HH HL h d data : block_function E -> tables_ok HH HL (be_to_N h) -> bytes data ->
  forall y buf out, block16 y -> block16 buf ->
  crypt_loop (lift E) HH HL d (chunks 16 data) y buf out =
  (true, inc32_n (nblk (length data)) y,
   ghash_from h buf (pad16 (hashed d data (gctr E (inc32 y) data))),
   out ++ gctr E (inc32 y) data).
Proof.
  intros HE HT. pattern data. apply blocks_ind; clear data.
  - intros _ y buf out Hy Hb. rewrite gctr_nil, app_nil_r.
    destruct d; reflexivity.
  - intros p Hp Bp y buf out Hy Hb. rewrite chunks_short by lia. cbn [crypt_loop].
    rewrite ctr_incr_spec by auto. unfold lift. rewrite nblk_short by lia. cbn [inc32_n].
    pose proof (inc32_block y Hy) as Hy'. destruct (HE _ Hy') as [LE BE].
    rewrite (xorl_comm (firstn _ _) p). rewrite gctr_short by lia.
    set (o := xorl p _).
    assert (Lo : length o = length p) by (unfold o; rewrite length_xorl, firstn_length; lia).
    assert (Bo : bytes o) by (unfold o; apply bytes_xorl; auto; now apply bytes_firstn).
    change (match d with Enc => o | Dec => p end) with (hashed d p o).
    assert (Lh : length (hashed d p o) = length p) by (destruct d; auto).
    assert (Bh : bytes (hashed d p o)) by (destruct d; auto).
    rewrite pad16_short by lia.
    assert (H16 : block16 (hashed d p o ++ repeat 0%N (16 - length (hashed d p o)))).
    { split; [rewrite app_length, repeat_length; lia|]. apply bytes_app. split; auto.
      apply bytes_repeat. unfold byte; lia. }
    rewrite ghash_from_one by apply H16.
    rewrite xor_into_pad by (destruct Hb; lia).
    rewrite (gcm_mult_block _ _ h) by (auto; now apply block16_xorl). reflexivity.
  - intros b s Lb IH Bs y buf out Hy Hb. apply bytes_app in Bs as [Bb Bs].
    rewrite chunks_app by (auto; lia). cbn [crypt_loop].
    rewrite ctr_incr_spec by auto. unfold lift at 1.
    pose proof (inc32_block y Hy) as Hy'. destruct (HE _ Hy') as [LE BE].
    rewrite gctr_block by auto. rewrite app_length, Lb, nblk_add16.
    rewrite (xorl_comm (firstn _ _) b).
    set (o := xorl b _).
    assert (Lo : length o = 16) by (unfold o; rewrite length_xorl, firstn_length; lia).
    assert (Bo : bytes o) by (unfold o; apply bytes_xorl; auto; now apply bytes_firstn).
    change (match d with Enc => o | Dec => b end) with (hashed d b o).
    assert (Lh : block16 (hashed d b o)) by (destruct d; split; auto).
    rewrite xor_into_full by (destruct Lh, Hb; lia).
    rewrite (gcm_mult_block _ _ h) by (auto; now apply block16_xorl).
    rewrite IH by (auto; apply block_mul_block).
    cbn [inc32_n]. rewrite <- app_assoc.
    assert (EH : hashed d (b ++ s) (o ++ gctr E (inc32 (inc32 y)) s)
                 = hashed d b o ++ hashed d s (gctr E (inc32 (inc32 y)) s)) by (destruct d; reflexivity).
    rewrite EH, pad16_app by apply Lh. rewrite ghash_from_block by apply Lh. reflexivity.
Qed.

Lemma c_int_small n : (n <= int_max)%N -> c_int n = Z.of_N n.
Proof.
  unfold int_max. intros H. unfold c_int.
  assert (n < 2 ^ 31)%N by (change (2 ^ 31)%N with 2147483648%N; lia).
  rewrite N.mod_small by (change (2 ^ 32)%N with 4294967296%N; change (2^31)%N with 2147483648%N in *; lia).
  destruct (N.ltb_spec n (2 ^ 31)); auto. lia.
Qed.

Definition ctx_ok (h : list N) (c : gcm_ctx) : Prop :=
  keyed h c /\ block16 (g_y c) /\ block16 (g_buf c).

Lemma gcm_crypt_spec E h d c inp outlen : block_function E -> ctx_ok h c -> bytes inp ->
  (N.of_nat (length inp) <= int_max)%N -> length inp <= outlen ->
  let o := gctr E (inc32 (g_y c)) inp in
  gcm_crypt d (lift E) c inp outlen =
  (true, mkgcm (w64 (g_len c + N.of_nat (length inp))) (g_add_len c) (g_HL c) (g_HH c) (g_base c)
     (inc32_n (nblk (length inp)) (g_y c)) (ghash_from h (g_buf c) (pad16 (hashed d inp o))), o).
Proof.
  intros HE [HK [Hy Hb]] Bi Hmax Ho. cbv zeta. unfold gcm_crypt.
  destruct (Nat.ltb_spec outlen (length inp)); [lia|].
  rewrite c_int_small by auto.
  assert (EL : Z.to_nat (Z.of_N (N.of_nat (length inp))) = length inp) by lia.
  rewrite EL, firstn_all.
  rewrite (crypt_loop_spec E _ _ h) by auto. cbn [app].
  assert (EW : Z.to_N ((Z.of_N (g_len c) + Z.of_N (N.of_nat (length inp))) mod 2 ^ 64)
               = w64 (g_len c + N.of_nat (length inp))).
  { unfold w64. rewrite <- N2Z.inj_add. change (2 ^ 64)%Z with (Z.of_N (2 ^ 64)%N).
    rewrite <- N2Z.inj_mod. lia. }
  now rewrite EW.
Qed.

Lemma gcm_crypt_ctx_ok E h d c inp outlen ok c' o : block_function E -> ctx_ok h c -> bytes inp ->
  (N.of_nat (length inp) <= int_max)%N -> length inp <= outlen ->
  gcm_crypt d (lift E) c inp outlen = (ok, c', o) ->
  ok = true /\ ctx_ok h c' /\ bytes o /\ length o = length inp.
Proof.
  intros HE HC Bi Hm Ho. rewrite (gcm_crypt_spec E h) by auto. intros [= <- <- <-].
  destruct HC as [HK [Hy Hb]]. split; auto.
  pose proof (inc32_block _ Hy) as Hy'.
  split; [|split; [now apply gctr_bytes|now apply gctr_length]].
  split; [exact HK|]. cbn [g_y g_buf]. split; [now apply inc32_n_block|].
  apply ghash_from_block16; auto. apply pad16_length_mod.
Qed.

(** ** init and setiv *)
Lemma gcm_init_spec E : block_function E -> exists HH HL, init_tables (E (repeat 0%N 16)) = (HH, HL) /\
  gcm_init (lift E) = Some (mkgcm 0 0 HL HH (repeat 0%N 16) (repeat 0%N 16) (repeat 0%N 16)) /\
  tables_ok HH HL (be_to_N (hash_key E)).
Proof.
  intros HE. unfold gcm_init, lift. destruct (init_tables (E (repeat 0%N 16))) as [HH HL] eqn:EI.
  exists HH, HL. split; auto. split; auto. eapply init_tables_ok; eauto. apply HE. apply block16_zeros.
Qed.

Lemma put_u32_len n : length (put_u32_be n) = 4.
Proof. reflexivity. Qed.
Lemma put_u32_bytes n : bytes (put_u32_be n).
Proof. rewrite put_u32_be_spec. apply bytes_N_to_be. Qed.

Lemma J0_block E iv : bytes iv -> block16 (J0 E iv).
Proof.
  intros B. unfold J0. destruct (Nat.eqb_spec (length iv) 12) as [L|L].
  - split; [rewrite app_length, L; reflexivity|]. apply bytes_app. split; auto. repeat constructor.
  - change (ghash (hash_key E)) with (ghash_from (hash_key E) (repeat 0%N 16)).
    apply ghash_from_block16; [apply block16_zeros|].
    rewrite app_length. unfold len64. rewrite app_length, repeat_length, length_N_to_be.
    rewrite Nat.add_mod by lia. rewrite pad16_length_mod. reflexivity.
Qed.

Lemma gcm_setiv_spec E c iv : block_function E -> keyed (hash_key E) c -> bytes iv ->
  (8 * N.of_nat (length iv) < 2 ^ 32)%N ->
  gcm_setiv (lift E) c iv =
  (true, mkgcm 0 (g_add_len c) (g_HL c) (g_HH c) (E (J0 E iv)) (J0 E iv) (repeat 0%N 16)).
Proof.
  intros HE HK Biv Hlen. unfold gcm_setiv, lift.
  match goal with |- context [if length iv =? 12 then ?a else ?b] =>
    assert (EY : (if length iv =? 12 then a else b) = J0 E iv) end.
  { unfold J0. destruct (Nat.eqb_spec (length iv) 12) as [L|L].
    - do 12 (destruct iv as [|? iv]; [discriminate|]). destruct iv; [|discriminate]. reflexivity.
    - change (ghash (hash_key E)) with (ghash_from (hash_key E) (repeat 0%N 16)).
      rewrite ghash_from_app by apply pad16_length_mod.
      rewrite (absorb_spec _ _ (hash_key E)) by (auto; apply block16_zeros).
      set (g := ghash_from _ _ (pad16 iv)).
      assert (G : block16 g) by (apply ghash_from_block16; [apply block16_zeros|apply pad16_length_mod]).
      assert (EW : repeat 0%N 12 ++ put_u32_be (w64 (N.of_nat (length iv) * 8)) = repeat 0%N 8 ++ len64 iv).
      { unfold len64. rewrite put_u32_be_spec. rewrite (N_to_be_app 4 4).
        rewrite N.div_small by (change (256 ^ N.of_nat 4)%N with (2 ^ 32)%N; lia).
        change (N_to_be 4 0) with (repeat 0%N 4). rewrite app_assoc. rewrite <- repeat_app.
        change (8 + 4) with 12. do 2 f_equal. unfold w64. rewrite N.mul_comm.
        apply N.mod_small. eapply N.lt_trans; [exact Hlen|reflexivity]. }
      rewrite EW.
      assert (B16 : block16 (repeat 0%N 8 ++ len64 iv)).
      { split; [unfold len64; rewrite app_length, repeat_length, length_N_to_be; reflexivity|].
        apply bytes_app. split; [apply bytes_repeat; reflexivity|apply bytes_N_to_be]. }
      rewrite xor_into_full by (destruct G, B16; lia).
      rewrite (gcm_mult_block _ _ (hash_key E)) by (auto; now apply block16_xorl).
      rewrite ghash_from_one by apply B16. reflexivity. }
  cbv zeta in EY |- *. rewrite EY. reflexivity.
Qed.

Lemma gcm_aad_spec h c aad : ctx_ok h c -> bytes aad -> (N.of_nat (length aad) < 2 ^ 64)%N ->
  gcm_aad c aad = mkgcm (g_len c) (N.of_nat (length aad)) (g_HL c) (g_HH c) (g_base c) (g_y c)
    (ghash_from h (g_buf c) (pad16 aad)).
Proof.
  intros [HK [Hy Hb]] Ba Hl. unfold gcm_aad. rewrite (absorb_spec _ _ h) by auto.
  unfold w64. now rewrite N.mod_small.
Qed.

Lemma gcm_aad_spec' h c aad : ctx_ok h c -> bytes aad ->
  gcm_aad c aad = mkgcm (g_len c) (N.of_nat (length aad) mod 2 ^ 64) (g_HL c) (g_HH c) (g_base c) (g_y c)
    (ghash_from h (g_buf c) (pad16 aad)).
Proof.
  intros [HK [Hy Hb]] Ba. unfold gcm_aad. rewrite (absorb_spec _ _ h) by auto. reflexivity.
Qed.

(** ** runs of crypt calls *)

Lemma crypt_pieces_app d blk ps qs : forall c,
  crypt_pieces d blk c (ps ++ qs) =
  let '(ok, c1, o) := crypt_pieces d blk c ps in
  if ok : bool then let '(ok2, c2, o2) := crypt_pieces d blk c1 qs in (ok2, c2, o ++ o2) else (false, c1, o).
Proof.
  induction ps as [|p ps IH]; intros c; cbn [app crypt_pieces].
  - destruct (crypt_pieces d blk c qs) as [[ok2 c2] o2]. reflexivity.
  - destruct (gcm_crypt d blk c p (length p)) as [[ok c1] o]. destruct ok; auto.
    rewrite IH. destruct (crypt_pieces d blk c1 ps) as [[ok1 c2] o1]. destruct ok1; auto.
    destruct (crypt_pieces d blk c2 qs) as [[ok2 c3] o2]. now rewrite app_assoc.
Qed.

Lemma crypt_pieces_ok E h d ps : block_function E -> small_pieces ps -> forall c, ctx_ok h c ->
  exists c' o, crypt_pieces d (lift E) c ps = (true, c', o) /\ ctx_ok h c' /\ length o = length (concat ps) /\
    bytes o /\ g_base c' = g_base c /\ g_add_len c' = g_add_len c /\ g_HH c' = g_HH c /\ g_HL c' = g_HL c /\
    w64 (g_len c') = w64 (g_len c + N.of_nat (length (concat ps))).
Proof.
  intros HE HS. induction HS as [|p ps [Bp Lp] HS IH]; intros c HC; cbn [crypt_pieces concat].
  - exists c, []. cbn [length]. rewrite N.add_0_r.
    repeat (split; [solve [auto; constructor]|]). auto.
  - pose proof (gcm_crypt_spec E h d c p (length p) HE HC Bp Lp (Nat.le_refl _)) as ES. cbv zeta in ES.
    destruct (gcm_crypt d (lift E) c p (length p)) as [[ok c1] o] eqn:EC.
    pose proof EC as EC'. eapply (gcm_crypt_ctx_ok E h) in EC'; auto.
    destruct EC' as (-> & HC1 & Bo & Lo). injection ES as ES1 ES2.
    destruct (IH c1 HC1) as (c' & o' & E2 & HC' & L' & B' & G1 & G2 & G3 & G4 & G5).
    rewrite E2. exists c', (o ++ o'). split; auto. split; auto.
    rewrite !app_length. split; [lia|]. split; [now apply bytes_app|].
    rewrite G1, G2, G3, G4. subst c1. cbn [g_base g_add_len g_HH g_HL g_len] in *.
    repeat (split; auto). rewrite G5. unfold w64. rewrite N.add_mod_idemp_l by discriminate.
    f_equal. lia.
Qed.

(** aligned pieces followed by a last one: the same as the concatenation *)
Lemma crypt_pieces_stream E h d ps : block_function E -> small_pieces ps ->
  Forall (fun p => length p mod 16 = 0) ps -> forall c, ctx_ok h c ->
  let m := concat ps in let o := gctr E (inc32 (g_y c)) m in
  exists len', w64 len' = w64 (g_len c + N.of_nat (length m)) /\ crypt_pieces d (lift E) c ps =
  (true, mkgcm len' (g_add_len c) (g_HL c) (g_HH c) (g_base c)
     (inc32_n (nblk (length m)) (g_y c)) (ghash_from h (g_buf c) (hashed d m o)), o).
Proof.
  intros HE HS HA. induction HS as [|p ps [Bp Lp] HS IH]; intros c HC; cbn [crypt_pieces concat]; cbv zeta.
  - exists (g_len c). split; [cbn [length]; now rewrite N.add_0_r|]. destruct c, d; reflexivity.
  - inversion HA as [|? ? Ap HA']; subst. specialize (IH HA').
    pose proof (gcm_crypt_spec E h d c p (length p) HE HC Bp Lp (Nat.le_refl _)) as ES. cbv zeta in ES.
    rewrite ES.
    match goal with |- context [crypt_pieces _ _ ?x ps] => set (c1 := x) in * end.
    assert (HC1 : ctx_ok h c1).
    { eapply (gcm_crypt_ctx_ok E h d c p); eauto. }
    destruct (IH c1 HC1) as [len' [EL EP]]. exists len'. rewrite EP.
    destruct HC as [HK [Hy Hb]]. pose proof (inc32_block _ Hy) as Hy'.
    pose proof (gctr_length E p HE _ Hy') as LG.
    unfold c1 in EL |- *. cbn [g_y g_buf g_HL g_HH g_base g_add_len g_len] in EL |- *.
    rewrite gctr_app by auto. rewrite app_length, nblk_add by auto. rewrite inc32_n_add.
    split.
    { rewrite EL. unfold w64. rewrite N.add_mod_idemp_l by discriminate. f_equal. lia. }
    rewrite inc32_n_swap. set (o1 := gctr E (inc32 (g_y c)) p) in *.
    set (o2 := gctr E (inc32 (inc32_n _ _)) (concat ps)).
    assert (AL : length (hashed d p o1) mod 16 = 0) by (destruct d; cbn [hashed]; [rewrite LG|]; auto).
    assert (EH : hashed d (p ++ concat ps) (o1 ++ o2) = hashed d p o1 ++ hashed d (concat ps) o2)
      by (destruct d; reflexivity).
    rewrite EH, ghash_from_app by auto. rewrite pad16_aligned by auto. reflexivity.
Qed.

(** aligned pieces, then any last piece *)
Lemma crypt_pieces_stream_last E h d ps q : block_function E -> small_pieces (ps ++ [q]) ->
  Forall (fun p => length p mod 16 = 0) ps -> forall c, ctx_ok h c ->
  let m := concat ps ++ q in let o := gctr E (inc32 (g_y c)) m in
  exists len', len' = w64 (g_len c + N.of_nat (length m)) /\ crypt_pieces d (lift E) c (ps ++ [q]) =
  (true, mkgcm len' (g_add_len c) (g_HL c) (g_HH c) (g_base c)
     (inc32_n (nblk (length m)) (g_y c)) (ghash_from h (g_buf c) (pad16 (hashed d m o))), o).
Proof.
  intros HE HS HA c HC. cbv zeta. apply Forall_app in HS as [HS Hq].
  inversion Hq as [|? ? [Bq Lq] _]; subst.
  destruct (crypt_pieces_stream E h d ps HE HS HA c HC) as [len' [EL EP]]. cbv zeta in EP.
  assert (HC1 : ctx_ok h (snd (fst (crypt_pieces d (lift E) c ps)))).
  { destruct (crypt_pieces_ok E h d ps HE HS c HC) as (c' & o & E1 & H1 & _). rewrite E1. exact H1. }
  exists (w64 (g_len c + N.of_nat (length (concat ps ++ q)))). split; auto.
  rewrite crypt_pieces_app. rewrite EP in HC1 |- *. cbn [fst snd] in HC1.
  match type of HC1 with ctx_ok h ?x => set (c1 := x) in * end.
  cbn [crypt_pieces]. rewrite (gcm_crypt_spec E h) by auto.
  destruct HC as [HK [Hy Hb]]. pose proof (inc32_block _ Hy) as Hy'.
  assert (AM : length (concat ps) mod 16 = 0).
  { clear -HA. induction HA; auto. cbn [concat]. rewrite app_length, Nat.add_mod by lia.
    rewrite H, IHHA. reflexivity. }
  pose proof (gctr_length E (concat ps) HE _ Hy') as LG.
  unfold c1. cbn [g_y g_buf g_HL g_HH g_base g_add_len g_len].
  rewrite app_nil_r. rewrite gctr_app by auto. rewrite inc32_n_swap.
  rewrite app_length, nblk_add, inc32_n_add by auto.
  set (o1 := gctr E (inc32 (g_y c)) (concat ps)) in *.
  set (o2 := gctr E (inc32 (inc32_n _ _)) q).
  assert (AL : length (hashed d (concat ps) o1) mod 16 = 0)
    by (destruct d; cbn [hashed]; [rewrite LG|]; auto).
  assert (EH : hashed d (concat ps ++ q) (o1 ++ o2) = hashed d (concat ps) o1 ++ hashed d q o2)
    by (destruct d; reflexivity).
  rewrite EH. rewrite pad16_app_aligned by auto. rewrite ghash_from_app by auto.
  assert (EW : w64 (len' + N.of_nat (length q)) = w64 (g_len c + N.of_nat (length (concat ps) + length q))).
  { unfold w64 in *. rewrite <- N.add_mod_idemp_l by discriminate. rewrite EL.
    rewrite N.add_mod_idemp_l by discriminate. f_equal. lia. }
  rewrite EW. reflexivity.
Qed.

(** ** sessions *)
Lemma gf_mul_0 V : gf_mul 0 V = 0%N.
Proof.
  unfold gf_mul. rewrite gf_mul_loop_sum, N.lxor_0_l. generalize 128 as k. intros k. revert V.
  induction k as [|k IH]; intros V; cbn [mulsum]; auto. rewrite N.bits_0, IH. reflexivity.
Qed.
Lemma ghash_zero_block h : ghash h (repeat 0%N 16) = repeat 0%N 16.
Proof.
  change (ghash h) with (ghash_from h (repeat 0%N 16)). rewrite ghash_from_one by reflexivity.
  rewrite xorl_zeros_r by reflexivity. Transparent block_mul. unfold block_mul.
  change (be_to_N (repeat 0%N 16)) with 0%N. rewrite gf_mul_0. reflexivity.
Qed.
Local Opaque block_mul.

Lemma setiv_ctx_ok E c iv : block_function E -> keyed (hash_key E) c -> bytes iv ->
  exists c1, gcm_setiv (lift E) c iv = (true, c1) /\ ctx_ok (hash_key E) c1 /\ block16 (g_base c1).
Proof.
  intros HE HK Biv. unfold gcm_setiv, lift.
  match goal with |- context [if length iv =? 12 then ?a else ?b] =>
    assert (BY : block16 (if length iv =? 12 then a else b)) end.
  { destruct (Nat.eqb_spec (length iv) 12) as [L|L].
    - split; [rewrite length_set, app_length, L; reflexivity|].
      apply bytes_set; [|reflexivity]. apply bytes_app. split; auto. repeat constructor.
    - cbv zeta. rewrite (absorb_spec _ _ (hash_key E)) by (auto; apply block16_zeros).
      assert (G : block16 (ghash_from (hash_key E) (repeat 0%N 16) (pad16 iv)))
        by (apply ghash_from_block16; [apply block16_zeros|apply pad16_length_mod]).
      set (w := repeat 0%N 12 ++ _).
      assert (W : block16 w).
      { split; [unfold w; rewrite app_length, repeat_length; reflexivity|].
        apply bytes_app. split; [apply bytes_repeat; reflexivity|apply put_u32_bytes]. }
      rewrite xor_into_full by (destruct G, W; lia).
      rewrite (gcm_mult_block _ _ (hash_key E)) by (auto; now apply block16_xorl).
      apply block_mul_block. }
  cbv zeta in BY |- *.
  eexists. split; [reflexivity|]. split; [|apply HE; exact BY].
  split; [exact HK|]. split; [exact BY|apply block16_zeros].
Qed.

Lemma aad_ctx_ok h c a : ctx_ok h c -> bytes a -> ctx_ok h (gcm_aad c a).
Proof.
  intros [HK [Hy Hb]] Ba. unfold gcm_aad. split; [exact HK|]. cbn [g_y g_buf]. split; auto.
  rewrite (absorb_spec _ _ h) by auto. apply ghash_from_block16; auto. apply pad16_length_mod.
Qed.

Lemma w64_small x : (x < 2 ^ 64)%N -> w64 x = x.
Proof. intros H. unfold w64. now apply N.mod_small. Qed.

Lemma len_block a b : (a < 2 ^ 64)%N -> (b < 2 ^ 64)%N ->
  put_u32_be (N.shiftr a 32) ++ put_u32_be a ++ put_u32_be (N.shiftr b 32) ++ put_u32_be b
  = N_to_be 8 a ++ N_to_be 8 b.
Proof.
  intros Ha Hb. rewrite !put_u32_be_spec, !N.shiftr_div_pow2.
  change (2 ^ 32)%N with (256 ^ N.of_nat 4)%N.
  rewrite (app_assoc (N_to_be 4 (a / _))). rewrite <- !N_to_be_app. reflexivity.
Qed.

Lemma session_spec E d iv aad ps q t : block_function E -> bytes iv -> bytes aad ->
  small_pieces (ps ++ [q]) -> Forall (fun p => length p mod 16 = 0) ps ->
  (8 * N.of_nat (length iv) < 2 ^ 32)%N -> (8 * N.of_nat (length aad) < 2 ^ 64)%N ->
  (8 * N.of_nat (length (concat ps ++ q)) < 2 ^ 64)%N -> t <= 16 ->
  let m := concat ps ++ q in let o := gctr E (inc32 (J0 E iv)) m in
  gcm_session d (lift E) iv aad (ps ++ [q]) t = Some (o, gcm_tag E iv aad (hashed d m o) t).
Proof.
  intros HE Biv Ba HS HA Hiv Haad Hm Ht. cbv zeta. unfold gcm_session.
  destruct (gcm_init_spec E HE) as (HH & HL & _ & EI & HT). rewrite EI. cbn [bind].
  set (c0 := mkgcm _ _ _ _ _ _ _).
  rewrite (gcm_setiv_spec E c0 iv) by auto.
  set (c1 := mkgcm 0 (g_add_len c0) _ _ _ _ _).
  assert (HJ := J0_block E iv Biv).
  assert (HC1 : ctx_ok (hash_key E) c1) by (split; [exact HT|split; [exact HJ|apply block16_zeros]]).
  pose proof (gcm_aad_spec _ c1 aad HC1 Ba ltac:(lia)) as EA.
  pose proof (aad_ctx_ok _ c1 aad HC1 Ba) as HC2.
  rewrite EA in HC2 |- *. unfold c1 in HC2 |- *. cbn [g_len g_add_len g_HL g_HH g_base g_y g_buf] in HC2 |- *.
  match type of HC2 with ctx_ok _ ?x => set (c2 := x) in * end.
  destruct (crypt_pieces_stream_last E _ d ps q HE HS HA c2 HC2) as [len' [EL EP]]. cbv zeta in EP.
  rewrite EP. unfold c2 in EL |- *. cbn [g_len g_add_len g_HL g_HH g_base g_y g_buf] in EL |- *.
  set (m := concat ps ++ q) in *. set (o := gctr E (inc32 (J0 E iv)) m).
  unfold gcm_finish. cbn [g_len g_add_len g_HL g_HH g_base g_y g_buf].
  destruct (Nat.ltb_spec 16 t); [lia|].
  rewrite N.add_0_l, w64_small in EL by lia. subst len'.
  rewrite !w64_small by lia.
  assert (Lo : length (hashed d m o) = length m).
  { destruct d; cbn [hashed]; auto. apply gctr_length; auto. now apply inc32_block. }
  assert (HB : block16 (E (J0 E iv))) by (now apply HE).
  destruct (N.eqb_spec (N.of_nat (length m) * 8) 0) as [Z1|Z1];
  destruct (N.eqb_spec (N.of_nat (length aad) * 8) 0) as [Z2|Z2]; cbn [andb bind snd].
  1: { assert (M0 : m = []) by (destruct m; cbn [length] in *; [auto|lia]).
       assert (A0 : aad = []) by (destruct aad; cbn [length] in *; [auto|lia]).
       subst aad. rewrite M0 in *. assert (O0 : o = []) by (unfold o; rewrite M0; reflexivity). rewrite O0.
       replace (hashed d [] []) with (@nil N) by (destruct d; reflexivity).
       do 2 f_equal. unfold gcm_tag. cbn [app pad16 length].
       change (pad16 [] ++ pad16 [] ++ len64 [] ++ len64 []) with (repeat 0%N 16).
       rewrite ghash_zero_block. rewrite xorl_zeros_l by (destruct HB; lia). reflexivity. }
  all: do 2 f_equal; unfold gcm_tag; rewrite firstn_xorl; rewrite xorl_comm; f_equal; f_equal.
  all: change (ghash (hash_key E)) with (ghash_from (hash_key E) (repeat 0%N 16)).
  all: rewrite !ghash_from_app by apply pad16_length_mod.
  all: match goal with |- context [xor_into ?x _] => set (g := x) end.
  all: assert (G : block16 g) by (apply ghash_from_block16; [|apply pad16_length_mod];
         apply ghash_from_block16; [apply block16_zeros|apply pad16_length_mod]).
  all: rewrite len_block by lia.
  all: rewrite !(N.mul_comm (N.of_nat _) 8); fold (len64 aad); rewrite <- Lo; fold (len64 (hashed d m o)).
  all: assert (W : block16 (len64 aad ++ len64 (hashed d m o)))
         by (split; [rewrite app_length; unfold len64; rewrite !length_N_to_be; reflexivity
                    |apply bytes_app; split; apply bytes_N_to_be]).
  all: rewrite xor_into_full by (destruct G, W; lia).
  all: rewrite (gcm_mult_block _ _ (hash_key E)) by (auto; now apply block16_xorl).
  all: rewrite ghash_from_one by apply W; reflexivity.
Qed.

(** ** encrypt then decrypt, piece by piece *)
Lemma crypt_pieces_inverse E h ps : block_function E -> small_pieces ps -> forall c cs c' ct, ctx_ok h c ->
  crypt_pieces Enc (lift E) c ps = (true, c', ct) ->
  map (@length N) cs = map (@length N) ps -> concat cs = ct ->
  crypt_pieces Dec (lift E) c cs = (true, c', concat ps).
Proof.
  intros HE HS. induction HS as [|p ps [Bp Lp] HS IH]; intros c cs c' ct HC EP EL EC.
  - destruct cs; [|discriminate]. cbn in *. congruence.
  - destruct cs as [|q cs]; [discriminate|]. injection EL as EL1 EL2.
    cbn [crypt_pieces concat] in *.
    pose proof (gcm_crypt_spec E h Enc c p (length p) HE HC Bp Lp (Nat.le_refl _)) as ES. cbv zeta in ES.
    destruct (gcm_crypt Enc (lift E) c p (length p)) as [[ok c1] o] eqn:E1.
    pose proof E1 as E1'. eapply (gcm_crypt_ctx_ok E h) in E1'; auto.
    destruct E1' as (-> & HC1 & Bo & Lo).
    destruct (crypt_pieces Enc (lift E) c1 ps) as [[ok2 c2] o2] eqn:E2.
    injection EP as -> -> <-.
    assert (Eq : q = o /\ concat cs = o2).
    { apply app_eq_app in EC. destruct EC as [l [[EA EB]|[EA EB]]]; subst.
      - rewrite app_length in EL1. destruct l; [|cbn [length] in *; lia].
        rewrite app_nil_r. split; auto.
      - rewrite app_length in Lo. destruct l; [|cbn [length] in *; lia].
        rewrite app_nil_r. split; auto. }
    destruct Eq as [-> EC2].
    assert (ED : gcm_crypt Dec (lift E) c o (length o) = (true, c1, p)).
    { rewrite (gcm_crypt_spec E h Dec) by (auto; rewrite ?Lo; auto). cbv zeta.
      injection ES as -> ->. destruct HC as [_ [Hy _]].
      rewrite gctr_length by (auto; now apply inc32_block).
      rewrite gctr_involutive by (auto; now apply inc32_block). reflexivity. }
    rewrite ED. rewrite (IH c1 cs c' o2 HC1 E2 EL2 EC2). reflexivity.
Qed.
Lemma gcm_finish_total h c t : ctx_ok h c -> t <= 16 -> exists c' tag, gcm_finish c t = Some (c', tag).
Proof.
  intros _ Ht. unfold gcm_finish. destruct (Nat.ltb_spec 16 t); [lia|].
  destruct (_ && _); eauto.
Qed.
Lemma session_inverse E iv aad ps cs t : block_function E -> bytes iv -> bytes aad -> small_pieces ps -> t <= 16 ->
  exists ct tag, gcm_session Enc (lift E) iv aad ps t = Some (ct, tag) /\ length ct = length (concat ps) /\
  (map (@length N) cs = map (@length N) ps -> concat cs = ct ->
   gcm_session Dec (lift E) iv aad cs t = Some (concat ps, tag)).
Proof.
  intros HE Biv Ba HS Ht. unfold gcm_session.
  destruct (gcm_init_spec E HE) as (HH & HL & _ & EI & HT). rewrite EI. cbn [bind].
  set (c0 := mkgcm _ _ _ _ _ _ _).
  destruct (setiv_ctx_ok E c0 iv HE HT Biv) as (c1 & E1 & HC1 & _). rewrite E1.
  pose proof (aad_ctx_ok _ c1 aad HC1 Ba) as HC2.
  destruct (crypt_pieces_ok E _ Enc ps HE HS _ HC2) as (c' & o & EP & HC' & Lo & _).
  rewrite EP. destruct (gcm_finish_total _ c' t HC' Ht) as (c'' & tag & EF). rewrite EF. cbn [bind snd].
  exists o, tag. split; auto. split; auto. intros EL EC.
  rewrite (crypt_pieces_inverse E _ ps HE HS _ cs c' o HC2 EP EL EC). rewrite EF. reflexivity.
Qed.

(** ** reuse *)
Lemma gcm_step_tables blk c o c' : gcm_step blk c o = Some c' -> g_HH c' = g_HH c /\ g_HL c' = g_HL c.
Proof.
  destruct o as [iv|a|d x n|n]; cbn [gcm_step].
  - intros [= <-]. unfold gcm_setiv. cbv zeta. destruct (blk _); split; reflexivity.
  - intros [= <-]. split; reflexivity.
  - intros [= <-]. unfold gcm_crypt. destruct (n <? length x); [split; reflexivity|].
    destruct (crypt_loop _ _ _ _ _ _ _ _) as [[[ok y] buf] out]. split; reflexivity.
  - unfold gcm_finish. destruct (16 <? n); [discriminate|].
    destruct (_ && _); cbn [bind fst]; intros [= <-]; split; reflexivity.
Qed.
Lemma gcm_run_tables blk ops : forall c c', gcm_run blk c ops = Some c' -> g_HH c' = g_HH c /\ g_HL c' = g_HL c.
Proof.
  induction ops as [|o ops IH]; intros c c'; cbn [gcm_run].
  - intros [= <-]. auto.
  - destruct (gcm_step blk c o) as [c1|] eqn:E; [|discriminate]. cbn [bind]. intros HR.
    apply gcm_step_tables in E as [-> ->] || (destruct (gcm_step_tables _ _ _ _ E) as [E1 E2];
      destruct (IH _ _ HR) as [E3 E4]; split; congruence).
Qed.

Lemma firstn_app_exact {A} (a b : list A) : firstn (length a) (a ++ b) = a.
Proof. rewrite firstn_app, Nat.sub_diag, firstn_all, firstn_O. apply app_nil_r. Qed.
Lemma skipn_app_exact {A} (a b : list A) : skipn (length a) (a ++ b) = b.
Proof. rewrite skipn_app, Nat.sub_diag, skipn_all. reflexivity. Qed.

(** ** counter blocks *)
Lemma inc32_n_value k y : block16 y ->
  firstn 12 (inc32_n k y) = firstn 12 y /\
  be_to_N (skipn 12 (inc32_n k y)) = ((be_to_N (skipn 12 y) + N.of_nat k) mod 2 ^ 32)%N.
Proof.
  revert y; induction k as [|k IH]; intros y Hy; cbn [inc32_n].
  - split; auto. rewrite N.add_0_r, N.mod_small; auto.
    pose proof (be_to_N_bound (skipn 12 y)) as HB. rewrite skipn_length in HB. destruct Hy as [Ly By].
    rewrite Ly in HB. apply HB. now apply bytes_skipn.
  - destruct (IH (inc32 y) (inc32_block y Hy)) as [I1 I2]. rewrite I1, I2.
    destruct Hy as [Ly By].
    assert (L12 : length (firstn 12 y) = 12) by (rewrite firstn_length; lia).
    assert (F1 : firstn 12 (inc32 y) = firstn 12 y).
    { unfold inc32. rewrite <- L12 at 1. apply firstn_app_exact. }
    assert (F2 : skipn 12 (inc32 y) = N_to_be 4 ((be_to_N (skipn 12 y) + 1) mod 2 ^ 32)).
    { unfold inc32. rewrite <- L12 at 1. apply skipn_app_exact. }
    rewrite F1, F2. split; auto.
    rewrite be_to_N_to_be by (apply N.mod_lt; discriminate).
    rewrite N.add_mod_idemp_l by discriminate. f_equal. lia.
Qed.
Lemma inc32_n_distinct y i j : block16 y -> i < j -> (N.of_nat (j - i) < 2 ^ 32)%N ->
  inc32_n i y <> inc32_n j y.
Proof.
  intros Hy Hij Hlt EQ.
  pose proof (inc32_n_block i y Hy) as Hi.
  replace j with (i + (j - i)) in EQ by lia. rewrite inc32_n_add in EQ.
  destruct (inc32_n_value (j - i) _ Hi) as [_ V]. rewrite <- EQ in V.
  set (v := be_to_N (skipn 12 (inc32_n i y))) in *.
  assert (HB : (v < 2 ^ 32)%N).
  { destruct Hi as [Li Bi]. unfold v.
    pose proof (be_to_N_bound (skipn 12 (inc32_n i y))) as HB. rewrite skipn_length, Li in HB.
    apply HB. now apply bytes_skipn. }
  change (2 ^ 32)%N with 4294967296%N in *.
  assert (Hlt' : (0 < N.of_nat (j - i) < 4294967296)%N) by lia.
  set (k := N.of_nat (j - i)) in *. clearbody k v. lia.
Qed.

Lemma counter_blocks_nth n : forall y i, block16 y -> i < n ->
  nth i (counter_blocks n y) [] = inc32_n (S i) y.
Proof.
  induction n as [|n IH]; intros y i Hy Hi; [lia|]. cbn [counter_blocks].
  rewrite ctr_incr_spec by auto. destruct i as [|i]; auto. cbn [nth].
  rewrite IH by (auto using inc32_block; lia). reflexivity.
Qed.
Lemma length_counter_blocks n : forall y, length (counter_blocks n y) = n.
Proof. induction n; intros y; cbn [counter_blocks length]; auto. Qed.

Lemma crypt_loop_queries blk HH HL d cs : forall y buf out,
  fst (fst (fst (crypt_loop blk HH HL d cs y buf out))) = true <->
  Forall (fun b => blk b <> None) (counter_blocks (length cs) y).
Proof.
  induction cs as [|p cs IH]; intros y buf out; cbn [crypt_loop length counter_blocks].
  - split; auto.
  - destruct (blk (ctr_incr y)) eqn:EB.
    + rewrite IH. split; intros H; [constructor; auto; congruence|now inversion H].
    + cbn [fst]. split; [discriminate|]. intros H. inversion H; subst. contradiction.
Qed.
Lemma chunks_count (l : list N) : length (chunks 16 l) = nblk (length l).
Proof.
  pattern l. apply blocks_ind.
  - reflexivity.
  - intros p Hp. rewrite chunks_short, nblk_short by lia. reflexivity.
  - intros b s Hb IH. rewrite chunks_app by (auto; lia). cbn [length].
    rewrite app_length, Hb, nblk_add16. now rewrite IH.
Qed.

(** decidable check used by the examples *)
Lemma small_pieces_check ps :
  forallb (fun p => forallb (fun b => (b <? 256)%N) p && (N.of_nat (length p) <=? 2147483647)%N) ps = true ->
  small_pieces ps.
Proof.
  intros H. unfold small_pieces. rewrite Forall_forall. rewrite forallb_forall in H.
  intros p Hp. specialize (H p Hp). apply andb_true_iff in H as [H1 H2]. split.
  - unfold bytes. rewrite Forall_forall. rewrite forallb_forall in H1. intros b Hb.
    specialize (H1 b Hb). unfold byte. lia.
  - lia.
Qed.

Lemma gcm_step_ctx_ok E o c c' : block_function E -> ctx_ok (hash_key E) c -> op_bytes o ->
  gcm_step (lift E) c o = Some c' -> ctx_ok (hash_key E) c'.
Proof.
  intros HE HC Ho. destruct o as [iv|a|d x n|n]; cbn [gcm_step op_bytes] in *.
  - destruct (setiv_ctx_ok E c iv HE (proj1 HC) Ho) as (c1 & E1 & HC1 & _). rewrite E1. now intros [= <-].
  - intros [= <-]. now apply aad_ctx_ok.
  - intros [= <-]. destruct HC as [HK [Hy Hb]]. unfold gcm_crypt.
    destruct (n <? length x); [split; auto|].
    rewrite (crypt_loop_spec E _ _ (hash_key E)) by (auto; now apply bytes_firstn). cbn [fst snd].
    split; [exact HK|]. cbn [g_y g_buf]. split; [now apply inc32_n_block|].
    apply ghash_from_block16; auto. apply pad16_length_mod.
  - unfold gcm_finish. destruct (16 <? n); [discriminate|].
    destruct (_ && _); cbn [bind fst]; intros [= <-]; auto.
    destruct HC as [HK [Hy Hb]]. split; [exact HK|]. cbn [g_y g_buf]. split; auto.
    match goal with |- context [xor_into _ ?w] => set (work := w) end.
    assert (W : block16 work).
    { split; [reflexivity|]. unfold work, put_u32_be. cbn [app]. repeat constructor; apply N.mod_lt; discriminate. }
    rewrite xor_into_full by (destruct Hb, W; lia).
    rewrite (gcm_mult_block _ _ (hash_key E)) by (auto; now apply block16_xorl). apply block_mul_block.
Qed.
Lemma reachable_ctx_ok E c : block_function E -> reachable (lift E) c -> ctx_ok (hash_key E) c.
Proof.
  intros HE (c0 & ops & EI & HO & HR).
  assert (HC0 : ctx_ok (hash_key E) c0).
  { destruct (gcm_init_spec E HE) as (HH & HL & _ & EI' & HT). rewrite EI in EI'. injection EI' as EI'.
    rewrite EI'. split; [exact HT|split; apply block16_zeros]. }
  clear EI. revert c0 HR HC0.
  induction HO as [|o ops Ho HO IH]; intros g HR HC; cbn [gcm_run] in HR.
  - injection HR as HR. rewrite <- HR. exact HC.
  - destruct (gcm_step (lift E) g o) as [c1|] eqn:ES; [|discriminate]. cbn [bind] in HR.
    apply (IH c1 HR). eapply gcm_step_ctx_ok; eauto.
Qed.

Lemma gcm_mult_is_gf_mul_lemma : forall h x, block16 h -> block16 x ->
  gcm_mult (fst (init_tables h)) (snd (init_tables h)) x = N_to_be 16 (gf_mul (be_to_N x) (be_to_N h)).
Proof.
  intros h x Hh Hx. destruct (init_tables h) as [HH HL] eqn:E. apply gcm_mult_spec; auto.
  now apply init_tables_ok.
Qed.

Lemma gcm_conforms_lemma : forall E iv aad p t, block_function E -> bytes iv -> bytes aad -> bytes p ->
  (8 * N.of_nat (length iv) < 2 ^ 32)%N -> (8 * N.of_nat (length aad) < 2 ^ 64)%N ->
  (N.of_nat (length p) <= 2147483647)%N -> t <= 16 ->
  gcm_session Enc (lift E) iv aad [p] t =
  Some (gcm_ciphertext E iv p, gcm_tag E iv aad (gcm_ciphertext E iv p) t).
Proof.
  intros E iv aad p t HE Biv Ba Bp Hiv Ha Hp Ht.
  pose proof (session_spec E Enc iv aad [] p t HE Biv Ba) as HS. cbn [app concat hashed] in HS.
  apply HS; auto.
  - constructor; auto.
  - lia.
Qed.

Lemma gcm_decrypt_conforms_lemma : forall E iv aad c t, block_function E -> bytes iv -> bytes aad -> bytes c ->
  (8 * N.of_nat (length iv) < 2 ^ 32)%N -> (8 * N.of_nat (length aad) < 2 ^ 64)%N ->
  (N.of_nat (length c) <= 2147483647)%N -> t <= 16 ->
  gcm_session Dec (lift E) iv aad [c] t =
  Some (gctr E (inc32 (J0 E iv)) c, gcm_tag E iv aad c t).
Proof.
  intros E iv aad p t HE Biv Ba Bp Hiv Ha Hp Ht.
  pose proof (session_spec E Dec iv aad [] p t HE Biv Ba) as HS. cbn [app concat hashed] in HS.
  apply HS; auto.
  - constructor; auto.
  - lia.
Qed.

Lemma gcm_streaming_partial_lemma : forall E d iv aad ps q t, block_function E -> bytes iv -> bytes aad ->
  small_pieces (ps ++ [q]) -> Forall (fun p => length p mod 16 = 0) ps ->
  (8 * N.of_nat (length iv) < 2 ^ 32)%N -> (8 * N.of_nat (length aad) < 2 ^ 64)%N ->
  (8 * N.of_nat (length (concat ps ++ q)) < 2 ^ 64)%N -> t <= 16 ->
  let m := concat ps ++ q in
  let o := gctr E (inc32 (J0 E iv)) m in
  gcm_session d (lift E) iv aad (ps ++ [q]) t =
  Some (o, gcm_tag E iv aad (match d with Enc => o | Dec => m end) t).
Proof.
  intros E d iv aad ps q t HE Biv Ba HS HA Hiv Ha Hm Ht m o.
  change (match d with Enc => o | Dec => m end) with (hashed d m o). now apply session_spec.
Qed.

Lemma gcm_streaming_actual_lemma : forall E d c p q, block_function E ->
  reachable (lift E) c -> small_pieces [p; q] ->
  snd (crypt_pieces d (lift E) c [p; q]) =
  gctr E (inc32 (g_y c)) p ++ gctr E (inc32 (inc32_n (nblk (length p)) (g_y c))) q.
Proof.
  intros E d c p q HE HC HS. apply (reachable_ctx_ok E c HE) in HC. set (h := hash_key E) in *. inversion HS as [|? ? [Bp Lp] HS']; subst. inversion HS' as [|? ? [Bq Lq] _]; subst.
  cbn [crypt_pieces].
  pose proof (gcm_crypt_spec E h d c p (length p) HE HC Bp Lp (Nat.le_refl _)) as E1.
  destruct (gcm_crypt d (lift E) c p (length p)) as [[ok c1] o] eqn:EC.
  eapply (gcm_crypt_ctx_ok E h) in EC; auto. destruct EC as (-> & HC1 & _).
  rewrite (gcm_crypt_spec E h d c1 q (length q) HE HC1 Bq Lq (Nat.le_refl _)).
  cbn [snd]. rewrite app_nil_r. injection E1 as E1 E2. rewrite E2, E1. reflexivity.
Qed.

Lemma gcm_streaming_refuted_lemma : exists E iv aad p q r1 r2, block_function E /\ bytes iv /\ bytes aad /\
  small_pieces [p; q] /\ gcm_session Enc (lift E) iv aad [p; q] 16 = Some r1 /\
  gcm_session Enc (lift E) iv aad [p ++ q] 16 = Some r2 /\ fst r1 <> fst r2 /\ snd r1 <> snd r2.
Proof.
  exists toyE, gcm_iv12, gcm_aad5, (firstn 5 gcm_msg), (skipn 5 gcm_msg).
  eexists; eexists. split; [apply toy_is_block_cipher|]. split; [repeat constructor|]. split; [repeat constructor|].
  split; [apply small_pieces_check; vm_compute; reflexivity|].
  split; [vm_compute; reflexivity|]. split; [vm_compute; reflexivity|]. split; vm_compute; discriminate.
Qed.

Lemma gcm_reuse_partial_lemma : forall blk c0 ops c iv a,
  gcm_init blk = Some c0 -> gcm_run blk c0 ops = Some c ->
  fst (gcm_setiv blk c iv) = fst (gcm_setiv blk c0 iv) /\
  (fst (gcm_setiv blk c0 iv) = true ->
   gcm_aad (snd (gcm_setiv blk c iv)) a = gcm_aad (snd (gcm_setiv blk c0 iv)) a).
Proof.
  intros blk c0 ops c iv a _ HR. destruct (gcm_run_tables _ _ _ _ HR) as [E1 E2].
  unfold gcm_setiv. cbv zeta. rewrite E1, E2.
  destruct (blk _); cbn [fst snd]; split; auto. discriminate.
Qed.

Lemma gcm_reuse_stale_lemma : forall blk c0 ops c iv,
  gcm_init blk = Some c0 -> gcm_run blk c0 ops = Some c -> fst (gcm_setiv blk c0 iv) = true ->
  let f := snd (gcm_setiv blk c0 iv) in
  snd (gcm_setiv blk c iv) = mkgcm (g_len f) (g_add_len c) (g_HL f) (g_HH f) (g_base f) (g_y f) (g_buf f).
Proof.
  intros blk c0 ops c iv _ HR. destruct (gcm_run_tables _ _ _ _ HR) as [E1 E2].
  unfold gcm_setiv. cbv zeta. rewrite E1, E2.
  destruct (blk _); cbn [fst snd g_len g_HL g_HH g_base g_y g_buf]; [reflexivity|discriminate].
Qed.

Lemma gcm_reuse_refuted_lemma : exists E c0 c iv p t1 t2, block_function E /\
  gcm_init (lift E) = Some c0 /\
  gcm_run (lift E) c0 [OpSetiv iv; OpAad gcm_aad5; OpCrypt Enc p (length p); OpFinish 16] = Some c /\
  (let use c := gcm_run (lift E) c [OpSetiv iv; OpCrypt Enc p (length p)] in
   (do d <- use c0; gcm_finish d 16) = Some t1 /\ (do d <- use c; gcm_finish d 16) = Some t2) /\
  snd t1 <> snd t2.
Proof.
  exists toyE. eexists. eexists. exists gcm_iv12, gcm_msg. eexists; eexists.
  split; [apply toy_is_block_cipher|].
  split; [vm_compute; reflexivity|]. split; [vm_compute; reflexivity|].
  split; [split; [vm_compute; reflexivity|]; vm_compute; reflexivity|]. vm_compute; discriminate.
Qed.

Lemma gcm_aad_pieces_partial_lemma : forall E c a b, block_function E -> reachable (lift E) c -> bytes a -> bytes b ->
  length a mod 16 = 0 ->
  let s := gcm_aad c (a ++ b) in
  gcm_aad (gcm_aad c a) b =
  mkgcm (g_len s) (N.of_nat (length b) mod 2 ^ 64) (g_HL s) (g_HH s) (g_base s) (g_y s) (g_buf s).
Proof.
  intros E c a b HE HC Ba Bb Ha. apply (reachable_ctx_ok E c HE) in HC. set (h := hash_key E) in *. cbv zeta.
  rewrite (gcm_aad_spec' h (gcm_aad c a) b) by (auto using aad_ctx_ok).
  rewrite (gcm_aad_spec' h c a) by auto.
  rewrite (gcm_aad_spec' h c (a ++ b)) by (auto; now apply bytes_app).
  cbn [g_len g_HL g_HH g_base g_y g_buf].
  rewrite pad16_app_aligned by auto. rewrite ghash_from_app by auto. rewrite (pad16_aligned a) by auto.
  reflexivity.
Qed.

Lemma gcm_aad_pieces_refuted_lemma : exists E c0 iv a b p t1 t2, block_function E /\
  gcm_init (lift E) = Some c0 /\ bytes a /\ bytes b /\ length a = 16 /\
  (do c <- gcm_run (lift E) c0 [OpSetiv iv; OpAad (a ++ b); OpCrypt Enc p (length p)]; gcm_finish c 16) = Some t1 /\
  (do c <- gcm_run (lift E) c0 [OpSetiv iv; OpAad a; OpAad b; OpCrypt Enc p (length p)]; gcm_finish c 16) = Some t2 /\
  snd t1 <> snd t2.
Proof.
  exists toyE. eexists. exists gcm_iv12, (firstn 16 gcm_msg), gcm_aad5, gcm_msg. eexists; eexists.
  split; [apply toy_is_block_cipher|].
  split; [vm_compute; reflexivity|]. split; [repeat constructor|]. split; [repeat constructor|].
  split; [reflexivity|].
  split; [vm_compute; reflexivity|]. split; [vm_compute; reflexivity|]. vm_compute; discriminate.
Qed.

Lemma gcm_queries_lemma : forall d blk c inp outlen, length inp <= outlen ->
  (N.of_nat (length inp) <= 2147483647)%N ->
  (fst (fst (gcm_crypt d blk c inp outlen)) = true <->
   Forall (fun b => blk b <> None) (counter_blocks (nblk (length inp)) (g_y c))).
Proof.
  intros d blk c inp outlen Ho Hi. unfold gcm_crypt.
  destruct (Nat.ltb_spec outlen (length inp)); [lia|]. rewrite c_int_small by (unfold int_max; lia).
  replace (Z.to_nat (Z.of_N (N.of_nat (length inp)))) with (length inp) by lia. rewrite firstn_all.
  rewrite <- chunks_count.
  rewrite <- (crypt_loop_queries blk (g_HH c) (g_HL c) d _ _ (g_buf c) []).
  destruct (crypt_loop _ _ _ _ _ _ _ _) as [[[ok y] buf] out]. reflexivity.
Qed.

Lemma gcm_counters_distinct_lemma : forall y n i j, block16 y -> (N.of_nat n < 2 ^ 32)%N -> i < j -> j < S n ->
  nth i (y :: counter_blocks n y) [] <> nth j (y :: counter_blocks n y) [] /\
  firstn 12 (nth j (y :: counter_blocks n y) []) = firstn 12 y.
Proof.
  intros y n i j Hy Hn Hij Hj.
  assert (HN : forall k, k < S n -> nth k (y :: counter_blocks n y) [] = inc32_n k y).
  { intros [|k] Hk; [reflexivity|]. cbn [nth]. apply counter_blocks_nth; auto. lia. }
  rewrite !HN by lia. split; [|now apply inc32_n_value].
  apply inc32_n_distinct; auto. lia.
Qed.

Lemma gcm_counter_period_lemma : forall y k, block16 y -> N.of_nat k = (2 ^ 32)%N -> inc32_n k y = y.
Proof.
  intros y k Hy Hk. destruct (inc32_n_value k y Hy) as [E1 E2]. rewrite Hk in E2.
  assert (HB : (be_to_N (skipn 12 y) < 2 ^ 32)%N).
  { destruct Hy as [Ly By]. pose proof (be_to_N_bound (skipn 12 y)) as HB.
    rewrite skipn_length, Ly in HB. apply HB. now apply bytes_skipn. }
  assert (E3 : ((be_to_N (skipn 12 y) + 2 ^ 32) mod 2 ^ 32 = be_to_N (skipn 12 y))%N).
  { rewrite <- N.add_mod_idemp_r by discriminate. rewrite N.mod_same, N.add_0_r by discriminate.
    now apply N.mod_small. }
  rewrite E3 in E2.
  destruct (inc32_n_block k y Hy) as [L1 B1]. destruct Hy as [Ly By].
  set (z := inc32_n k y) in *. clearbody z.
  rewrite <- (firstn_skipn 12 z), <- (firstn_skipn 12 y). f_equal; auto.
  apply be_to_N_inj; auto using bytes_skipn. rewrite !skipn_length. lia.
Qed.

Lemma gcm_reject_no_effect_lemma : forall d blk c inp outlen, outlen < length inp ->
  gcm_crypt d blk c inp outlen = (false, c, []).
Proof.
  intros d blk c inp outlen H. unfold gcm_crypt. destruct (Nat.ltb_spec outlen (length inp)); [auto|lia].
Qed.

Lemma gcm_accept_lemma : forall d E c inp outlen, block_function E -> reachable (lift E) c -> bytes inp ->
  (N.of_nat (length inp) <= 2147483647)%N -> length inp <= outlen ->
  exists c' o, gcm_crypt d (lift E) c inp outlen = (true, c', o) /\ length o = length inp /\ bytes o.
Proof.
  intros d E c inp outlen HE HC Bi Hi Ho. apply (reachable_ctx_ok E c HE) in HC. set (h := hash_key E) in *.
  destruct (gcm_crypt d (lift E) c inp outlen) as [[ok c'] o] eqn:EC.
  eapply (gcm_crypt_ctx_ok E h) in EC; auto. destruct EC as (-> & _ & Bo & Lo). eauto.
Qed.

Lemma gcm_large_input_refuted_lemma : forall d blk c inp outlen, length inp <= outlen ->
  (2 ^ 31 <= N.of_nat (length inp) < 2 ^ 32)%N ->
  exists c', gcm_crypt d blk c inp outlen = (true, c', []) /\ g_y c' = g_y c /\ g_buf c' = g_buf c.
Proof.
  intros d blk c inp outlen Ho Hi. unfold gcm_crypt.
  destruct (Nat.ltb_spec outlen (length inp)); [lia|].
  assert (EZ : Z.to_nat (c_int (N.of_nat (length inp))) = 0).
  { unfold c_int. rewrite N.mod_small by lia.
    destruct (N.ltb_spec (N.of_nat (length inp)) (2 ^ 31)); [lia|].
    change (2 ^ 32)%N with 4294967296%N in Hi. change (2 ^ 32)%Z with 4294967296%Z.
    set (n := N.of_nat (length inp)) in *. clearbody n. lia. }
  rewrite EZ. rewrite firstn_O, chunks_nil. cbn [crypt_loop]. eexists. split; [reflexivity|]. split; reflexivity.
Qed.
