(** * White-box GCM: the mode over a sound key context *)
From Verif Require Import Base CbcModel CbcSpec Toy CbcProofs GcmModel GcmSpec GfProofs GcmProofs FileModel FileProofs CipherExt MatModel WbaesModel WbgcmModel WbgcmSpec.
From Coq Require Import ZArith.
Local Open Scope nat_scope.
Local Opaque gcm_mult block_mul gf_mul init_tables.

(** ** byte functions *)
Lemma get_map_seq' (f : nat -> N) n i : i < n -> get (map f (seq 0 n)) i = f i.
Proof.
  intros I. unfold get. rewrite (nth_indep _ 0%N (f 0)) by (rewrite map_length, seq_length; exact I).
  rewrite (map_nth f). now rewrite seq_nth by exact I.
Qed.
Lemma map_get_all (x : list N) : map (get x) (seq 0 (length x)) = x.
Proof.
  apply nth_ext with (d := 0%N) (d' := 0%N); [now rewrite map_length, seq_length|]. intros i I. rewrite map_length, seq_length in I. exact (get_map_seq' (get x) _ i I).
Qed.
Lemma length_bytewise F x : length (bytewise F x) = length x.
Proof. unfold bytewise. now rewrite map_length, seq_length. Qed.
Lemma get_bytewise F x i : i < length x -> get (bytewise F x) i = F (i mod 16) (get x i).
Proof. intros I. unfold bytewise. now rewrite get_map_seq'. Qed.
Lemma list_ext (a b : list N) : length a = length b -> (forall i, i < length a -> get a i = get b i) -> a = b.
Proof. intros L H. apply nth_ext with (d := 0%N) (d' := 0%N); auto. Qed.
Lemma seq_app_shift k n : map (fun m => k + m) (seq 0 n) = seq k n.
Proof. induction k as [|k IH]; cbn [Nat.add]; [now rewrite map_id|]. rewrite <- seq_shift, <- IH, map_map. reflexivity. Qed.
Lemma bytewise_app F b s : length b = 16 -> bytewise F (b ++ s) = bytewise F b ++ bytewise F s.
Proof.
  intros L. unfold bytewise. rewrite app_length, seq_app, map_app. f_equal.
  - apply map_ext_in. intros n I. apply in_seq in I. unfold get. now rewrite app_nth1 by lia.
  - rewrite L. cbn [Nat.add]. rewrite <- (seq_app_shift 16).
    rewrite map_map. apply map_ext_in. intros n I. apply in_seq in I. rewrite mod_add16. f_equal. unfold get. rewrite app_nth2 by lia. f_equal. lia.
Qed.
Lemma bytes_bytewise F x : (forall i v, i < 16 -> byte v -> byte (F i v)) -> bytes x -> bytes (bytewise F x).
Proof.
  intros H B. unfold bytewise, bytes. apply Forall_forall. intros v V. apply in_map_iff in V as (n & <- & I). apply H; [apply Nat.mod_upper_bound; lia|now apply bytes_get].
Qed.
Lemma bytewise_inv F G x : (forall i v, i < 16 -> byte v -> G i (F i v) = v) -> bytes x -> bytewise G (bytewise F x) = x.
Proof.
  intros H B. apply list_ext; [now rewrite !length_bytewise|]. intros i I. rewrite !length_bytewise in I.
  rewrite get_bytewise by (rewrite length_bytewise; exact I). rewrite get_bytewise by exact I. apply H; [apply Nat.mod_upper_bound; lia|now apply bytes_get].
Qed.

(** ** combination of key stream and data *)
Definition mixb (E : list N -> list N) (g : nat -> N -> N -> N) (y p : list N) : list N := map (fun i => g i (get (E y) i) (get p i)) (seq 0 (length p)).
Fixpoint gmix_blocks E g (cb : list N) (xs : list (list N)) : list (list N) :=
  match xs with [] => [] | x :: xs' => mixb E g cb x :: gmix_blocks E g (inc32 cb) xs' end.
Definition gmix E g cb x := concat (gmix_blocks E g cb (chunks 16 x)).
Lemma length_mixb E g y p : length (mixb E g y p) = length p.
Proof. unfold mixb. now rewrite map_length, seq_length. Qed.
Lemma gmix_block E g y b s : length b = 16 -> gmix E g y (b ++ s) = mixb E g y b ++ gmix E g (inc32 y) s.
Proof. intros L. unfold gmix. rewrite chunks_app by (auto; lia). reflexivity. Qed.
Lemma gmix_short E g y p : 0 < length p <= 16 -> gmix E g y p = mixb E g y p.
Proof. intros L. unfold gmix. rewrite chunks_short by lia. cbn. apply app_nil_r. Qed.
Lemma gmix_length E g x : forall y, length (gmix E g y x) = length x.
Proof.
  pattern x. apply blocks_ind; clear x; [reflexivity|intros p P y; rewrite gmix_short by lia; apply length_mixb|].
  intros b s L IH y. rewrite gmix_block, !app_length, length_mixb, IH by exact L. reflexivity.
Qed.
Lemma mixb_bytes E g y p : block_function E -> (forall i e d, i < 16 -> byte e -> byte d -> byte (g i e d)) -> block16 y -> bytes p -> length p <= 16 -> bytes (mixb E g y p).
Proof.
  intros HE H Y B L. unfold mixb, bytes. apply Forall_forall. intros v V. apply in_map_iff in V as (n & <- & I). apply in_seq in I. apply H; [lia| |now apply bytes_get]. apply bytes_get, HE, Y.
Qed.
Lemma gmix_bytes E g x : block_function E -> (forall i e d, i < 16 -> byte e -> byte d -> byte (g i e d)) -> bytes x -> forall y, block16 y -> bytes (gmix E g y x).
Proof.
  intros HE H. pattern x. apply blocks_ind; clear x; [constructor|intros p P B y Y; rewrite gmix_short by lia; apply mixb_bytes; auto; lia|].
  intros b s L IH B y Y. apply bytes_app in B as [B1 B2]. rewrite gmix_block by exact L. apply bytes_app. split; [apply mixb_bytes; auto; lia|]. apply IH; auto. now apply inc32_block.
Qed.
Lemma get_xorl a b i : i < length a -> i < length b -> get (xorl a b) i = N.lxor (get a i) (get b i).
Proof.
  revert b i. induction a as [|x a IH]; intros [|z b] [|i] A B; cbn in *; try lia; try reflexivity; apply IH; lia.
Qed.
Lemma get_firstn n (a : list N) i : i < n -> get (firstn n a) i = get a i.
Proof. revert n i. induction a as [|x a IH]; intros [|n] [|i] H; cbn; try lia; auto; apply IH; lia. Qed.
(** the three kinds of combination *)
Lemma gmix_xor E x : block_function E -> forall y, block16 y -> gmix E (fun _ e d => N.lxor e d) y x = gctr E y x.
Proof.
  intros HE. assert (M : forall y p, block16 y -> length p <= 16 -> mixb E (fun _ e d => N.lxor e d) y p = xorl p (firstn (length p) (E y))).
  { intros y p Y L. destruct (HE y Y) as [LE _]. apply list_ext; [rewrite length_mixb, length_xorl, firstn_length; lia|]. intros i I. rewrite length_mixb in I.
    rewrite get_xorl by (rewrite ?firstn_length; lia). rewrite get_firstn by exact I. unfold mixb. rewrite get_map_seq' by exact I. apply N.lxor_comm. }
  pattern x. apply blocks_ind; clear x; [reflexivity|intros p P y Y; rewrite gmix_short, gctr_short, M by (auto; lia); reflexivity|].
  intros b s L IH y Y. rewrite gmix_block, gctr_block, M, IH, L by (auto using inc32_block; lia). reflexivity.
Qed.
Lemma gmix_outer E F x : block_function E -> bytes x -> forall y, block16 y -> gmix E (fun i e d => F i (N.lxor e d)) y x = bytewise F (gctr E y x).
Proof.
  intros HE. assert (M : forall y p, block16 y -> length p <= 16 -> mixb E (fun i e d => F i (N.lxor e d)) y p = bytewise F (xorl p (firstn (length p) (E y)))).
  { intros y p Y L. destruct (HE y Y) as [LE _]. assert (LX : length (xorl p (firstn (length p) (E y))) = length p) by (rewrite length_xorl, firstn_length; lia).
    apply list_ext; [rewrite length_mixb, length_bytewise; lia|]. intros i I. rewrite length_mixb in I.
    rewrite get_bytewise by lia. rewrite get_xorl by (rewrite ?firstn_length; lia). rewrite get_firstn by exact I. unfold mixb. rewrite get_map_seq' by exact I.
    rewrite Nat.mod_small by lia. f_equal. apply N.lxor_comm. }
  pattern x. apply blocks_ind; clear x; [reflexivity|intros p P B y Y; rewrite gmix_short, gctr_short, M by (auto; lia); reflexivity|].
  intros b s L IH B y Y. apply bytes_app in B as [B1 B2]. rewrite gmix_block, gctr_block, M, IH, L by (auto using inc32_block; lia).
  rewrite bytewise_app; [reflexivity|]. rewrite length_xorl, firstn_length. destruct (HE y Y). lia.
Qed.
Lemma gmix_inner E F x : block_function E -> bytes x -> forall y, block16 y -> gmix E (fun i e d => N.lxor e (F i d)) y x = gctr E y (bytewise F x).
Proof.
  intros HE. assert (M : forall y p, block16 y -> length p <= 16 -> mixb E (fun i e d => N.lxor e (F i d)) y p = xorl (bytewise F p) (firstn (length p) (E y))).
  { intros y p Y L. destruct (HE y Y) as [LE _]. apply list_ext; [rewrite length_mixb, length_xorl, length_bytewise, firstn_length; lia|]. intros i I. rewrite length_mixb in I.
    rewrite get_xorl by (rewrite ?length_bytewise, ?firstn_length; lia). rewrite get_bytewise by exact I. rewrite get_firstn by exact I. unfold mixb. rewrite get_map_seq' by exact I.
    rewrite Nat.mod_small by lia. apply N.lxor_comm. }
  pattern x. apply blocks_ind; clear x; [reflexivity|intros p P B y Y; rewrite gmix_short, gctr_short, M, length_bytewise by (rewrite ?length_bytewise; auto; lia); reflexivity|].
  intros b s L IH B y Y. apply bytes_app in B as [B1 B2]. rewrite gmix_block, M, IH by (auto using inc32_block; lia). rewrite bytewise_app by exact L.
  rewrite gctr_block by (rewrite length_bytewise; exact L). rewrite L. reflexivity.
Qed.
(** what one combination hides another recovers *)
Lemma gmix_cancel E g g' x : block_function E -> (forall i e d, i < 16 -> byte e -> byte d -> g' i e (g i e d) = d) -> bytes x -> forall y, block16 y -> gmix E g' y (gmix E g y x) = x.
Proof.
  intros HE H. assert (M : forall y p, block16 y -> length p <= 16 -> bytes p -> mixb E g' y (mixb E g y p) = p).
  { intros y p Y L B. destruct (HE y Y) as [LE BE]. apply list_ext; [now rewrite !length_mixb|]. intros i I. rewrite !length_mixb in I.
    unfold mixb at 1. rewrite length_mixb, get_map_seq' by exact I. unfold mixb. rewrite get_map_seq' by exact I. apply H; [lia|now apply bytes_get|now apply bytes_get]. }
  pattern x. apply blocks_ind; clear x; [reflexivity| |].
  - intros p P B y Y. rewrite (gmix_short E g y p) by lia. rewrite gmix_short by (rewrite length_mixb; lia). apply M; auto; lia.
  - intros b s L IH B y Y. apply bytes_app in B as [B1 B2]. rewrite (gmix_block E g y b s) by exact L. rewrite gmix_block by (rewrite length_mixb; exact L). rewrite M, IH by (auto using inc32_block; lia). reflexivity.
Qed.

Lemma gmix_app E g x s : length x mod 16 = 0 -> forall y, gmix E g y (x ++ s) = gmix E g y x ++ gmix E g (inc32_n (nblk (length x)) y) s.
Proof.
  intros Hm. by_blocks x.
  - reflexivity.
  - intros b x' Hb _ IH y. rewrite <- app_assoc.
    rewrite (gmix_block E g y b (x' ++ s)), (gmix_block E g y b x') by auto.
    rewrite IH, <- app_assoc. rewrite app_length, Hb, nblk_add16. reflexivity.
Qed.

(** ** the mode *)
(** the reference context after setiv and aad *)
Definition opened (E : list N -> list N) (iv aad : list N) : gcm_ctx :=
  match gcm_init (lift E) with
  | Some c => gcm_aad (snd (gcm_setiv (lift E) c iv)) aad
  | None => mkgcm 0 0 [] [] [] [] []
  end.
Definition ctr0 (E : list N -> list N) (iv aad : list N) : list N := g_y (opened E iv aad).
Definition fin_s (c : gcm_ctx) : list N :=
  let orig_len := w64 (g_len c * 8) in
  let orig_add := w64 (g_add_len c * 8) in
  gcm_mult (g_HH c) (g_HL c) (xor_into (g_buf c) (put_u32_be (N.shiftr orig_add 32) ++ put_u32_be orig_add ++ put_u32_be (N.shiftr orig_len 32) ++ put_u32_be orig_len)).
(** the hash of the ciphertext pieces [cs] *)
Definition hash_of (E : list N -> list N) (iv aad : list N) (cs : list (list N)) : list N :=
  fin_s (snd (fst (crypt_pieces Dec (lift E) (opened E iv aad) cs))).
Definition rebase (b : list N) (c : gcm_ctx) : gcm_ctx := mkgcm (g_len c) (g_add_len c) (g_HL c) (g_HH c) b (g_y c) (g_buf c).
(** the key context [k] encrypts with [E] and combines as [g] says *)
Record sound (k : wbkey) (E : list N -> list N) (g : nat -> N -> N -> N) : Prop := mksound {
  s_E : block_function E;
  s_h : forall i, i < 16 -> k_h k i (get (k_blk k (repeat 0%N 16)) i) = get (E (repeat 0%N 16)) i;
  s_x : forall y i d, block16 y -> i < 16 -> byte d -> k_x k i (k_base k i (get (k_blk k y) i)) d = g i (get (E y) i) d;
  s_b : forall i e d, i < 16 -> byte e -> byte d -> byte (g i e d) }.
Section Mode.
Variables (k : wbkey) (E : list N -> list N) (g : nat -> N -> N -> N).
Hypothesis S : sound k E g.
Let HE := s_E k E g S.
Lemma zeros_block : block16 (repeat 0%N 16).
Proof. split; [reflexivity|]. apply bytes_repeat. reflexivity. Qed.
Lemma wb_init_ok : gcm_init (lift E) = Some (wbgcm_init k).
Proof.
  unfold wbgcm_init. cbv zeta. replace (map _ (seq 0 16)) with (E (repeat 0%N 16)).
  - unfold gcm_init, lift. destruct (init_tables (E (repeat 0%N 16))). reflexivity.
  - destruct (HE _ zeros_block) as [L _]. transitivity (map (get (E (repeat 0%N 16))) (seq 0 16)); [rewrite <- (map_get_all (E (repeat 0%N 16))) at 1; rewrite L; reflexivity|].
    apply map_ext_in. intros i I. apply in_seq in I. symmetry. apply (s_h k E g S). lia.
Qed.
Lemma wb_out y p : block16 y -> length p <= 16 -> bytes p -> map (fun i => k_x k i (get (wb_ectr k y) i) (get p i)) (seq 0 (length p)) = mixb E g y p.
Proof.
  intros Y L B. unfold mixb. apply map_ext_in. intros i I. apply in_seq in I. unfold wb_ectr. cbv zeta. rewrite get_map_seq' by lia. apply (s_x k E g S); auto; [lia|]. now apply bytes_get.
Qed.
Lemma wb_loop_ok HH HL h d data : tables_ok HH HL (be_to_N h) -> bytes data -> forall y buf out, block16 y -> block16 buf ->
  wbgcm_loop k HH HL d (chunks 16 data) y buf out =
  (inc32_n (nblk (length data)) y, ghash_from h buf (pad16 (hashed d data (gmix E g (inc32 y) data))), out ++ gmix E g (inc32 y) data).
Proof.
  intros HT. pattern data. apply blocks_ind; clear data.
  - intros _ y buf out Hy Hb. change (gmix E g (inc32 y) []) with (@nil N). rewrite app_nil_r. destruct d; reflexivity.
  - intros p Hp Bp y buf out Hy Hb. rewrite chunks_short by lia. cbn [wbgcm_loop]. rewrite ctr_incr_spec by auto. rewrite nblk_short by lia. cbn [inc32_n].
    pose proof (inc32_block y Hy) as Hy'. rewrite wb_out by (auto; lia). rewrite gmix_short by lia.
    assert (Bo : bytes (mixb E g (inc32 y) p)) by (apply mixb_bytes; auto; [apply (s_b k E g S)|lia]). pose proof (length_mixb E g (inc32 y) p) as Lo. set (o := mixb E g (inc32 y) p) in *. clearbody o.
    change (match d with Enc => o | Dec => p end) with (hashed d p o).
    assert (Lh : length (hashed d p o) = length p) by (destruct d; auto).
    assert (Bh : bytes (hashed d p o)) by (destruct d; auto).
    rewrite pad16_short by lia.
    assert (H16 : block16 (hashed d p o ++ repeat 0%N (16 - length (hashed d p o)))).
    { split; [rewrite app_length, repeat_length; lia|]. apply bytes_app. split; auto. apply bytes_repeat. unfold byte; lia. }
    rewrite ghash_from_one by apply H16. rewrite xor_into_pad by (destruct Hb; lia). rewrite (gcm_mult_block _ _ h) by (auto; now apply block16_xorl). reflexivity.
  - intros b s Lb IH Bs y buf out Hy Hb. apply bytes_app in Bs as [Bb Bs].
    rewrite chunks_app by (auto; lia). cbn [wbgcm_loop]. rewrite ctr_incr_spec by auto.
    pose proof (inc32_block y Hy) as Hy'. rewrite wb_out by (auto; lia). rewrite gmix_block by auto. rewrite app_length, Lb, nblk_add16.
    assert (Bo : bytes (mixb E g (inc32 y) b)) by (apply mixb_bytes; auto; [apply (s_b k E g S)|lia]). pose proof (length_mixb E g (inc32 y) b) as Lo. set (o := mixb E g (inc32 y) b) in *. clearbody o.
    change (match d with Enc => o | Dec => b end) with (hashed d b o).
    assert (Lh : block16 (hashed d b o)) by (destruct d; cbn [hashed]; split; auto; lia).
    rewrite xor_into_full by (destruct Lh, Hb; lia).
    rewrite (gcm_mult_block _ _ h) by (auto; now apply block16_xorl).
    rewrite IH by (auto; apply block_mul_block).
    cbn [inc32_n]. rewrite <- app_assoc.
    assert (EH : hashed d (b ++ s) (o ++ gmix E g (inc32 (inc32 y)) s) = hashed d b o ++ hashed d s (gmix E g (inc32 (inc32 y)) s)) by (destruct d; reflexivity).
    rewrite EH, pad16_app by apply Lh. rewrite ghash_from_block by apply Lh. reflexivity.
Qed.
(** a call, against a decryption of what it hashes *)
Lemma wb_crypt_ok h d b c inp n : ctx_ok h c -> bytes inp -> (N.of_nat (length inp) <= int_max)%N -> length inp <= n ->
  let o := gmix E g (inc32 (g_y c)) inp in
  exists c' z, gcm_crypt Dec (lift E) c (hashed d inp o) (length inp) = (true, c', z) /\ wbgcm_crypt d k (rebase b c) inp n = (1%Z, rebase b c', o) /\ ctx_ok h c' /\
    g_y c' = inc32_n (nblk (length inp)) (g_y c).
Proof.
  intros HC B Hm Hn. cbv zeta. assert (HC0 := HC). destruct HC as (HK & Hy & Hb). pose proof (inc32_block _ Hy) as Hy'.
  pose proof (gmix_length E g inp (inc32 (g_y c))) as LO. assert (BO : bytes (gmix E g (inc32 (g_y c)) inp)) by (apply gmix_bytes; auto; apply (s_b k E g S)).
  set (o := gmix E g (inc32 (g_y c)) inp) in *. assert (LH : length (hashed d inp o) = length inp) by (destruct d; auto). assert (BH : bytes (hashed d inp o)) by (destruct d; auto).
  assert (L1 : (N.of_nat (length (hashed d inp o)) <= int_max)%N) by (rewrite LH; exact Hm). assert (L2 : length (hashed d inp o) <= length inp) by lia.
  pose proof (gcm_crypt_spec E h Dec c (hashed d inp o) (length inp) HE HC0 BH L1 L2) as EC. cbv zeta in EC.
  eexists; eexists. split; [exact EC|]. rewrite LH. cbn [hashed]. split; [|split; [split; [exact HK|]|reflexivity]].
  - unfold wbgcm_crypt. destruct (Nat.ltb_spec n (length inp)); [lia|]. rewrite c_int_small by auto.
    assert (EL : Z.to_nat (Z.of_N (N.of_nat (length inp))) = length inp) by lia. rewrite EL, firstn_all. cbn [rebase g_HH g_HL g_y g_buf g_len g_add_len g_base].
    rewrite (wb_loop_ok _ _ h) by auto. fold o. cbn [app].
    assert (EW : Z.to_N ((Z.of_N (g_len c) + Z.of_N (N.of_nat (length inp))) mod 2 ^ 64) = w64 (g_len c + N.of_nat (length inp))).
    { unfold w64. rewrite <- N2Z.inj_add. change (2 ^ 64)%Z with (Z.of_N (2 ^ 64)%N). rewrite <- N2Z.inj_mod. lia. }
    rewrite EW. reflexivity.
  - cbn [g_y g_buf]. split; [now apply inc32_n_block|]. apply ghash_from_block16; auto. apply pad16_length_mod.
Qed.
Lemma wb_setiv_ok c iv c1 : gcm_setiv (lift E) c iv = (true, c1) -> wbgcm_setiv k c iv = rebase (wb_ectr k (g_y c1)) c1 /\ g_base c1 = E (g_y c1) /\ g_len c1 = 0%N.
Proof.
  unfold gcm_setiv, lift, wbgcm_setiv. cbv zeta. match goal with |- context [if length iv =? 12 then ?a else ?b] => set (y := if length iv =? 12 then a else b) end.
  clearbody y. intros H. apply pair_equal_spec in H as [_ <-]. split; [reflexivity|]. split; reflexivity.
Qed.
Lemma wb_aad_ok b c aad : wbgcm_aad (rebase b c) aad = rebase b (gcm_aad c aad) /\ g_base (gcm_aad c aad) = g_base c /\ g_y (gcm_aad c aad) = g_y c /\ g_len (gcm_aad c aad) = g_len c /\ g_add_len (gcm_aad c aad) = w64 (N.of_nat (length aad)).
Proof. unfold wbgcm_aad, gcm_aad, rebase. cbn [g_len g_add_len g_base g_y g_HL g_HH g_buf]. repeat split; reflexivity. Qed.
Local Opaque gcm_setiv wbgcm_setiv gcm_aad wbgcm_aad wbgcm_init.
Lemma wb_open_ok iv aad : bytes iv -> bytes aad -> let c := opened E iv aad in
  ctx_ok (hash_key E) c /\ g_base c = E (g_y c) /\
    wbgcm_open k iv aad = rebase (wb_ectr k (g_y c)) c /\
    (forall d ps t, gcm_session d (lift E) iv aad ps t =
      let '(ok2, c2, out) := crypt_pieces d (lift E) c ps in
      if ok2 : bool then do ft <- gcm_finish c2 t; Some (out, snd ft) else None) /\
    ((8 * N.of_nat (length iv) < 2 ^ 32)%N -> g_y c = J0 E iv) /\ g_len c = 0%N /\ g_add_len c = w64 (N.of_nat (length aad)).
Proof.
  intros Biv Ba. pose proof wb_init_ok as EI. destruct (gcm_init_spec E HE) as (HH & HL & _ & EI' & HT).
  assert (HK : keyed (hash_key E) (wbgcm_init k)).
  { rewrite EI in EI'. apply (f_equal (fun o => match o with Some x => x | None => wbgcm_init k end)) in EI'. rewrite EI'. exact HT. }
  destruct (setiv_ctx_ok E (wbgcm_init k) iv HE HK Biv) as (c1 & E1 & HC1 & _).
  destruct (wb_setiv_ok _ _ _ E1) as (S1 & S2 & S3). destruct (wb_aad_ok (wb_ectr k (g_y c1)) c1 aad) as (A1 & A2 & A3 & A4 & A5).
  cbv zeta. replace (opened E iv aad) with (gcm_aad c1 aad) by (unfold opened; rewrite EI; cbn [snd]; rewrite E1; reflexivity). split; [now apply aad_ctx_ok|]. split; [rewrite A2, A3; exact S2|]. split; [unfold wbgcm_open; rewrite S1, A3; exact A1|].
  split; [intros d ps t; unfold gcm_session; rewrite EI; cbn [bind]; rewrite E1; reflexivity|]. split; [|split; [rewrite A4; exact S3|exact A5]].
  intros LI. rewrite A3. rewrite (gcm_setiv_spec E (wbgcm_init k) iv HE HK Biv LI) in E1. apply pair_equal_spec in E1 as [_ E1]. rewrite <- E1. reflexivity.
Qed.
(** a run of calls *)
Fixpoint gmix_pieces (y : list N) (ps : list (list N)) : list (list N) :=
  match ps with [] => [] | p :: ps' => gmix E g (inc32 y) p :: gmix_pieces (inc32_n (nblk (length p)) y) ps' end.
Definition hashed_pieces (d : dir) (ps os : list (list N)) := match d with Enc => os | Dec => ps end.
Lemma wb_pieces_ok h d b ps : small_pieces ps -> forall c, ctx_ok h c ->
  let os := gmix_pieces (g_y c) ps in
  exists c' z, crypt_pieces Dec (lift E) c (hashed_pieces d ps os) = (true, c', z) /\ wbgcm_pieces d k (rebase b c) ps = (rebase b c', os) /\ ctx_ok h c'.
Proof.
  intros HS. induction HS as [|p ps [Bp Lp] HS IH]; intros c HC; cbv zeta.
  - exists c, []. destruct d; auto.
  - cbn [gmix_pieces wbgcm_pieces].
    destruct (wb_crypt_ok h d b c p (length p) HC Bp Lp (Nat.le_refl _)) as (c1 & z1 & E1 & E2 & HC1 & EY). cbv zeta in E1, E2. rewrite E2. rewrite <- EY.
    destruct (IH c1 HC1) as (c2 & z2 & E3 & E4 & HC2). cbv zeta in E3, E4. rewrite E4. exists c2, (z1 ++ z2). split; [|split; [reflexivity|exact HC2]].
    rewrite <- (gmix_length E g p (inc32 (g_y c))) in E1.
    assert (LH : length (hashed d p (gmix E g (inc32 (g_y c)) p)) = length (gmix E g (inc32 (g_y c)) p)) by (destruct d; [reflexivity|cbn [hashed]; now rewrite gmix_length]).
    destruct d; cbn [hashed_pieces hashed crypt_pieces] in *; [rewrite E1, E3; reflexivity|rewrite LH, E1, E3; reflexivity].
Qed.
Lemma gmix_pieces_lengths ps : forall y, map (@length N) (gmix_pieces y ps) = map (@length N) ps.
Proof. induction ps as [|p ps IH]; intros y; [reflexivity|]. cbn [gmix_pieces map]. now rewrite gmix_length, IH. Qed.
(** the tag *)
Definition untouched (c : gcm_ctx) : bool := ((w64 (g_len c * 8) =? 0) && (w64 (g_add_len c * 8) =? 0))%N.
Lemma wb_finish_ok h y c t : ctx_ok h c -> block16 y -> g_base c = E y -> t <= 16 ->
  exists r, gcm_finish c t = Some r /\ block16 (fin_s c) /\ g_y (fst r) = g_y c /\ ctx_ok h (fst r) /\
  wbgcm_finish k (rebase (wb_ectr k y) c) t =
    Some (rebase (wb_ectr k y) (fst r), if untouched c then firstn t (wb_ectr k y) else map (fun i => g i (get (E y) i) (get (fin_s c) i)) (seq 0 t)) /\
  snd r = if untouched c then firstn t (E y) else xorl (firstn t (E y)) (firstn t (fin_s c)).
Proof.
  intros HC Y HB T. destruct (gcm_finish_total h c t HC T) as (c' & tag & EF). pose proof (finish_ctx_ok h c t _ HC EF) as [HC' EY]. cbn [fst] in *.
  exists (c', tag). assert (BS : block16 (fin_s c)).
  { destruct HC as (HK & Hy & Hb). unfold fin_s. cbv zeta. match goal with |- context [xor_into _ ?w] => set (work := w) end.
    assert (W : block16 work) by (split; [reflexivity|]; unfold work, put_u32_be; cbn [app]; repeat constructor; apply N.mod_lt; discriminate).
    rewrite xor_into_full by (destruct Hb, W; lia). rewrite (gcm_mult_block _ _ h) by (auto; now apply block16_xorl). apply block_mul_block. }
  split; [exact EF|]. split; [exact BS|]. split; [exact EY|]. split; [exact HC'|].
  unfold wbgcm_finish, untouched. cbn [rebase g_len g_add_len g_base g_HH g_HL g_buf g_y fst snd].
  unfold gcm_finish in EF. destruct (Nat.ltb_spec 16 t); [lia|]. destruct (_ && _) eqn:EB.
  - apply (f_equal (fun o => match o with Some x => x | None => (c, []) end)) in EF. apply pair_equal_spec in EF as [E1 E2]. subst c' tag. split; [reflexivity|]. now rewrite HB.
  - apply (f_equal (fun o => match o with Some x => x | None => (c, []) end)) in EF. apply pair_equal_spec in EF as [E1 E2].
    split; [|rewrite <- E2, <- HB; reflexivity]. rewrite <- E1. apply f_equal. apply pair_equal_spec. split; [reflexivity|].
    transitivity (map (fun i => k_x k i (get (firstn t (wb_ectr k y)) i) (get (fin_s c) i)) (seq 0 t)); [reflexivity|].
    apply map_ext_in. intros i I. apply in_seq in I. rewrite get_firstn by lia. unfold wb_ectr. cbv zeta. rewrite get_map_seq' by lia. apply (s_x k E g S); auto; [lia|]. apply bytes_get, BS.
Qed.
(** sessions *)
Lemma gmix_pieces_concat ps q : Forall (fun p => length p mod 16 = 0) ps -> forall y, concat (gmix_pieces y (ps ++ [q])) = gmix E g (inc32 y) (concat ps ++ q).
Proof.
  intros H. induction H as [|p ps Hp H IH]; intros y; [cbn [app gmix_pieces concat]; apply app_nil_r|].
  cbn [app gmix_pieces concat]. rewrite <- app_assoc, gmix_app by exact Hp. rewrite IH, inc32_n_swap. reflexivity.
Qed.
Lemma gmix_pieces_bytes ps : small_pieces ps -> forall y, block16 y -> small_pieces (gmix_pieces y ps).
Proof.
  intros H. induction H as [|p ps [Bp Lp] H IH]; intros y Y; [constructor|]. cbn [gmix_pieces]. constructor; [split|].
  - apply gmix_bytes; auto; [apply (s_b k E g S)|now apply inc32_block].
  - now rewrite gmix_length.
  - apply IH. now apply inc32_n_block.
Qed.
Lemma hashed_small d ps y : small_pieces ps -> block16 y -> small_pieces (hashed_pieces d ps (gmix_pieces y ps)).
Proof. intros H Y. destruct d; [now apply gmix_pieces_bytes|exact H]. Qed.
Lemma concat_lengths (a b : list (list N)) : map (@length N) a = map (@length N) b -> length (concat a) = length (concat b).
Proof.
  revert b. induction a as [|x a IH]; intros [|z b] H; try discriminate; [reflexivity|]. cbn [map] in H. injection H as H1 H2. cbn [concat]. rewrite !app_length, H1, (IH b H2). reflexivity.
Qed.
Lemma hashed_lengths d ps y : map (@length N) (hashed_pieces d ps (gmix_pieces y ps)) = map (@length N) ps.
Proof. destruct d; [apply gmix_pieces_lengths|reflexivity]. Qed.
Definition tag_of (y s : list N) (t : nat) : list N := map (fun i => g i (get (E y) i) (get s i)) (seq 0 t).
Lemma wb_session_any d iv aad ps t : bytes iv -> bytes aad -> small_pieces ps -> t <= 16 ->
  (8 * N.of_nat (length aad) < 2 ^ 64)%N -> (8 * N.of_nat (length (concat ps)) < 2 ^ 64)%N ->
  let y := ctr0 E iv aad in let os := gmix_pieces y ps in let cs := hashed_pieces d ps os in let s := hash_of E iv aad cs in
  block16 y /\ block16 s /\ ((8 * N.of_nat (length iv) < 2 ^ 32)%N -> y = J0 E iv) /\ small_pieces cs /\
  wbgcm_session d k iv aad ps t = Some (os, if nothing aad ps then firstn t (wb_ectr k y) else tag_of y s t) /\
  (forall t', t' <= 16 -> exists z, gcm_session Dec (lift E) iv aad cs t' = Some (z, if nothing aad ps then firstn t' (E y) else xorl (firstn t' (E y)) (firstn t' s))).
Proof.
  intros Biv Ba HS T La Lp. destruct (wb_open_ok iv aad Biv Ba) as (HC & HB & HO & HSS & HJ & HL & HA). cbv zeta.
  unfold ctr0. set (c := opened E iv aad) in *. assert (Y : block16 (g_y c)) by apply HC.
  destruct (wb_pieces_ok (hash_key E) d (wb_ectr k (g_y c)) ps HS c HC) as (c' & z & E1 & E2 & HC'). cbv zeta in E1, E2.
  pose proof (hashed_small d ps (g_y c) HS Y) as HCS.
  destruct (crypt_pieces_ok E (hash_key E) Dec _ HE HCS c HC) as (c1 & o1 & K1 & _ & _ & _ & K5 & K6 & _ & _ & K9).
  rewrite E1 in K1. assert (c1 = c') by congruence. subst c1. clear K1 o1.
  assert (EH : hash_of E iv aad (hashed_pieces d ps (gmix_pieces (g_y c) ps)) = fin_s c') by (unfold hash_of; fold c; rewrite E1; reflexivity). rewrite EH.
  assert (EU : untouched c' = nothing aad ps).
  { rewrite (concat_lengths _ ps (hashed_lengths d ps (g_y c))), HL, N.add_0_l in K9. rewrite HA in K6. unfold untouched, nothing. rewrite K6.
    rewrite andb_comm. f_equal.
    - rewrite (w64_small (N.of_nat (length aad))) by lia. rewrite w64_small by lia. destruct (N.eqb_spec (N.of_nat (length aad) * 8) 0), (Nat.eqb_spec (length aad) 0); auto; lia.
    - assert (W : w64 (g_len c' * 8) = (N.of_nat (length (concat ps)) * 8)%N).
      { transitivity (w64 (w64 (g_len c') * 8)); [unfold w64; now rewrite N.mul_mod_idemp_l by discriminate|]. rewrite K9, (w64_small (N.of_nat _)) by lia. apply w64_small. lia. }
      rewrite W. destruct (N.eqb_spec (N.of_nat (length (concat ps)) * 8) 0), (Nat.eqb_spec (length (concat ps)) 0); auto; lia. }
  assert (HB' : g_base c' = E (g_y c)) by (rewrite K5; exact HB).
  split; [exact Y|]. split; [destruct (wb_finish_ok (hash_key E) (g_y c) c' t HC' Y HB' T) as (r & _ & F2 & _); exact F2|]. split; [exact HJ|]. split; [exact HCS|]. split.
  - destruct (wb_finish_ok (hash_key E) (g_y c) c' t HC' Y HB' T) as (r & F1 & F2 & F3 & F4 & F5 & F6). unfold wbgcm_session. rewrite HO, E2, F5. cbn [bind snd]. rewrite EU. reflexivity.
  - intros t' T'. destruct (wb_finish_ok (hash_key E) (g_y c) c' t' HC' Y HB' T') as (r & F1 & F2 & F3 & F4 & F5 & F6). exists z. rewrite HSS, E1, F1. cbn [bind]. rewrite F6, EU. reflexivity.
Qed.
Lemma wb_session_stream d iv aad ps q t : bytes iv -> bytes aad -> small_pieces (ps ++ [q]) -> Forall (fun p => length p mod 16 = 0) ps -> t <= 16 ->
  (8 * N.of_nat (length iv) < 2 ^ 32)%N -> (8 * N.of_nat (length aad) < 2 ^ 64)%N -> (8 * N.of_nat (length (concat ps ++ q)) < 2 ^ 64)%N ->
  let y := J0 E iv in let o := gmix E g (inc32 y) (concat ps ++ q) in let s := gcm_hash E aad (hashed d (concat ps ++ q) o) in
  exists os, map (@length N) os = map (@length N) (ps ++ [q]) /\ concat os = o /\
    wbgcm_session d k iv aad (ps ++ [q]) t = Some (os, if nothing aad [concat ps ++ q] then firstn t (wb_ectr k y) else tag_of y s t).
Proof.
  intros Biv Ba HS HP T Li La Lp. cbv zeta. assert (EC : concat (ps ++ [q]) = concat ps ++ q) by (rewrite concat_app; cbn [concat]; now rewrite app_nil_r).
  destruct (wb_session_any d iv aad (ps ++ [q]) t Biv Ba HS T La) as (Y & BS & HJ & HCS & E1 & E2); [now rewrite EC|]. cbv zeta in *. specialize (HJ Li). rewrite HJ in *.
  pose proof (gmix_pieces_concat ps q HP (J0 E iv)) as GC. pose proof (gmix_pieces_lengths (ps ++ [q]) (J0 E iv)) as GL.
  assert (EN : nothing aad (ps ++ [q]) = nothing aad [concat ps ++ q]) by (unfold nothing; rewrite EC; cbn [concat]; now rewrite app_nil_r).
  exists (gmix_pieces (J0 E iv) (ps ++ [q])). split; [exact GL|]. split; [exact GC|]. rewrite E1, EN. destruct (nothing aad [concat ps ++ q]) eqn:EB; [reflexivity|].
  f_equal. f_equal. f_equal. destruct (E2 16 (Nat.le_refl _)) as (z & E3). rewrite EN in E3. rewrite (firstn16 (E _)) in E3 by now apply HE. rewrite (firstn16 _ BS) in E3.
  assert (SP : exists ps' q', hashed_pieces d (ps ++ [q]) (gmix_pieces (J0 E iv) (ps ++ [q])) = ps' ++ [q'] /\ Forall (fun p => length p mod 16 = 0) ps' /\ concat ps' ++ q' = hashed d (concat ps ++ q) (gmix E g (inc32 (J0 E iv)) (concat ps ++ q))).
  { destruct d; cbn [hashed hashed_pieces]; [|exists ps, q; auto]. rewrite <- GC. clear - HP. revert HP. generalize (J0 E iv) as y. induction ps as [|p ps IH]; intros y HP.
    - exists [], (gmix E g (inc32 y) q). cbn. rewrite app_nil_r. auto.
    - inversion HP as [|? ? H1 H2]; subst. destruct (IH (inc32_n (nblk (length p)) y) H2) as (ps' & q' & F1 & F2 & F3). exists (gmix E g (inc32 y) p :: ps'), q'. cbn [app gmix_pieces concat]. rewrite F1.
      split; [reflexivity|]. split; [constructor; [now rewrite gmix_length|exact F2]|]. rewrite concat_app. cbn [concat]. rewrite app_nil_r. now rewrite app_assoc. }
  destruct SP as (ps' & q' & F1 & F2 & F3). rewrite F1 in *.
  assert (LL : length (hashed d (concat ps ++ q) (gmix E g (inc32 (J0 E iv)) (concat ps ++ q))) = length (concat ps ++ q)) by (destruct d; [apply gmix_length|reflexivity]).
  pose proof (session_spec E Dec iv aad ps' q' 16 HE Biv Ba HCS F2 Li La) as SS. rewrite F3, LL in SS. specialize (SS Lp (Nat.le_refl _)). cbv zeta in SS. cbn [hashed] in SS. rewrite SS in E3.
  assert (ET : gcm_tag E iv aad (hashed d (concat ps ++ q) (gmix E g (inc32 (J0 E iv)) (concat ps ++ q))) 16 = xorl (E (J0 E iv)) (hash_of E iv aad (ps' ++ [q']))) by congruence.
  unfold gcm_tag in ET. fold (gcm_hash E aad (hashed d (concat ps ++ q) (gmix E g (inc32 (J0 E iv)) (concat ps ++ q)))) in ET. set (s0 := gcm_hash _ _ _) in *.
  assert (B0 : block16 s0).
  { unfold s0, gcm_hash. apply ghash_from_block16; [apply zeros_block|]. rewrite !app_length. unfold len64. rewrite !length_N_to_be. pose proof (pad16_length_mod aad) as P1. match goal with |- context [length (pad16 aad) + (length (pad16 ?m) + _)] => pose proof (pad16_length_mod m) as P2; generalize dependent (length (pad16 m)) end.
    generalize dependent (length (pad16 aad)). clear. intros n H m H2. rewrite Nat.add_assoc. change (8 + 8) with (1 * 16). rewrite Nat.mod_add by lia. rewrite Nat.add_mod, H, H2 by lia. reflexivity. }
  assert (BJ : block16 (E (J0 E iv))) by now apply HE.
  rewrite firstn16 in ET by now apply block16_xorl.
  symmetry. rewrite xorl_comm in ET. destruct B0, BJ, BS. apply (f_equal (xorl (E (J0 E iv)))) in ET. rewrite <- (xorl_cancel_l (E (J0 E iv)) s0) by lia. rewrite ET. apply xorl_cancel_l. lia.
Qed.
End Mode.
