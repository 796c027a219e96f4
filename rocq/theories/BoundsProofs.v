(** * Proofs for BoundsProps.v (C90) *)
From Verif Require Import Base Word32 CbcModel GcmModel GcmSpec GfProofs GcmProofs Sm4Model MatModel WbaesModel WbgcmModel Wbsm4Model FpeModel WbgcmProofs BoundsSpec.
From Coq Require Import ZArith Lia.
Local Open Scope nat_scope.

Lemma nib_lt k w : (nib k w < 16)%N.
Proof. unfold nib. change 0xf%N with (N.ones 4). rewrite N.land_ones. apply N.mod_lt. discriminate. Qed.
Lemma byte_at_lt x s : (byte_at x s < 256)%N.
Proof. unfold byte_at. change 0xff%N with (N.ones 8). rewrite N.land_ones. apply N.mod_lt. discriminate. Qed.
Lemma byte_mod x : byte (x mod 256)%N.
Proof. apply N.mod_lt. discriminate. Qed.

Lemma xor_tables_ext T T' a b : (forall k x y, k < 8 -> (x < 16)%N -> (y < 16)%N -> T k x y = T' k x y) -> xor_tables T a b = xor_tables T' a b.
Proof. intros H. unfold xor_tables. rewrite !H by (first [lia | apply nib_lt]). reflexivity. Qed.
Lemma xor_bytes_ext T T' a b : (forall k x y, k < 8 -> (x < 16)%N -> (y < 16)%N -> T k x y = T' k x y) -> xor_bytes T a b = xor_bytes T' a b.
Proof. intros H. unfold xor_bytes. rewrite !H by (first [lia | apply nib_lt]). reflexivity. Qed.
Lemma xor_bytes_block T a b : length (xor_bytes T a b) = 4 /\ bytes (xor_bytes T a b).
Proof. split; [reflexivity|]. unfold xor_bytes. repeat constructor; apply byte_mod. Qed.

Lemma half_ext U U' V V' j col : j < 4 -> bytes col ->
  (forall r x, r < 16 -> byte x -> U r x = U' r x) ->
  (forall m k x y, m < 3 -> k < 8 -> (x < 16)%N -> (y < 16)%N -> V m k x y = V' m k x y) ->
  half_column U V j col = half_column U' V' j col.
Proof.
  intros Hj B HU HV. unfold half_column. rewrite !HU by (first [lia | apply bytes_get; assumption]).
  rewrite (xor_tables_ext (V 0) (V' 0)), (xor_tables_ext (V 1) (V' 1)) by (intros; apply HV; lia || assumption).
  apply xor_bytes_ext. intros. apply HV; lia || assumption.
Qed.
Lemma half_block U V j col : length (half_column U V j col) = 4 /\ bytes (half_column U V j col).
Proof. unfold half_column. apply xor_bytes_block. Qed.

Lemma bytes_map_get l f n : bytes l -> bytes (map (fun i => get l (f i)) (seq 0 n)).
Proof. intros B. apply Forall_forall. intros x I. apply in_map_iff in I. destruct I as (i & <- & _). apply bytes_get; assumption. Qed.

Lemma round_ext t t' s i : i < 9 -> bytes s -> same_tables t t' -> wb_aes_round t s i = wb_aes_round t' s i.
Proof.
  intros Hi B (H2 & H3 & H4 & H5 & _). unfold wb_aes_round.
  assert (BS : bytes (shiftRows s)) by (unfold shiftRows; apply bytes_map_get; assumption).
  rewrite !flat_map_concat_map. f_equal. apply map_ext_in. intros j Hj. apply in_seq in Hj.
  rewrite (half_ext (t_II t i) (t_II t' i) (t_IV_II t i j) (t_IV_II t' i j)).
  - apply half_ext; [lia | apply half_block | intros; apply H3; assumption || lia | intros; apply H5; assumption || lia].
  - lia.
  - apply (bytes_map_get _ (fun r => 4 * j + r)). assumption.
  - intros; apply H2; assumption || lia.
  - intros; apply H4; assumption || lia.
Qed.
Lemma round_bytes t s i : bytes (wb_aes_round t s i).
Proof.
  unfold wb_aes_round. apply Forall_forall. intros x I. apply in_flat_map in I. destruct I as (j & _ & I).
  match type of I with In _ (half_column ?U ?V ?j ?c) => destruct (half_block U V j c) as [_ B] end.
  apply (proj1 (Forall_forall _ _) B). assumption.
Qed.
Lemma rounds_ext t t' is : same_tables t t' -> Forall (fun i => i < 9) is -> forall s, bytes s ->
  fold_left (wb_aes_round t) is s = fold_left (wb_aes_round t') is s /\ bytes (fold_left (wb_aes_round t) is s).
Proof.
  intros S. induction is as [|i is IH]; intros F s B; [split; [reflexivity | assumption]|].
  inversion_clear F. cbn [fold_left]. rewrite <- (round_ext t t') by assumption. apply IH; [assumption | apply round_bytes].
Qed.
Lemma aux_ext t t' b : same_tables t t' -> bytes b -> aux_encrypt t b = aux_encrypt t' b.
Proof.
  intros S B. unfold aux_encrypt.
  assert (F : Forall (fun i => i < 9) (seq 0 9)) by (repeat constructor).
  destruct (rounds_ext t t' (seq 0 9) S F (map (get b) (seq 0 16)) (bytes_map_get b (fun i => i) 16 B)) as [E BE].
  rewrite <- E. apply map_ext_in. intros j Hj. apply in_seq in Hj. f_equal.
  apply (proj1 S); [lia | lia |]. apply bytes_get. unfold shiftRows. apply bytes_map_get. assumption.
Qed.
Lemma aux_block t b : block16 (aux_encrypt t b).
Proof.
  unfold aux_encrypt. split; [rewrite map_length, seq_length; reflexivity|].
  apply Forall_forall. intros x I. apply in_map_iff in I. destruct I as (j & <- & _). apply byte_mod.
Qed.
Lemma ex_in_ext t t' b : same_tables t t' -> bytes b -> ex_in t b = ex_in t' b /\ bytes (ex_in t b).
Proof.
  intros (_ & _ & _ & _ & H) B. unfold ex_in. split.
  - apply map_ext_in. intros i Hi. apply in_seq in Hi. apply H; [lia | apply bytes_get; assumption].
  - apply Forall_forall. intros x I. apply in_map_iff in I. destruct I as (i & <- & Hi). apply in_seq in Hi.
    apply H; [lia | apply bytes_get; assumption].
Qed.
Lemma cipher_ext t t' b : same_tables t t' -> bytes b -> aux_encrypt t (ex_in t b) = aux_encrypt t' (ex_in t' b).
Proof. intros S B. destruct (ex_in_ext t t' b S B) as [E BE]. rewrite <- E. apply aux_ext; assumption. Qed.

Lemma wbaes_bounds_lemma : forall c c' b, same_wbaes c c' -> bytes b -> wbaes_encrypt c b = wbaes_encrypt c' b.
Proof.
  intros c c' b [S HI] B. unfold wbaes_encrypt. rewrite <- (cipher_ext (wb_t c) (wb_t c')) by assumption.
  apply map_ext_in. intros i Hi. apply in_seq in Hi. apply HI; [lia | apply bytes_get; apply aux_block].
Qed.

(** ** The modes, over any two key contexts *)
Definition same_key (k k' : wbkey) : Prop :=
  (forall b, bytes b -> k_blk k b = k_blk k' b) /\ (forall b, bytes b -> bytes (k_blk k b)) /\
  (forall i x, i < 16 -> byte x -> k_h k i x = k_h k' i x) /\
  (forall i x, i < 16 -> byte x -> k_base k i x = k_base k' i x /\ byte (k_base k i x)) /\
  (forall i x y, i < 16 -> byte x -> byte y -> k_x k i x y = k_x k' i x y).
Lemma mult_block HH HL x : block16 (gcm_mult HH HL x).
Proof.
  unfold gcm_mult. destruct (fold_left _ _ _) as [zh zl]. split.
  - rewrite !app_length, !put_u32_len. reflexivity.
  - apply bytes_app; split; [apply put_u32_bytes|]. apply bytes_app; split; [apply put_u32_bytes|].
    apply bytes_app; split; apply put_u32_bytes.
Qed.
Section Same.
Variables k k' : wbkey.
Hypothesis S : same_key k k'.
Lemma ectr_ext y : bytes y -> wb_ectr k y = wb_ectr k' y.
Proof.
  destruct S as (H1 & H2 & _ & H4 & _). intros B. unfold wb_ectr. rewrite <- H1 by assumption.
  apply map_ext_in. intros i Hi. apply in_seq in Hi. apply H4; [lia | apply bytes_get; auto].
Qed.
Lemma ectr_bytes y : bytes y -> bytes (wb_ectr k y).
Proof.
  destruct S as (H1 & H2 & _ & H4 & _). intros B. unfold wb_ectr. apply Forall_forall. intros x I.
  apply in_map_iff in I. destruct I as (i & <- & Hi). apply in_seq in Hi. apply H4; [lia | apply bytes_get; auto].
Qed.
Lemma init_ext : wbgcm_init k = wbgcm_init k'.
Proof.
  destruct S as (H1 & H2 & H3 & _).
  assert (Z : bytes (repeat 0%N 16)) by (apply bytes_repeat; reflexivity).
  unfold wbgcm_init. rewrite <- (H1 _ Z).
  rewrite (map_ext_in (fun i => k_h k i (get (k_blk k (repeat 0%N 16)) i)) (fun i => k_h k' i (get (k_blk k (repeat 0%N 16)) i))); [reflexivity|].
  intros i Hi. apply in_seq in Hi. apply H3; [lia | apply bytes_get; auto].
Qed.
Lemma setiv_ext c iv : bytes iv -> wbgcm_setiv k c iv = wbgcm_setiv k' c iv /\
  block16 (g_y (wbgcm_setiv k c iv)) /\ bytes (g_base (wbgcm_setiv k c iv)) /\ bytes (g_buf (wbgcm_setiv k c iv)).
Proof.
  intros B. unfold wbgcm_setiv. cbn [g_y g_base g_buf].
  set (y := if length iv =? 12 then _ else _).
  assert (By : block16 y).
  { unfold y. destruct (length iv =? 12) eqn:E; [|apply mult_block]. apply Nat.eqb_eq in E. split.
    - rewrite length_set, app_length, E. reflexivity.
    - apply bytes_set; [|reflexivity]. apply bytes_app; split; [assumption|]. apply bytes_skipn, bytes_repeat. reflexivity. }
  rewrite <- (ectr_ext y) by apply By. split; [reflexivity|]. split; [assumption|].
  split; [apply ectr_bytes; apply By | apply bytes_repeat; reflexivity].
Qed.
Lemma loop_ext HH HL d cs : Forall (fun p => bytes p /\ length p <= 16) cs -> forall y buf out, block16 y ->
  wbgcm_loop k HH HL d cs y buf out = wbgcm_loop k' HH HL d cs y buf out /\
  block16 (fst (fst (wbgcm_loop k HH HL d cs y buf out))) /\ (bytes buf -> bytes (snd (fst (wbgcm_loop k HH HL d cs y buf out)))).
Proof.
  destruct S as (_ & _ & _ & _ & H5).
  induction cs as [|p cs IH]; intros F y buf out By; [split; [reflexivity | split; [assumption | auto]]|].
  inversion_clear F as [|? ? [Bp Lp] F']. cbn [wbgcm_loop].
  assert (By' : block16 (ctr_incr y)) by (rewrite ctr_incr_spec by assumption; apply inc32_block; assumption).
  rewrite <- (ectr_ext (ctr_incr y)) by apply By'.
  rewrite (map_ext_in (fun i => k_x k' i (get (wb_ectr k (ctr_incr y)) i) (get p i)) (fun i => k_x k i (get (wb_ectr k (ctr_incr y)) i) (get p i))).
  - destruct (IH F' (ctr_incr y) (gcm_mult HH HL (xor_into buf match d with Enc => map (fun i => k_x k i (get (wb_ectr k (ctr_incr y)) i) (get p i)) (seq 0 (length p)) | Dec => p end))
      (out ++ map (fun i => k_x k i (get (wb_ectr k (ctr_incr y)) i) (get p i)) (seq 0 (length p))) By') as (E & BY & BB).
    split; [exact E | split; [exact BY |]]. intros _. apply BB. apply mult_block.
  - intros i Hi. apply in_seq in Hi. symmetry. apply H5; [lia | apply bytes_get, ectr_bytes, By' | apply bytes_get; assumption].
Qed.
Lemma chunks_ok data : bytes data -> Forall (fun p => bytes p /\ length p <= 16) (chunks 16 data).
Proof.
  remember (length data) as n eqn:E. revert data E. induction n as [n IH] using lt_wf_ind; intros l -> H.
  destruct l as [|x l]; [constructor|]. rewrite chunks_eq by (auto; congruence || lia).
  constructor; [split; [now apply bytes_firstn | rewrite firstn_length; lia]|].
  eapply IH; [|reflexivity|now apply bytes_skipn]. rewrite skipn_length; cbn [length]; lia.
Qed.
Definition okc (c : gcm_ctx) : Prop := block16 (g_y c) /\ bytes (g_base c) /\ bytes (g_buf c).
Lemma crypt_ext d c inp n : okc c -> bytes inp ->
  wbgcm_crypt d k c inp n = wbgcm_crypt d k' c inp n /\ okc (snd (fst (wbgcm_crypt d k c inp n))).
Proof.
  intros (By & Bb & Bf) B. unfold wbgcm_crypt. destruct (n <? length inp); [split; [reflexivity | split; [|split]; assumption]|].
  destruct (loop_ext (g_HH c) (g_HL c) d (chunks 16 (firstn (Z.to_nat (c_int (N.of_nat (length inp)))) inp))
    (chunks_ok _ (bytes_firstn _ _ B)) (g_y c) (g_buf c) [] By) as (E & BY & BB).
  rewrite <- E. destruct (wbgcm_loop k (g_HH c) (g_HL c) d _ (g_y c) (g_buf c) []) as [[y buf] out].
  split; [reflexivity|]. cbn [fst snd]. split; [exact BY | split; [assumption | exact (BB Bf)]].
Qed.
Lemma fold_bytes (F : list N -> list N -> list N) (H : forall a p, bytes (F a p)) cs : forall b, bytes b -> bytes (fold_left F cs b).
Proof. induction cs as [|p cs IH]; intros b Bf; [assumption|]. cbn [fold_left]. apply IH. apply H. Qed.
Lemma absorb_bytes HH HL b a : bytes b -> bytes (absorb HH HL b a).
Proof.
  intros B. unfold absorb. refine (fold_bytes (fun a p => gcm_mult HH HL (xor_into a p)) _ (chunks 16 a) b B).
  intros x p. exact (proj2 (mult_block HH HL (xor_into x p))).
Qed.
Lemma aad_okc c a : okc c -> okc (wbgcm_aad c a).
Proof. intros (By & Bb & Bf). split; [exact By | split; [exact Bb | exact (absorb_bytes (g_HH c) (g_HL c) (g_buf c) a Bf)]]. Qed.
Lemma finish_ext c t : okc c -> wbgcm_finish k c t = wbgcm_finish k' c t.
Proof.
  destruct S as (_ & _ & _ & _ & H5). intros (By & Bb & Bf). unfold wbgcm_finish. destruct (16 <? t) eqn:Et; [reflexivity|].
  apply Nat.ltb_ge in Et. destruct (_ && _); [reflexivity|]. f_equal. f_equal. apply map_ext_in. intros i Hi. apply in_seq in Hi.
  apply H5; [lia | apply bytes_get, bytes_firstn; assumption | apply bytes_get, mult_block].
Qed.
Lemma pieces_ext d ps : Forall bytes ps -> forall c, okc c ->
  wbgcm_pieces d k c ps = wbgcm_pieces d k' c ps /\ okc (fst (wbgcm_pieces d k c ps)).
Proof.
  induction ps as [|p ps IH]; intros F c O; [split; [reflexivity | assumption]|].
  inversion_clear F. cbn [wbgcm_pieces]. destruct (crypt_ext d c p (length p) O H) as [E O1]. rewrite <- E.
  destruct (wbgcm_crypt d k c p (length p)) as [[r c1] o]. cbn [fst snd] in O1.
  destruct (IH H0 c1 O1) as [E2 O2]. rewrite <- E2. destruct (wbgcm_pieces d k c1 ps) as [c2 os]. split; [reflexivity | exact O2].
Qed.
Lemma session_ext d iv aad ps t : bytes iv -> Forall bytes ps ->
  wbgcm_session d k iv aad ps t = wbgcm_session d k' iv aad ps t.
Proof.
  intros Bi Bp. unfold wbgcm_session, wbgcm_open. rewrite <- init_ext.
  destruct (setiv_ext (wbgcm_init k) iv Bi) as (E & O). rewrite <- E.
  pose proof (aad_okc _ aad O) as O1. destruct (pieces_ext d ps Bp _ O1) as [E2 O2]. rewrite <- E2.
  destruct (wbgcm_pieces d k _ ps) as [c out]. cbn [fst] in O2. rewrite <- (finish_ext c t O2). reflexivity.
Qed.
End Same.

Lemma ee_same c c' : same_ee c c' -> same_key (ee_key c) (ee_key c').
Proof.
  intros (T & HI & H3). unfold same_key, ee_key. cbn [k_blk k_h k_base k_x]. split; [|split; [|split; [|split]]].
  - intros b B. unfold ee_aux. apply cipher_ext; assumption.
  - intros b B. unfold ee_aux. apply aux_block.
  - intros i x Hi Hx. assert (Z : byte 0%N) by reflexivity. destruct (HI i 0%N Hi Z) as [E BI]. rewrite <- E. apply H3; assumption.
  - intros i x Hi Hx. split; [reflexivity | assumption].
  - intros i x y Hi Hx Hy. destruct (HI i y Hi Hy) as [E BI]. rewrite <- E. apply H3; assumption.
Qed.
Lemma ee_bounds_lemma : forall c c' d iv aad ps t, same_ee c c' -> bytes iv -> Forall bytes ps ->
  wbgcm_session d (ee_key c) iv aad ps t = wbgcm_session d (ee_key c') iv aad ps t.
Proof. intros. apply session_ext; [apply ee_same; assumption | assumption | assumption]. Qed.

Lemma lxor_byte a b : byte a -> byte b -> byte (N.lxor a b).
Proof.
  intros A B. unfold byte in *. destruct (N.eq_dec (N.lxor a b) 0) as [E|E]; [rewrite E; reflexivity|].
  change 256%N with (2 ^ 8)%N. apply N.log2_lt_pow2; [lia|].
  eapply N.le_lt_trans; [apply N.log2_lxor|]. apply N.max_lub_lt.
  - destruct (N.eq_dec a 0) as [->|NA]; [reflexivity|]. apply N.log2_lt_pow2; [lia | exact A].
  - destruct (N.eq_dec b 0) as [->|NB]; [reflexivity|]. apply N.log2_lt_pow2; [lia | exact B].
Qed.
Lemma mul8_byte A x : byte (MatMulNum 8 A x).
Proof.
  assert (I8 : bytes (idM 8)) by (vm_compute; repeat constructor).
  unfold MatMulNum. cut (forall is a, byte a -> byte (fold_left (fun temp i => if xorU 8 (mask4 8 (N.land (get A i) x)) then N.lxor temp (get (idM 8) i) else temp) is a)).
  - intros H. apply H. reflexivity.
  - induction is as [|i is IH]; intros a Ba; [assumption|]. cbn [fold_left]. apply IH.
    destruct (xorU 8 _); [apply lxor_byte; [assumption | apply bytes_get; exact I8] | assumption].
Qed.
Lemma mask_same c c' : same_mask c c' -> same_key (mask_key c) (mask_key c').
Proof.
  intros (EE & T & Hb & H1 & H2 & H3 & HL). unfold same_key, mask_key. cbn [k_blk k_h k_base k_x]. split; [|split; [|split; [|split]]].
  - intros b B. unfold mask_aux. rewrite <- (cipher_ext (mk_t c) (mk_t c')) by assumption.
    apply map_ext_in. intros i Hi. apply in_seq in Hi. apply Hb; [lia | apply bytes_get, aux_block].
  - intros b B. unfold mask_aux. apply Forall_forall. intros x I. apply in_map_iff in I. destruct I as (i & <- & Hi).
    apply in_seq in Hi. apply Hb; [lia | apply bytes_get, aux_block].
  - intros i x Hi Hx. rewrite <- EE, <- (HL i Hi).
    set (m := if mk_enc c then 0%N else MatMulNum 8 (mk_L1 c i) 0).
    assert (Bm : byte m) by (unfold m; destruct (mk_enc c); [reflexivity | apply mul8_byte]).
    destruct (H1 i m Hi Bm) as [E1 B1]. destruct (H2 i x Hi Hx) as [E2 B2]. destruct (H3 i _ _ Hi B1 B2) as [E3 B3].
    rewrite <- E1, <- E2, <- E3. reflexivity.
  - intros i x Hi Hx. apply H2; assumption.
  - intros i x y Hi Hx Hy. destruct (H1 i y Hi Hy) as [E1 B1]. rewrite <- E1. apply H3; assumption.
Qed.
Lemma mask_bounds_lemma : forall c c' d iv aad ps t, same_mask c c' -> bytes iv -> Forall bytes ps ->
  wbgcm_session d (mask_key c) iv aad ps t = wbgcm_session d (mask_key c') iv aad ps t.
Proof. intros. apply session_ext; [apply mask_same; assumption | assumption | assumption]. Qed.

(** ** White-box SM4 *)
Lemma lookup_ext T T' x : (forall j y, j < 4 -> byte y -> T j y = T' j y) -> lookup T x = lookup T' x.
Proof. intros H. unfold lookup. rewrite !H by (first [lia | apply byte_at_lt]). reflexivity. Qed.
Lemma wbsm4_bounds_lemma : forall c mem b, w_rounds c <= w_alloc c -> (forall l, in_wbsm4 (w_rounds c) l -> mem l = w_mem c l) ->
  wbsm4_encrypt (mkwctx (w_rounds c) (w_encmode c) (w_alloc c) mem) b = wbsm4_encrypt c b.
Proof.
  intros [r m al mem0] mem b Hr H. cbn [w_rounds w_alloc w_encmode w_mem] in *.
  unfold wbsm4_encrypt. cbn [w_rounds w_alloc w_encmode w_mem].
  assert (SE : forall i x, i < 4 -> lookup (fun j x => mem (LSE i j x)) x = lookup (fun j x => mem0 (LSE i j x)) x)
    by (intros i x Hi; apply lookup_ext; intros; apply H; split; [|split]; assumption).
  assert (FE : forall i x, i < 4 -> lookup (fun j x => mem (LFE i j x)) x = lookup (fun j x => mem0 (LFE i j x)) x)
    by (intros i x Hi; apply lookup_ext; intros; apply H; split; [|split]; assumption).
  rewrite !SE by lia.
  assert (RR : forall is s, Forall (fun i => i < r) is -> fold_left (wb_round mem) is s = fold_left (wb_round mem0) is s).
  { induction is as [|i is IH]; intros s F; [reflexivity|]. inversion_clear F as [|? ? Hi F']. cbn [fold_left].
    rewrite IH by assumption. f_equal. destruct s as [[[x0 x1] x2] x3]. unfold wb_round.
    rewrite (lookup_ext (fun j x => mem (LMM i 0 j x)) (fun j x => mem0 (LMM i 0 j x)) x1) by (intros; apply H; split; [|split; [|split]]; lia || assumption).
    rewrite (lookup_ext (fun j x => mem (LMM i 1 j x)) (fun j x => mem0 (LMM i 1 j x)) x2) by (intros; apply H; split; [|split; [|split]]; lia || assumption).
    rewrite (lookup_ext (fun j x => mem (LMM i 2 j x)) (fun j x => mem0 (LMM i 2 j x)) x3) by (intros; apply H; split; [|split; [|split]]; lia || assumption).
    cbv zeta.
    rewrite (lookup_ext (fun j x => mem (LTable i j x)) (fun j x => mem0 (LTable i j x))) by (intros; apply H; split; [|split]; lia || assumption).
    rewrite (lookup_ext (fun j x => mem (LCC i j x)) (fun j x => mem0 (LCC i j x))) by (intros; apply H; split; [|split]; lia || assumption).
    rewrite (lookup_ext (fun j x => mem (LDD i j x)) (fun j x => mem0 (LDD i j x))) by (intros; apply H; split; [|split]; lia || assumption).
    reflexivity. }
  rewrite RR by (apply Forall_forall; intros i Hi; apply in_seq in Hi; lia).
  destruct (al <? r); [reflexivity|]. destruct (fold_left (wb_round mem0) (seq 0 r) _) as [[[x0 x1] x2] x3].
  rewrite !FE by lia. reflexivity.
Qed.
