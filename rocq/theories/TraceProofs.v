(** * What the table lookups reveal (C106) *)
From Verif Require Import Base Word32 CbcModel CbcSpec GcmModel GcmSpec GfProofs GcmProofs GfField GfGhash Sm4Model Sm4Spec Sm4Proofs Sm4KeyProofs TraceModel.
From Coq Require Import ZifyBool ZifyNat ZifyN.
Local Open Scope nat_scope.

(** the four lookups of one word *)
Definition word_lookups (t : table) (X : N) : lookups := [(t, byte_at X 24); (t, byte_at X 16); (t, byte_at X 8); (t, byte_at X 0)].
Lemma word_lookups_inj t X Y : word X -> word Y -> word_lookups t X = word_lookups t Y -> X = Y.
Proof.
  intros WX WY H. unfold word_lookups in H. injection H as A B C D.
  rewrite <- (be_to_N_to_be 4 X), <- (be_to_N_to_be 4 Y) by (change (256 ^ N.of_nat 4)%N with (2 ^ 32)%N; assumption). rewrite !N_to_be4. now rewrite A, B, C, D.
Qed.
Lemma sub_tr X : sm4_sub_tr X = (sm4_sub X, word_lookups TSm4S X).
Proof. reflexivity. Qed.
Lemma t_slow_tr X : sm4_t_slow_tr X = (sm4_t_slow X, word_lookups TSm4S X).
Proof. reflexivity. Qed.
Lemma t_tr X : sm4_t_tr X = (sm4_t X, word_lookups TSm4T X).
Proof. reflexivity. Qed.
(** the words substituted in consecutive rounds *)
Definition round_input (s : state) (k : N) : N := let '(x0, x1, x2, x3) := s in N.lxor (N.lxor (N.lxor x1 x2) x3) k.
Fixpoint round_inputs (F : N -> N) (ks : list N) (s : state) : list N :=
  match ks with [] => [] | k :: ks' => round_input s k :: round_inputs F ks' (round F s k) end.
Definition lookups_of (t : table) (xs : list N) : lookups := concat (map (word_lookups t) xs).
Lemma rnds_tr F F' t rk k0 k1 k2 k3 s : (forall X, F' X = (F X, word_lookups t X)) ->
  sm4_rnds_tr F' rk k0 k1 k2 k3 s = (sm4_rnds F rk k0 k1 k2 k3 s, lookups_of t (round_inputs F [get rk k0; get rk k1; get rk k2; get rk k3] s)).
Proof.
  intro H. destruct s as [[[x0 x1] x2] x3]. unfold sm4_rnds_tr, sm4_rnds. rewrite H; cbn [tbind]. rewrite H; cbn [tbind]. rewrite H; cbn [tbind]. rewrite H; cbn [tbind tret].
  unfold lookups_of. cbn [round_inputs round round_input map concat]. set (y0 := N.lxor x0 (F _)).
  replace (N.lxor (N.lxor x2 x3) y0) with (N.lxor (N.lxor y0 x2) x3) by (clearbody y0; clear; xor_bits).
  set (y1 := N.lxor x1 (F _)).
  replace (N.lxor (N.lxor x3 y0) y1) with (N.lxor (N.lxor y0 y1) x3) by (clearbody y0 y1; clear; xor_bits).
  reflexivity.
Qed.
Lemma round_inputs_app F a b s : round_inputs F (a ++ b) s = round_inputs F a s ++ round_inputs F b (rounds F a s).
Proof. revert s. induction a as [|k a IH]; intro s; [reflexivity|]. cbn [app round_inputs]. now rewrite IH. Qed.
Lemma round_inputs_ext F G ks s : (forall x, F x = G x) -> round_inputs F ks s = round_inputs G ks s.
Proof.
  intro H. revert s. induction ks as [|k ks IH]; intro s; [reflexivity|]. cbn [round_inputs]. rewrite IH. do 2 f_equal. destruct s as [[[x0 x1] x2] x3]. cbn [round]. now rewrite H.
Qed.
Lemma length_round_inputs F ks s : length (round_inputs F ks s) = length ks.
Proof. revert s. induction ks as [|k ks IH]; intro s; [reflexivity|]. cbn [round_inputs length]. now rewrite IH. Qed.
Lemma round_input_inj s k k' : round_input s k = round_input s k' -> k = k'.
Proof.
  destruct s as [[[x0 x1] x2] x3]. cbn [round_input]. rewrite !(N.lxor_comm _ k), !(N.lxor_comm _ k'). apply lxor_eq_l. reflexivity.
Qed.
Lemma round_inputs_inj F ks ks' s : length ks = length ks' -> round_inputs F ks s = round_inputs F ks' s -> ks = ks'.
Proof.
  revert ks' s. induction ks as [|k ks IH]; intros [|k' ks'] s L H; try discriminate; [reflexivity|]. cbn [round_inputs] in H. injection L as L.
  assert (H1 : round_input s k = round_input s k') by congruence. apply round_input_inj in H1. subst k'. f_equal. apply (IH ks' (round F s k) L). congruence.
Qed.
Lemma round_inputs_word F ks s : (forall x, word (F x)) -> st_word s -> Forall word ks -> Forall word (round_inputs F ks s).
Proof.
  intros HF HS HK. revert s HS. induction HK as [|k ks Hk HK IH]; intros s HS; cbn [round_inputs]; constructor.
  - destruct s as [[[x0 x1] x2] x3]. destruct HS as (_ & H1 & H2 & H3). cbn [round_input]. auto using word_lxor.
  - apply IH. now apply round_word.
Qed.
Lemma lookups_of_app t a b : lookups_of t (a ++ b) = lookups_of t a ++ lookups_of t b.
Proof. unfold lookups_of. now rewrite map_app, concat_app. Qed.
(** the lookups of the 32 rounds: SM4_S in the first and last four, SM4_SBOX_T between *)
Definition cipher_lookups (xs : list N) : lookups :=
  lookups_of TSm4S (firstn 4 xs) ++ lookups_of TSm4T (firstn 24 (skipn 4 xs)) ++ lookups_of TSm4S (skipn 28 xs).
Lemma split_4_24_4 (ks : list N) : length ks = 32 -> exists a b c d e f g h,
  ks = a ++ b ++ c ++ d ++ e ++ f ++ g ++ h /\ length a = 4 /\ length b = 4 /\ length c = 4 /\ length d = 4 /\ length e = 4 /\ length f = 4 /\ length g = 4 /\ length h = 4.
Proof.
  intro L. exists (firstn 4 ks), (firstn 4 (skipn 4 ks)), (firstn 4 (skipn 8 ks)), (firstn 4 (skipn 12 ks)), (firstn 4 (skipn 16 ks)), (firstn 4 (skipn 20 ks)), (firstn 4 (skipn 24 ks)), (skipn 28 ks).
  do 32 (destruct ks as [|? ks]; [discriminate|]). destruct ks; [|discriminate]. cbn [firstn skipn app length]. repeat split.
Qed.
Lemma eight_rounds a b c d e f g h s : length a = 4 -> length b = 4 -> length c = 4 -> length d = 4 -> length e = 4 -> length f = 4 -> length g = 4 -> length h = 4 ->
  let X ks s := round_inputs T ks s in
  lookups_of TSm4S (X a s) ++ lookups_of TSm4T (X b (rounds T a s)) ++ lookups_of TSm4T (X c (rounds T (a ++ b) s)) ++
  lookups_of TSm4T (X d (rounds T (a ++ b ++ c) s)) ++ lookups_of TSm4T (X e (rounds T (a ++ b ++ c ++ d) s)) ++
  lookups_of TSm4T (X f (rounds T (a ++ b ++ c ++ d ++ e) s)) ++ lookups_of TSm4T (X g (rounds T (a ++ b ++ c ++ d ++ e ++ f) s)) ++
  lookups_of TSm4S (X h (rounds T (a ++ b ++ c ++ d ++ e ++ f ++ g) s)) = cipher_lookups (X (a ++ b ++ c ++ d ++ e ++ f ++ g ++ h) s).
Proof.
  intros La Lb Lc Ld Le Lf Lg Lh X. unfold X, cipher_lookups. rewrite !round_inputs_app.
  rewrite !rounds_app.
  assert (FE : forall (u v : list N) n, length u = n -> firstn n (u ++ v) = u) by (intros u v n <-; rewrite firstn_app, Nat.sub_diag, firstn_all; apply app_nil_r).
  assert (SE : forall (u v : list N) n, length u = n -> skipn n (u ++ v) = v) by (intros u v n <-; now rewrite skipn_app, Nat.sub_diag, skipn_all).
  set (xa := round_inputs T a s). set (xb := round_inputs T b _). set (xc := round_inputs T c _). set (xd := round_inputs T d _).
  set (xe := round_inputs T e _). set (xf := round_inputs T f _). set (xg := round_inputs T g _). set (xh := round_inputs T h _).
  assert (Ka : length xa = 4) by (unfold xa; now rewrite length_round_inputs). assert (Kb : length xb = 4) by (unfold xb; now rewrite length_round_inputs).
  assert (Kc : length xc = 4) by (unfold xc; now rewrite length_round_inputs). assert (Kd : length xd = 4) by (unfold xd; now rewrite length_round_inputs).
  assert (Ke : length xe = 4) by (unfold xe; now rewrite length_round_inputs). assert (Kf : length xf = 4) by (unfold xf; now rewrite length_round_inputs).
  assert (Kg : length xg = 4) by (unfold xg; now rewrite length_round_inputs). clearbody xa xb xc xd xe xf xg xh.
  rewrite (FE xa _ 4 Ka), (SE xa _ 4 Ka).
  replace (xb ++ xc ++ xd ++ xe ++ xf ++ xg ++ xh) with ((xb ++ xc ++ xd ++ xe ++ xf ++ xg) ++ xh) by (now rewrite <- !app_assoc).
  rewrite (FE (xb ++ xc ++ xd ++ xe ++ xf ++ xg) xh 24) by (rewrite !app_length; lia).
  rewrite (app_assoc xa). rewrite (SE (xa ++ _) xh 28) by (rewrite !app_length; lia). rewrite !lookups_of_app, <- !app_assoc. reflexivity.
Qed.
#[local] Opaque sm4_t_slow_tr sm4_t_tr sm4_t_slow sm4_t T sm4_rnds_tr sm4_rnds lookups_of cipher_lookups round_inputs rounds.
Lemma encrypt_tr_spec rk b : length rk = 32 -> block16 b -> sm4_encrypt_tr rk b = (sm4_encrypt rk b, cipher_lookups (round_inputs T rk (st_of b))).
Proof.
  intros L B. unfold sm4_encrypt_tr, sm4_encrypt. do 8 ((rewrite (rnds_tr sm4_t_slow sm4_t_slow_tr TSm4S) by exact t_slow_tr; cbn [tbind]) || (rewrite (rnds_tr sm4_t sm4_t_tr TSm4T) by exact t_tr; cbn [tbind])).
  cbn [tret]. f_equal. rewrite !rnds_rounds, sm4_load_st by exact B.
  rewrite !(rounds_ext sm4_t_slow T) by apply t_slow_T. rewrite !(rounds_ext sm4_t T) by apply sm4_t_T.
  rewrite !(round_inputs_ext sm4_t_slow T) by apply t_slow_T. rewrite !(round_inputs_ext sm4_t T) by apply sm4_t_T. rewrite app_nil_r.
  rewrite <- !rounds_app. rewrite <- !app_assoc. rewrite eight_rounds by reflexivity. f_equal. f_equal. symmetry. exact (list32 rk L).
Qed.
Lemma decrypt_tr_spec rk b : length rk = 32 -> block16 b -> sm4_decrypt_tr rk b = (sm4_decrypt rk b, cipher_lookups (round_inputs T (rev rk) (st_of b))).
Proof.
  intros L B. unfold sm4_decrypt_tr, sm4_decrypt. do 8 ((rewrite (rnds_tr sm4_t_slow sm4_t_slow_tr TSm4S) by exact t_slow_tr; cbn [tbind]) || (rewrite (rnds_tr sm4_t sm4_t_tr TSm4T) by exact t_tr; cbn [tbind])).
  cbn [tret]. f_equal. rewrite !rnds_rounds, sm4_load_st by exact B.
  rewrite !(rounds_ext sm4_t_slow T) by apply t_slow_T. rewrite !(rounds_ext sm4_t T) by apply sm4_t_T.
  rewrite !(round_inputs_ext sm4_t_slow T) by apply t_slow_T. rewrite !(round_inputs_ext sm4_t T) by apply sm4_t_T. rewrite app_nil_r.
  rewrite <- !rounds_app. rewrite <- !app_assoc. rewrite eight_rounds by reflexivity. f_equal. f_equal. rewrite (list32 rk L) at 33. reflexivity.
Qed.
#[local] Transparent lookups_of cipher_lookups round_inputs rounds.
(** ** which tables are read, and how often, is always the same *)
Lemma tables_of_lookups t xs : map fst (lookups_of t xs) = repeat t (4 * length xs).
Proof.
  unfold lookups_of. induction xs as [|x xs IH]; [reflexivity|]. cbn [map concat length]. rewrite map_app, IH. replace (4 * S (length xs)) with (4 + 4 * length xs) by lia. reflexivity.
Qed.
Lemma tables_of_cipher xs : length xs = 32 -> map fst (cipher_lookups xs) = repeat TSm4S 16 ++ repeat TSm4T 96 ++ repeat TSm4S 16.
Proof.
  intro L. unfold cipher_lookups. rewrite !map_app, !tables_of_lookups. rewrite !firstn_length, !skipn_length, L. reflexivity.
Qed.
(** ** the words can be read off *)
Lemma app_inj_len {A} (a b c d : list A) : length a = length c -> a ++ b = c ++ d -> a = c /\ b = d.
Proof.
  revert c. induction a as [|x a IH]; intros [|y c] L H; try discriminate; [now split|]. cbn [app] in H. injection H as -> H. injection L as L.
  destruct (IH c L H) as [-> ->]. now split.
Qed.
Lemma lookups_of_inj t xs ys : Forall word xs -> Forall word ys -> length xs = length ys -> lookups_of t xs = lookups_of t ys -> xs = ys.
Proof.
  intros WX. revert ys. induction WX as [|x xs Wx WX IH]; intros [|y ys] WY L H; try discriminate; [reflexivity|]. apply Forall_cons_iff in WY as [Wy WY]. injection L as L.
  unfold lookups_of in H. cbn [map concat] in H. apply app_inj_len in H; [|reflexivity]. destruct H as [H1 H2]. apply (word_lookups_inj t x y Wx Wy) in H1. f_equal; [exact H1|]. now apply IH.
Qed.
(** ** the key schedule *)
Lemma ks_step_tr_spec K rk i : i < 32 -> sm4_ks_step_tr (K, rk) i = (sm4_ks_step 1 (K, rk) i, word_lookups TSm4S (round_input (rotst K i) (std_CK i))).
Proof. intro I. unfold sm4_ks_step_tr, sm4_ks_step. rewrite sub_tr. cbn [tbind tret]. rewrite app_nil_r. change (1 =? 1)%N with true. cbn iota. rewrite <- ck_ok by exact I. reflexivity. Qed.
#[local] Opaque sm4_ks_step_tr sm4_ks_step std_CK T'.
Lemma fold_ks_tr n : forall a K rk tr, length K = 4 -> a + n <= 32 ->
  fold_left (fun m i => look s <- m; sm4_ks_step_tr s i) (seq a n) ((K, rk), tr) =
  (fold_left (sm4_ks_step 1) (seq a n) (K, rk), tr ++ lookups_of TSm4S (round_inputs T' (map std_CK (seq a n)) (rotst K a))).
Proof.
  induction n as [|n IH]; intros a K rk tr LK Ha; cbn [seq fold_left map round_inputs].
  - unfold lookups_of. cbn [map concat]. now rewrite app_nil_r.
  - cbn [tbind]. rewrite ks_step_tr_spec by lia. destruct (ks_step_state 1 K rk a LK ltac:(lia)) as (L' & R' & _).
    destruct (sm4_ks_step 1 (K, rk) a) as [K' rk'] eqn:ES. cbn [fst] in *. rewrite IH by (assumption || lia). f_equal.
    unfold lookups_of. cbn [map concat]. rewrite <- app_assoc. do 2 f_equal. replace (S a) with (a + 1) by lia. now rewrite R'.
Qed.
Lemma init_key_tr_spec rk key : length rk = 32 -> bytes key ->
  sm4_init_key_tr rk key = (sm4_init_key rk key, lookups_of TSm4S (round_inputs T' (map std_CK (seq 0 32)) (st_xor (st_of (key_padding_pkcs7 key)) std_FK))).
Proof.
  intros L B. unfold sm4_init_key_tr, sm4_init_key, sm4_init_key_mode. unfold tret. rewrite fold_ks_tr by (reflexivity || lia). cbn [tbind]. rewrite app_nil_r, app_nil_l.
  assert (ES : rotst (map (fun n => N.lxor (get_u32_be (key_padding_pkcs7 key) (4 * n)) (get FK n)) (seq 0 4)) 0 = st_xor (st_of (key_padding_pkcs7 key)) std_FK).
  { rewrite <- sm4_load_st by (split; [apply CbcProofs.key_padding_length|now apply CbcProofs.key_padding_bytes]). reflexivity. }
  now rewrite ES.
Qed.
(** four consecutive inputs determine the four words the schedule starts from *)
Lemma xor_recover x0 x1 x2 x3 z0 z1 z2 z3 : 
  N.lxor (N.lxor x1 x2) x3 = N.lxor (N.lxor z1 z2) z3 -> N.lxor (N.lxor x2 x3) x0 = N.lxor (N.lxor z2 z3) z0 ->
  N.lxor (N.lxor x3 x0) x1 = N.lxor (N.lxor z3 z0) z1 -> N.lxor (N.lxor x0 x1) x2 = N.lxor (N.lxor z0 z1) z2 ->
  (x0, x1, x2, x3) = (z0, z1, z2, z3).
Proof.
  intros A B C D.
  assert (R : forall a b c d : N, N.lxor (N.lxor (N.lxor (N.lxor b c) d) (N.lxor (N.lxor c d) a)) (N.lxor (N.lxor d a) b) = d) by (intros; xor_bits).
  assert (R2 : forall a b c d : N, N.lxor (N.lxor (N.lxor (N.lxor c d) a) (N.lxor (N.lxor d a) b)) (N.lxor (N.lxor a b) c) = a) by (intros; xor_bits).
  assert (R3 : forall a b c d : N, N.lxor (N.lxor (N.lxor (N.lxor d a) b) (N.lxor (N.lxor a b) c)) (N.lxor (N.lxor b c) d) = b) by (intros; xor_bits).
  assert (R4 : forall a b c d : N, N.lxor (N.lxor (N.lxor (N.lxor a b) c) (N.lxor (N.lxor b c) d)) (N.lxor (N.lxor c d) a) = c) by (intros; xor_bits).
  assert (E0 : x0 = z0) by (rewrite <- (R2 x0 x1 x2 x3), <- (R2 z0 z1 z2 z3); now rewrite B, C, D).
  assert (E1 : x1 = z1) by (rewrite <- (R3 x0 x1 x2 x3), <- (R3 z0 z1 z2 z3); now rewrite C, D, A).
  assert (E2 : x2 = z2) by (rewrite <- (R4 x0 x1 x2 x3), <- (R4 z0 z1 z2 z3); now rewrite D, A, B).
  assert (E3 : x3 = z3) by (rewrite <- (R x0 x1 x2 x3), <- (R z0 z1 z2 z3); now rewrite A, B, C).
  now subst.
Qed.
Lemma four_inputs_state F a b c d s s' : round_inputs F [a; b; c; d] s = round_inputs F [a; b; c; d] s' -> s = s'.
Proof.
  destruct s as [[[x0 x1] x2] x3], s' as [[[z0 z1] z2] z3]. cbn [round_inputs round round_input]. intro H. injection H as H0 H1 H2 H3.
  assert (Q0 : N.lxor (N.lxor (N.lxor x1 x2) x3) a = N.lxor (N.lxor (N.lxor z1 z2) z3) a) by exact H0.
  apply lxor_eq_l in H0; [|reflexivity]. rewrite Q0 in *. set (f0 := F _) in *.
  assert (Q1 := H1). apply lxor_eq_l in H1; [|reflexivity]. rewrite Q1 in *. set (f1 := F (N.lxor (N.lxor _ (N.lxor z0 f0)) b)) in *.
  assert (Q2 := H2). apply lxor_eq_l in H2; [|reflexivity]. rewrite Q2 in *. set (f2 := F (N.lxor (N.lxor _ (N.lxor z1 f1)) c)) in *.
  apply lxor_eq_l in H3; [|reflexivity]. clearbody f0 f1 f2. clear Q0 Q1 Q2.
  apply xor_recover.
  - exact H0.
  - apply (lxor_eq_l _ _ f0 f0 eq_refl). rewrite !N.lxor_assoc in *. exact H1.
  - apply (lxor_eq_l _ _ (N.lxor f0 f1) (N.lxor f0 f1) eq_refl).
    replace (N.lxor (N.lxor (N.lxor x3 x0) x1) (N.lxor f0 f1)) with (N.lxor (N.lxor x3 (N.lxor x0 f0)) (N.lxor x1 f1)) by (clear; xor_bits).
    replace (N.lxor (N.lxor (N.lxor z3 z0) z1) (N.lxor f0 f1)) with (N.lxor (N.lxor z3 (N.lxor z0 f0)) (N.lxor z1 f1)) by (clear; xor_bits). exact H2.
  - apply (lxor_eq_l _ _ (N.lxor (N.lxor f0 f1) f2) (N.lxor (N.lxor f0 f1) f2) eq_refl).
    replace (N.lxor (N.lxor (N.lxor x0 x1) x2) (N.lxor (N.lxor f0 f1) f2)) with (N.lxor (N.lxor (N.lxor x0 f0) (N.lxor x1 f1)) (N.lxor x2 f2)) by (clear; xor_bits).
    replace (N.lxor (N.lxor (N.lxor z0 z1) z2) (N.lxor (N.lxor f0 f1) f2)) with (N.lxor (N.lxor (N.lxor z0 f0) (N.lxor z1 f1)) (N.lxor z2 f2)) by (clear; xor_bits). exact H3.
Qed.
Lemma st_key_word k : block16 k -> st_word (st_xor (st_of k) std_FK).
Proof.
  intros H. pose proof (st_of_word k H) as W. destruct (st_of k) as [[[x0 x1] x2] x3].
  destruct W as (W0 & W1 & W2 & W3). cbn [st_xor std_FK]. repeat split; apply word_lxor; auto; reflexivity.
Qed.
Lemma expand_words cks : forall s, st_word s -> Forall word (expand s cks).
Proof.
  induction cks as [|ck cks IH]; intros s H; [constructor|]. cbn [expand]. cbv zeta.
  assert (W : st_word (round T' s ck)) by (apply round_word; [|exact H]; intros; apply T'_word).
  constructor; [|now apply IH]. destruct s as [[[x0 x1] x2] x3]. apply W.
Qed.
Lemma keys_word k : block16 k -> Forall word (round_keys k).
Proof. intros H. apply expand_words. now apply st_key_word. Qed.
Lemma firstn_lookups t xs n : firstn (4 * n) (lookups_of t xs) = lookups_of t (firstn n xs).
Proof.
  unfold lookups_of. revert n. induction xs as [|x xs IH]; intros [|n]; cbn [map concat firstn]; rewrite ?firstn_nil; try reflexivity.
  replace (4 * S n) with (4 + 4 * n) by lia. rewrite firstn_app_2 with (l1 := word_lookups t x) (n := 4 * n). now rewrite IH.
Qed.
Lemma firstn_inputs F ks s n : firstn n (round_inputs F ks s) = round_inputs F (firstn n ks) s.
Proof. revert n s. induction ks as [|k ks IH]; intros [|n] s; cbn [round_inputs firstn]; try reflexivity. now rewrite IH. Qed.
Lemma first_lookups xs : length xs = 32 -> firstn 16 (cipher_lookups xs) = lookups_of TSm4S (firstn 4 xs).
Proof.
  intro L. unfold cipher_lookups. rewrite <- (firstn_all (lookups_of TSm4S (firstn 4 xs))) at 2.
  assert (Q : length (lookups_of TSm4S (firstn 4 xs)) = 16).
  { rewrite <- (map_length fst), tables_of_lookups, repeat_length, firstn_length. lia. }
  rewrite firstn_app, Q. cbn [Nat.sub firstn]. now rewrite app_nil_r.
Qed.
Lemma Forall_firstn {A} (P : A -> Prop) n l : Forall P l -> Forall P (firstn n l).
Proof. intro H. rewrite <- (firstn_skipn n l) in H. now apply Forall_app in H. Qed.
(** ** encryption: the first sixteen lookups determine the key *)
Lemma expand_four s cks : firstn 4 (expand s cks) = expand s (firstn 4 cks).
Proof.
  assert (G : forall n cks s, firstn n (expand s cks) = expand s (firstn n cks)); [|apply G].
  intro n. induction n as [|n IH]; intros [|ck c] s'; cbn [expand firstn]; try reflexivity. now rewrite IH.
Qed.
Lemma four_keys k1 k2 : block16 k1 -> block16 k2 -> firstn 4 (round_keys k1) = firstn 4 (round_keys k2) -> k1 = k2.
Proof.
  intros B1 B2. unfold round_keys. rewrite !expand_four, !expand_eq. change (firstn 4 (map std_CK (seq 0 32))) with [std_CK 0; std_CK 1; std_CK 2; std_CK 3].
  intros H. apply expand_with_inj, st_xor_inj in H. rewrite <- (st_to_of k1 B1), <- (st_to_of k2 B2). now rewrite H.
Qed.
Lemma sm4_lookups_lemma : forall k b, bytes k -> block16 b ->
  fst (sm4_init_key_tr sm4_context_init k) = sm4_init_key sm4_context_init k /\
  fst (sm4_encrypt_tr (sm4_init_key sm4_context_init k) b) = sm4_encrypt (sm4_init_key sm4_context_init k) b /\
  fst (sm4_decrypt_tr (sm4_init_key sm4_context_init k) b) = sm4_decrypt (sm4_init_key sm4_context_init k) b /\
  map fst (snd (sm4_init_key_tr sm4_context_init k)) = repeat TSm4S 128 /\
  map fst (snd (sm4_encrypt_tr (sm4_init_key sm4_context_init k) b)) = repeat TSm4S 16 ++ repeat TSm4T 96 ++ repeat TSm4S 16 /\
  map fst (snd (sm4_decrypt_tr (sm4_init_key sm4_context_init k) b)) = repeat TSm4S 16 ++ repeat TSm4T 96 ++ repeat TSm4S 16.
Proof.
  intros k b B HB. assert (L : length (sm4_init_key sm4_context_init k) = 32) by (rewrite sm4_init_key_rk by (reflexivity || exact B); apply length_round_keys).
  rewrite init_key_tr_spec by (reflexivity || exact B). rewrite encrypt_tr_spec, decrypt_tr_spec by assumption. cbn [fst snd].
  rewrite tables_of_lookups, !tables_of_cipher by (rewrite length_round_inputs; rewrite ?rev_length; exact L).
  rewrite length_round_inputs, map_length, seq_length. split; [reflexivity|]. split; [reflexivity|]. split; [reflexivity|]. split; [reflexivity|]. split; reflexivity.
Qed.
Lemma sm4_encrypt_lookups_lemma : forall k1 k2 b, bytes k1 -> bytes k2 -> block16 b ->
  (firstn 16 (snd (sm4_encrypt_tr (sm4_init_key sm4_context_init k1) b)) = firstn 16 (snd (sm4_encrypt_tr (sm4_init_key sm4_context_init k2) b)) <->
   normal_key k1 = normal_key k2).
Proof.
  intros k1 k2 b B1 B2 HB. rewrite !sm4_init_key_rk by (reflexivity || assumption). rewrite <- !normal_key_eq. split; [|now intros ->].
  pose proof (normal_block k1 B1) as N1. pose proof (normal_block k2 B2) as N2.
  rewrite !encrypt_tr_spec by (apply length_round_keys || exact HB). cbn [snd]. rewrite !first_lookups by (rewrite length_round_inputs; apply length_round_keys).
  rewrite !firstn_inputs. intro H. apply four_keys; try assumption. apply (round_inputs_inj T _ _ (st_of b)); [rewrite !firstn_length, !length_round_keys; reflexivity|].
  apply (lookups_of_inj TSm4S); [apply round_inputs_word; [exact T_word|now apply st_of_word|now apply Forall_firstn, keys_word]..| |exact H].
  rewrite !length_round_inputs, !firstn_length, !length_round_keys. reflexivity.
Qed.
(** decryption: the lookups determine the key *)
Lemma cipher_lookups_inj xs ys : Forall word xs -> Forall word ys -> length xs = 32 -> length ys = 32 -> cipher_lookups xs = cipher_lookups ys -> xs = ys.
Proof.
  intros WX WY LX LY. unfold cipher_lookups. intro H.
  assert (LL : forall t l, length (lookups_of t l) = 4 * length l) by (intros t l; now rewrite <- (map_length fst), tables_of_lookups, repeat_length).
  assert (FS : forall l : list N, l = firstn 4 l ++ firstn 24 (skipn 4 l) ++ skipn 28 l).
  { intro l. rewrite <- (firstn_skipn 4 l) at 1. f_equal. rewrite <- (firstn_skipn 24 (skipn 4 l)) at 1. f_equal. rewrite CbcProofs.skipn_skipn_add. reflexivity. }
  assert (WS : forall n l, Forall word l -> Forall word (skipn n l)) by (intros n l W; rewrite <- (firstn_skipn n l) in W; now apply Forall_app in W).
  apply app_inj_len in H; [|rewrite !LL, !firstn_length; lia]. destruct H as [H1 H]. apply app_inj_len in H; [|rewrite !LL, !firstn_length, !skipn_length; lia]. destruct H as [H2 H3].
  apply lookups_of_inj in H1; [|now apply Forall_firstn|now apply Forall_firstn|rewrite !firstn_length; lia].
  apply lookups_of_inj in H2; [|now apply Forall_firstn, WS|now apply Forall_firstn, WS|rewrite !firstn_length, !skipn_length; lia].
  apply lookups_of_inj in H3; [|now apply WS|now apply WS|rewrite !skipn_length; lia].
  rewrite (FS xs), (FS ys). now rewrite H1, H2, H3.
Qed.
Lemma sm4_decrypt_lookups_lemma : forall k1 k2 b, bytes k1 -> bytes k2 -> block16 b ->
  (snd (sm4_decrypt_tr (sm4_init_key sm4_context_init k1) b) = snd (sm4_decrypt_tr (sm4_init_key sm4_context_init k2) b) <-> normal_key k1 = normal_key k2).
Proof.
  intros k1 k2 b B1 B2 HB. rewrite !sm4_init_key_rk by (reflexivity || assumption). rewrite <- !normal_key_eq. split; [|now intros ->].
  pose proof (normal_block k1 B1) as N1. pose proof (normal_block k2 B2) as N2.
  rewrite !decrypt_tr_spec by (apply length_round_keys || exact HB). cbn [snd]. intro H.
  apply cipher_lookups_inj in H; try (apply round_inputs_word; [exact T_word|now apply st_of_word|now apply Forall_rev, keys_word]); try (rewrite length_round_inputs, rev_length; apply length_round_keys).
  apply round_inputs_inj in H; [|rewrite !rev_length, !length_round_keys; reflexivity]. apply (f_equal (@rev N)) in H. rewrite !rev_involutive in H. now apply round_keys_inj.
Qed.
(** the key schedule: its first sixteen lookups determine the key *)
Lemma sm4_key_lookups_lemma : forall rk1 rk2 k1 k2, length rk1 = 32 -> length rk2 = 32 -> bytes k1 -> bytes k2 ->
  (firstn 16 (snd (sm4_init_key_tr rk1 k1)) = firstn 16 (snd (sm4_init_key_tr rk2 k2)) <-> normal_key k1 = normal_key k2).
Proof.
  intros rk1 rk2 k1 k2 L1 L2 B1 B2. rewrite !init_key_tr_spec by assumption. cbn [snd]. rewrite <- !normal_key_eq. split; [|now intros ->].
  pose proof (normal_block k1 B1) as N1. pose proof (normal_block k2 B2) as N2.
  change 16 with (4 * 4). rewrite !firstn_lookups, !firstn_inputs. change (firstn 4 (map std_CK (seq 0 32))) with [std_CK 0; std_CK 1; std_CK 2; std_CK 3]. intro H.
  assert (WC : Forall word [std_CK 0; std_CK 1; std_CK 2; std_CK 3]) by (repeat constructor).
  apply lookups_of_inj in H; [|apply round_inputs_word; [exact T'_word|now apply st_key_word|exact WC]..|now rewrite !length_round_inputs].
  apply four_inputs_state, st_xor_inj in H. rewrite <- (st_to_of _ N1), <- (st_to_of _ N2). now rewrite H.
Qed.
