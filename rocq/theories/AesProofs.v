(** * FIPS 197: the inverse cipher inverts the cipher; the tables and functions of wbaes_local.c *)
From Verif Require Import Base CbcModel CbcSpec CbcProofs GcmModel GcmSpec GcmProofs CipherExt Sm4Spec Sm4Proofs Gf8Proofs AesSpec AesModel WbaesModel FpeModel Wbsm4Proofs.
From Coq Require Import ZArith.
Local Open Scope nat_scope.

Lemma aes_poly_in : In aes_poly polys.
Proof. right. now left. Qed.
Local Opaque gf8_mul gf8_inv.

(** ** Multiplication by constants *)
Lemma gmul_lxor_r a x y : gmul a (N.lxor x y) = N.lxor (gmul a x) (gmul a y).
Proof. apply mul_lxor_r. Qed.
Lemma gmul_lxor_l a b x : gmul (N.lxor a b) x = N.lxor (gmul a x) (gmul b x).
Proof. apply mul_lxor_l. Qed.
Lemma gmul_byte a b : byte a -> byte b -> byte (gmul a b).
Proof. intros A _. apply (m_byte aes_poly aes_poly_in); auto. Qed.
Lemma gmul_1 x : byte x -> gmul 1 x = x.
Proof. apply (m_one_l aes_poly aes_poly_in). Qed.
Lemma gmul_assoc a b x : byte a -> byte b -> byte x -> gmul (gmul a b) x = gmul a (gmul b x).
Proof. apply (m_assoc aes_poly aes_poly_in). Qed.
Local Transparent gf8_mul.
Lemma g22 : gmul 2 2 = 4%N. Proof. vm_compute. reflexivity. Qed.
Lemma g24 : gmul 2 4 = 8%N. Proof. vm_compute. reflexivity. Qed.
Local Opaque gf8_mul.
Definition xt (x : N) : N := gmul 2 x.
Lemma xt_byte x : byte x -> byte (xt x).
Proof. apply gmul_byte. reflexivity. Qed.
Lemma xt_lxor x y : xt (N.lxor x y) = N.lxor (xt x) (xt y).
Proof. apply gmul_lxor_r. Qed.
Lemma gmul_2 x : gmul 2 x = xt x. Proof. reflexivity. Qed.
Lemma gmul_4 x : byte x -> gmul 4 x = xt (xt x).
Proof. intros B. rewrite <- g22. apply gmul_assoc; auto; reflexivity. Qed.
Lemma gmul_8 x : byte x -> gmul 8 x = xt (xt (xt x)).
Proof. intros B. rewrite <- g24. rewrite gmul_assoc by (auto; reflexivity). now rewrite gmul_4. Qed.
Lemma gmul_3 x : byte x -> gmul 3 x = N.lxor (xt x) x.
Proof. intros B. change 3%N with (N.lxor 2 1). rewrite gmul_lxor_l, gmul_1; auto. Qed.
Lemma gmul_9 x : byte x -> gmul 0x09 x = N.lxor (xt (xt (xt x))) x.
Proof. intros B. change 0x09%N with (N.lxor 8 1). now rewrite gmul_lxor_l, gmul_1, gmul_8. Qed.
Lemma gmul_11 x : byte x -> gmul 0x0b x = N.lxor (N.lxor (xt (xt (xt x))) (xt x)) x.
Proof. intros B. change 0x0b%N with (N.lxor (N.lxor 8 2) 1). now rewrite !gmul_lxor_l, gmul_1, gmul_8. Qed.
Lemma gmul_13 x : byte x -> gmul 0x0d x = N.lxor (N.lxor (xt (xt (xt x))) (xt (xt x))) x.
Proof. intros B. change 0x0d%N with (N.lxor (N.lxor 8 4) 1). now rewrite !gmul_lxor_l, gmul_1, gmul_8, gmul_4. Qed.
Lemma gmul_14 x : byte x -> gmul 0x0e x = N.lxor (N.lxor (xt (xt (xt x))) (xt (xt x))) (xt x).
Proof. intros B. change 0x0e%N with (N.lxor (N.lxor 8 4) 2). now rewrite !gmul_lxor_l, gmul_8, gmul_4. Qed.

(** ** The S-box *)
Local Transparent gf8_mul gf8_inv.
Lemma SBox_sweep : forallb (fun n => (get SBox n =? aes_sbox (N.of_nat n))%N) (seq 0 256) = true.
Proof. vm_compute. reflexivity. Qed.
Lemma SBox_bytes : forallb (fun x => (x <? 256)%N) SBox = true.
Proof. vm_compute. reflexivity. Qed.
(** positions of the values in the table *)
Lemma inv_sbox_sweep : forallb (fun n => (aes_inv_sbox (get SBox n) =? N.of_nat n)%N) (seq 0 256) = true.
Proof. vm_compute. reflexivity. Qed.
Local Opaque gf8_mul gf8_inv.
Lemma sbox_aes x : byte x -> sbox x = aes_sbox x.
Proof.
  intros B. unfold sbox. pose proof SBox_sweep as S. rewrite forallb_forall in S. specialize (S (N.to_nat x)). rewrite N2Nat.id in S.
  apply N.eqb_eq, S, in_seq. unfold byte in B. lia.
Qed.
Lemma bytes_SBox : bytes SBox.
Proof. apply Forall_forall. intros x H. apply N.ltb_lt. revert x H. apply forallb_forall, SBox_bytes. Qed.
Lemma wsbox_byte x : byte (sbox x).
Proof. apply bytes_get, bytes_SBox. Qed.
Lemma aes_sbox_byte x : byte x -> byte (aes_sbox x).
Proof. intros B. rewrite <- sbox_aes by exact B. apply wsbox_byte. Qed.
Lemma aes_inv_sbox_sbox x : byte x -> aes_inv_sbox (aes_sbox x) = x.
Proof.
  intros B. rewrite <- sbox_aes by exact B. unfold sbox. pose proof inv_sbox_sweep as S. rewrite forallb_forall in S. specialize (S (N.to_nat x)). rewrite N2Nat.id in S.
  apply N.eqb_eq, S, in_seq. unfold byte in B. lia.
Qed.
(** a function on bytes with a left inverse is onto, so the S-box is also a left inverse *)
Local Transparent gf8_mul gf8_inv.
Lemma sbox_inv_sweep : forallb (fun n => (get SBox (N.to_nat (aes_inv_sbox (N.of_nat n))) =? N.of_nat n)%N && (aes_inv_sbox (N.of_nat n) <? 256)%N) (seq 0 256) = true.
Proof. vm_compute. reflexivity. Qed.
Local Opaque gf8_mul gf8_inv.
Lemma aes_sbox_inv_sbox x : byte x -> aes_sbox (aes_inv_sbox x) = x /\ byte (aes_inv_sbox x).
Proof.
  intros B. pose proof sbox_inv_sweep as S. rewrite forallb_forall in S. specialize (S (N.to_nat x)). rewrite N2Nat.id in S.
  assert (H := S ltac:(apply in_seq; unfold byte in B; lia)). apply andb_prop in H. destruct H as [H1 H2]. apply N.eqb_eq in H1. apply N.ltb_lt in H2.
  split; [|exact H2]. rewrite <- sbox_aes by exact H2. exact H1.
Qed.

(** ** The transformations on 16-byte states *)
Ltac state16 s := destruct s as [|?x0 [|?x1 [|?x2 [|?x3 [|?x4 [|?x5 [|?x6 [|?x7 [|?x8 [|?x9 [|?x10 [|?x11 [|?x12 [|?x13 [|?x14 [|?x15 [|]]]]]]]]]]]]]]]]]; try discriminate.
Lemma get_map f s i : i < length s -> get (map f s) i = f (get s i).
Proof. intros L. unfold get. rewrite (nth_indep (map f s) 0%N (f 0%N)) by now rewrite map_length. apply map_nth. Qed.
Lemma block16_map f s : (forall x, byte x -> byte (f x)) -> block16 s -> block16 (map f s).
Proof.
  intros F [L B]. split; [now rewrite map_length|]. unfold bytes in *. rewrite Forall_forall in *. intros x H. apply in_map_iff in H. destruct H as (y & <- & H). auto.
Qed.
Lemma block16_sub s : block16 s -> block16 (sub_bytes s).
Proof. apply block16_map. exact aes_sbox_byte. Qed.
Lemma block16_inv_sub s : block16 s -> block16 (inv_sub_bytes s).
Proof. apply block16_map. intros x B. now apply aes_sbox_inv_sbox. Qed.
Lemma block16_select s (f : nat -> nat) : bytes s -> block16 (map (fun i => nth (f i) s 0%N) (seq 0 16)).
Proof.
  intros B. split; [now rewrite map_length, seq_length|]. unfold bytes. rewrite Forall_forall. intros x H. apply in_map_iff in H. destruct H as (y & <- & H).
  now apply (bytes_get s).
Qed.
Lemma block16_shift s : block16 s -> block16 (shift_rows s).
Proof. intros [_ B]. unfold shift_rows. now apply block16_select. Qed.
Lemma block16_inv_shift s : block16 s -> block16 (inv_shift_rows s).
Proof. intros [_ B]. unfold inv_shift_rows. now apply block16_select. Qed.
Lemma fold_lxor_byte l : Forall byte l -> forall a, byte a -> byte (fold_left N.lxor l a).
Proof. induction 1 as [|x l B _ IH]; intros a A; [exact A|]. apply IH. now apply byte_lxor. Qed.
Lemma mix_column_length row col : length (mix_column row col) = 4.
Proof. unfold mix_column. now rewrite map_length, seq_length. Qed.
Lemma mix_column_bytes row col : bytes row -> bytes col -> bytes (mix_column row col).
Proof.
  intros R C. unfold bytes, mix_column. rewrite Forall_forall. intros x H. apply in_map_iff in H. destruct H as (r & <- & _). apply fold_lxor_byte; [|reflexivity].
  rewrite Forall_forall. intros y Y. apply in_map_iff in Y. destruct Y as (k & <- & _). apply gmul_byte; now apply (bytes_get _ _).
Qed.
Lemma chunks_16 (s : list N) : length s = 16 -> chunks 4 s = [firstn 4 s; firstn 4 (skipn 4 s); firstn 4 (skipn 8 s); firstn 4 (skipn 12 s)].
Proof. intros L. state16 s. reflexivity. Qed.
Lemma mix_with_length row s : length s = 16 -> length (mix_with row s) = 16.
Proof. intros L. unfold mix_with. rewrite chunks_16 by exact L. cbn [flat_map]. rewrite !app_length, !mix_column_length. reflexivity. Qed.
Lemma block16_mix_with row s : bytes row -> block16 s -> block16 (mix_with row s).
Proof.
  intros R [L B]. split; [now apply mix_with_length|]. unfold mix_with. rewrite chunks_16 by exact L. cbn [flat_map]. unfold bytes in *.
  rewrite !Forall_app. repeat split; try apply mix_column_bytes; auto using bytes_firstn, bytes_skipn.
Qed.
Lemma mc_row : bytes [0x02; 0x03; 0x01; 0x01]%N. Proof. repeat constructor. Qed.
Lemma imc_row : bytes [0x0e; 0x0b; 0x0d; 0x09]%N. Proof. repeat constructor. Qed.
Lemma block16_mix s : block16 s -> block16 (mix_columns s).
Proof. apply block16_mix_with, mc_row. Qed.
Lemma block16_inv_mix s : block16 s -> block16 (inv_mix_columns s).
Proof. apply block16_mix_with, imc_row. Qed.

Lemma inv_sub_sub s : bytes s -> inv_sub_bytes (sub_bytes s) = s.
Proof.
  intros B. unfold inv_sub_bytes, sub_bytes. rewrite map_map. rewrite <- (map_id s) at 2. apply map_ext_in. intros x H. apply aes_inv_sbox_sbox.
  unfold bytes in B. rewrite Forall_forall in B. auto.
Qed.
Lemma inv_shift_shift s : length s = 16 -> inv_shift_rows (shift_rows s) = s.
Proof. intros L. state16 s. reflexivity. Qed.
Lemma shift_inv_shift s : length s = 16 -> shift_rows (inv_shift_rows s) = s.
Proof. intros L. state16 s. reflexivity. Qed.
Lemma sub_shift s : length s = 16 -> shift_rows (sub_bytes s) = sub_bytes (shift_rows s).
Proof. intros L. state16 s. reflexivity. Qed.
Lemma inv_sub_shift s : length s = 16 -> inv_shift_rows (inv_sub_bytes s) = inv_sub_bytes (inv_shift_rows s).
Proof. intros L. state16 s. reflexivity. Qed.

(** the four bytes of a column *)
Lemma mix_column_4 r0 r1 r2 r3 a b c d : mix_column [r0; r1; r2; r3] [a; b; c; d] =
  [fold_left N.lxor [gmul r0 a; gmul r1 b; gmul r2 c; gmul r3 d] 0%N;
   fold_left N.lxor [gmul r3 a; gmul r0 b; gmul r1 c; gmul r2 d] 0%N;
   fold_left N.lxor [gmul r2 a; gmul r3 b; gmul r0 c; gmul r1 d] 0%N;
   fold_left N.lxor [gmul r1 a; gmul r2 b; gmul r3 c; gmul r0 d] 0%N].
Proof. reflexivity. Qed.
Local Opaque gmul.
Lemma inv_mix_mix_column a b c d : byte a -> byte b -> byte c -> byte d ->
  mix_column [0x0e; 0x0b; 0x0d; 0x09]%N (mix_column [0x02; 0x03; 0x01; 0x01]%N [a; b; c; d]) = [a; b; c; d].
Proof.
  intros A B C D. rewrite (mix_column_4 2 3 1 1).
  assert (X : forall x, byte x -> byte (xt x)) by exact xt_byte.
  cbn [fold_left]. change (gmul 2) with xt. rewrite !gmul_3, !gmul_1 by auto. rewrite !N.lxor_0_l. rewrite mix_column_4. cbn [fold_left].
  rewrite !gmul_14, !gmul_11, !gmul_13, !gmul_9 by (repeat apply byte_lxor; auto).
  rewrite !xt_lxor. f_equal; [xors|]. f_equal; [xors|]. f_equal; [xors|]. f_equal. xors.
Qed.
Lemma mix_with_16 row s : length s = 16 -> mix_with row s =
  mix_column row (firstn 4 s) ++ mix_column row (firstn 4 (skipn 4 s)) ++ mix_column row (firstn 4 (skipn 8 s)) ++ mix_column row (firstn 4 (skipn 12 s)).
Proof. intros L. unfold mix_with. rewrite chunks_16 by exact L. cbn [flat_map]. now rewrite app_nil_r. Qed.
Lemma mix_with_app row c0 c1 c2 c3 : length c0 = 4 -> length c1 = 4 -> length c2 = 4 -> length c3 = 4 ->
  mix_with row (c0 ++ c1 ++ c2 ++ c3) = mix_column row c0 ++ mix_column row c1 ++ mix_column row c2 ++ mix_column row c3.
Proof.
  intros L0 L1 L2 L3. rewrite mix_with_16 by (rewrite !app_length; lia).
  destruct c0 as [|? [|? [|? [|? [|]]]]]; try discriminate. destruct c1 as [|? [|? [|? [|? [|]]]]]; try discriminate.
  destruct c2 as [|? [|? [|? [|? [|]]]]]; try discriminate. destruct c3 as [|? [|? [|? [|? [|]]]]]; try discriminate. reflexivity.
Qed.
Lemma inv_mix_mix s : block16 s -> inv_mix_columns (mix_columns s) = s.
Proof.
  intros [L B]. unfold mix_columns. rewrite mix_with_16 by exact L. unfold inv_mix_columns. rewrite mix_with_app by apply mix_column_length.
  state16 s. cbn [firstn skipn]. assert (H : Forall byte [x0; x1; x2; x3; x4; x5; x6; x7; x8; x9; x10; x11; x12; x13; x14; x15]) by exact B.
  repeat match goal with H : Forall byte (_ :: _) |- _ => inversion_clear H end.
  rewrite !inv_mix_mix_column by assumption. reflexivity.
Qed.

(** ** The inverse cipher *)
Lemma unkey s k : block16 s -> block16 k -> add_round_key (add_round_key s k) k = s.
Proof. intros [L _] [K _]. unfold add_round_key. apply xorl_cancel_r. lia. Qed.
Lemma block16_key s k : block16 s -> block16 k -> block16 (add_round_key s k).
Proof. apply block16_xorl. Qed.
Lemma block16_full s k : block16 s -> block16 k -> block16 (full_round s k).
Proof. intros S K. apply block16_key; auto. now apply block16_mix, block16_shift, block16_sub. Qed.
Lemma block16_fold_full ks : Forall block16 ks -> forall s, block16 s -> block16 (fold_left full_round ks s).
Proof. induction 1 as [|k ks K _ IH]; intros s S; [exact S|]. apply IH. now apply block16_full. Qed.
Lemma unlast s : block16 s -> inv_sub_bytes (inv_shift_rows (shift_rows (sub_bytes s))) = s.
Proof. intros S. destruct (block16_sub s S) as [L _]. rewrite inv_shift_shift by exact L. apply inv_sub_sub, S. Qed.
Lemma inv_fold ks : Forall block16 ks -> forall s, block16 s ->
  fold_left inv_full_round (rev ks) (shift_rows (sub_bytes (fold_left full_round ks s))) = shift_rows (sub_bytes s).
Proof.
  induction ks as [|k ks IH] using rev_ind; intros K s S; [reflexivity|].
  apply Forall_app in K. destruct K as [K1 K2]. inversion_clear K2.
  rewrite fold_left_app, rev_app_distr. cbn [rev app fold_left].
  pose proof (block16_fold_full ks K1 s S) as F. unfold inv_full_round at 2.
  rewrite unlast by now apply block16_full. unfold full_round at 1. rewrite unkey; [|apply block16_mix, block16_shift, block16_sub; exact F|assumption].
  rewrite inv_mix_mix by now apply block16_shift, block16_sub. now apply IH.
Qed.
Lemma inv_cipher_cipher rk s : (forall r, r <= 10 -> block16 (rk r)) -> block16 s -> inv_cipher rk (cipher rk s) = s.
Proof.
  intros K S. unfold inv_cipher, cipher. unfold last_round.
  assert (F : Forall block16 (map rk (seq 1 9))) by (apply Forall_forall; intros x H; apply in_map_iff in H; destruct H as (r & <- & H); apply in_seq in H; apply K; lia).
  assert (A : block16 (add_round_key s (rk 0))) by (apply block16_key; auto; apply K; lia).
  rewrite unkey; [|apply block16_shift, block16_sub; now apply block16_fold_full|apply K; lia].
  change (map rk [9; 8; 7; 6; 5; 4; 3; 2; 1]) with (rev (map rk (seq 1 9))). rewrite inv_fold by assumption.
  rewrite unlast by exact A. apply unkey; auto. apply K; lia.
Qed.
Lemma block16_cipher rk s : (forall r, r <= 10 -> block16 (rk r)) -> block16 s -> block16 (cipher rk s).
Proof.
  intros K S. unfold cipher, last_round. apply block16_key; [|apply K; lia]. apply block16_shift, block16_sub, block16_fold_full; [|apply block16_key; auto; apply K; lia].
  apply Forall_forall; intros x H; apply in_map_iff in H; destruct H as (r & <- & H); apply in_seq in H; apply K; lia.
Qed.

(** ** The equivalent inverse cipher *)
Lemma mix_column_xorl row a b c d a' b' c' d' : length row = 4 ->
  mix_column row (xorl [a; b; c; d] [a'; b'; c'; d']) = xorl (mix_column row [a; b; c; d]) (mix_column row [a'; b'; c'; d']).
Proof.
  destruct row as [|r0 [|r1 [|r2 [|r3 [|]]]]]; try discriminate. intros _.
  change (xorl [a; b; c; d] [a'; b'; c'; d']) with [N.lxor a a'; N.lxor b b'; N.lxor c c'; N.lxor d d'].
  rewrite !mix_column_4. cbn [fold_left]. rewrite !gmul_lxor_r. cbn [xorl]. f_equal; [xors|]. f_equal; [xors|]. f_equal; [xors|]. f_equal. xors.
Qed.
Lemma mix_with_xorl row s k : length row = 4 -> length s = 16 -> length k = 16 -> mix_with row (xorl s k) = xorl (mix_with row s) (mix_with row k).
Proof.
  intros R L K. rewrite !mix_with_16 by (rewrite ?length_xorl; lia). state16 s.
  destruct k as [|y0 [|y1 [|y2 [|y3 [|y4 [|y5 [|y6 [|y7 [|y8 [|y9 [|y10 [|y11 [|y12 [|y13 [|y14 [|y15 [|]]]]]]]]]]]]]]]]]; try discriminate.
  cbn [firstn skipn xorl]. rewrite !xorl_app by now rewrite !mix_column_length.
  rewrite <- !mix_column_xorl by exact R. reflexivity.
Qed.
Lemma eq_round s k : block16 s -> block16 k -> eq_inv_round s (inv_mix_columns k) = inv_full_round s k.
Proof.
  intros S K. unfold eq_inv_round, inv_full_round, add_round_key, inv_mix_columns. destruct S as [L B], K as [LK BK].
  rewrite mix_with_xorl; [now rewrite inv_sub_shift|reflexivity| |exact LK]. apply block16_inv_sub, block16_inv_shift. now split.
Qed.
Lemma block16_inv_full s k : block16 s -> block16 k -> block16 (inv_full_round s k).
Proof. intros S K. apply block16_inv_mix, block16_key; auto. now apply block16_inv_sub, block16_inv_shift. Qed.
Lemma eq_fold ks : Forall block16 ks -> forall s, block16 s -> fold_left eq_inv_round (map inv_mix_columns ks) s = fold_left inv_full_round ks s /\ block16 (fold_left inv_full_round ks s).
Proof.
  induction 1 as [|k ks K _ IH]; intros s S; [now split|]. cbn [map fold_left]. rewrite eq_round by assumption. apply IH. now apply block16_inv_full.
Qed.
Lemma eq_inv_cipher_inv rk s : (forall r, r <= 10 -> block16 (rk r)) -> block16 s -> eq_inv_cipher (inv_round_key rk) s = inv_cipher rk s.
Proof.
  intros K S. unfold eq_inv_cipher, inv_cipher.
  change (map (inv_round_key rk) [9; 8; 7; 6; 5; 4; 3; 2; 1]) with (map inv_mix_columns (map rk [9; 8; 7; 6; 5; 4; 3; 2; 1])).
  change (inv_round_key rk 10) with (rk 10). change (inv_round_key rk 0) with (rk 0).
  assert (A : block16 (add_round_key s (rk 10))) by (apply block16_key; auto).
  destruct (eq_fold (map rk [9; 8; 7; 6; 5; 4; 3; 2; 1]) ltac:(cbn [map]; repeat constructor; apply K; lia) _ A) as [E B]. rewrite E.
  now rewrite inv_sub_shift by apply B.
Qed.

(** ** The key expansion *)
Definition word4 (w : list N) : Prop := length w = 4 /\ bytes w.
Lemma gpow_byte k : byte (gpow 2 k).
Proof. induction k as [|k IH]; [reflexivity|]. cbn [gpow]. now apply gmul_byte. Qed.
Lemma word4_xorl a b : word4 a -> word4 b -> word4 (xorl a b).
Proof. intros [L B] [L' B']. split; [rewrite length_xorl; lia|now apply bytes_xorl]. Qed.
Lemma word4_next ws : 4 <= length ws -> Forall word4 ws -> word4 (next_word ws).
Proof.
  intros L F. rewrite Forall_forall in F. unfold next_word.
  assert (A : word4 (nth (length ws - 1) ws [])) by (apply F, nth_In; lia).
  apply word4_xorl; [apply F, nth_In; lia|]. destruct (length ws mod 4 =? 0); [|exact A]. apply word4_xorl.
  - destruct A as [A B]. destruct (nth (length ws - 1) ws []) as [|a [|b [|c [|d [|]]]]]; try discriminate. cbn [rot_word map].
    inversion_clear B as [|? ? B0 B1]. inversion_clear B1 as [|? ? B2 B3]. inversion_clear B3 as [|? ? B4 B5]. inversion_clear B5 as [|? ? B6 B7].
    split; [reflexivity|]. repeat constructor; now apply aes_sbox_byte.
  - split; [reflexivity|]. unfold rcon. constructor; [apply gpow_byte|repeat constructor].
Qed.
Lemma extend_words_ok n : forall ws, 4 <= length ws -> Forall word4 ws -> Forall word4 (extend_words n ws) /\ length (extend_words n ws) = length ws + n.
Proof.
  induction n as [|n IH]; intros ws L F; cbn [extend_words]; [split; [exact F|lia]|].
  destruct (IH (ws ++ [next_word ws])) as [I1 I2]; [rewrite app_length; lia|apply Forall_app; split; [exact F|repeat constructor; now apply word4_next]|].
  split; [exact I1|]. rewrite I2, app_length. cbn [length]. lia.
Qed.
Lemma chunks_word4 key : block16 key -> Forall word4 (chunks 4 key) /\ length (chunks 4 key) = 4.
Proof.
  intros [L B]. rewrite chunks_16 by exact L. split; [|reflexivity]. assert (H := fun n => bytes_skipn n key B).
  repeat constructor; try (rewrite ?firstn_length, ?skipn_length; lia); apply bytes_firstn; auto.
Qed.
Lemma key_words_ok key : block16 key -> Forall word4 (key_words key) /\ length (key_words key) = 44.
Proof.
  intros K. destruct (chunks_word4 key K) as [F L]. destruct (extend_words_ok 40 _ ltac:(rewrite L; lia) F) as [F' L']. split; [exact F'|].
  unfold key_words. rewrite L', L. reflexivity.
Qed.
Lemma concat_word4 ws : Forall word4 ws -> length (concat ws) = 4 * length ws /\ bytes (concat ws).
Proof.
  induction 1 as [|w ws [L B] _ [IL IB]]; [split; [reflexivity|constructor]|]. cbn [concat length]. rewrite app_length. split; [lia|]. apply bytes_app. now split.
Qed.
Lemma Forall_firstn_skipn {A} (P : A -> Prop) n m l : Forall P l -> Forall P (firstn n (skipn m l)).
Proof.
  rewrite !Forall_forall. intros F x H. apply F. rewrite <- (firstn_skipn m l). apply in_or_app. right. rewrite <- (firstn_skipn n (skipn m l)). apply in_or_app. now left.
Qed.
Lemma block16_round_key key r : block16 key -> r <= 10 -> block16 (aes_round_key key r).
Proof.
  intros K R. destruct (key_words_ok key K) as [F L]. unfold aes_round_key.
  destruct (concat_word4 (firstn 4 (skipn (4 * r) (key_words key)))) as [CL CB]; [now apply Forall_firstn_skipn|].
  split; [|exact CB]. rewrite CL, firstn_length, skipn_length, L. lia.
Qed.
Theorem aes_decrypt_encrypt key b : block16 key -> block16 b -> aes_decrypt key (aes_encrypt key b) = b.
Proof. intros K B. apply inv_cipher_cipher; auto. intros r R. now apply block16_round_key. Qed.
Theorem block16_aes_encrypt key b : block16 key -> block16 b -> block16 (aes_encrypt key b).
Proof. intros K B. apply block16_cipher; auto. intros r R. now apply block16_round_key. Qed.

(** ** The wrappers *)
Local Opaque key_words aes_round_key.
Lemma cipher_ext rk rk' s : (forall r, r <= 10 -> rk r = rk' r) -> cipher rk s = cipher rk' s.
Proof.
  intros H. unfold cipher. rewrite (H 10), (H 0) by lia. rewrite (map_ext_in rk rk'); [reflexivity|].
  intros r R. apply in_seq in R. apply H. lia.
Qed.
Lemma eq_inv_cipher_ext rk rk' s : (forall r, r <= 10 -> rk r = rk' r) -> eq_inv_cipher rk s = eq_inv_cipher rk' s.
Proof.
  intros H. unfold eq_inv_cipher. rewrite (H 10), (H 0) by lia. rewrite (map_ext_in rk rk'); [reflexivity|].
  intros r R. apply H. cbn [In] in R. lia.
Qed.
Lemma nth_keys (f : nat -> list N) r : r <= 10 -> nth r (map f (seq 0 11)) [] = f r.
Proof.
  intros R. rewrite (nth_indep _ [] (f 0)) by (rewrite map_length, seq_length; lia). rewrite (map_nth f). rewrite seq_nth by lia. reflexivity.
Qed.
Lemma AES_encrypt_key key b : AES_encrypt (AES_set_encrypt_key key) b = aes_encrypt key b.
Proof. unfold AES_encrypt, aes_encrypt. apply cipher_ext. intros r R. unfold AES_set_encrypt_key. now apply nth_keys. Qed.
Lemma AES_decrypt_key key b : AES_decrypt (AES_set_decrypt_key key) b = eq_inv_cipher (inv_round_key (aes_round_key key)) b.
Proof.
  unfold AES_decrypt. apply eq_inv_cipher_ext. intros r R. unfold AES_set_decrypt_key. rewrite nth_keys by lia. f_equal. lia.
Qed.
Local Opaque key_words aes_round_key AES_set_encrypt_key AES_set_decrypt_key aes_encrypt aes_decrypt cipher inv_cipher eq_inv_cipher AES_encrypt AES_decrypt.
Lemma read_16 buf : 16 <= length buf -> read_at buf 0 16 = Some (firstn 16 buf).
Proof. intros L. unfold read_at. destruct (0 + 16 <=? length buf) eqn:E; [reflexivity|]. apply Nat.leb_gt in E. lia. Qed.
Lemma aes_keylen_ignored_lemma buf keylen : 16 <= length buf -> aes_init_key buf keylen = Ret (AES_set_encrypt_key (firstn 16 buf)).
Proof.
  intros L. unfold aes_init_key. rewrite read_16 by exact L. unfold read_at at 1.
  destruct (0 + (if 16 <=? keylen then 16 else keylen) <=? length buf) eqn:E; [reflexivity|]. apply Nat.leb_gt in E.
  destruct (16 <=? keylen) eqn:F; [lia|]. apply Nat.leb_gt in F. lia.
Qed.
Lemma aes_short_key_refuted_lemma buf keylen : length buf < 16 -> aes_init_key buf keylen = Undef.
Proof.
  intros L. unfold aes_init_key. unfold read_at at 2. destruct (0 + 16 <=? length buf) eqn:E; [apply Nat.leb_le in E; lia|].
  now destruct (read_at buf 0 (if 16 <=? keylen then 16 else keylen)).
Qed.
Lemma aes_encrypt_conforms_lemma buf keylen b : 16 <= length buf -> keylen <= length buf ->
  exists k, aes_init_key buf keylen = Ret k /\ wrapper_aes_encrypt k b = aes_encrypt (firstn 16 buf) b.
Proof. intros L _. exists (AES_set_encrypt_key (firstn 16 buf)). split; [now apply aes_keylen_ignored_lemma|apply AES_encrypt_key]. Qed.
Lemma firstn_16 key : block16 key -> firstn 16 key = key.
Proof. intros [L _]. apply firstn_all2. lia. Qed.
Lemma Ret_inj {A} (x y : A) : Ret x = Ret y -> x = y.
Proof. intros E. now injection E. Qed.
Lemma aes_key_is buf keylen k : 16 <= length buf -> aes_init_key buf keylen = Ret k -> k = AES_set_encrypt_key (firstn 16 buf).
Proof. intros L E. rewrite aes_keylen_ignored_lemma in E by exact L. apply Ret_inj in E. symmetry. exact E. Qed.
Lemma AES_decrypts key b : block16 key -> block16 b -> AES_decrypt (AES_set_decrypt_key key) (aes_encrypt key b) = b.
Proof.
  intros K B. etransitivity; [apply AES_decrypt_key|]. etransitivity; [|apply (aes_decrypt_encrypt key b K B)].
  Local Transparent aes_decrypt. unfold aes_decrypt. apply eq_inv_cipher_inv; [intros r R; now apply block16_round_key|now apply block16_aes_encrypt].
Qed.
Lemma aes_decrypt_needs_decrypt_key_lemma key b k : block16 key -> block16 b -> aes_init_key key 16 = Ret k ->
  wrapper_aes_decrypt (AES_set_decrypt_key key) (wrapper_aes_encrypt k b) = b.
Proof.
  intros K B E. apply aes_key_is in E; [|destruct K; lia]. rewrite firstn_16 in E by exact K. subst k.
  unfold wrapper_aes_encrypt, wrapper_aes_decrypt.
  transitivity (AES_decrypt (AES_set_decrypt_key key) (aes_encrypt key b)); [apply (f_equal (AES_decrypt (AES_set_decrypt_key key))), AES_encrypt_key|].
  now apply AES_decrypts.
Qed.

Lemma aes_wrapper_agrees buf keylen k : 16 <= length buf -> bytes buf -> aes_init_key buf keylen = Ret k ->
  agree (wrapper_aes_encrypt k) (aes_encrypt (firstn 16 buf)) /\ block_function (aes_encrypt (firstn 16 buf)).
Proof.
  intros L B E. apply aes_key_is in E; [|exact L]. subst k. split.
  - intros b _. unfold wrapper_aes_encrypt. apply AES_encrypt_key.
  - intros b Bb. apply block16_aes_encrypt; [|exact Bb]. split; [rewrite firstn_length; lia|now apply bytes_firstn].
Qed.
Lemma aes_gcm_conforms_lemma buf keylen k d iv aad p t : 16 <= length buf -> bytes buf -> aes_init_key buf keylen = Ret k ->
  bytes iv -> bytes aad -> bytes p ->
  (8 * N.of_nat (length iv) < 2 ^ 32)%N -> (8 * N.of_nat (length aad) < 2 ^ 64)%N ->
  (N.of_nat (length p) <= 2147483647)%N -> t <= 16 ->
  let E := aes_encrypt (firstn 16 buf) in
  let o := gctr E (inc32 (J0 E iv)) p in
  gcm_session d (lift (wrapper_aes_encrypt k)) iv aad [p] t = Some (o, gcm_tag E iv aad (match d with Enc => o | Dec => p end) t).
Proof. intros L B K. destruct (aes_wrapper_agrees buf keylen k L B K) as [A F]. intros. now apply gcm_session_impl. Qed.
Lemma aes_cbc_conforms_lemma buf keylen k m out cap iv : 16 <= length buf -> bytes buf -> aes_init_key buf keylen = Ret k -> bytes m -> block16 iv ->
  (N.of_nat (length (lib_padded m)) <= int_max)%N -> length (lib_padded m) <= cap -> length out = cap ->
  wrapper_cbc_encrypt false (lift (wrapper_aes_encrypt k)) m out cap iv =
  Some {| cr_ret := true;
          cr_out := cbc_encrypt_bytes (aes_encrypt (firstn 16 buf)) iv (lib_padded m) ++ skipn (length (lib_padded m)) out;
          cr_use := Some (N.of_nat (length (lib_padded m)));
          cr_iv := iv |}.
Proof. intros L B K. destruct (aes_wrapper_agrees buf keylen k L B K) as [A F]. intros. now apply cbc_encrypt_impl. Qed.
Local Transparent gmul gf8_mul gf8_inv key_words aes_round_key AES_set_encrypt_key AES_set_decrypt_key aes_encrypt aes_decrypt cipher inv_cipher eq_inv_cipher AES_encrypt AES_decrypt.
Lemma aes_roundtrip_refuted_lemma : exists key b k, block16 key /\ block16 b /\ aes_init_key key 16 = Ret k /\
  wrapper_aes_decrypt k (wrapper_aes_encrypt k b) <> b.
Proof.
  exists (repeat 0%N 16), (repeat 0%N 16), (AES_set_encrypt_key (repeat 0%N 16)). split; [apply block16_zeros|]. split; [apply block16_zeros|].
  split; [apply (aes_keylen_ignored_lemma (repeat 0%N 16)); cbn [length repeat]; lia|]. intros E.
  apply (f_equal (fun l => (nth 0 l 0 =? 0)%N)) in E. vm_compute in E. discriminate.
Qed.
Lemma aes_cbc_roundtrip_refuted_lemma : exists key m iv k r d, block16 key /\ bytes m /\ recoverable m /\ block16 iv /\ aes_init_key key 16 = Ret k /\
  wrapper_cbc_encrypt false (lift (wrapper_aes_encrypt k)) m (repeat 0%N 32) 32 iv = Some r /\ cr_ret r = true /\
  wrapper_cbc_decrypt (lift (wrapper_aes_decrypt k)) (firstn (length (lib_padded m)) (cr_out r)) (length (lib_padded m)) (repeat 0%N 32) 32 iv = Some d /\
  firstn (length m) (cr_out d) <> m.
Proof.
  exists (repeat 0%N 16), [1]%N, (repeat 0%N 16), (AES_set_encrypt_key (repeat 0%N 16)). eexists; eexists.
  split; [apply block16_zeros|]. split; [repeat constructor|]. split; [left; vm_compute; discriminate|]. split; [apply block16_zeros|].
  split; [apply (aes_keylen_ignored_lemma (repeat 0%N 16)); cbn [length repeat]; lia|].
  split; [vm_compute; reflexivity|]. split; [reflexivity|]. split; [vm_compute; reflexivity|]. cbn [length firstn cr_out]. discriminate.
Qed.
