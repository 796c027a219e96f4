(** * White-box AES: nibbles, encodings, and what a round computes *)
From Verif Require Import Base Word32 CbcSpec CbcProofs GcmModel Sm4Model Sm4Spec Sm4Proofs FpeModel MatModel MatSpec MatProofs GaussProofs ComProofs Wbsm4Model Wbsm4Proofs AesSpec AesProofs WbaesModel.
From Coq Require Import ZArith.
Local Open Scope nat_scope.
Local Opaque MatMulVec MatMulNum MatMulMat genMatpair genPermutation genMatpairs genPermutations aes_sbox gf8_mul gmul.

(** ** Nibbles *)
Definition nibble (x : N) : Prop := (x < 16)%N.
Lemma nib_block k w : k < 8 -> nib k w = block 8 4 k w.
Proof.
  intros K. unfold nib, block. rewrite N.shiftr_div_pow2. change 0xf%N with (N.ones 4). rewrite N.land_ones.
  change (2 ^ N.of_nat 4)%N with (2 ^ 4)%N. do 3 f_equal. lia.
Qed.
Lemma nib_lt k w : nibble (nib k w).
Proof. unfold nib, nibble. change 0xf%N with (N.ones 4). rewrite N.land_ones. now apply N.mod_lt. Qed.
Lemma nib_lxor k a b : k < 8 -> nib k (N.lxor a b) = N.lxor (nib k a) (nib k b).
Proof. intros K. rewrite !nib_block by exact K. apply block_lxor. Qed.
Definition pack (v : nat -> N) : N :=
  let t k := w32 (N.shiftl (v k) (28 - 4 * N.of_nat k)) in
  N.lor (N.lor (N.lor (N.lor (N.lor (N.lor (N.lor (t 0) (t 1)) (t 2)) (t 3)) (t 4)) (t 5)) (t 6)) (t 7).
Lemma enc32_pack P w : enc32 P w = pack (fun k => get (P k) (N.to_nat (nib k w))).
Proof. reflexivity. Qed.
Lemma xor_tables_pack T a b : xor_tables T a b = pack (fun k => T k (nib k a) (nib k b)).
Proof. reflexivity. Qed.
Lemma pack_term v k : k < 8 -> nibble v -> w32 (N.shiftl v (28 - 4 * N.of_nat k)) = N.shiftl v (N.of_nat ((8 - 1 - k) * 4)).
Proof.
  intros K V. unfold w32. replace (28 - 4 * N.of_nat k)%N with (N.of_nat ((8 - 1 - k) * 4)) by lia.
  apply N.mod_small. exact (vector_shift 8 4 k v K V).
Qed.
Lemma nib_pack v k : k < 8 -> (forall j, j < 8 -> nibble (v j)) -> nib k (pack v) = v k.
Proof.
  intros K V. rewrite nib_block by exact K. unfold pack. cbv zeta. rewrite !pack_term by (try apply V; lia).
  apply (bit_ext 4); [apply vector_block|now apply V|]. intros i I. rewrite bit_block by auto.
  assert (B : forall a b, bit (8 * 4) (N.lor a b) (k * 4 + i) = bit (8 * 4) a (k * 4 + i) || bit (8 * 4) b (k * 4 + i)) by (intros; apply N.lor_spec).
  rewrite !B. rewrite !bit_shift by (try apply V; lia).
  destruct k as [|[|[|[|[|[|[|[|k]]]]]]]]; [..|lia]; cbn [Nat.eqb]; rewrite ?orb_false_r; reflexivity.
Qed.
Lemma pack_ext v v' : (forall j, j < 8 -> v j = v' j) -> pack v = pack v'.
Proof. intros H. unfold pack. cbv zeta. rewrite !H by lia. reflexivity. Qed.

(** the nibbles of a byte *)
Lemma shiftr_land_f0 x : byte x -> N.shiftr (N.land x 0xf0) 4 = block 2 4 0 x.
Proof.
  intros B. unfold block. change (2 ^ N.of_nat 4)%N with (2 ^ 4)%N. rewrite <- N.land_ones. change (2 ^ N.of_nat (4 * (2 - 1 - 0)))%N with (2 ^ 4)%N.
  rewrite <- N.shiftr_div_pow2, N.shiftr_land. reflexivity.
Qed.
Lemma land_0f x : N.land x 0x0f = block 2 4 1 x.
Proof. unfold block. change (2 ^ N.of_nat (4 * (2 - 1 - 1)))%N with 1%N. rewrite N.div_1_r. apply (N.land_ones x 4). Qed.
Definition pack2 (a b : N) : N := (N.lor (N.shiftl a 4) b mod 256)%N.
Lemma enc8_pack P0 P1 x : byte x -> enc8 P0 P1 x = pack2 (get P0 (N.to_nat (block 2 4 0 x))) (get P1 (N.to_nat (block 2 4 1 x))).
Proof. intros B. unfold enc8. now rewrite shiftr_land_f0, land_0f. Qed.
Lemma pack2_byte a b : byte (pack2 a b).
Proof. unfold pack2, byte. now apply N.mod_lt. Qed.
Lemma enc8_byte P0 P1 x : byte (enc8 P0 P1 x).
Proof. apply pack2_byte. Qed.
Lemma block_pack2 a b : nibble a -> nibble b -> block 2 4 0 (pack2 a b) = a /\ block 2 4 1 (pack2 a b) = b.
Proof.
  intros A B.
  assert (H : forall k, k < 2 -> block 2 4 k (pack2 a b) = match k with 0 => a | _ => b end).
  { intros k K. apply (bit_ext 4); [apply vector_block|destruct k; assumption|]. intros i I. rewrite bit_block by auto.
    assert (E : pack2 a b = N.lor (N.shiftl a (N.of_nat ((2 - 1 - 0) * 4))) (N.shiftl b (N.of_nat ((2 - 1 - 1) * 4)))).
    { unfold pack2. rewrite N.shiftl_0_r. apply N.mod_small. apply (vector_bits 8). intros j J. rewrite N.lor_spec.
      rewrite (testbit_high b 4 j B) by lia. rewrite orb_false_r. rewrite N.shiftl_spec_high' by lia. apply (testbit_high a 4); [exact A|lia]. }
    rewrite E. unfold bit at 1. rewrite N.lor_spec. fold (bit (2 * 4) (N.shiftl a (N.of_nat ((2 - 1 - 0) * 4))) (k * 4 + i)). fold (bit (2 * 4) (N.shiftl b (N.of_nat ((2 - 1 - 1) * 4))) (k * 4 + i)).
    rewrite !bit_shift by (auto; lia). destruct k as [|[|]]; [..|lia]; cbn [Nat.eqb]; rewrite ?orb_false_r; reflexivity. }
  split; [apply (H 0); lia|apply (H 1); lia].
Qed.
Lemma pack2_blocks x : byte x -> pack2 (block 2 4 0 x) (block 2 4 1 x) = x.
Proof.
  intros B. destruct (block_pack2 (block 2 4 0 x) (block 2 4 1 x) (vector_block 2 4 0 x) (vector_block 2 4 1 x)) as [E0 E1].
  apply (vector_ext_block 2 4); [apply pack2_byte|exact B|]. intros k K. destruct k as [|[|]]; [..|lia]; assumption.
Qed.

(** ** Permutations *)
Definition perm (k : nat) (P : list N * list N) : Prop := permutation_of k (fst P) /\ inverse_of k (fst P) (snd P).
Lemma perm_val k P x : perm k P -> (x < N.of_nat k)%N -> (get (fst P) (N.to_nat x) < N.of_nat k)%N /\ get (snd P) (N.to_nat (get (fst P) (N.to_nat x))) = x.
Proof.
  intros [H1 [_ H2]] X. assert (X' : N.to_nat x < k) by lia. split.
  - pose proof (perm_lt k (fst P) (N.to_nat x) H1 X'). lia.
  - destruct (H2 _ X') as [E _]. rewrite E. apply N2Nat.id.
Qed.
Lemma perm_nibble P x : perm 16 P -> nibble x -> nibble (get (fst P) (N.to_nat x)).
Proof. intros H X. apply (perm_val 16 P x H X). Qed.
Lemma perm_inv P x : perm 16 P -> nibble x -> get (snd P) (N.to_nat (get (fst P) (N.to_nat x))) = x.
Proof. intros H X. apply (perm_val 16 P x H X). Qed.
Lemma enc8_inv P0 P1 x : perm 16 P0 -> perm 16 P1 -> byte x -> enc8 (snd P0) (snd P1) (enc8 (fst P0) (fst P1) x) = x.
Proof.
  intros H0 H1 B. rewrite enc8_pack by apply enc8_byte. rewrite (enc8_pack (fst P0)) by exact B.
  destruct (block_pack2 (get (fst P0) (N.to_nat (block 2 4 0 x))) (get (fst P1) (N.to_nat (block 2 4 1 x)))) as [E0 E1];
    [apply perm_nibble; auto; apply (vector_block 2 4)|apply perm_nibble; auto; apply (vector_block 2 4)|].
  rewrite E0, E1, !perm_inv by (auto; apply (vector_block 2 4)). now apply pack2_blocks.
Qed.
Lemma nib_enc32 (E : nat -> list N * list N) w k : (forall j, j < 8 -> perm 16 (E j)) -> k < 8 -> nib k (enc32 (fun j => fst (E j)) w) = get (fst (E k)) (N.to_nat (nib k w)).
Proof. intros H K. rewrite enc32_pack. apply (nib_pack (fun k => get (fst (E k)) (N.to_nat (nib k w)))); auto. intros j J. apply perm_nibble; auto using nib_lt. Qed.

(** ** The network of exclusive ors *)
(** a table T that decodes two nibbles by P and Q, adds them, and encodes the sum by R *)
Definition adds (T : nat -> N -> N -> N) (P Q R : nat -> list N * list N) : Prop := forall k x y, k < 8 ->
  T k x y = get (fst (R k)) (N.to_nat (N.lxor (get (snd (P k)) (N.to_nat x)) (get (snd (Q k)) (N.to_nat y)))).
Definition perms8 (P : nat -> list N * list N) : Prop := forall k, k < 8 -> perm 16 (P k).
Lemma adds_nib T P Q R a b k : adds T P Q R -> perms8 P -> perms8 Q -> k < 8 ->
  T k (nib k (enc32 (fun k => fst (P k)) a)) (nib k (enc32 (fun k => fst (Q k)) b)) = get (fst (R k)) (N.to_nat (nib k (N.lxor a b))).
Proof.
  intros A HP HQ K. rewrite A by exact K. rewrite !nib_enc32 by auto. rewrite !perm_inv by (auto using nib_lt). now rewrite nib_lxor.
Qed.
Lemma xor_tables_ok T P Q R a b : adds T P Q R -> perms8 P -> perms8 Q ->
  xor_tables T (enc32 (fun k => fst (P k)) a) (enc32 (fun k => fst (Q k)) b) = enc32 (fun k => fst (R k)) (N.lxor a b).
Proof.
  intros A HP HQ. rewrite xor_tables_pack, (enc32_pack (fun k => fst (R k))). apply pack_ext. intros k K. now apply adds_nib.
Qed.
(** the bytes of a word and their nibbles *)
Lemma nib_byte r w : r < 4 -> block 2 4 0 (byte_at w (24 - 8 * N.of_nat r)) = nib (2 * r) w /\ block 2 4 1 (byte_at w (24 - 8 * N.of_nat r)) = nib (2 * r + 1) w.
Proof.
  intros R. rewrite byte_at_block by exact R. rewrite !nib_block by lia.
  split; apply (bit_ext 4); try apply vector_block; intros i I; rewrite !bit_block by lia; change (8 * 4) with (4 * 8); f_equal; lia.
Qed.
Definition enc_byte (R : nat -> list N * list N) (r : nat) (x : N) : N := enc8 (fst (R (2 * r))) (fst (R (2 * r + 1))) x.
Lemma xor_bytes_ok T P Q R a b : adds T P Q R -> perms8 P -> perms8 Q ->
  xor_bytes T (enc32 (fun k => fst (P k)) a) (enc32 (fun k => fst (Q k)) b) = map (fun r => enc_byte R r (byte_at (N.lxor a b) (24 - 8 * N.of_nat r))) (seq 0 4).
Proof.
  intros A HP HQ. unfold xor_bytes. cbv zeta. cbn [seq map Nat.add].
  assert (H : forall r k k', r < 4 -> k = 2 * r -> k' = 2 * r + 1 ->
    (N.lor (N.shiftl (T k (nib k (enc32 (fun k => fst (P k)) a)) (nib k (enc32 (fun k => fst (Q k)) b))) 4)
      (T k' (nib k' (enc32 (fun k => fst (P k)) a)) (nib k' (enc32 (fun k => fst (Q k)) b))) mod 256)%N = enc_byte R r (byte_at (N.lxor a b) (24 - 8 * N.of_nat r))).
  { intros r k k' HR -> ->. rewrite !(adds_nib T P Q R) by (auto; lia). unfold enc_byte. rewrite enc8_pack by apply byte_at_byte.
    destruct (nib_byte r (N.lxor a b) HR) as [-> ->]. reflexivity. }
  f_equal; [apply H; lia|]. f_equal; [apply H; lia|]. f_equal; [apply H; lia|]. f_equal. apply H; lia.
Qed.
Lemma half_column_ok U V j col (O O1 : nat -> nat -> list N * list N) (O2 : nat -> list N * list N) (A : nat -> N) :
  (forall r, r < 4 -> U (4 * j + r) (get col r) = enc32 (fun k => fst (O r k)) (A r)) ->
  adds (V 0) (O 0) (O 1) (O1 0) -> adds (V 1) (O 2) (O 3) (O1 1) -> adds (V 2) (O1 0) (O1 1) O2 ->
  (forall r, r < 4 -> perms8 (O r)) -> (forall r, r < 2 -> perms8 (O1 r)) ->
  half_column U V j col = map (fun r => enc_byte O2 r (byte_at (sum4 A) (24 - 8 * N.of_nat r))) (seq 0 4).
Proof.
  intros HU V0 V1 V2 HO HO1. unfold half_column. cbv zeta. rewrite !HU by lia.
  rewrite (xor_tables_ok (V 0) (O 0) (O 1) (O1 0)) by (auto; apply HO; lia). rewrite (xor_tables_ok (V 1) (O 2) (O 3) (O1 1)) by (auto; apply HO; lia).
  rewrite (xor_bytes_ok (V 2) (O1 0) (O1 1) O2) by (auto; apply HO1; lia).
  replace (N.lxor (N.lxor (A 0) (A 1)) (N.lxor (A 2) (A 3))) with (sum4 A) by (unfold sum4; xors). reflexivity.
Qed.
Lemma typeIV_adds out out1 out2 i j :
  let V := typeIV out out1 out2 i j in
  adds (V 0) (out i (4 * j + 0)) (out i (4 * j + 1)) (out1 i (2 * j + 0)) /\ adds (V 1) (out i (4 * j + 2)) (out i (4 * j + 3)) (out1 i (2 * j + 1)) /\
  adds (V 2) (out1 i (2 * j + 0)) (out1 i (2 * j + 1)) (out2 i j).
Proof. cbv zeta. rewrite !Nat.add_0_r. repeat split; intros k x y K; reflexivity. Qed.

(** ** The encodings *)
Record good (e : encodings) : Prop := mkgood {
  g_L : forall i j, i < 9 -> j < 16 -> mutually_inverse 8 (fst (e_L e i j)) (snd (e_L e i j));
  g_MB : forall i j, i < 9 -> j < 4 -> mutually_inverse 32 (fst (e_MB e i j)) (snd (e_MB e i j));
  g_ex_in : forall j, j < 16 -> mutually_inverse 8 (fst (e_ex_in e j)) (snd (e_ex_in e j));
  g_ex_out : forall j, j < 16 -> mutually_inverse 8 (fst (e_ex_out e j)) (snd (e_ex_out e j));
  g_II : forall i j, i < 9 -> j < 16 -> perms8 (e_II e i j);
  g_III : forall i j, i < 9 -> j < 16 -> perms8 (e_III e i j);
  g_IV_II1 : forall i j, i < 9 -> j < 8 -> perms8 (e_IV_II1 e i j);
  g_IV_III1 : forall i j, i < 9 -> j < 8 -> perms8 (e_IV_III1 e i j);
  g_IV_II2 : forall i j, i < 9 -> j < 4 -> perms8 (e_IV_II2 e i j);
  g_IV_III2 : forall i j, i < 9 -> j < 4 -> perms8 (e_IV_III2 e i j);
  g_in : forall j k, j < 16 -> k < 2 -> perm 16 (e_in e j k) }.
Lemma mul_inv8 P x : mutually_inverse 8 (fst P) (snd P) -> byte x -> MatMulNum 8 (snd P) (MatMulNum 8 (fst P) x) = x.
Proof. intros H B. rewrite !MatMulNum_eq. apply (inverse_left 8 (snd P) (fst P) x size8); [|exact B]. destruct P. now apply inverse_sym. Qed.
Lemma mul_byte8 P x : mutually_inverse 8 (fst P) (snd P) -> byte (MatMulNum 8 (fst P) x).
Proof. intros (M & _). rewrite MatMulNum_eq. now apply (vector_mulv 8 (fst P) x size8). Qed.
Lemma mul_byte8' P x : mutually_inverse 8 (fst P) (snd P) -> byte (MatMulNum 8 (snd P) x).
Proof. intros (_ & M & _). rewrite MatMulNum_eq. now apply (vector_mulv 8 (snd P) x size8). Qed.

(** the encoding of byte p of the state at the start of round i *)
Definition enc_state (e : encodings) (i p : nat) (x : N) : N :=
  match i with
  | 0 => enc8 (fst (e_in e p 0)) (fst (e_in e p 1)) (MatMulNum 8 (fst (e_ex_in e p)) x)
  | S i' => enc_byte (e_IV_III2 e i' (p / 4)) (p mod 4) (MatMulNum 8 (fst (e_L e i' p)) x)
  end.
Lemma shiftindex_lt j : j < 16 -> shiftindex j < 16.
Proof. intros J. do 16 (destruct j as [|j]; [cbn; lia|]). lia. Qed.
Lemma decode_enc e i j x : good e -> i <= 9 -> j < 16 -> byte x -> decode_in e i j (enc_state e i (shiftindex j) x) = x.
Proof.
  intros G I J B. pose proof (shiftindex_lt j J) as S. unfold decode_in. cbv zeta. destruct i as [|i]; unfold enc_state.
  - pose proof (g_ex_in e G _ S) as H. rewrite enc8_inv; [now apply mul_inv8|apply (g_in e G); lia|apply (g_in e G); lia|now apply mul_byte8].
  - pose proof (g_L e G i _ ltac:(lia) S) as H. unfold enc_byte. rewrite !(Nat.mul_comm 2).
    assert (Q : shiftindex j / 4 < 4) by (apply Nat.div_lt_upper_bound; lia). pose proof (Nat.mod_upper_bound (shiftindex j) 4 ltac:(lia)) as R.
    rewrite enc8_inv; [now apply mul_inv8|apply (g_IV_III2 e G); lia|apply (g_IV_III2 e G); lia|now apply mul_byte8].
Qed.

(** ** MixColumns through Tyi *)
Lemma gMul_sweep : forallb (fun n => ((gMul 2 (N.of_nat n) =? gmul 2 (N.of_nat n)) && (gMul 3 (N.of_nat n) =? gmul 3 (N.of_nat n)))%N) (seq 0 256) = true.
Proof. Local Transparent gmul gf8_mul. vm_compute. reflexivity. Qed.
Local Opaque gmul gf8_mul.
Lemma gMul_ok x : byte x -> gMul 2 x = gmul 2 x /\ gMul 3 x = gmul 3 x.
Proof.
  intros B. pose proof gMul_sweep as S. rewrite forallb_forall in S. specialize (S (N.to_nat x)). rewrite N2Nat.id in S.
  assert (H := S ltac:(apply in_seq; unfold byte in B; lia)). apply andb_prop in H. destruct H as [H1 H2]. apply N.eqb_eq in H1. apply N.eqb_eq in H2. now split.
Qed.
Local Opaque gMul.
Lemma word_bytes4 a b c d k : byte a -> byte b -> byte c -> byte d -> k < 4 ->
  block 4 8 k (N.lor (N.lor (N.lor (w32 (N.shiftl a 24)) (N.shiftl b 16)) (N.shiftl c 8)) d) = sel4 a b c d k /\
  word (N.lor (N.lor (N.lor (w32 (N.shiftl a 24)) (N.shiftl b 16)) (N.shiftl c 8)) d).
Proof.
  intros A B C D K.
  assert (E : N.lor (N.lor (N.lor (w32 (N.shiftl a 24)) (N.shiftl b 16)) (N.shiftl c 8)) d =
    N.lor (N.lor (N.lor (N.shiftl a (N.of_nat ((4 - 1 - 0) * 8))) (N.shiftl b (N.of_nat ((4 - 1 - 1) * 8)))) (N.shiftl c (N.of_nat ((4 - 1 - 2) * 8)))) (N.shiftl d (N.of_nat ((4 - 1 - 3) * 8)))).
  { change (N.of_nat ((4 - 1 - 3) * 8)) with 0%N. rewrite (N.shiftl_0_r d). replace (w32 (N.shiftl a 24)) with (N.shiftl a 24); [reflexivity|]. symmetry. unfold w32. apply N.mod_small. exact (vector_shift 4 8 0 a ltac:(lia) A). }
  rewrite E. split.
  - apply (bit_ext 8); [apply vector_block|destruct k as [|[|[|[|]]]]; cbn [sel4]; assumption|]. intros i I. rewrite bit_block by auto.
    assert (O : forall a b, bit (4 * 8) (N.lor a b) (k * 8 + i) = bit (4 * 8) a (k * 8 + i) || bit (4 * 8) b (k * 8 + i)) by (intros; apply N.lor_spec).
    rewrite !O. rewrite !bit_shift by (auto; lia). destruct k as [|[|[|[|]]]]; [..|lia]; cbn [Nat.eqb sel4]; rewrite ?orb_false_r; reflexivity.
  - apply (vector_bits 32). intros i I. rewrite !N.lor_spec.
    rewrite (testbit_high _ 32 i (vector_shift 4 8 0 a ltac:(lia) A) I), (testbit_high _ 32 i (vector_shift 4 8 1 b ltac:(lia) B) I),
      (testbit_high _ 32 i (vector_shift 4 8 2 c ltac:(lia) C) I), (testbit_high _ 32 i (vector_shift 4 8 3 d ltac:(lia) D) I). reflexivity.
Qed.
Lemma gmul_bytes x : byte x -> byte (gmul 2 x) /\ byte (gmul 3 x).
Proof. intros B. split; apply gmul_byte; auto; reflexivity. Qed.
Lemma word_Tyi r x : byte x -> word (Tyi r x).
Proof.
  intros B. destruct (gMul_ok x B) as [E2 E3]. destruct (gmul_bytes x B) as [B2 B3]. unfold Tyi. cbv zeta. rewrite E2, E3.
  destruct r as [|[|[|]]]; eapply (word_bytes4 _ _ _ _ 0); auto; lia.
Qed.
Lemma mix_sum x0 x1 x2 x3 r : byte x0 -> byte x1 -> byte x2 -> byte x3 -> r < 4 ->
  byte_at (sum4 (fun k => Tyi k (sel4 x0 x1 x2 x3 k))) (24 - 8 * N.of_nat r) = get (mix_column [0x02; 0x03; 0x01; 0x01]%N [x0; x1; x2; x3]) r.
Proof.
  intros B0 B1 B2 B3 R. rewrite byte_at_block by exact R. unfold sum4. rewrite !block_lxor. cbn [sel4]. unfold Tyi. cbv zeta.
  destruct (gMul_ok x0 B0) as [-> ->], (gMul_ok x1 B1) as [-> ->], (gMul_ok x2 B2) as [-> ->], (gMul_ok x3 B3) as [-> ->].
  pose proof (gmul_bytes x0 B0) as [? ?]. pose proof (gmul_bytes x1 B1) as [? ?]. pose proof (gmul_bytes x2 B2) as [? ?]. pose proof (gmul_bytes x3 B3) as [? ?].
  rewrite !(fun a b c d A B C D => proj1 (word_bytes4 a b c d r A B C D R)) by assumption.
  rewrite mix_column_4. cbn [fold_left]. rewrite !gmul_1, !N.lxor_0_l by assumption.
  destruct r as [|[|[|[|]]]]; [..|lia]; cbn [sel4 get nth]; reflexivity.
Qed.

(** ** One round *)
Lemma word_mul32 A x : matrix 32 A -> word (MatMulVec 32 A x).
Proof. intros M. exact (vector_mulv 32 A x size32 M). Qed.
Lemma sum4_ext f g : (forall j, j < 4 -> f j = g j) -> sum4 f = sum4 g.
Proof. intros H. unfold sum4. now rewrite !H by lia. Qed.
Lemma word_sum4 f : (forall j, word (f j)) -> word (sum4 f).
Proof. intros H. unfold sum4. repeat apply (vector_lxor 32); apply H. Qed.
Section Round.
Variables (e : encodings) (ek : list N) (i : nat).
Hypothesis G : good e.
Hypothesis I : i < 9.
Lemma index4 j r : j < 4 -> r < 4 -> 4 * j + r < 16 /\ (4 * j + r) / 4 = j /\ (4 * j + r) mod 4 = r.
Proof.
  intros J R. split; [lia|]. rewrite (Nat.mul_comm 4 j), Nat.add_comm. rewrite Nat.div_add, Nat.mod_add by lia. rewrite Nat.div_small, Nat.mod_small by lia. lia.
Qed.
Lemma column_ok j (col : list N) (t : nat -> N) : j < 4 -> (forall r, byte (t r)) ->
  (forall r, r < 4 -> sbox (N.lxor (decode_in e i (4 * j + r) (get col r)) (get ek (16 * i + (4 * j + r)))) = t r) ->
  half_column (typeIII e i) (typeIV (e_III e) (e_IV_III1 e) (e_IV_III2 e) i j) j
    (half_column (typeII e ek i) (typeIV (e_II e) (e_IV_II1 e) (e_IV_II2 e) i j) j col) =
  map (fun r => enc_state e (S i) (4 * j + r) (get (mix_column [0x02; 0x03; 0x01; 0x01]%N [t 0; t 1; t 2; t 3]) r)) (seq 0 4).
Proof.
  intros J BT HT. set (M := sum4 (fun k => Tyi k (t k))).
  pose proof (g_MB e G i j I J) as HM. assert (M1 := proj1 HM). assert (M2 := proj1 (proj2 HM)).
  assert (WM : word M) by (apply word_sum4; intros k; apply word_Tyi, BT).
  set (X := MatMulVec 32 (fst (e_MB e i j)) M).
  destruct (typeIV_adds (e_II e) (e_IV_II1 e) (e_IV_II2 e) i j) as (A0 & A1 & A2).
  rewrite (half_column_ok (typeII e ek i) _ j col (fun r => e_II e i (4 * j + r)) (fun r => e_IV_II1 e i (2 * j + r)) (e_IV_II2 e i j)
    (fun r => MatMulVec 32 (fst (e_MB e i j)) (Tyi r (t r)))); auto.
  2: { intros r R. destruct (index4 j r J R) as (I1 & I2 & I3). unfold typeII. cbv zeta. rewrite I2, I3. rewrite HT by exact R. rewrite MatMulNum_eq. reflexivity. }
  2: { intros r R. apply (g_II e G); lia. }
  2: { intros r R. apply (g_IV_II1 e G); lia. }
  rewrite <- (additive_sum4 (MatMulVec 32 (fst (e_MB e i j))) (fun r => Tyi r (t r)) (mul_additive _ M1)) by (intros k; apply word_Tyi, BT).
  fold M. fold X. clear A0 A1 A2.
  destruct (typeIV_adds (e_III e) (e_IV_III1 e) (e_IV_III2 e) i j) as (A0 & A1 & A2).
  set (OL := Out_L e i j).
  assert (ML : forall r, r < 4 -> matrix 8 (fst (e_L e i (4 * j + r)))) by (intros r R; apply (g_L e G); lia).
  assert (MOL : matrix 32 OL).
  { unfold OL, Out_L. cbv zeta. apply (matrix_diagonal 4 8 (sel4 (fst (e_L e i (4 * j + 0))) (fst (e_L e i (4 * j + 1))) (fst (e_L e i (4 * j + 2))) (fst (e_L e i (4 * j + 3))))); [lia|apply diagonal4|].
    intros k K. destruct k as [|[|[|[|]]]]; [..|lia]; cbn [sel4]; apply ML; lia. }
  rewrite (half_column_ok (typeIII e i) _ j _ (fun r => e_III e i (4 * j + r)) (fun r => e_IV_III1 e i (2 * j + r)) (e_IV_III2 e i j)
    (fun r => MatMulVec 32 OL (MatMulVec 32 (snd (e_MB e i j)) (at_byte r (byte_at X (24 - 8 * N.of_nat r)))))); auto.
  2: { intros r R. destruct (index4 j r J R) as (I1 & I2 & I3). unfold typeIII. cbv zeta. rewrite I2, I3.
    rewrite (get_map_seq (fun r => enc_byte (e_IV_II2 e i j) r (byte_at X (24 - 8 * N.of_nat r))) 4 r R). unfold enc_byte. rewrite !(Nat.mul_comm 2 r).
    rewrite enc8_inv; [|apply (g_IV_II2 e G); lia|apply (g_IV_II2 e G); lia|apply byte_at_byte]. apply f_equal. fold OL. unfold at_byte.
    repeat match goal with |- context [MatMulNum 32 ?A ?x] => rewrite (MatMulNum_eq 32 A x) end. reflexivity. }
  2: { intros r R. apply (g_III e G); lia. }
  2: { intros r R. apply (g_IV_III1 e G); lia. }
  rewrite <- (additive_sum4 (MatMulVec 32 OL) (fun r => MatMulVec 32 (snd (e_MB e i j)) (at_byte r (byte_at X (24 - 8 * N.of_nat r)))) (mul_additive _ MOL)) by (intros k; now apply word_mul32).
  rewrite <- (additive_sum4 (MatMulVec 32 (snd (e_MB e i j))) (fun r => at_byte r (byte_at X (24 - 8 * N.of_nat r))) (mul_additive _ M2)) by (intros k; apply word_at_byte).
  rewrite split_word by (unfold X; now apply word_mul32).
  replace (MatMulVec 32 (snd (e_MB e i j)) X) with M by (unfold X; symmetry; apply (inverse_left 32 _ _ M size32); [now apply inverse_sym|exact WM]).
  apply map_ext_in. intros r R. apply in_seq in R. destruct (index4 j r J ltac:(lia)) as (I1 & I2 & I3). unfold enc_state. rewrite I2, I3.
  apply f_equal. rewrite byte_at_block by lia. unfold OL, Out_L. cbv zeta.
  rewrite (C40_combined_matrices_act_blockwise_lemma 8) by (auto; try (apply ML; lia); lia).
  rewrite (MatMulNum_eq 8 (fst (e_L e i (4 * j + r)))). rewrite <- (mix_sum (t 0) (t 1) (t 2) (t 3) r) by (auto; lia). rewrite byte_at_block by lia.
  unfold M. rewrite (sum4_ext (fun k => Tyi k (t k)) (fun k => Tyi k (sel4 (t 0) (t 1) (t 2) (t 3) k))) by (intros k K; destruct k as [|[|[|[|]]]]; [..|lia]; reflexivity).
  destruct r as [|[|[|[|]]]]; [..|lia]; reflexivity.
Qed.
End Round.

(** ** The key schedule *)
Lemma get_concat ws m k : Forall word4 ws -> k < 4 -> get (concat ws) (4 * m + k) = get (nth m ws []) k.
Proof.
  intros F K. revert m. induction F as [|w ws [L B] F IH]; intros m.
  - cbn [concat]. unfold get. destruct m; cbn [nth]; destruct k; try reflexivity; rewrite ?nth_overflow by (cbn; lia); reflexivity.
  - cbn [concat]. unfold get. destruct m as [|m].
    + cbn [Nat.mul Nat.add nth]. now rewrite app_nth1 by lia.
    + rewrite app_nth2 by lia. replace (4 * S m + k - length w) with (4 * m + k) by lia. cbn [nth]. apply IH.
Qed.
Lemma rCon_ok n : 1 <= n <= 10 -> get rCon n = gpow 2 (n - 1).
Proof.
  Local Transparent gmul gf8_mul. intros H. do 11 (destruct n as [|n]; [try lia; vm_compute; reflexivity|]). lia.
Qed.
Local Opaque gmul gf8_mul.
Lemma list4 (w : list N) : length w = 4 -> w = map (get w) (seq 0 4).
Proof. intros L. destruct w as [|a [|b [|c [|d [|]]]]]; try discriminate. reflexivity. Qed.
Lemma get_bytes4 w k : word4 w -> byte (get w k).
Proof. intros [_ B]. now apply bytes_get. Qed.
Lemma expand_step_ok ws : 4 <= length ws -> length ws < 44 -> Forall word4 ws -> expand_step (concat ws) (length ws) = concat (ws ++ [next_word ws]).
Proof.
  intros L U F. rewrite concat_app. cbn [concat]. rewrite app_nil_r. unfold expand_step. cbv zeta. apply f_equal.
  set (i := length ws) in *.
  assert (W1 : word4 (nth (i - 1) ws [])) by (rewrite Forall_forall in F; apply F, nth_In; fold i; lia).
  assert (W4 : word4 (nth (i - 4) ws [])) by (rewrite Forall_forall in F; apply F, nth_In; fold i; lia).
  unfold next_word. fold i. cbv zeta.
  assert (Q : i mod 4 = 0 -> 1 <= i / 4 <= 10).
  { intros M. pose proof (Nat.div_mod i 4 ltac:(lia)). lia. }
  assert (Z : forall f g : nat -> N, (forall k, k < 4 -> f k = g k) -> map f (seq 0 4) = map g (seq 0 4)) by (intros f g H; apply map_ext_in; intros k K; apply in_seq in K; apply H; lia).
  rewrite (Z _ (fun k => N.lxor (get (nth (i - 4) ws []) k)
     (if i mod 4 =? 0 then match k with 0 => N.lxor (sbox (get (nth (i - 1) ws []) 1)) (get rCon (i / 4)) | 1 => sbox (get (nth (i - 1) ws []) 2) | 2 => sbox (get (nth (i - 1) ws []) 3) | _ => sbox (get (nth (i - 1) ws []) 0) end
      else get (nth (i - 1) ws []) k))).
  2: { intros k K. rewrite !get_concat by (auto; lia). replace (get (concat ws) (4 * (i - 1))) with (get (nth (i - 1) ws []) 0); [reflexivity|].
       rewrite <- (get_concat ws (i - 1) 0 F) by lia. f_equal. lia. }
  clearbody i. destruct W1 as [L1 B1], W4 as [L4 B4].
  destruct (nth (i - 1) ws []) as [|a [|b [|c [|d [|]]]]]; try discriminate. destruct (nth (i - 4) ws []) as [|a' [|b' [|c' [|d' [|]]]]]; try discriminate.
  inversion_clear B1 as [|? ? Ba B2]. inversion_clear B2 as [|? ? Bb B3]. inversion_clear B3 as [|? ? Bc B5]. inversion_clear B5 as [|? ? Bd B6].
  cbn [seq map get nth rot_word]. destruct (i mod 4 =? 0) eqn:M; [|reflexivity].
  apply Nat.eqb_eq in M. rewrite (rCon_ok (i / 4) (Q M)). unfold rcon. rewrite !sbox_aes by assumption. cbn [xorl]. rewrite !N.lxor_0_r. reflexivity.
Qed.
Lemma expand_fold n : forall ws, 4 <= length ws -> length ws + n <= 44 -> Forall word4 ws -> fold_left expand_step (seq (length ws) n) (concat ws) = concat (extend_words n ws).
Proof.
  induction n as [|n IH]; intros ws L U F; [reflexivity|]. cbn [seq fold_left extend_words]. rewrite expand_step_ok by (auto; lia).
  replace (S (length ws)) with (length (ws ++ [next_word ws])) by (rewrite app_length; cbn [length]; lia).
  apply IH; [rewrite app_length; lia|rewrite app_length; cbn [length]; lia|]. apply Forall_app. split; [exact F|]. repeat constructor; now apply word4_next.
Qed.
Lemma firstn16_map key : 16 <= length key -> map (get key) (seq 0 16) = firstn 16 key.
Proof.
  intros L. apply (nth_ext _ _ 0%N 0%N); [rewrite map_length, seq_length, firstn_length; lia|]. rewrite map_length, seq_length. intros n H.
  change (get (map (get key) (seq 0 16)) n = get (firstn 16 key) n). rewrite get_map_seq by exact H. unfold get.
  rewrite <- (firstn_skipn 16 key) at 1. rewrite app_nth1; [reflexivity|]. rewrite firstn_length; lia.
Qed.
Lemma concat_chunks16 (key : list N) : length key = 16 -> concat (chunks 4 key) = key.
Proof. intros L. state16 key. reflexivity. Qed.
Lemma expandKey_ok key : 16 <= length key -> bytes key -> expandKey key = concat (key_words (firstn 16 key)).
Proof.
  intros L B. assert (K : block16 (firstn 16 key)) by (split; [rewrite firstn_length; lia|now apply bytes_firstn]).
  destruct (chunks_word4 _ K) as [F L4]. unfold expandKey. rewrite firstn16_map by exact L.
  rewrite <- (concat_chunks16 (firstn 16 key)) at 1 by apply K. replace 4 with (length (chunks 4 (firstn 16 key))) at 1 by exact L4.
  apply expand_fold; auto; rewrite L4; lia.
Qed.
Lemma skipn_concat ws n : Forall word4 ws -> skipn (4 * n) (concat ws) = concat (skipn n ws).
Proof.
  intros F. revert n. induction F as [|w ws [L B] F IH]; intros n; [cbn; now rewrite !skipn_nil|]. destruct n as [|n]; [reflexivity|].
  cbn [skipn concat]. rewrite skipn_app, L. replace (4 * S n - 4) with (4 * n) by lia. rewrite (skipn_all2 w) by lia. apply IH.
Qed.
Lemma firstn_concat ws n : Forall word4 ws -> firstn (4 * n) (concat ws) = concat (firstn n ws).
Proof.
  intros F. revert n. induction F as [|w ws [L B] F IH]; intros n; [cbn; now rewrite !firstn_nil|]. destruct n as [|n]; [reflexivity|].
  cbn [firstn concat]. rewrite firstn_app, L. replace (4 * S n - 4) with (4 * n) by lia. rewrite (firstn_all2 w) by lia. f_equal. apply IH.
Qed.
Lemma get_flat_map16 (f : nat -> list N) n i j a : (forall i, a <= i < a + n -> length (f i) = 16) -> i < n -> j < 16 -> get (flat_map f (seq a n)) (16 * i + j) = get (f (a + i)) j.
Proof.
  revert i a. induction n as [|n IH]; intros i a L I J; [lia|]. cbn [seq flat_map]. unfold get. destruct i as [|i].
  - replace (a + 0) with a by lia. rewrite app_nth1 by (rewrite L by lia; lia). reflexivity.
  - rewrite app_nth2 by (rewrite L by lia; lia). rewrite L by lia. replace (16 * S i + j - 16) with (16 * i + j) by lia.
    change (get (flat_map f (seq (S a) n)) (16 * i + j) = get (f (a + S i)) j). rewrite IH by (auto; intros; try apply L; lia). f_equal. f_equal. lia.
Qed.
Lemma part_ok key i : 16 <= length key -> bytes key -> i <= 10 -> firstn 16 (skipn (16 * i) (expandKey key)) = aes_round_key (firstn 16 key) i.
Proof.
  intros L B I. rewrite expandKey_ok by auto. assert (K : block16 (firstn 16 key)) by (split; [rewrite firstn_length; lia|now apply bytes_firstn]).
  destruct (key_words_ok _ K) as [F _]. replace (16 * i) with (4 * (4 * i)) by lia. rewrite skipn_concat by exact F. change 16 with (4 * 4) at 1.
  assert (F' : Forall word4 (skipn (4 * i) (key_words (firstn 16 key)))) by (rewrite Forall_forall in *; intros x H; apply F; rewrite <- (firstn_skipn (4 * i) (key_words (firstn 16 key))); apply in_or_app; now right).
  rewrite firstn_concat by exact F'. reflexivity.
Qed.
Lemma get_shiftRows s j : j < 16 -> get (shiftRows s) j = get s (shiftindex j).
Proof. intros J. unfold shiftRows. now rewrite get_map_seq. Qed.
Lemma length_shiftRows s : length (shiftRows s) = 16.
Proof. unfold shiftRows. now rewrite map_length, seq_length. Qed.
Lemma shifted_key_ok key i j : 16 <= length key -> bytes key -> i <= 10 -> j < 16 ->
  get (shifted_key (expandKey key)) (16 * i + j) = get (aes_round_key (firstn 16 key) i) (if i <? 10 then shiftindex j else j).
Proof.
  intros L B I J. assert (K : block16 (firstn 16 key)) by (split; [rewrite firstn_length; lia|now apply bytes_firstn]).
  unfold shifted_key. rewrite get_flat_map16; [|..|lia|exact J].
  - cbv zeta. rewrite Nat.add_0_l, part_ok by auto. destruct (i <? 10); [now apply get_shiftRows|reflexivity].
  - intros k H. cbv zeta. rewrite part_ok by (auto; lia). destruct (k <? 10); [apply length_shiftRows|]. apply block16_round_key; [exact K|lia].
Qed.

(** ** All rounds *)
Definition encoded (e : encodings) (i : nat) (s : list N) : list N := map (fun p => enc_state e i p (get s p)) (seq 0 16).
Lemma shift_rows_shiftRows s : shift_rows s = shiftRows s.
Proof. reflexivity. Qed.
Lemma half_column_ext U U' V j col : (forall r x, r < 4 -> U (4 * j + r) x = U' (4 * j + r) x) -> half_column U V j col = half_column U' V j col.
Proof. intros H. unfold half_column. cbv zeta. now rewrite !H by lia. Qed.
Lemma flat_map_ext_in {A B} (f g : A -> list B) l : (forall x, In x l -> f x = g x) -> flat_map f l = flat_map g l.
Proof. induction l as [|a l IH]; intros H; [reflexivity|]. cbn [flat_map]. rewrite H by now left. f_equal. apply IH. intros x X. apply H. now right. Qed.
Lemma map_seq_columns {A} (f : nat -> A) : map f (seq 0 16) = flat_map (fun j => map (fun r => f (4 * j + r)) (seq 0 4)) (seq 0 4).
Proof. reflexivity. Qed.
Definition one_round (s k : list N) : list N := mix_columns (shift_rows (sub_bytes (xorl s k))).
Lemma get_mix s j r : length s = 16 -> j < 4 -> r < 4 ->
  get (mix_columns s) (4 * j + r) = get (mix_column [0x02; 0x03; 0x01; 0x01]%N [get s (4 * j); get s (4 * j + 1); get s (4 * j + 2); get s (4 * j + 3)]) r.
Proof.
  intros L J R. unfold mix_columns. rewrite mix_with_16 by exact L. state16 s. cbn [firstn skipn].
  assert (Q : forall col, length (mix_column [0x02; 0x03; 0x01; 0x01]%N col) = 4) by (intros; apply mix_column_length).
  unfold get at 1. destruct j as [|[|[|[|]]]]; [..|lia].
  - rewrite app_nth1 by (rewrite Q; lia). reflexivity.
  - rewrite app_nth2, Q by (rewrite Q; lia). rewrite app_nth1 by (rewrite Q; lia). replace (4 * 1 + r - 4) with r by lia. reflexivity.
  - rewrite app_nth2, Q by (rewrite Q; lia). rewrite app_nth2, Q by (rewrite Q; lia). rewrite app_nth1 by (rewrite Q; lia). replace (4 * 2 + r - 4 - 4) with r by lia. reflexivity.
  - rewrite app_nth2, Q by (rewrite Q; lia). rewrite app_nth2, Q by (rewrite Q; lia). rewrite app_nth2, Q by (rewrite Q; lia). replace (4 * 3 + r - 4 - 4 - 4) with r by lia. reflexivity.
Qed.
Section Rounds.
Variables (e : encodings) (key : list N) (out : nat -> N -> N).
Hypothesis G : good e.
Hypothesis LK : 16 <= length key.
Hypothesis BK : bytes key.
Let ek := shifted_key (expandKey key).
Let rk := aes_round_key (firstn 16 key).
Lemma K16 : block16 (firstn 16 key).
Proof. split; [rewrite firstn_length; lia|now apply bytes_firstn]. Qed.
Lemma rk16 i : i <= 10 -> block16 (rk i).
Proof. intros I. apply block16_round_key; [apply K16|exact I]. Qed.
Lemma get_encoded i s p : p < 16 -> get (encoded e i s) p = enc_state e i p (get s p).
Proof. intros P. unfold encoded. now rewrite get_map_seq. Qed.
Lemma get_sub s p : length s = 16 -> p < 16 -> get (sub_bytes s) p = aes_sbox (get s p).
Proof. intros L P. unfold sub_bytes. apply get_map. lia. Qed.
(** the byte entering the S-box and leaving it *)
Lemma sub_ok i s j : i <= 9 -> j < 16 -> block16 s ->
  sbox (N.lxor (decode_in e i j (get (shiftRows (encoded e i s)) j)) (get ek (16 * i + j))) = get (shift_rows (sub_bytes (xorl s (rk i)))) j.
Proof.
  intros I J [LS BS]. pose proof (shiftindex_lt j J) as S. destruct (rk16 i ltac:(lia)) as [LR BR].
  rewrite get_shiftRows, get_encoded by auto. rewrite decode_enc by (auto using bytes_get). unfold ek. rewrite shifted_key_ok by (auto; lia).
  destruct (Nat.ltb_spec i 10) as [_|H]; [|lia]. fold rk. rewrite shift_rows_shiftRows, get_shiftRows by exact J.
  rewrite get_sub by (rewrite ?length_xorl; lia). rewrite get_xorl by lia. apply sbox_aes. apply byte_lxor; now apply bytes_get.
Qed.
Lemma block16_one_round s k : block16 s -> block16 k -> block16 (one_round s k).
Proof. intros S K. apply block16_mix, block16_shift, block16_sub, block16_xorl; assumption. Qed.
Lemma wb_round_ok i s : i < 9 -> block16 s -> wb_aes_round (gen_tables e ek out) (encoded e i s) i = encoded e (S i) (one_round s (rk i)).
Proof.
  intros I S. set (x := shift_rows (sub_bytes (xorl s (rk i)))).
  assert (X : block16 x) by (apply block16_shift, block16_sub, block16_xorl; [exact S|apply rk16; lia]).
  unfold encoded at 2. rewrite map_seq_columns. unfold wb_aes_round. cbv zeta. apply flat_map_ext_in. intros j J. apply in_seq in J.
  cbn [gen_tables t_II t_III t_IV_II t_IV_III].
  rewrite (half_column_ext (fun j x => if i <? 9 then typeII e ek i j x else out j (final e ek j x)) (typeII e ek i)) by (intros r y R; destruct (Nat.ltb_spec i 9); [reflexivity|lia]).
  rewrite (column_ok e ek i G I j _ (fun r => get x (4 * j + r))).
  - apply map_ext_in. intros r R. apply in_seq in R. apply f_equal. unfold one_round. fold x. rewrite get_mix by (try apply X; lia). rewrite Nat.add_0_r. reflexivity.
  - lia.
  - intros r. apply bytes_get, X.
  - intros r R. rewrite get_map_seq by exact R. apply sub_ok; auto; lia.
Qed.
Fixpoint states (n : nat) (b : list N) : list N := match n with 0 => b | S n' => one_round (states n' b) (rk n') end.
Lemma block16_states n b : n <= 10 -> block16 b -> block16 (states n b).
Proof. induction n as [|n IH]; intros I B; [exact B|]. cbn [states]. apply block16_one_round; [apply IH; auto; lia|apply rk16; lia]. Qed.
Lemma wb_rounds_ok n b : n <= 9 -> block16 b -> fold_left (wb_aes_round (gen_tables e ek out)) (seq 0 n) (encoded e 0 b) = encoded e n (states n b).
Proof.
  induction n as [|n IH]; intros I B; [reflexivity|]. rewrite seq_S, fold_left_app, IH by (auto; lia). cbn [fold_left Nat.add states]. apply wb_round_ok; [lia|]. apply block16_states; auto; lia.
Qed.
Lemma cipher_states n b : fold_left full_round (map rk (seq 1 n)) (add_round_key b (rk 0)) = xorl (states n b) (rk n).
Proof.
  induction n as [|n IH]; [reflexivity|]. rewrite seq_S, map_app, fold_left_app, IH. cbn [map fold_left Nat.add states]. reflexivity.
Qed.
Lemma aux_ok b : block16 b -> aux_encrypt (gen_tables e ek out) (ex_in (gen_tables e ek out) b) =
  map (fun j => (out j (MatMulNum 8 (fst (e_ex_out e j)) (get (aes_encrypt (firstn 16 key) b) j)) mod 256)%N) (seq 0 16).
Proof.
  intros B. unfold aux_encrypt. cbv zeta.
  assert (E0 : map (get (ex_in (gen_tables e ek out) b)) (seq 0 16) = encoded e 0 b).
  { apply map_ext_in. intros p P. apply in_seq in P. unfold ex_in. rewrite get_map_seq by lia. reflexivity. }
  rewrite E0. rewrite wb_rounds_ok by (auto; lia). apply map_ext_in. intros j J. apply in_seq in J. apply (f_equal (fun x => x mod 256)%N).
  cbn [gen_tables t_II]. change (9 <? 9) with false. cbv iota. apply f_equal. unfold final. cbv zeta.
  pose proof (block16_states 9 b ltac:(lia) B) as S9. rewrite sub_ok by (auto; lia). unfold ek. rewrite shifted_key_ok by (auto; lia). change (10 <? 10) with false. cbv iota. fold rk.
  unfold aes_encrypt, cipher. fold rk. rewrite cipher_states. unfold last_round, add_round_key.
  destruct (rk16 10 ltac:(lia)) as [L10 _]. rewrite get_xorl; [reflexivity|]. rewrite L10. apply block16_shift, block16_sub, block16_xorl; [exact S9|apply rk16; lia].
Qed.
End Rounds.

(** ** Generation *)
Lemma genMatpairs_ok n k rnd : size n -> forall pos, exists l pos', genMatpairs n k rnd pos = Ret (l, pos') /\ forall i, i < k -> mutually_inverse n (fst (pr l i)) (snd (pr l i)).
Proof.
  Local Transparent genMatpairs. intros S. induction k as [|k IH]; intros pos.
  - exists [], pos. split; [reflexivity|]. intros i I. lia.
  - destruct (genMatpair_lemma n rnd pos S) as (A & B & p & E & H). destruct (IH p) as (l & p' & E' & H').
    exists ((A, B) :: l), p'. split.
    + cbn [genMatpairs]. rewrite E, obind_ret, E', obind_ret. reflexivity.
    + intros [|i] I; [exact H|]. apply (H' i). lia.
Qed.
Local Opaque genMatpairs.
Lemma genPermutations_ok size k rnd junk : forall pos, let l := fst (genPermutations size k rnd junk pos) in forall i, i < k -> perm size (pr l i).
Proof.
  Local Transparent genPermutations. cbv zeta. induction k as [|k IH]; intros pos i I; [lia|]. cbn [genPermutations].
  pose proof (genPermutation_lemma size rnd pos (map (junk pos) (seq 0 size)) ltac:(now rewrite map_length, seq_length)) as H.
  destruct (genPermutation size rnd pos (map (junk pos) (seq 0 size))) as [[P Q] p]. specialize (IH p).
  destruct (genPermutations size k rnd junk p) as [l p']. cbn [fst] in *. destruct i as [|i]; [exact H|]. apply (IH i). lia.
Qed.
Local Opaque genPermutations.
Lemma gen_encodings_ok {A} rnd junk (fin : nat -> list (list N * list N) * A) :
  (forall pos i, i < 32 -> perm 16 (pr (fst (fin pos)) i)) ->
  exists e pos, gen_encodings rnd junk fin = Ret (e, snd (fin pos)) /\ good e.
Proof.
  intros HF. unfold gen_encodings.
  destruct (genMatpairs_ok 8 144 rnd size8 0) as (Ls & p1 & E1 & H1). rewrite E1, obind_ret.
  destruct (genMatpairs_ok 32 36 rnd size32 p1) as (MBs & p2 & E2 & H2). rewrite E2, obind_ret.
  destruct (genMatpairs_ok 8 32 rnd size8 p2) as (exs & p3 & E3 & H3). rewrite E3, obind_ret.
  pose proof (genPermutations_ok 16 2304 rnd junk p3) as H4. cbv zeta in H4. destruct (genPermutations 16 2304 rnd junk p3) as [o p4]. cbn [fst] in H4.
  pose proof (genPermutations_ok 16 1152 rnd junk p4) as H5. cbv zeta in H5. destruct (genPermutations 16 1152 rnd junk p4) as [o1 p5]. cbn [fst] in H5.
  pose proof (genPermutations_ok 16 576 rnd junk p5) as H6. cbv zeta in H6. destruct (genPermutations 16 576 rnd junk p5) as [o2 p6]. cbn [fst] in H6.
  specialize (HF p6). destruct (fin p6) as [ins a] eqn:EF. cbn [fst] in HF.
  eexists; exists p6. split; [rewrite EF; reflexivity|].
  constructor; cbn [e_L e_MB e_ex_in e_ex_out e_II e_III e_IV_II1 e_IV_III1 e_IV_II2 e_IV_III2 e_in]; intros; try (intros k K).
  - apply H1. lia.
  - apply H2. lia.
  - apply H3. lia.
  - apply H3. lia.
  - apply H4. lia.
  - apply H4. lia.
  - apply H5. lia.
  - apply H5. lia.
  - apply H6. lia.
  - apply H6. lia.
  - apply HF. lia.
Qed.

(** ** wbaes.c *)
Lemma pr_map (f : nat -> list N * list N) n i : i < n -> pr (map f (seq 0 n)) i = f i.
Proof.
  intros I. unfold pr. rewrite (nth_indep _ ([], []) (f 0)) by (rewrite map_length, seq_length; exact I). rewrite (map_nth f). rewrite seq_nth by exact I. reflexivity.
Qed.
Lemma fin_wbaes_ok rnd junk pos : (forall i, i < 32 -> perm 16 (pr (fst (fin_wbaes rnd junk pos)) i)) /\ (forall i j, i < 16 -> j < 2 -> perm 16 (snd (fin_wbaes rnd junk pos) i j)).
Proof.
  unfold fin_wbaes. pose proof (genPermutations_ok 16 64 rnd junk pos) as H. cbv zeta in H. destruct (genPermutations 16 64 rnd junk pos) as [o p]. cbn [fst snd] in *.
  split; intros; [rewrite pr_map by assumption|]; apply H; lia.
Qed.
Lemma typeIb_out e (out : nat -> nat -> list N * list N) i x : good e -> (forall i j, i < 16 -> j < 2 -> perm 16 (out i j)) -> i < 16 -> byte x ->
  typeIb e out i (enc_out out i (MatMulNum 8 (fst (e_ex_out e i)) x) mod 256)%N = x.
Proof.
  intros G H I B. pose proof (g_ex_out e G i I) as M. unfold typeIb, enc_out. rewrite N.mod_small by apply enc8_byte.
  rewrite enc8_inv by (try apply H; try lia; now apply mul_byte8). now apply mul_inv8.
Qed.
Lemma list16 s : length s = 16 -> map (get s) (seq 0 16) = s.
Proof. intros L. state16 s. reflexivity. Qed.
Lemma wbaes_conforms_lemma rnd junk key : bytes key -> 16 <= length key ->
  exists ctx, wbaes_gen_table rnd junk key = Ret ctx /\ forall b, block16 b -> wbaes_encrypt ctx b = aes_encrypt (firstn 16 key) b.
Proof.
  intros BK LK. destruct (gen_encodings_ok rnd junk (fin_wbaes rnd junk) (fun pos => proj1 (fin_wbaes_ok rnd junk pos))) as (e & pos & E & G).
  pose proof (proj2 (fin_wbaes_ok rnd junk pos)) as HO. set (out := snd (fin_wbaes rnd junk pos)) in *.
  unfold wbaes_gen_table. cbv zeta. destruct (Nat.ltb_spec (length key) 16) as [H|_]; [lia|]. rewrite E, obind_ret. eexists. split; [reflexivity|].
  intros b B. unfold wbaes_encrypt. cbv zeta. cbn [wb_t wb_Ib]. rewrite (aux_ok e key (enc_out out) G LK BK b B).
  assert (C : block16 (aes_encrypt (firstn 16 key) b)) by (apply block16_aes_encrypt; [now apply K16|exact B]).
  transitivity (map (get (aes_encrypt (firstn 16 key) b)) (seq 0 16)); [|apply list16, C]. apply map_ext_in. intros j J. apply in_seq in J. rewrite get_map_seq by lia.
  apply typeIb_out; auto; [lia|]. now apply bytes_get, C.
Qed.
Lemma wbaes_short_key_refuted_lemma rnd junk key : length key < 16 -> wbaes_gen_table rnd junk key = Undef.
Proof. intros L. unfold wbaes_gen_table. destruct (Nat.ltb_spec (length key) 16) as [_|H]; [reflexivity|lia]. Qed.
