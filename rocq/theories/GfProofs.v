(** * The 4-bit table method of gcm128.c multiplies in GF(2^128). *)
From Verif Require Import Base CbcModel GcmModel GcmSpec.
From Coq Require Import ZifyBool ZifyNat ZifyN.
Local Open Scope N_scope.

(** ** gf_shift is linear *)
Lemma gf_shift_lxor a b : gf_shift (N.lxor a b) = N.lxor (gf_shift a) (gf_shift b).
Proof.
  unfold gf_shift. rewrite N.lxor_spec, N.shiftr_lxor.
  destruct (N.testbit a 0), (N.testbit b 0); cbn [xorb].
  - set (x := N.shiftr a 1); set (y := N.shiftr b 1).
    rewrite (N.lxor_comm y gf_R), N.lxor_assoc, <- (N.lxor_assoc gf_R gf_R), N.lxor_nilpotent, N.lxor_0_l.
    reflexivity.
  - rewrite !N.lxor_assoc. f_equal. apply N.lxor_comm.
  - now rewrite N.lxor_assoc.
  - reflexivity.
Qed.
Lemma gf_shift_0 : gf_shift 0 = 0.
Proof. reflexivity. Qed.
Lemma gf_shift_bound V : V < 2 ^ 128 -> gf_shift V < 2 ^ 128.
Proof.
  intros H. unfold gf_shift.
  assert (N.shiftr V 1 < 2 ^ 128).
  { rewrite N.shiftr_div_pow2. apply N.div_lt_upper_bound; lia. }
  destruct (N.testbit V 0); auto. apply lxor_lt; auto. reflexivity.
Qed.

(** ** sum form of Algorithm 1 *)
Fixpoint mulsum (k : nat) (X V : N) : N :=
  match k with
  | O => 0
  | S k' => N.lxor (if N.testbit X (N.of_nat k') then V else 0) (mulsum k' X (gf_shift V))
  end.
Lemma gf_mul_loop_sum k X Z V : gf_mul_loop k X Z V = N.lxor Z (mulsum k X V).
Proof.
  revert Z V; induction k as [|k IH]; intros Z V; cbn [gf_mul_loop mulsum].
  - now rewrite N.lxor_0_r.
  - rewrite IH. destruct (N.testbit X (N.of_nat k)).
    + now rewrite N.lxor_assoc.
    + now rewrite N.lxor_0_l.
Qed.
Lemma mulsum_shift k X V : mulsum k X (gf_shift V) = gf_shift (mulsum k X V).
Proof.
  revert V; induction k as [|k IH]; intros V; cbn [mulsum]; auto.
  rewrite IH, gf_shift_lxor. destruct (N.testbit X (N.of_nat k)); auto.
Qed.
Lemma mulsum_S k X V : mulsum (S k) X V =
  N.lxor (if N.testbit X (N.of_nat k) then V else 0) (gf_shift (mulsum k X V)).
Proof. cbn [mulsum]. now rewrite mulsum_shift. Qed.
Lemma mulsum_ext k X Y V : (forall i, (i < N.of_nat k) -> N.testbit X i = N.testbit Y i) ->
  mulsum k X V = mulsum k Y V.
Proof.
  revert V; induction k as [|k IH]; intros V H; auto. cbn [mulsum].
  rewrite H by lia. f_equal. apply IH. intros i Hi. apply H. lia.
Qed.
Lemma mulsum_bound k X V : V < 2 ^ 128 -> mulsum k X V < 2 ^ 128.
Proof.
  revert V; induction k as [|k IH]; intros V H; cbn [mulsum]; [reflexivity|].
  apply lxor_lt.
  - destruct (N.testbit X _); auto. reflexivity.
  - apply IH. now apply gf_shift_bound.
Qed.

(** nibble [n] (most significant bit first) times V *)
Definition nib (V n : N) : N :=
  N.lxor (if N.testbit n 3 then V else 0)
  (N.lxor (if N.testbit n 2 then gf_shift V else 0)
  (N.lxor (if N.testbit n 1 then gf_shift (gf_shift V) else 0)
          (if N.testbit n 0 then gf_shift (gf_shift (gf_shift V)) else 0))).
Definition gf_shift4 (z : N) : N := gf_shift (gf_shift (gf_shift (gf_shift z))).
Lemma gf_shift4_lxor a b : gf_shift4 (N.lxor a b) = N.lxor (gf_shift4 a) (gf_shift4 b).
Proof. unfold gf_shift4. now rewrite !gf_shift_lxor. Qed.

Lemma gf_shift_if (b : bool) V : gf_shift (if b then V else 0) = if b then gf_shift V else 0.
Proof. destruct b; auto. Qed.

Lemma mulsum_nibble k X V n :
  (forall j, j < 4 -> N.testbit X (N.of_nat k + j) = N.testbit n j) ->
  mulsum (4 + k) X V = N.lxor (nib V n) (gf_shift4 (mulsum k X V)).
Proof.
  intros H.
  change (4 + k)%nat with (S (S (S (S k)))). rewrite !mulsum_S, !gf_shift_lxor, !gf_shift_if.
  pose proof (H 0 ltac:(lia)) as H0. pose proof (H 1 ltac:(lia)) as H1.
  pose proof (H 2 ltac:(lia)) as H2. pose proof (H 3 ltac:(lia)) as H3.
  replace (N.of_nat k) with (N.of_nat k + 0) by lia. rewrite H0.
  replace (N.of_nat (S k)) with (N.of_nat k + 1) by lia. rewrite H1.
  replace (N.of_nat (S (S k))) with (N.of_nat k + 2) by lia. rewrite H2.
  replace (N.of_nat (S (S (S k)))) with (N.of_nat k + 3) by lia. rewrite H3.
  unfold nib, gf_shift4. rewrite !N.lxor_assoc. reflexivity.
Qed.

(** ** shift by 4 with the reduction table *)
Lemma gf_shift_even V : gf_shift (2 * V) = V.
Proof.
  unfold gf_shift. rewrite N.testbit_even_0. rewrite N.shiftr_div_pow2.
  change (2 ^ 1) with 2. rewrite N.mul_comm. apply N.div_mul. lia.
Qed.
Lemma gf_shift4_mult16 V : gf_shift4 (V * 2 ^ 4) = V.
Proof.
  unfold gf_shift4. replace (V * 2 ^ 4) with (2 * (2 * (2 * (2 * V)))) by (change (2^4) with 16; lia).
  now rewrite !gf_shift_even.
Qed.
Lemma last4_sweep : forallb (fun r => gf_shift4 r =? N.shiftl (get last4 (N.to_nat r)) 112)
  (map N.of_nat (seq 0 16)) = true.
Proof. vm_compute. reflexivity. Qed.
Lemma last4_spec r : r < 16 -> gf_shift4 r = N.shiftl (get last4 (N.to_nat r)) 112.
Proof.
  intros H. pose proof last4_sweep as HS. rewrite forallb_forall in HS.
  apply N.eqb_eq. apply (HS r). rewrite in_map_iff. exists (N.to_nat r). split; [lia|].
  apply in_seq. lia.
Qed.
Lemma gf_shift4_split z : gf_shift4 z =
  N.lxor (N.shiftr z 4) (N.shiftl (get last4 (N.to_nat (z mod 16))) 112).
Proof.
  pose proof (N.div_mod z 16 ltac:(lia)) as E.
  assert (M : z mod 16 < 16) by (apply N.mod_lt; lia).
  assert (E' : z = N.lxor (z / 16 * 2 ^ 4) (z mod 16)).
  { rewrite <- N.shiftl_mul_pow2, <- add_shift_lxor by (change (2^4) with 16; auto).
    change (2 ^ 4) with 16. lia. }
  rewrite E' at 1. rewrite gf_shift4_lxor, gf_shift4_mult16, last4_spec by auto.
  now rewrite N.shiftr_div_pow2.
Qed.

(** ** 128-bit values as two 64-bit words *)
Definition join (h l : N) : N := h * 2 ^ 64 + l.
Definition joinp (z : N * N) : N := join (fst z) (snd z).
Lemma join_lxor a b c d : b < 2 ^ 64 -> d < 2 ^ 64 ->
  N.lxor (join a b) (join c d) = join (N.lxor a c) (N.lxor b d).
Proof. unfold join. apply lxor_add_shift. Qed.
Lemma testbit_join h l i : l < 2 ^ 64 ->
  N.testbit (join h l) i = if i <? 64 then N.testbit l i else N.testbit h (i - 64).
Proof. apply testbit_add_shift. Qed.

Lemma w64_bound x : w64 x < 2 ^ 64.
Proof. apply N.mod_lt. discriminate. Qed.
Lemma testbit_w64 x i : N.testbit (w64 x) i = (i <? 64) && N.testbit x i.
Proof.
  unfold w64. destruct (N.ltb_spec i 64).
  - now rewrite N.mod_pow2_bits_low.
  - now rewrite N.mod_pow2_bits_high.
Qed.
Lemma testbit_shl64 x n i : N.testbit (shl64 x n) i = (i <? 64) && ((n <=? i) && N.testbit x (i - n)).
Proof.
  unfold shl64. rewrite testbit_w64. f_equal.
  destruct (N.leb_spec n i).
  - now rewrite N.shiftl_spec_high'.
  - now rewrite N.shiftl_spec_low.
Qed.
Lemma lor_lt n a b : a < 2 ^ n -> b < 2 ^ n -> N.lor a b < 2 ^ n.
Proof.
  intros Ha Hb. rewrite <- (N.mod_small a (2^n)), <- (N.mod_small b (2^n)) by auto.
  rewrite <- !N.land_ones, <- N.land_lor_distr_l. rewrite N.land_ones. apply N.mod_lt.
  apply N.pow_nonzero. discriminate.
Qed.
Lemma shiftr_lt n a k : a < 2 ^ n -> N.shiftr a k < 2 ^ n.
Proof.
  intros H. rewrite N.shiftr_div_pow2. assert (2 ^ k <> 0) by (apply N.pow_nonzero; lia).
  eapply N.le_lt_trans; [|exact H]. apply N.div_le_upper_bound; auto. nia.
Qed.

(** shifting the pair right by k <= 64 *)
Lemma join_shiftr h l k : h < 2 ^ 64 -> l < 2 ^ 64 -> 0 < k -> k <= 64 ->
  N.shiftr (join h l) k = join (N.shiftr h k) (N.lor (shl64 h (64 - k)) (N.shiftr l k)).
Proof.
  intros Hh Hl Hk Hk2. apply N.bits_inj; intros i.
  assert (HB : N.lor (shl64 h (64 - k)) (N.shiftr l k) < 2 ^ 64).
  { apply lor_lt; [apply w64_bound|]. now apply shiftr_lt. }
  rewrite N.shiftr_spec', !testbit_join by auto.
  rewrite N.lor_spec, testbit_shl64, !N.shiftr_spec'.
  destruct (N.ltb_spec i 64) as [L|L]; cbn [andb].
  - destruct (N.ltb_spec (i + k) 64) as [L2|L2].
    + destruct (N.leb_spec (64 - k) i); [lia|]. reflexivity.
    + destruct (N.leb_spec (64 - k) i); [|lia]. cbn [andb].
      rewrite (testbit_high l 64 (i + k)) by (auto; lia). rewrite orb_false_r. f_equal. lia.
  - destruct (N.ltb_spec (i + k) 64); [lia|]. f_equal. lia.
Qed.

Lemma last4_bound r : get last4 r < 2 ^ 16.
Proof.
  assert (H : Forall (fun x => x < 2 ^ 16) last4) by (repeat constructor).
  unfold get. destruct (Nat.lt_ge_cases r (length last4)) as [L|L].
  - rewrite Forall_forall in H. apply H. now apply nth_In.
  - rewrite nth_overflow by auto. reflexivity.
Qed.

Definition tables_ok (HH HL : list N) (H : N) : Prop :=
  length HH = 16%nat /\ length HL = 16%nat /\
  forall n, n < 16 -> get HH (N.to_nat n) < 2 ^ 64 /\ get HL (N.to_nat n) < 2 ^ 64 /\
    join (get HH (N.to_nat n)) (get HL (N.to_nat n)) = nib H n.

Definition w64p (z : N * N) : Prop := fst z < 2 ^ 64 /\ snd z < 2 ^ 64.

Lemma mult_nibble_spec HH HL H z n : tables_ok HH HL H -> w64p z -> n < 16 ->
  w64p (mult_nibble HH HL z (N.to_nat n)) /\
  joinp (mult_nibble HH HL z (N.to_nat n)) = N.lxor (gf_shift4 (joinp z)) (nib H n).
Proof.
  intros [_ [_ HT]] [Hh Hl] Hn. destruct z as [zh zl]. cbn [fst snd] in *.
  destruct (HT n Hn) as [T1 [T2 T3]].
  unfold mult_nibble. set (rem := N.land zl 15).
  assert (Erem : rem = zl mod 16) by (unfold rem; change 15 with (N.ones 4); rewrite N.land_ones; reflexivity).
  assert (Hl4 : shl64 (get last4 (N.to_nat rem)) 48 = get last4 (N.to_nat rem) * 2 ^ 48).
  { unfold shl64, w64. rewrite N.shiftl_mul_pow2. apply N.mod_small.
    pose proof (last4_bound (N.to_nat rem)). change (2 ^ 64) with (2 ^ 16 * 2 ^ 48). nia. }
  assert (B1 : N.lor (shl64 zh 60) (N.shiftr zl 4) < 2 ^ 64).
  { apply lor_lt; [apply w64_bound|]. now apply shiftr_lt. }
  assert (B2 : shl64 (get last4 (N.to_nat rem)) 48 < 2 ^ 64) by apply w64_bound.
  assert (B3 : N.shiftr zh 4 < 2 ^ 64) by (now apply shiftr_lt).
  split.
  - split; cbn [fst snd]; apply lxor_lt; auto. now apply lxor_lt.
  - unfold joinp; cbn [fst snd]. rewrite <- join_lxor by auto. rewrite T3. f_equal.
    rewrite <- (N.lxor_0_r (N.lor _ _)). rewrite <- join_lxor by (auto; reflexivity).
    rewrite gf_shift4_split. f_equal.
    + rewrite join_shiftr by (auto; lia). reflexivity.
    + unfold join. rewrite N.add_0_r, Hl4, N.shiftl_mul_pow2.
      rewrite <- N.mul_assoc. change (2 ^ 48 * 2 ^ 64) with (2 ^ 112).
      replace ((zh * 2 ^ 64 + zl) mod 16) with rem; [reflexivity|].
      rewrite Erem. change (2 ^ 64) with (2 ^ 60 * 16). rewrite N.mul_assoc.
      rewrite N.add_comm. now rewrite N.mod_add by lia.
Qed.

(** ** the loop over the 16 bytes *)
Definition byte_step HH HL (b : N) (z : N * N) : N * N :=
  mult_nibble HH HL (mult_nibble HH HL z (N.to_nat (N.land b 0x0f))) (N.to_nat (N.shiftr b 4)).

Lemma testbit_be_high b l j : bytes l -> (j < 8)%N ->
  N.testbit (be_to_N (b :: l)) (N.of_nat (8 * length l) + j) = N.testbit b j.
Proof.
  intros Hl Hj. rewrite be_to_N_cons, pow256.
  pose proof (be_to_N_bound l Hl) as HB. rewrite pow256 in HB.
  rewrite testbit_add_shift by auto.
  destruct (N.ltb_spec (N.of_nat (8 * length l) + j) (8 * N.of_nat (length l))); [lia|].
  f_equal. lia.
Qed.
Lemma testbit_be_low b l i : bytes l -> (i < N.of_nat (8 * length l))%N ->
  N.testbit (be_to_N (b :: l)) i = N.testbit (be_to_N l) i.
Proof.
  intros Hl Hj. rewrite be_to_N_cons, pow256.
  pose proof (be_to_N_bound l Hl) as HB. rewrite pow256 in HB.
  rewrite testbit_add_shift by auto.
  destruct (N.ltb_spec i (8 * N.of_nat (length l))); [auto|lia].
Qed.

Lemma byte_fold_spec HH HL H l : tables_ok HH HL H -> bytes l ->
  let z := fold_right (byte_step HH HL) (0, 0) l in
  w64p z /\ joinp z = mulsum (8 * length l) (be_to_N l) H.
Proof.
  intros HT Hl. induction Hl as [|b l Hb Hl IH]; [split; [split; reflexivity|reflexivity]|].
  cbn [fold_right]. destruct IH as [IHw IHj]. set (z := fold_right _ _ l) in *.
  unfold byte_step.
  assert (Hlo : N.land b 15 < 16) by (change 15 with (N.ones 4); rewrite N.land_ones; apply N.mod_lt; lia).
  assert (Hhi : N.shiftr b 4 < 16).
  { rewrite N.shiftr_div_pow2. unfold byte in Hb. apply N.div_lt_upper_bound; [lia|].
    change (2^4*16) with 256. auto. }
  destruct (mult_nibble_spec HH HL H z _ HT IHw Hlo) as [W1 J1].
  destruct (mult_nibble_spec HH HL H _ _ HT W1 Hhi) as [W2 J2].
  split; auto. rewrite J2, J1, IHj.
  cbn [length]. replace (8 * S (length l))%nat with (4 + (4 + 8 * length l))%nat by lia.
  rewrite (mulsum_nibble (4 + 8 * length l) _ _ (N.shiftr b 4)).
  - rewrite (mulsum_nibble (8 * length l) _ _ (N.land b 15)).
    + rewrite (mulsum_ext _ (be_to_N (b :: l)) (be_to_N l)) by (intros; now apply testbit_be_low).
      rewrite N.lxor_comm. f_equal. f_equal. apply N.lxor_comm.
    + intros j Hj. rewrite testbit_be_high by (auto; lia).
      rewrite N.land_spec. change 15 with (N.ones 4). rewrite N.ones_spec_low by auto. now rewrite andb_true_r.
  - intros j Hj. replace (N.of_nat (4 + 8 * length l) + j) with (N.of_nat (8 * length l) + (4 + j)) by lia.
    rewrite testbit_be_high by (auto; lia). rewrite N.shiftr_spec'. f_equal. lia.
Qed.

Lemma put_u32_be_spec n : put_u32_be n = N_to_be 4 n.
Proof.
  unfold put_u32_be. cbn [N_to_be N.of_nat].
  rewrite !N.shiftr_div_pow2. change (256 ^ 0) with 1. rewrite N.div_1_r. reflexivity.
Qed.
Lemma N_to_be_app n k x : N_to_be (n + k) x = N_to_be n (x / 256 ^ N.of_nat k) ++ N_to_be k x.
Proof.
  induction n as [|n IH]; [reflexivity|]. cbn [Nat.add N_to_be app]. rewrite IH. f_equal.
  rewrite N.div_div by (apply N.pow_nonzero; lia). rewrite <- N.pow_add_r. do 3 f_equal. lia.
Qed.
Lemma put_join h l : h < 2 ^ 64 -> l < 2 ^ 64 ->
  put_u32_be (N.shiftr h 32) ++ put_u32_be h ++ put_u32_be (N.shiftr l 32) ++ put_u32_be l
  = N_to_be 16 (join h l).
Proof.
  intros Hh Hl. rewrite !put_u32_be_spec, !N.shiftr_div_pow2.
  change (2 ^ 32) with (256 ^ N.of_nat 4).
  rewrite (app_assoc (N_to_be 4 (h / _))). rewrite <- !N_to_be_app. cbn [Nat.add].
  rewrite (N_to_be_app 8 8). change (256 ^ N.of_nat 8) with (2 ^ 64). unfold join. f_equal.
  - rewrite N.add_comm, N.div_add by lia. now rewrite N.div_small by auto.
  - rewrite <- (N_to_be_mod 8 8 (h * 2 ^ 64 + l)) by lia. change (256 ^ N.of_nat 8) with (2 ^ 64).
    rewrite N.add_comm, N.mod_add by lia. now rewrite N.mod_small by auto.
Qed.

Lemma length16_destruct (x : list N) : length x = 16%nat ->
  exists a0 a1 a2 a3 a4 a5 a6 a7 a8 a9 a10 a11 a12 a13 a14 a15,
  x = [a0;a1;a2;a3;a4;a5;a6;a7;a8;a9;a10;a11;a12;a13;a14;a15].
Proof.
  intros H. do 16 (destruct x as [|? x]; [discriminate|]).
  destruct x; [|discriminate]. repeat eexists.
Qed.

Lemma mult_nibble_zero HH HL n :
  mult_nibble HH HL (0, 0) n = (get HH n, get HL n).
Proof. unfold mult_nibble. change (N.lor (shl64 0 60) (N.shiftr 0 4)) with 0.
  change (N.lxor (N.shiftr 0 4) (shl64 (get last4 (N.to_nat (N.land 0 15))) 48)) with 0.
  now rewrite !N.lxor_0_l. Qed.

Lemma mult_fold_generic (A : Type) (f : A -> nat -> A) (x : list N) (z0 : A) : length x = 16%nat ->
  fold_left (fun z i => f (if (i =? 15)%nat then z else f z (N.to_nat (N.land (get x i) 0x0f)))
                          (N.to_nat (N.shiftr (get x i) 4)))
            [15;14;13;12;11;10;9;8;7;6;5;4;3;2;1;0]%nat (f z0 (N.to_nat (N.land (get x 15) 0x0f)))
  = fold_right (fun b z => f (f z (N.to_nat (N.land b 0x0f))) (N.to_nat (N.shiftr b 4))) z0 x.
Proof.
  intros Lx.
  destruct (length16_destruct x Lx) as (a0&a1&a2&a3&a4&a5&a6&a7&a8&a9&a10&a11&a12&a13&a14&a15&->).
  reflexivity.
Qed.

Lemma gcm_mult_fold HH HL x : length x = 16%nat ->
  gcm_mult HH HL x =
  (let '(zh, zl) := fold_right (byte_step HH HL) (0, 0) x in
   put_u32_be (N.shiftr zh 32) ++ put_u32_be zh ++ put_u32_be (N.shiftr zl 32) ++ put_u32_be zl).
Proof.
  intros Lx. unfold gcm_mult. rewrite <- mult_nibble_zero.
  rewrite (mult_fold_generic _ (mult_nibble HH HL) x (0, 0) Lx). reflexivity.
Qed.

Lemma gcm_mult_spec HH HL H x : tables_ok HH HL H -> block16 x ->
  gcm_mult HH HL x = N_to_be 16 (gf_mul (be_to_N x) H).
Proof.
  intros HT [Lx Bx].
  destruct (byte_fold_spec HH HL H x HT Bx) as [[W1 W2] J].
  unfold gf_mul. rewrite gf_mul_loop_sum, N.lxor_0_l.
  rewrite Lx in J. change (8 * 16)%nat with 128%nat in J. rewrite <- J.
  rewrite gcm_mult_fold by auto.
  destruct (fold_right (byte_step HH HL) (0, 0) x) as [zh zl].
  cbn [fst snd] in *. unfold joinp; cbn [fst snd]. now apply put_join.
Qed.

(** ** table construction *)
Lemma get_u32_be_spec a b c d l i : byte a -> byte b -> byte c -> byte d ->
  get l i = a -> get l (i + 1) = b -> get l (i + 2) = c -> get l (i + 3) = d ->
  get_u32_be l i = be_to_N [a; b; c; d].
Proof.
  unfold byte. intros Ha Hb Hc Hd E1 E2 E3 E4. unfold get_u32_be. rewrite E1, E2, E3, E4.
  assert (D : forall x y n, y < 2 ^ n -> N.lor (N.shiftl x n) y = x * 2 ^ n + y).
  { intros x y n Hy. rewrite add_shift_lxor by auto. symmetry. apply N.lxor_lor.
    apply N.bits_inj; intros j. rewrite N.land_spec, N.bits_0.
    destruct (N.lt_ge_cases j n); [rewrite N.shiftl_spec_low by auto; reflexivity|].
    rewrite (testbit_high y n j) by auto. apply andb_false_r. }
  unfold be_to_N. cbn [fold_left].
  rewrite !N.lor_assoc || idtac. rewrite <- !N.lor_assoc.
  rewrite (D c d 8) by (change (2^8) with 256; auto).
  rewrite (D b _ 16) by (change (2^16) with 65536; change (2^8) with 256; nia).
  rewrite (D a _ 24) by (change (2^24) with 16777216; change (2^16) with 65536; change (2^8) with 256; nia).
  change (2^24) with 16777216; change (2^16) with 65536; change (2^8) with 256. lia.
Qed.
Lemma init_words h : block16 h ->
  let vh := N.lor (N.shiftl (get_u32_be h 0) 32) (get_u32_be h 4) in
  let vl := N.lor (N.shiftl (get_u32_be h 8) 32) (get_u32_be h 12) in
  vh < 2 ^ 64 /\ vl < 2 ^ 64 /\ join vh vl = be_to_N h.
Proof.
  intros [Lh Bh].
  destruct (length16_destruct h Lh) as (a0&a1&a2&a3&a4&a5&a6&a7&a8&a9&a10&a11&a12&a13&a14&a15&->).
  repeat match goal with H : bytes (_ :: _) |- _ => inversion H; clear H; subst
                       | H : Forall _ (_ :: _) |- _ => inversion H; clear H; subst end.
  cbv zeta.
  rewrite (get_u32_be_spec a0 a1 a2 a3 _ 0) by auto.
  rewrite (get_u32_be_spec a4 a5 a6 a7 _ 4) by auto.
  rewrite (get_u32_be_spec a8 a9 a10 a11 _ 8) by auto.
  rewrite (get_u32_be_spec a12 a13 a14 a15 _ 12) by auto.
  assert (HB : forall a b c d, byte a -> byte b -> byte c -> byte d -> be_to_N [a;b;c;d] < 2 ^ 32).
  { intros. apply (be_to_N_bound [a;b;c;d]). repeat constructor; auto. }
  assert (HL : forall x y, y < 2 ^ 32 -> N.lor (N.shiftl x 32) y = x * 2 ^ 32 + y).
  { intros x y Hy. rewrite add_shift_lxor by auto. symmetry. apply N.lxor_lor.
    apply N.bits_inj; intros j. rewrite N.land_spec, N.bits_0.
    destruct (N.lt_ge_cases j 32); [rewrite N.shiftl_spec_low by auto; reflexivity|].
    rewrite (testbit_high y 32 j) by auto. apply andb_false_r. }
  rewrite !HL by auto.
  pose proof (HB a0 a1 a2 a3 ltac:(auto) ltac:(auto) ltac:(auto) ltac:(auto)).
  pose proof (HB a4 a5 a6 a7 ltac:(auto) ltac:(auto) ltac:(auto) ltac:(auto)).
  pose proof (HB a8 a9 a10 a11 ltac:(auto) ltac:(auto) ltac:(auto) ltac:(auto)).
  pose proof (HB a12 a13 a14 a15 ltac:(auto) ltac:(auto) ltac:(auto) ltac:(auto)).
  change (2 ^ 64) with (2 ^ 32 * 2 ^ 32).
  split; [nia|]. split; [nia|].
  change [a0;a1;a2;a3;a4;a5;a6;a7;a8;a9;a10;a11;a12;a13;a14;a15]
    with ([a0;a1;a2;a3] ++ [a4;a5;a6;a7] ++ [a8;a9;a10;a11] ++ [a12;a13;a14;a15]).
  rewrite !be_to_N_app. cbn [length app].
  change (256 ^ N.of_nat 12) with (2 ^ 32 * 2 ^ 32 * 2 ^ 32).
  change (256 ^ N.of_nat 8) with (2 ^ 32 * 2 ^ 32).
  change (256 ^ N.of_nat 4) with (2 ^ 32).
  unfold join. change (2 ^ 64) with (2 ^ 32 * 2 ^ 32). set (p := 2 ^ 32).
  nia.
Qed.

Lemma shift1_words vh vl : vh < 2 ^ 64 -> vl < 2 ^ 64 ->
  let vl' := N.lor (shl64 vh 63) (N.shiftr vl 1) in
  let vh' := N.lxor (N.shiftr vh 1) (shl64 (N.land vl 1 * 0xe1000000) 32) in
  vh' < 2 ^ 64 /\ vl' < 2 ^ 64 /\ join vh' vl' = gf_shift (join vh vl).
Proof.
  intros Hh Hl vl' vh'.
  assert (B1 : vl' < 2 ^ 64) by (apply lor_lt; [apply w64_bound|now apply shiftr_lt]).
  assert (B2 : vh' < 2 ^ 64) by (apply lxor_lt; [now apply shiftr_lt|apply w64_bound]).
  split; auto. split; auto.
  unfold gf_shift. rewrite testbit_join by auto. cbn [N.ltb N.compare].
  change (0 <? 64) with true. cbn [andb].
  assert (E : N.land vl 1 = if N.testbit vl 0 then 1 else 0).
  { change 1 with (N.ones 1) at 1. rewrite N.land_ones. change (2 ^ 1) with 2.
    rewrite <- N.bit0_mod. destruct (N.testbit vl 0); reflexivity. }
  unfold vh'. rewrite E.
  rewrite <- (N.lxor_0_r vl'), <- join_lxor by (auto; reflexivity).
  rewrite join_shiftr by (auto; lia).
  destruct (N.testbit vl 0); [f_equal; reflexivity|].
  change (join (shl64 (0 * 3774873600) 32) 0) with 0. now rewrite N.lxor_0_r.
Qed.

Lemma init_tables_eq h :
  exists v0h v0l, v0h = N.lor (N.shiftl (get_u32_be h 0) 32) (get_u32_be h 4) /\
    v0l = N.lor (N.shiftl (get_u32_be h 8) 32) (get_u32_be h 12) /\
  let sh vh vl := N.lxor (N.shiftr vh 1) (shl64 (N.land vl 1 * 0xe1000000) 32) in
  let sl vh vl := N.lor (shl64 vh 63) (N.shiftr vl 1) in
  let v1h := sh v0h v0l in let v1l := sl v0h v0l in
  let v2h := sh v1h v1l in let v2l := sl v1h v1l in
  let v3h := sh v2h v2l in let v3l := sl v2h v2l in
  let fill (a b c d : N) :=
    [0; d; c; N.lxor c d; b; N.lxor b d; N.lxor b c; N.lxor b (N.lxor c d);
     a; N.lxor a d; N.lxor a c; N.lxor a (N.lxor c d); N.lxor a b; N.lxor a (N.lxor b d);
     N.lxor a (N.lxor b c); N.lxor a (N.lxor b (N.lxor c d))] in
  init_tables h = (fill v0h v1h v2h v3h, fill v0l v1l v2l v3l).
Proof. eexists; eexists. split; [reflexivity|]. split; reflexivity. Qed.

Lemma init_tables_ok h HH HL : block16 h -> init_tables h = (HH, HL) -> tables_ok HH HL (be_to_N h).
Proof.
  intros Hh E. destruct (init_words h Hh) as [B0h [B0l J0]].
  destruct (init_tables_eq h) as (v0h & v0l & E1 & E2 & HT).
  rewrite <- E1 in *. rewrite <- E2 in *. clear E1 E2. cbv zeta in HT. rewrite E in HT. clear E.
  destruct (shift1_words v0h v0l B0h B0l) as [B1h [B1l J1]].
  set (v1h := N.lxor (N.shiftr v0h 1) _) in *. set (v1l := N.lor (shl64 v0h 63) _) in *.
  destruct (shift1_words v1h v1l B1h B1l) as [B2h [B2l J2]].
  set (v2h := N.lxor (N.shiftr v1h 1) _) in *. set (v2l := N.lor (shl64 v1h 63) _) in *.
  destruct (shift1_words v2h v2l B2h B2l) as [B3h [B3l J3]].
  set (v3h := N.lxor (N.shiftr v2h 1) _) in *. set (v3l := N.lor (shl64 v2h 63) _) in *.
  clearbody v1h v1l v2h v2l v3h v3l.
  injection HT as -> ->.
  split; [reflexivity|]. split; [reflexivity|].
  intros n Hn.
  assert (HC : n = 0 \/ n = 1 \/ n = 2 \/ n = 3 \/ n = 4 \/ n = 5 \/ n = 6 \/ n = 7 \/ n = 8 \/
     n = 9 \/ n = 10 \/ n = 11 \/ n = 12 \/ n = 13 \/ n = 14 \/ n = 15) by lia.
  rewrite J0 in J1. rewrite J1 in J2. rewrite J2 in J3.
  assert (Hz : 0 < 2 ^ 64) by reflexivity.
  assert (HX := lxor_lt 64).
  repeat destruct HC as [->|HC]; try subst n;
  match goal with |- context [N.to_nat ?a] =>
      let r := eval vm_compute in (N.to_nat a) in change (N.to_nat a) with r end;
  cbn [get nth];
  (split; [auto 8 | split; [auto 8 |
   unfold nib;
   repeat match goal with |- context [N.testbit ?a ?b] =>
      let r := eval vm_compute in (N.testbit a b) in change (N.testbit a b) with r end;
   cbv iota; rewrite <- ?join_lxor by auto 8; rewrite ?J3, ?J2, ?J1, ?J0, ?N.lxor_0_l, ?N.lxor_0_r; reflexivity]]).
Qed.

Lemma gf_mul_bound X V : V < 2 ^ 128 -> gf_mul X V < 2 ^ 128.
Proof. intros H. unfold gf_mul. rewrite gf_mul_loop_sum, N.lxor_0_l. now apply mulsum_bound. Qed.
