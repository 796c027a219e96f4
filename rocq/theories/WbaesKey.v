(** * Reading the key off white-box AES tables *)
From Verif Require Import Base Word32 GcmModel GaussProofs FpeModel MatModel MatSpec MatProofs ComProofs AesSpec AesModel AesProofs WbaesModel WbaesProofs WbgcmModel WbgcmKeys Wbsm4Proofs Span SboxStruct.
From Coq Require Import ZifyBool ZifyNat ZifyN.
Local Open Scope nat_scope.

(** ** The procedure: it only reads entries of the tables *)
(** round one of one byte, from the plaintext byte to the encoded contribution to its column *)
Definition first_round (t : wbtables) (j : nat) (x : N) : N := t_II t 0 j (t_Ia t (shiftindex j) x).
Definition all_bytes : list N := map N.of_nat (seq 0 256).
(** the key byte [k] explains nibble [n]: for one of 31 differences, S-box outputs with that difference, supposing [k],
    always give equal nibbles *)
Definition explains (t : wbtables) (j : nat) (k : N) (n : nat) : bool :=
  existsb (fun d => forallb (fun s =>
    (nib n (first_round t j (N.lxor (aes_inv_sbox s) k)) =? nib n (first_round t j (N.lxor (aes_inv_sbox (N.lxor s d)) k)))%N) all_bytes)
    (map N.of_nat (seq 1 31)).
Definition key_byte (t : wbtables) (j : nat) : N :=
  match find (fun k => forallb (explains t j k) (seq 0 8)) all_bytes with Some k => k | None => 0%N end.
Definition unshift : list nat := [0; 13; 10; 7; 4; 1; 14; 11; 8; 5; 2; 15; 12; 9; 6; 3].
Definition read_key (t : wbtables) : list N := map (fun i => key_byte t (nth i unshift 0)) (seq 0 16).

#[local] Opaque aes_inv_sbox sbox spans sweep.
(** ** Round one of one byte *)
Lemma Tyi_lxor r x y : byte x -> byte y -> Tyi r (N.lxor x y) = N.lxor (Tyi r x) (Tyi r y).
Proof.
  intros X Y. pose proof (byte_lxor x y X Y) as XY. apply (vector_ext_block 4 8); [apply word_Tyi, XY|apply (vector_lxor 32); apply word_Tyi; assumption|].
  intros k K. rewrite block_lxor. unfold Tyi. cbv zeta.
  destruct (gMul_ok x X) as [-> ->], (gMul_ok y Y) as [-> ->], (gMul_ok _ XY) as [-> ->]. rewrite !gmul_lxor_r.
  pose proof (gmul_bytes x X) as [? ?]. pose proof (gmul_bytes y Y) as [? ?].
  assert (L2 : byte (N.lxor (gmul 2 x) (gmul 2 y))) by now apply byte_lxor. assert (L3 : byte (N.lxor (gmul 3 x) (gmul 3 y))) by now apply byte_lxor.
  destruct r as [|[|[|r]]]; rewrite !(fun a b c d A B C D => proj1 (word_bytes4 a b c d k A B C D K)) by assumption;
    destruct k as [|[|[|[|]]]]; try lia; reflexivity.
Qed.
Lemma Tyi_one r : Tyi r 1 <> 0%N.
Proof. destruct r as [|[|[|r]]]; intros E; vm_compute in E; discriminate. Qed.
Lemma Tyi_zero r : Tyi r 0 = 0%N.
Proof. destruct r as [|[|[|r]]]; vm_compute; reflexivity. Qed.
Lemma nibs_zero w : word w -> (forall n, n < 8 -> nib n w = 0%N) -> w = 0%N.
Proof.
  intros W H. apply (vector_ext_block 8 4); [exact W|reflexivity|]. intros k K. rewrite <- !nib_block by exact K. rewrite H by exact K. destruct k as [|[|[|[|[|[|[|[|]]]]]]]]; try reflexivity. lia.
Qed.
Lemma in_all_bytes s : In s all_bytes <-> byte s.
Proof.
  unfold all_bytes, byte. rewrite in_map_iff. split; [intros (n & <- & I); apply in_seq in I; lia|].
  intros B. exists (N.to_nat s). split; [apply N2Nat.id|apply in_seq; lia].
Qed.
Lemma inv_sbox_byte s : byte s -> byte (aes_inv_sbox s).
Proof. intros B. now apply aes_sbox_inv_sbox. Qed.
Lemma sbox_inv s : byte s -> sbox (aes_inv_sbox s) = s.
Proof. intros B. rewrite sbox_aes by now apply inv_sbox_byte. now apply aes_sbox_inv_sbox. Qed.
#[local] Opaque MatMulNum MatMulVec enc32 Tyi nib.
Section Byte.
Variables (e : encodings) (ek : list N) (out : nat -> N -> N) (j : nat).
Hypothesis G : good e.
Hypothesis J : j < 16.
Hypothesis BK : byte (get ek j).
Let t := gen_tables e ek out.
Let k0 := get ek j.
Definition lin (s : N) : N := MatMulNum 32 (fst (e_MB e 0 (j / 4))) (Tyi (j mod 4) s).
Lemma first_round_ok x : byte x -> first_round t j x = enc32 (fun k => fst (e_II e 0 j k)) (lin (sbox (N.lxor x k0))).
Proof.
  intros B. unfold first_round, t. cbn [gen_tables t_II t_Ia]. change (0 <? 9) with true. cbv iota. unfold typeII. cbv zeta.
  change (typeIa e (shiftindex j) x) with (enc_state e 0 (shiftindex j) x). rewrite decode_enc by (auto; lia). unfold lin, k0. rewrite Nat.mul_0_r, Nat.add_0_l. reflexivity.
Qed.
Lemma J4 : j / 4 < 4.
Proof. apply Nat.div_lt_upper_bound; lia. Qed.
Lemma lin_lxor x y : byte x -> byte y -> lin (N.lxor x y) = N.lxor (lin x) (lin y).
Proof.
  intros X Y. unfold lin. rewrite Tyi_lxor by assumption. apply C40_linear_lemma; [apply size32|].
  exact (proj1 (g_MB e G 0 (j / 4) ltac:(lia) J4)).
Qed.
Lemma lin_one : lin 1 <> 0%N.
Proof.
  intros E. pose proof (g_MB e G 0 (j / 4) ltac:(lia) J4) as M. assert (M0 : lin 0 = 0%N).
  { pose proof (lin_lxor 1 1 ltac:(reflexivity) ltac:(reflexivity)) as L. rewrite !N.lxor_nilpotent in L. exact L. }
  assert (I : forall x, word x -> MatMulVec 32 (snd (e_MB e 0 (j / 4))) (MatMulVec 32 (fst (e_MB e 0 (j / 4))) x) = x).
  { intros x X. apply (inverse_left 32 _ _ x size32); [now apply inverse_sym|exact X]. }
  apply (Tyi_one (j mod 4)). rewrite <- (I (Tyi (j mod 4) 1)) by now apply word_Tyi.
  unfold lin in E, M0. rewrite MatMulNum_eq in E, M0. rewrite E. transitivity (Tyi (j mod 4) 0); [|apply Tyi_zero].
  pose proof (I (Tyi (j mod 4) 0) (word_Tyi _ 0 ltac:(reflexivity))) as Q. rewrite M0 in Q. exact Q.
Qed.
(** equal nibbles of the table are equal nibbles of what it encodes *)
Lemma table_nib n x y : n < 8 -> byte x -> byte y ->
  nib n (first_round t j x) = nib n (first_round t j y) <-> nib n (lin (sbox (N.lxor x k0))) = nib n (lin (sbox (N.lxor y k0))).
Proof.
  intros L X Y. rewrite !first_round_ok by assumption. pose proof (g_II e G 0 j ltac:(lia) J) as P. rewrite !nib_enc32 by (auto; apply P).
  split; [|intros ->; reflexivity]. intros E. rewrite <- (perm_inv (e_II e 0 j n) (nib n (lin (sbox (N.lxor x k0))))) by (auto using nib_lt).
  rewrite E. apply perm_inv; auto using nib_lt.
Qed.
Lemma add_nib n x y : n < 8 -> byte x -> byte y -> nib n (lin (N.lxor x y)) = N.lxor (nib n (lin x)) (nib n (lin y)).
Proof. intros L X Y. rewrite lin_lxor by assumption. now apply nib_lxor. Qed.
Lemma right_byte n : n < 8 -> explains t j k0 n = true.
Proof.
  intros L. destruct (nibble_kernel (fun s => nib n (lin s))) as (d & D & Z); [intros; now apply add_nib|intros; apply nib_lt|]. cbv beta in Z.
  unfold explains. apply existsb_exists. exists (N.of_nat d). split; [apply in_map_iff; exists d; split; [reflexivity|apply in_seq; lia]|].
  apply forallb_forall. intros s IS. apply in_all_bytes in IS. assert (BD : byte (N.of_nat d)) by (unfold byte; lia). pose proof (byte_lxor s _ IS BD) as BX.
  apply N.eqb_eq, table_nib; [exact L|apply byte_lxor; auto using inv_sbox_byte|apply byte_lxor; auto using inv_sbox_byte|].
  rewrite !N.lxor_assoc, !N.lxor_nilpotent, !N.lxor_0_r. rewrite !sbox_inv by assumption. rewrite add_nib by assumption. now rewrite Z, N.lxor_0_r.
Qed.
Lemma wrong_byte k : byte k -> (forall n, n < 8 -> explains t j k n = true) -> k = k0.
Proof.
  intros B H. destruct (N.eq_dec k k0) as [|NE]; [assumption|exfalso]. apply lin_one. apply nibs_zero.
  { unfold lin. rewrite MatMulNum_eq. apply word_mul32. exact (proj1 (g_MB e G 0 (j / 4) ltac:(lia) J4)). }
  intros n L. specialize (H n L). unfold explains in H. apply existsb_exists in H. destruct H as (d & ID & F).
  apply in_map_iff in ID. destruct ID as (d' & <- & ID). apply in_seq in ID. rewrite forallb_forall in F.
  assert (BD : byte (N.of_nat d')) by (unfold byte; lia).
  set (x := N.lxor k k0). assert (BX : byte x) by now apply byte_lxor. assert (XN : x <> 0%N) by (intros Q; now apply NE, N.lxor_eq).
  apply (no_structure (fun s => nib n (lin s)) (N.to_nat x) d').
  - intros; now apply add_nib.
  - unfold byte in BX. lia.
  - lia.
  - intros s IS. rewrite N2Nat.id. specialize (F s (proj2 (in_all_bytes s) IS)). apply N.eqb_eq in F. pose proof (byte_lxor s _ IS BD) as BX'.
    apply table_nib in F; [|exact L|apply byte_lxor; auto using inv_sbox_byte|apply byte_lxor; auto using inv_sbox_byte].
    unfold shifted_sbox, x. rewrite <- !N.lxor_assoc. exact F.
  - reflexivity.
Qed.
Lemma key_byte_ok : key_byte t j = k0.
Proof.
  unfold key_byte. destruct (find (fun k => forallb (explains t j k) (seq 0 8)) all_bytes) as [k|] eqn:E.
  - apply find_some in E. destruct E as [I F]. rewrite forallb_forall in F. apply wrong_byte; [now apply in_all_bytes|]. intros n L. apply F, in_seq. lia.
  - exfalso. pose proof (find_none _ _ E k0 (proj2 (in_all_bytes k0) BK)) as F. cbv beta in F.
    assert (T : forallb (explains t j k0) (seq 0 8) = true) by (apply forallb_forall; intros n I; apply in_seq in I; apply right_byte; lia). congruence.
Qed.
End Byte.

(** ** The key *)
Lemma extend_app n : forall ws, exists r, extend_words n ws = ws ++ r.
Proof.
  induction n as [|n IH]; intros ws; cbn [extend_words]; [exists []; now rewrite app_nil_r|].
  destruct (IH (ws ++ [next_word ws])) as (r & ->). exists (next_word ws :: r). rewrite <- app_assoc. reflexivity.
Qed.
Lemma round_key_0 key : length key = 16 -> aes_round_key key 0 = key.
Proof.
  intros L. unfold aes_round_key, key_words. destruct (extend_app 40 (chunks 4 key)) as (r & ->). rewrite Nat.mul_0_r. cbn [skipn]. state16 key. reflexivity.
Qed.
Lemma unshift_ok i : i < 16 -> nth i unshift 0 < 16 /\ shiftindex (nth i unshift 0) = i.
Proof. intros I. do 16 (destruct i as [|i]; [split; [cbn; lia|reflexivity]|]). lia. Qed.
Lemma read_key_ok e key out : good e -> bytes key -> 16 <= length key -> read_key (gen_tables e (shifted_key (expandKey key)) out) = firstn 16 key.
Proof.
  intros G B L. assert (LF : length (firstn 16 key) = 16) by (rewrite firstn_length; lia).
  assert (K : forall i, i < 16 -> get (shifted_key (expandKey key)) (nth i unshift 0) = get (firstn 16 key) i).
  { intros i I. destruct (unshift_ok i I) as [U1 U2]. pose proof (shifted_key_ok key 0 (nth i unshift 0) L B ltac:(lia) U1) as E.
    rewrite Nat.mul_0_r, Nat.add_0_l in E. change (0 <? 10) with true in E. cbv iota in E. rewrite U2, (round_key_0 _ LF) in E. exact E. }
  rewrite <- (list16 (firstn 16 key) LF). unfold read_key. apply map_ext_in. intros i I. apply in_seq in I. destruct (unshift_ok i ltac:(lia)) as [U1 U2].
  rewrite key_byte_ok; [apply K; lia|exact G|exact U1|]. rewrite K by lia. apply bytes_get. now apply bytes_firstn.
Qed.
(** what a copy of the tables determines *)
Definition same_first_round (t t' : wbtables) : Prop :=
  (forall j x, j < 16 -> byte x -> t_II t 0 j x = t_II t' 0 j x) /\ (forall i x, i < 16 -> byte x -> t_Ia t i x = t_Ia t' i x).
Definition byte_table (t : wbtables) : Prop := forall i x, i < 16 -> byte x -> byte (t_Ia t i x).
Lemma find_ext {A} (f g : A -> bool) l : (forall x, In x l -> f x = g x) -> find f l = find g l.
Proof. induction l as [|x l IH]; intros H; [reflexivity|]. cbn [find]. rewrite <- (H x (or_introl eq_refl)). destruct (f x); [reflexivity|]. apply IH. intros y Y. apply H. now right. Qed.
Lemma forallb_ext_in {A} (f g : A -> bool) l : (forall x, In x l -> f x = g x) -> forallb f l = forallb g l.
Proof. induction l as [|x l IH]; intros H; [reflexivity|]. cbn [forallb]. rewrite (H x (or_introl eq_refl)). f_equal. apply IH. intros y Y. apply H. now right. Qed.
Lemma existsb_ext_in {A} (f g : A -> bool) l : (forall x, In x l -> f x = g x) -> existsb f l = existsb g l.
Proof. induction l as [|x l IH]; intros H; [reflexivity|]. cbn [existsb]. rewrite (H x (or_introl eq_refl)). f_equal. apply IH. intros y Y. apply H. now right. Qed.
Lemma read_key_ext t t' : byte_table t -> same_first_round t t' -> read_key t = read_key t'.
Proof.
  intros BT [H1 H2]. apply map_ext_in. intros i I. apply in_seq in I. destruct (unshift_ok i ltac:(lia)) as [J _]. set (j := nth i unshift 0) in *. clearbody j.
  assert (F : forall x, byte x -> first_round t j x = first_round t' j x).
  { intros x X. unfold first_round. pose proof (shiftindex_lt j J) as Q. rewrite <- (H2 _ _ Q X). apply H1; [exact J|]. now apply BT. }
  unfold key_byte. erewrite find_ext; [reflexivity|]. intros k K. apply in_all_bytes in K. cbv beta. apply forallb_ext_in. intros n N.
  unfold explains. apply existsb_ext_in. intros d D. apply in_map_iff in D. destruct D as (d' & <- & D). apply in_seq in D.
  apply forallb_ext_in. intros s S0. apply in_all_bytes in S0. assert (BD : byte (N.of_nat d')) by (unfold byte; lia). pose proof (byte_lxor s _ S0 BD) as BX.
  rewrite !F by (apply byte_lxor; auto; apply inv_sbox_byte; assumption). reflexivity.
Qed.

Lemma ret_inj {A} (a b : A) : Ret a = Ret b -> a = b.
Proof. congruence. Qed.
Lemma typeIa_byte e ek out : byte_table (gen_tables e ek out).
Proof. intros i x I X. cbn [gen_tables t_Ia]. unfold typeIa. apply enc8_byte. Qed.
#[local] Opaque read_key gen_tables gen_encodings.
Lemma wbaes_read rnd junk key ctx : bytes key -> wbaes_gen_table rnd junk key = Ret ctx -> read_key (wb_t ctx) = firstn 16 key /\ byte_table (wb_t ctx).
Proof.
  intros B E. unfold wbaes_gen_table in E. destruct (Nat.ltb_spec (length key) 16) as [|L]; [congruence|]. cbv zeta in E.
  destruct (gen_encodings_ok rnd junk (fin_wbaes rnd junk) (fun pos => proj1 (fin_wbaes_ok rnd junk pos))) as (e & pos & Q & G). rewrite Q, obind_ret in E.
  apply ret_inj in E. subst ctx. cbn [wb_t]. split; [now apply read_key_ok|apply typeIa_byte].
Qed.
Lemma ee_read rnd junk key ctx : bytes key -> ee_gen_table rnd junk key = Ret ctx -> read_key (ee_t ctx) = firstn 16 key /\ byte_table (ee_t ctx).
Proof.
  intros B E. unfold ee_gen_table in E. destruct (Nat.ltb_spec (length key) 16) as [|L]; [congruence|]. cbv zeta in E.
  destruct (gen_encodings_ok rnd junk (fin_ee rnd junk)) as (e & pos & Q & G); [intros p i I; now apply fin_ee_ok|]. rewrite Q, obind_ret in E.
  destruct (snd (fin_ee rnd junk pos)) as [out1 out2]. apply ret_inj in E. subst ctx. cbn [ee_t]. split; [now apply read_key_ok|apply typeIa_byte].
Qed.
Lemma mask_aes_read rnd junk key T ib pos : bytes key -> mask_gen_aes rnd junk key = Ret (T, ib, pos) -> read_key T = firstn 16 key /\ byte_table T.
Proof.
  intros B E. unfold mask_gen_aes in E. destruct (Nat.ltb_spec (length key) 16) as [|L]; [congruence|]. cbv zeta in E.
  destruct (gen_encodings_ok rnd junk (fin_mask rnd junk)) as (e & p & Q & G); [intros q i I; now apply fin_mask_ok|]. rewrite Q, obind_ret in E.
  destruct (snd (fin_mask rnd junk p)) as [out q]. apply ret_inj in E. assert (T = gen_tables e (shifted_key (expandKey key)) (enc_out out)) by congruence. subst T.
  split; [now apply read_key_ok|apply typeIa_byte].
Qed.
#[local] Opaque mask_gen_aes.
Lemma mask_read rnd junk key E D : bytes key -> mask_gen_table rnd junk key = Ret (E, D) ->
  (read_key (mk_t E) = firstn 16 key /\ byte_table (mk_t E)) /\ (read_key (mk_t D) = firstn 16 key /\ byte_table (mk_t D)).
Proof.
  intros B H. unfold mask_gen_table in H.
  destruct (mask_gen_aes rnd junk key) as [[[tE ibE] p1]| |] eqn:E1; [|discriminate|discriminate]. rewrite obind_ret in H.
  destruct (mask_gen_aes (fun n => rnd (p1 + n)) (fun n => junk (p1 + n)) key) as [[[tD ibD] p2]| |] eqn:E2; [|discriminate|discriminate]. rewrite obind_ret in H.
  unfold mask_gen_gcm in H. destruct (genMatpairs 8 48 (fun n => rnd (p1 + p2 + n)) 0) as [[Ls pos]| |]; [|discriminate|discriminate]. rewrite obind_ret in H.
  destruct (genPermutations 256 64 (fun n => rnd (p1 + p2 + n)) (fun n => junk (p1 + p2 + n)) pos) as [Ns pos']. cbv zeta in H. apply ret_inj in H.
  assert (HE : mk_t E = tE) by (apply (f_equal (fun p => mk_t (fst p))) in H; cbn [fst mk_t] in H; congruence).
  assert (HD : mk_t D = tD) by (apply (f_equal (fun p => mk_t (snd p))) in H; cbn [snd mk_t fst] in H; congruence).
  rewrite HE, HD. split; [now apply (mask_aes_read rnd junk key tE ibE p1)|now apply (mask_aes_read _ _ key tD ibD p2 B E2)].
Qed.

(** ** The procedure on the arrays themselves *)
Definition array16 (f : nat -> N -> N) : list (list N) := map (fun j => map (fun x => f j (N.of_nat x)) (seq 0 256)) (seq 0 16).
Lemma get_array16 f j x : j < 16 -> byte x -> get (nth j (array16 f) []) (N.to_nat x) = f j x.
Proof.
  intros J X. unfold array16. rewrite (nth_indep _ [] (map (fun x => f 0 (N.of_nat x)) (seq 0 256))) by (rewrite map_length, seq_length; exact J).
  rewrite (map_nth (fun j => map (fun x => f j (N.of_nat x)) (seq 0 256))). rewrite seq_nth by exact J. rewrite get_map_seq by (unfold byte in X; lia). now rewrite N2Nat.id.
Qed.
Definition read_arrays (II Ia : list (list N)) : list N :=
  read_key (mkwbt (fun _ j x => get (nth j II []) (N.to_nat x)) (fun _ _ _ => 0%N) (fun _ _ _ _ _ _ => 0%N) (fun _ _ _ _ _ _ => 0%N) (fun i x => get (nth i Ia []) (N.to_nat x))).
Lemma read_arrays_ok t : byte_table t -> read_arrays (array16 (t_II t 0)) (array16 (t_Ia t)) = read_key t.
Proof.
  intros B. symmetry. apply read_key_ext; [exact B|]. split; cbn [t_II t_Ia]; intros j x J X; symmetry; now apply (get_array16 _ j x).
Qed.
(** row j of an array, and what the value [k] of a key byte must do with a row of TypeII[0] and one of TypeIa *)
Definition row256 (f : N -> N) : list N := map (fun x => f (N.of_nat x)) (seq 0 256).
Definition fits (II Ia : list N) (k : N) : Prop := forall n, n < 8 -> exists d, (1 <= d < 32)%N /\ forall s, byte s ->
  nib n (get II (N.to_nat (get Ia (N.to_nat (N.lxor (aes_inv_sbox s) k))))) = nib n (get II (N.to_nat (get Ia (N.to_nat (N.lxor (aes_inv_sbox (N.lxor s d)) k))))).
Lemma get_row256 f x : byte x -> get (row256 f) (N.to_nat x) = f x.
Proof. intros X. unfold row256. rewrite get_map_seq by (unfold byte in X; lia). now rewrite N2Nat.id. Qed.
Lemma fits_explains t j k : byte_table t -> j < 16 -> byte k -> fits (row256 (t_II t 0 j)) (row256 (t_Ia t (shiftindex j))) k <-> forall n, n < 8 -> explains t j k n = true.
Proof.
  intros BT J BK. pose proof (shiftindex_lt j J) as Q.
  assert (F : forall x, byte x -> get (row256 (t_II t 0 j)) (N.to_nat (get (row256 (t_Ia t (shiftindex j))) (N.to_nat x))) = first_round t j x).
  { intros x X. rewrite (get_row256 (t_Ia t (shiftindex j))) by exact X. rewrite get_row256 by now apply BT. reflexivity. }
  split; intros H n L; specialize (H n L).
  - destruct H as (d & D & H). unfold explains. apply existsb_exists. exists d. split.
    + apply in_map_iff. exists (N.to_nat d). split; [apply N2Nat.id|apply in_seq; lia].
    + apply forallb_forall. intros s IS. apply in_all_bytes in IS. specialize (H s IS). assert (BD : byte d) by (unfold byte; lia). pose proof (byte_lxor s d IS BD) as BX.
      rewrite !F in H by (apply byte_lxor; auto; apply inv_sbox_byte; assumption). now apply N.eqb_eq.
  - unfold explains in H. apply existsb_exists in H. destruct H as (d & ID & H). apply in_map_iff in ID. destruct ID as (d' & <- & ID). apply in_seq in ID.
    exists (N.of_nat d'). split; [lia|]. intros s IS. rewrite forallb_forall in H. specialize (H s (proj2 (in_all_bytes s) IS)). apply N.eqb_eq in H.
    assert (BD : byte (N.of_nat d')) by (unfold byte; lia). pose proof (byte_lxor s _ IS BD) as BX. rewrite !F by (apply byte_lxor; auto; apply inv_sbox_byte; assumption). exact H.
Qed.
Lemma fits_ok e key out j k : good e -> bytes key -> 16 <= length key -> j < 16 -> byte k ->
  let t := gen_tables e (shifted_key (expandKey key)) out in fits (row256 (t_II t 0 j)) (row256 (t_Ia t (shiftindex j))) k <-> k = get key (shiftindex j).
Proof.
  intros G B L J BK t. assert (LF : length (firstn 16 key) = 16) by (rewrite firstn_length; lia). pose proof (shiftindex_lt j J) as Q.
  assert (K : get (shifted_key (expandKey key)) j = get key (shiftindex j)).
  { pose proof (shifted_key_ok key 0 j L B ltac:(lia) J) as E. rewrite Nat.mul_0_r, Nat.add_0_l in E. change (0 <? 10) with true in E. cbv iota in E.
    rewrite (round_key_0 _ LF) in E. rewrite E. unfold get. rewrite <- (firstn_skipn 16 key) at 2. rewrite app_nth1 by lia. reflexivity. }
  assert (BK0 : byte (get (shifted_key (expandKey key)) j)) by (rewrite K; now apply bytes_get).
  rewrite fits_explains by (try apply typeIa_byte; assumption). rewrite <- K. split.
  - intros H. now apply (wrong_byte e (shifted_key (expandKey key)) out j).
  - intros -> n N. now apply right_byte.
Qed.
Definition key_fits (t : wbtables) (key : list N) : Prop :=
  forall j k, j < 16 -> byte k -> fits (row256 (t_II t 0 j)) (row256 (t_Ia t (shiftindex j))) k <-> k = get key (shiftindex j).
Lemma wbaes_fits rnd junk key ctx : bytes key -> wbaes_gen_table rnd junk key = Ret ctx -> key_fits (wb_t ctx) key.
Proof.
  intros B E. unfold wbaes_gen_table in E. destruct (Nat.ltb_spec (length key) 16) as [|L]; [congruence|]. cbv zeta in E.
  destruct (gen_encodings_ok rnd junk (fin_wbaes rnd junk) (fun pos => proj1 (fin_wbaes_ok rnd junk pos))) as (e & pos & Q & G). rewrite Q, obind_ret in E.
  apply ret_inj in E. subst ctx. cbn [wb_t]. intros j k J K. now apply fits_ok.
Qed.
Lemma ee_fits rnd junk key ctx : bytes key -> ee_gen_table rnd junk key = Ret ctx -> key_fits (ee_t ctx) key.
Proof.
  intros B E. unfold ee_gen_table in E. destruct (Nat.ltb_spec (length key) 16) as [|L]; [congruence|]. cbv zeta in E.
  destruct (gen_encodings_ok rnd junk (fin_ee rnd junk)) as (e & pos & Q & G); [intros p i I; now apply fin_ee_ok|]. rewrite Q, obind_ret in E.
  destruct (snd (fin_ee rnd junk pos)) as [out1 out2]. apply ret_inj in E. subst ctx. cbn [ee_t]. intros j k J K. now apply fits_ok.
Qed.
#[local] Transparent mask_gen_aes.
Lemma mask_aes_fits rnd junk key T ib pos : bytes key -> mask_gen_aes rnd junk key = Ret (T, ib, pos) -> key_fits T key.
Proof.
  intros B E. unfold mask_gen_aes in E. destruct (Nat.ltb_spec (length key) 16) as [|L]; [congruence|]. cbv zeta in E.
  destruct (gen_encodings_ok rnd junk (fin_mask rnd junk)) as (e & p & Q & G); [intros q i I; now apply fin_mask_ok|]. rewrite Q, obind_ret in E.
  destruct (snd (fin_mask rnd junk p)) as [out q]. apply ret_inj in E. assert (T = gen_tables e (shifted_key (expandKey key)) (enc_out out)) by congruence. subst T.
  intros j k J K. now apply fits_ok.
Qed.
#[local] Opaque mask_gen_aes.
Lemma mask_fits rnd junk key E D : bytes key -> mask_gen_table rnd junk key = Ret (E, D) -> key_fits (mk_t E) key /\ key_fits (mk_t D) key.
Proof.
  intros B H. unfold mask_gen_table in H.
  destruct (mask_gen_aes rnd junk key) as [[[tE ibE] p1]| |] eqn:E1; [|discriminate|discriminate]. rewrite obind_ret in H.
  destruct (mask_gen_aes (fun n => rnd (p1 + n)) (fun n => junk (p1 + n)) key) as [[[tD ibD] p2]| |] eqn:E2; [|discriminate|discriminate]. rewrite obind_ret in H.
  unfold mask_gen_gcm in H. destruct (genMatpairs 8 48 (fun n => rnd (p1 + p2 + n)) 0) as [[Ls pos]| |]; [|discriminate|discriminate]. rewrite obind_ret in H.
  destruct (genPermutations 256 64 (fun n => rnd (p1 + p2 + n)) (fun n => junk (p1 + p2 + n)) pos) as [Ns pos']. cbv zeta in H. apply ret_inj in H.
  assert (HE : mk_t E = tE) by (apply (f_equal (fun p => mk_t (fst p))) in H; cbn [fst mk_t] in H; congruence).
  assert (HD : mk_t D = tD) by (apply (f_equal (fun p => mk_t (snd p))) in H; cbn [snd mk_t fst] in H; congruence).
  rewrite HE, HD. split; [now apply (mask_aes_fits rnd junk key tE ibE p1)|now apply (mask_aes_fits _ _ key tD ibD p2 B E2)].
Qed.
Lemma wbaes_key_lemma rnd junk key i k : bytes key -> i < 16 -> byte k ->
  let fits_context t := fits (row256 (t_II t 0 (nth i unshift 0))) (row256 (t_Ia t i)) k in
  (forall ctx, wbaes_gen_table rnd junk key = Ret ctx -> fits_context (wb_t ctx) <-> k = get key i) /\
  (forall ctx, ee_gen_table rnd junk key = Ret ctx -> fits_context (ee_t ctx) <-> k = get key i) /\
  (forall enc dec, mask_gen_table rnd junk key = Ret (enc, dec) -> (fits_context (mk_t enc) <-> k = get key i) /\ (fits_context (mk_t dec) <-> k = get key i)).
Proof.
  intros B I K fc. destruct (unshift_ok i I) as [U1 U2].
  assert (X : forall t, key_fits t key -> fc t <-> k = get key i).
  { intros t H. specialize (H _ k U1 K). rewrite U2 in H. exact H. }
  split; [|split].
  - intros ctx E. apply X. now apply (wbaes_fits rnd junk).
  - intros ctx E. apply X. now apply (ee_fits rnd junk).
  - intros enc dec E. destruct (mask_fits rnd junk key enc dec B E) as [F F']. split; apply X; assumption.
Qed.
(** tables of different keys differ, whatever the randomness *)
Lemma tables_determine_key_lemma rnd junk rnd' junk' key key' ctx ctx' : bytes key -> bytes key' ->
  wbaes_gen_table rnd junk key = Ret ctx -> wbaes_gen_table rnd' junk' key' = Ret ctx' -> firstn 16 key <> firstn 16 key' ->
  array16 (t_II (wb_t ctx) 0) <> array16 (t_II (wb_t ctx') 0) \/ array16 (t_Ia (wb_t ctx)) <> array16 (t_Ia (wb_t ctx')).
Proof.
  intros B B' E E' NE. destruct (wbaes_read rnd junk key ctx B E) as [R BT]. destruct (wbaes_read rnd' junk' key' ctx' B' E') as [R' BT'].
  rewrite <- (read_arrays_ok _ BT) in R. rewrite <- (read_arrays_ok _ BT') in R'.
  destruct (list_eq_dec (list_eq_dec N.eq_dec) (array16 (t_II (wb_t ctx) 0)) (array16 (t_II (wb_t ctx') 0))) as [Q|Q]; [|now left].
  destruct (list_eq_dec (list_eq_dec N.eq_dec) (array16 (t_Ia (wb_t ctx))) (array16 (t_Ia (wb_t ctx')))) as [Q'|Q']; [|now right].
  exfalso. apply NE. rewrite <- R, <- R', Q, Q'. reflexivity.
Qed.
