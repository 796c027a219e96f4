(** * CBC block by block: what a changed ciphertext does to the plaintext, what equal ciphertext blocks reveal and what
    the reported length reveals (C103 - C105) *)
From Verif Require Import Base CbcModel CbcSpec CbcProofs OverlapProofs OverlapCbc Toy.
Local Open Scope nat_scope.

(** the 16 bytes at block position [k] of a byte string *)
Definition blk16 (l : list N) (k : nat) : list N := firstn 16 (skipn (16 * k) l).
(** what is chained into block [k]: the IV before block 0, otherwise ciphertext block k - 1 *)
Definition chained (iv c : list N) (k : nat) : list N := match k with O => iv | S j => blk16 c j end.

Lemma firstn_exact {A} (a b : list A) n : length a = n -> firstn n (a ++ b) = a.
Proof. intros <-. rewrite firstn_app, Nat.sub_diag, firstn_all. apply app_nil_r. Qed.
Lemma skipn_exact {A} (a b : list A) n : length a = n -> skipn n (a ++ b) = b.
Proof. intros <-. now rewrite skipn_app, Nat.sub_diag, skipn_all. Qed.
Lemma blk16_0_app (a b : list N) : length a = 16 -> blk16 (a ++ b) 0 = a.
Proof. intro L. unfold blk16. change (16 * 0) with 0. cbn [skipn]. rewrite firstn_app, L, Nat.sub_diag. rewrite <- L, firstn_all. apply app_nil_r. Qed.
Lemma blk16_S_app (a b : list N) k : length a = 16 -> blk16 (a ++ b) (S k) = blk16 b k.
Proof.
  intro L. unfold blk16. replace (16 * S k) with (16 + 16 * k) by lia. rewrite <- skipn_skipn_add. do 2 f_equal.
  rewrite skipn_app, L, Nat.sub_diag. rewrite <- L, skipn_all. reflexivity.
Qed.
Lemma blk16_app_l (a b : list N) k : 16 * S k <= length a -> blk16 (a ++ b) k = blk16 a k.
Proof.
  intro H. unfold blk16. rewrite skipn_app, firstn_app, skipn_length. replace (16 - (length a - 16 * k)) with 0 by lia. cbn [firstn]. apply app_nil_r.
Qed.
Lemma blk16_block (l : list N) k : bytes l -> 16 * S k <= length l -> block16 (blk16 l k).
Proof. intros B L. split; [unfold blk16; rewrite firstn_length, skipn_length; lia|apply bytes_firstn, bytes_skipn, B]. Qed.
Lemma blk16_firstn (l : list N) k n : 16 * S k <= n -> blk16 (firstn n l) k = blk16 l k.
Proof. intro H. unfold blk16. rewrite skipn_firstn_comm, firstn_firstn. f_equal. lia. Qed.
Lemma split16 (l : list N) n : length l = 16 * S n -> exists b t, l = b ++ t /\ length b = 16 /\ length t = 16 * n.
Proof. intro H. exists (firstn 16 l), (skipn 16 l). rewrite firstn_skipn, firstn_length, skipn_length. repeat split; lia. Qed.
(** two aligned strings are equal when their blocks are *)
Lemma blk16_ext : forall n (a b : list N), length a = 16 * n -> length b = 16 * n -> (forall k, k < n -> blk16 a k = blk16 b k) -> a = b.
Proof.
  induction n as [|n IH]; intros a b La Lb H; [destruct a, b; try discriminate; reflexivity|].
  destruct (split16 a n La) as (a1 & a2 & -> & A1 & A2). destruct (split16 b n Lb) as (b1 & b2 & -> & B1 & B2). f_equal.
  - pose proof (H 0 ltac:(lia)) as Q. now rewrite !blk16_0_app in Q.
  - apply IH; try assumption. intros k K. pose proof (H (S k) ltac:(lia)) as Q. now rewrite !blk16_S_app in Q.
Qed.

Lemma dec_block D : block_function D -> forall n iv c k, length c = 16 * n -> bytes c -> block16 iv -> k < n ->
  blk16 (cbc_decrypt_bytes D iv c) k = xorl (D (blk16 c k)) (chained iv c k).
Proof.
  intro HD. induction n as [|n IH]; intros iv c k L B I K; [lia|]. destruct (split16 c n L) as (b & t & -> & Lb & Lt). apply bytes_app in B as [B1 B2].
  rewrite cbc_dec_bytes_app by exact Lb.
  assert (X : length (xorl (D b) iv) = 16) by (apply (block16_xorl (D b) iv); [apply HD; now split|exact I]).
  destruct k as [|k].
  - rewrite !blk16_0_app by assumption. reflexivity.
  - rewrite !blk16_S_app by assumption. rewrite IH by (assumption || lia || now split). f_equal.
    cbn [chained]. destruct k as [|k]; cbn [chained]; [now rewrite blk16_0_app|now rewrite blk16_S_app].
Qed.
Lemma enc_block E : block_function E -> forall n iv p k, length p = 16 * n -> bytes p -> block16 iv -> k < n ->
  blk16 (cbc_encrypt_bytes E iv p) k = E (xorl (blk16 p k) (chained iv (cbc_encrypt_bytes E iv p) k)).
Proof.
  intro HE. induction n as [|n IH]; intros iv p k L B I K; [lia|]. destruct (split16 p n L) as (b & t & -> & Lb & Lt). apply bytes_app in B as [B1 B2].
  assert (X : block16 (E (xorl b iv))) by (apply HE, block16_xorl; [now split|exact I]).
  assert (X1 := proj1 X). rewrite cbc_enc_bytes_app by exact Lb. destruct k as [|k].
  - rewrite !blk16_0_app by assumption. reflexivity.
  - rewrite !blk16_S_app by assumption. rewrite IH by (assumption || lia). do 2 f_equal.
    cbn [chained]. destruct k as [|k]; cbn [chained]; [now rewrite blk16_0_app|now rewrite blk16_S_app].
Qed.

(** ** Decryption through the API *)
Lemma decrypt_ok D c post out cap iv : block_function D -> bytes c -> block16 iv -> length c mod 16 = 0 ->
  (N.of_nat (length c) <= int_max)%N -> length c <= cap -> length out = cap ->
  exists r, cbc128_decrypt (lift D) (c ++ post) (length c) out cap iv = Some r /\ cr_ret r = true /\
    firstn (length c) (cr_out r) = cbc_decrypt_bytes D iv c /\ skipn (length c) (cr_out r) = skipn (length c) out.
Proof.
  intros HD B I M X C O. rewrite cbc_decrypt_spec by assumption. eexists. split; [reflexivity|]. cbn [cr_ret cr_out].
  pose proof (length_cbc_dec_bytes D iv c HD I B M) as L. rewrite firstn_exact, skipn_exact by exact L. split; [reflexivity|split; reflexivity].
Qed.
Lemma cbc_decrypt_blocks_lemma : forall D c post out cap iv, block_function D -> bytes c -> block16 iv -> length c mod 16 = 0 ->
  (N.of_nat (length c) <= int_max)%N -> length c <= cap -> length out = cap ->
  exists r, cbc128_decrypt (lift D) (c ++ post) (length c) out cap iv = Some r /\ cr_ret r = true /\
    forall k, 16 * S k <= length c -> blk16 (cr_out r) k = xorl (D (blk16 c k)) (chained iv c k).
Proof.
  intros D c post out cap iv HD B I M X C O. destruct (decrypt_ok D c post out cap iv HD B I M X C O) as (r & R & T & F & _).
  exists r. split; [exact R|split; [exact T|]]. intros k K. rewrite <- (blk16_firstn (cr_out r) k (length c)) by exact K. rewrite F.
  apply (dec_block D HD (length c / 16)); try assumption; [apply Nat.div_exact; lia|]. apply Nat.div_le_lower_bound; lia.
Qed.
Lemma cbc_change_block_lemma : forall D E c c' post out cap iv i, block_cipher D E -> bytes c -> bytes c' -> block16 iv -> length c mod 16 = 0 ->
  length c' = length c -> (forall k, 16 * S k <= length c -> k <> i -> blk16 c' k = blk16 c k) ->
  (N.of_nat (length c) <= int_max)%N -> length c <= cap -> length out = cap -> 16 * S i <= length c ->
  exists r r', cbc128_decrypt (lift D) (c ++ post) (length c) out cap iv = Some r /\ cr_ret r = true /\
    cbc128_decrypt (lift D) (c' ++ post) (length c') out cap iv = Some r' /\ cr_ret r' = true /\
    (forall k, 16 * S k <= length c -> k <> i -> k <> S i -> blk16 (cr_out r') k = blk16 (cr_out r) k) /\
    (16 * S (S i) <= length c -> xorl (blk16 (cr_out r') (S i)) (blk16 (cr_out r) (S i)) = xorl (blk16 c' i) (blk16 c i)) /\
    (blk16 (cr_out r') i = blk16 (cr_out r) i <-> blk16 c' i = blk16 c i).
Proof.
  intros D E c c' post out cap iv i (HD & HE & ED) B B' I M L' SAME X C O LI.
  destruct (cbc_decrypt_blocks_lemma D c post out cap iv HD B I M X C O) as (r & R & T & V).
  destruct (cbc_decrypt_blocks_lemma D c' post out cap iv HD B' I ltac:(now rewrite L') ltac:(now rewrite L') ltac:(now rewrite L') O) as (r' & R' & T' & V').
  rewrite L' in V'. exists r, r'. split; [exact R|]. split; [exact T|]. split; [exact R'|]. split; [exact T'|].
  assert (CH : forall k, 16 * S k <= length c -> k <> S i -> chained iv c' k = chained iv c k).
  { intros [|k] K N; [reflexivity|]. cbn [chained]. apply SAME; lia. }
  assert (DL : forall k, 16 * S k <= length c -> length (D (blk16 c k)) = 16) by (intros k K; apply HD, blk16_block; assumption).
  assert (CL : forall k, 16 * S k <= length c -> length (chained iv c k) = 16).
  { intros [|k] K; [apply I|]. apply (blk16_block c k); [exact B|lia]. }
  split; [|split].
  - intros k K N1 N2. rewrite V, V' by exact K. rewrite SAME by assumption. now rewrite CH.
  - intros K. rewrite V, V' by exact K. rewrite SAME by lia. cbn [chained]. set (d := D (blk16 c (S i))).
    assert (Ld : length d = 16) by now apply DL. assert (L1 : length (blk16 c' i) = 16) by (apply (blk16_block c' i); [exact B'|lia]).
    assert (L2 : length (blk16 c i) = 16) by (apply (blk16_block c i); [exact B|lia]).
    rewrite (xorl_comm d (blk16 c' i)), xorl_assoc. rewrite xorl_cancel_l by lia. reflexivity.
  - rewrite V, V' by exact LI. rewrite CH by (exact LI || lia). split; [|intros ->; reflexivity]. intro Q.
    assert (Z : D (blk16 c' i) = D (blk16 c i)).
    { apply (f_equal (fun t => xorl t (chained iv c i))) in Q. rewrite !xorl_cancel_r in Q; [exact Q|rewrite CL by exact LI; rewrite DL by exact LI; lia|].
      rewrite CL by exact LI. assert (length (D (blk16 c' i)) = 16); [|lia]. apply HD, blk16_block; [exact B'|lia]. }
    rewrite <- (ED (blk16 c' i)), <- (ED (blk16 c i)) by (apply blk16_block; assumption || lia). now rewrite Z.
Qed.
Lemma cbc_change_iv_lemma : forall D c post out cap iv iv', block_function D -> bytes c -> block16 iv -> block16 iv' -> length c mod 16 = 0 -> c <> [] ->
  (N.of_nat (length c) <= int_max)%N -> length c <= cap -> length out = cap ->
  exists r r', cbc128_decrypt (lift D) (c ++ post) (length c) out cap iv = Some r /\ cr_ret r = true /\
    cbc128_decrypt (lift D) (c ++ post) (length c) out cap iv' = Some r' /\ cr_ret r' = true /\
    firstn 16 (cr_out r') = xorl (firstn 16 (cr_out r)) (xorl iv iv') /\ skipn 16 (cr_out r') = skipn 16 (cr_out r).
Proof.
  intros D c post out cap iv iv' HD B I I' M NE X C O. rewrite !cbc_decrypt_spec by assumption.
  eexists; eexists. split; [reflexivity|]. split; [reflexivity|]. split; [reflexivity|]. split; [reflexivity|]. cbn [cr_out].
  assert (L16 : 16 <= length c) by (destruct c; [congruence|]; cbn [length] in *; lia).
  assert (ST : forall v, cbc_decrypt_bytes D v c = xorl (D (firstn 16 c)) v ++ cbc_decrypt_bytes D (firstn 16 c) (skipn 16 c)).
  { intro v. rewrite <- (firstn_skipn 16 c) at 1. apply cbc_dec_bytes_app. rewrite firstn_length. lia. }
  rewrite !ST.
  assert (Ld : length (D (firstn 16 c)) = 16) by (apply HD; split; [rewrite firstn_length; lia|now apply bytes_firstn]).
  destruct I as [LI _], I' as [LI' _].
  assert (A1 : length (xorl (D (firstn 16 c)) iv) = 16) by (rewrite length_xorl; lia).
  assert (A2 : length (xorl (D (firstn 16 c)) iv') = 16) by (rewrite length_xorl; lia).
  rewrite <- !app_assoc. rewrite !firstn_exact, !skipn_exact by assumption.
  split; [|reflexivity]. rewrite xorl_assoc. now rewrite xorl_cancel_l by lia.
Qed.
Lemma cbc_decrypt_suffix_lemma : forall D c post out cap out' cap' iv k, block_function D -> bytes c -> block16 iv -> length c mod 16 = 0 -> 16 * k <= length c ->
  (N.of_nat (length c) <= int_max)%N -> length c <= cap -> length out = cap -> length c - 16 * k <= cap' -> length out' = cap' ->
  exists r r', cbc128_decrypt (lift D) (c ++ post) (length c) out cap iv = Some r /\ cr_ret r = true /\
    cbc128_decrypt (lift D) (skipn (16 * k) c ++ post) (length c - 16 * k) out' cap' (chained iv c k) = Some r' /\ cr_ret r' = true /\
    firstn (length c - 16 * k) (cr_out r') = skipn (16 * k) (firstn (length c) (cr_out r)).
Proof.
  intros D c post out cap out' cap' iv k HD B I M K X C O C' O'.
  assert (LS : length (skipn (16 * k) c) = length c - 16 * k) by apply skipn_length.
  assert (BS : bytes (skipn (16 * k) c)) by now apply bytes_skipn.
  assert (IS : block16 (chained iv c k)) by (destruct k as [|k]; [exact I|]; apply blk16_block; [exact B|lia]).
  assert (MS : length (skipn (16 * k) c) mod 16 = 0) by (rewrite LS; lia).
  destruct (decrypt_ok D c post out cap iv HD B I M X C O) as (r & R & T & F & _).
  destruct (decrypt_ok D (skipn (16 * k) c) post out' cap' (chained iv c k) HD BS IS MS ltac:(rewrite LS; lia) ltac:(lia) O') as (r' & R' & T' & F' & _).
  rewrite LS in R', F'. exists r, r'. split; [exact R|]. split; [exact T|]. split; [exact R'|]. split; [exact T'|]. rewrite F, F'.
  apply (blk16_ext ((length c - 16 * k) / 16)).
  - rewrite length_cbc_dec_bytes by assumption. rewrite LS. lia.
  - rewrite skipn_length, length_cbc_dec_bytes by assumption. lia.
  - intros j J. rewrite (dec_block D HD ((length c - 16 * k) / 16)) by (assumption || lia).
    assert (SK : forall (l : list N) i, blk16 (skipn (16 * k) l) i = blk16 l (k + i)).
    { intros l i. unfold blk16. rewrite skipn_skipn_add. do 2 f_equal. lia. }
    rewrite !SK. rewrite (dec_block D HD (length c / 16)) by (assumption || lia). f_equal.
    destruct j as [|j]; [now rewrite Nat.add_0_r|]. rewrite Nat.add_succ_r. cbn [chained]. apply SK.
Qed.

(** ** Encryption through the API *)
Lemma encrypt_ok E m out cap iv : block_function E -> bytes m -> block16 iv ->
  (N.of_nat (length (lib_padded m)) <= int_max)%N -> length (lib_padded m) <= cap -> length out = cap ->
  exists r, cbc128_encrypt false (lift E) m out cap iv = Some r /\ cr_ret r = true /\
    firstn (length (lib_padded m)) (cr_out r) = cbc_encrypt_bytes E iv (lib_padded m).
Proof.
  intros HE B I X C O. rewrite cbc_encrypt_conforms_lemma by assumption. eexists. split; [reflexivity|]. cbn [cr_ret cr_out]. split; [reflexivity|].
  destruct (cbc_encrypt_output_length_lemma E m iv HE B I) as (L & _ & _).
  now apply firstn_exact.
Qed.
Lemma cbc_encrypt_blocks_lemma : forall E m out cap iv, block_function E -> bytes m -> block16 iv ->
  (N.of_nat (length (lib_padded m)) <= int_max)%N -> length (lib_padded m) <= cap -> length out = cap ->
  exists r, cbc128_encrypt false (lift E) m out cap iv = Some r /\ cr_ret r = true /\
    forall k, 16 * S k <= length (lib_padded m) ->
      block16 (blk16 (cr_out r) k) /\ blk16 (cr_out r) k = E (xorl (blk16 (lib_padded m) k) (chained iv (cr_out r) k)).
Proof.
  intros E m out cap iv HE B I X C O. destruct (encrypt_ok E m out cap iv HE B I X C O) as (r & R & T & F). exists r. split; [exact R|split; [exact T|]].
  assert (P : length (lib_padded m) mod 16 = 0) by (rewrite length_lib_padded; apply merge_length_spec).
  assert (PB := bytes_lib_padded m B).
  assert (V : forall k, 16 * S k <= length (lib_padded m) -> blk16 (cr_out r) k = E (xorl (blk16 (lib_padded m) k) (chained iv (cr_out r) k))).
  { intros k K. rewrite <- (blk16_firstn (cr_out r) k (length (lib_padded m))) by exact K. rewrite F.
    rewrite (enc_block E HE (length (lib_padded m) / 16)) by (assumption || lia). do 2 f_equal.
    destruct k as [|k]; cbn [chained]; [reflexivity|]. rewrite <- F. apply blk16_firstn. lia. }
  intros k. induction k as [|k IH]; intro K.
  - split; [|now apply V]. rewrite V by exact K. apply HE, block16_xorl; [apply blk16_block; assumption|exact I].
  - split; [|now apply V]. rewrite V by exact K. apply HE, block16_xorl; [apply blk16_block; assumption|]. cbn [chained]. apply IH. lia.
Qed.
(** equal ciphertext blocks, in one message or in two *)
Lemma cbc_equal_blocks_lemma : forall E D m1 m2 out1 out2 cap1 cap2 iv1 iv2, block_cipher E D -> bytes m1 -> bytes m2 -> block16 iv1 -> block16 iv2 ->
  (N.of_nat (length (lib_padded m1)) <= int_max)%N -> length (lib_padded m1) <= cap1 -> length out1 = cap1 ->
  (N.of_nat (length (lib_padded m2)) <= int_max)%N -> length (lib_padded m2) <= cap2 -> length out2 = cap2 ->
  exists r1 r2, cbc128_encrypt false (lift E) m1 out1 cap1 iv1 = Some r1 /\ cr_ret r1 = true /\
    cbc128_encrypt false (lift E) m2 out2 cap2 iv2 = Some r2 /\ cr_ret r2 = true /\
    forall i j, 16 * S i <= length (lib_padded m1) -> 16 * S j <= length (lib_padded m2) ->
      (blk16 (cr_out r1) i = blk16 (cr_out r2) j <->
       xorl (blk16 (lib_padded m1) i) (blk16 (lib_padded m2) j) = xorl (chained iv1 (cr_out r1) i) (chained iv2 (cr_out r2) j)).
Proof.
  intros E D m1 m2 out1 out2 cap1 cap2 iv1 iv2 (HE & HD & DE) B1 B2 I1 I2 X1 C1 O1 X2 C2 O2.
  destruct (cbc_encrypt_blocks_lemma E m1 out1 cap1 iv1 HE B1 I1 X1 C1 O1) as (r1 & R1 & T1 & V1).
  destruct (cbc_encrypt_blocks_lemma E m2 out2 cap2 iv2 HE B2 I2 X2 C2 O2) as (r2 & R2 & T2 & V2).
  exists r1, r2. split; [exact R1|]. split; [exact T1|]. split; [exact R2|]. split; [exact T2|]. intros i j LI LJ.
  assert (G1 : block16 (chained iv1 (cr_out r1) i)) by (destruct i as [|i]; [exact I1|]; apply V1; lia).
  assert (G2 : block16 (chained iv2 (cr_out r2) j)) by (destruct j as [|j]; [exact I2|]; apply V2; lia).
  destruct (V1 i LI) as [_ W1]. destruct (V2 j LJ) as [_ W2]. rewrite W1, W2.
  assert (P1 : block16 (blk16 (lib_padded m1) i)) by (apply blk16_block; [now apply bytes_lib_padded|exact LI]).
  assert (P2 : block16 (blk16 (lib_padded m2) j)) by (apply blk16_block; [now apply bytes_lib_padded|exact LJ]).
  revert P1 P2 G1 G2. generalize (blk16 (lib_padded m1) i), (blk16 (lib_padded m2) j), (chained iv1 (cr_out r1) i), (chained iv2 (cr_out r2) j).
  intros p q a b P Q A BB. assert (H : E (xorl p a) = E (xorl q b) <-> xorl p a = xorl q b).
  { split; [|congruence]. intro Z. rewrite <- (DE (xorl p a)), <- (DE (xorl q b)) by now apply block16_xorl. now rewrite Z. }
  rewrite H. destruct P as [Lp _], Q as [Lq _], A as [La _], BB as [Lb _]. split; intro Z.
  - apply (f_equal (fun t => xorl t (xorl a q))) in Z.
    replace (xorl (xorl p a) (xorl a q)) with (xorl p q) in Z by (rewrite xorl_assoc, xorl_cancel_l by lia; reflexivity). rewrite Z.
    rewrite (xorl_comm q b), (xorl_comm a q). rewrite xorl_assoc. rewrite xorl_cancel_l by lia. apply xorl_comm.
  - apply (f_equal (fun t => xorl t (xorl q a))) in Z.
    replace (xorl (xorl p q) (xorl q a)) with (xorl p a) in Z by (rewrite xorl_assoc, xorl_cancel_l by lia; reflexivity). rewrite Z.
    rewrite (xorl_comm a b), (xorl_comm q a). rewrite xorl_assoc. rewrite xorl_cancel_l by lia. apply xorl_comm.
Qed.
Lemma cbc_common_prefix_lemma : forall E D m1 m2 out1 out2 cap1 cap2 iv, block_cipher E D -> bytes m1 -> bytes m2 -> block16 iv ->
  (N.of_nat (length (lib_padded m1)) <= int_max)%N -> length (lib_padded m1) <= cap1 -> length out1 = cap1 ->
  (N.of_nat (length (lib_padded m2)) <= int_max)%N -> length (lib_padded m2) <= cap2 -> length out2 = cap2 ->
  exists r1 r2, cbc128_encrypt false (lift E) m1 out1 cap1 iv = Some r1 /\ cr_ret r1 = true /\
    cbc128_encrypt false (lift E) m2 out2 cap2 iv = Some r2 /\ cr_ret r2 = true /\
    forall k, 16 * k <= length (lib_padded m1) -> 16 * k <= length (lib_padded m2) ->
      (firstn (16 * k) (cr_out r1) = firstn (16 * k) (cr_out r2) <-> firstn (16 * k) (lib_padded m1) = firstn (16 * k) (lib_padded m2)).
Proof.
  intros E D m1 m2 out1 out2 cap1 cap2 iv HC B1 B2 I X1 C1 O1 X2 C2 O2.
  destruct (cbc_equal_blocks_lemma E D m1 m2 out1 out2 cap1 cap2 iv iv HC B1 B2 I I X1 C1 O1 X2 C2 O2) as (r1 & r2 & R1 & T1 & R2 & T2 & V).
  exists r1, r2. split; [exact R1|]. split; [exact T1|]. split; [exact R2|]. split; [exact T2|].
  assert (HE := proj1 HC).
  destruct (cbc_encrypt_blocks_lemma E m1 out1 cap1 iv HE B1 I X1 C1 O1) as (r1' & R1' & _ & V1). rewrite R1 in R1'. injection R1' as <-.
  destruct (cbc_encrypt_blocks_lemma E m2 out2 cap2 iv HE B2 I X2 C2 O2) as (r2' & R2' & _ & V2). rewrite R2 in R2'. injection R2' as <-.
  assert (EXT : forall (a b : list N) k, (forall j, j < k -> block16 (blk16 a j)) -> (forall j, j < k -> block16 (blk16 b j)) ->
     (firstn (16 * k) a = firstn (16 * k) b <-> forall j, j < k -> blk16 a j = blk16 b j)).
  { intros a b k A B. split.
    - intros Q j J. rewrite <- (blk16_firstn a j (16 * k)), <- (blk16_firstn b j (16 * k)) by lia. now rewrite Q.
    - intros Q. destruct k as [|k]; [reflexivity|].
      assert (LEN : forall l, block16 (blk16 l k) -> 16 * S k <= length l).
      { intros l [L _]. unfold blk16 in L. rewrite firstn_length, skipn_length in L. lia. }
      pose proof (LEN a (A k ltac:(lia))). pose proof (LEN b (B k ltac:(lia))).
      apply (blk16_ext (S k)); [rewrite firstn_length; lia|rewrite firstn_length; lia|].
      intros j J. rewrite !blk16_firstn by lia. now apply Q. }
  intros k K1 K2. rewrite !EXT.
  - induction k as [|k IH].
    + split; intros _ j J; lia.
    + specialize (IH ltac:(lia) ltac:(lia)). split; intros Q.
      * assert (IHl : forall j, j < k -> blk16 (lib_padded m1) j = blk16 (lib_padded m2) j) by (apply IH; intros j J; apply Q; lia).
        intros j J. destruct (Nat.eq_dec j k) as [->|]; [|apply IHl; lia].
        pose proof (proj1 (V k k ltac:(lia) ltac:(lia)) (Q k ltac:(lia))) as Z.
        assert (CH : chained iv (cr_out r1) k = chained iv (cr_out r2) k) by (destruct k as [|k']; [reflexivity|]; cbn [chained]; apply Q; lia).
        rewrite CH in Z.
        assert (P1 : block16 (blk16 (lib_padded m1) k)) by (apply blk16_block; [now apply bytes_lib_padded|lia]).
        assert (P2 : block16 (blk16 (lib_padded m2) k)) by (apply blk16_block; [now apply bytes_lib_padded|lia]).
        assert (GC : length (chained iv (cr_out r2) k) = 16) by (destruct k as [|k']; [apply I|]; apply (V2 k'); lia).
        destruct P1 as [L1 _], P2 as [L2 _]. rewrite xorl_self, GC in Z.
        apply (f_equal (fun t => xorl t (blk16 (lib_padded m2) k))) in Z. rewrite xorl_cancel_r in Z by lia. rewrite Z. apply xorl_zeros_l. lia.
      * assert (IHr : forall j, j < k -> blk16 (cr_out r1) j = blk16 (cr_out r2) j) by (apply IH; intros j J; apply Q; lia).
        intros j J. destruct (Nat.eq_dec j k) as [->|]; [|apply IHr; lia].
        apply (V k k); try lia. rewrite (Q k) by lia.
        assert (P2 : block16 (blk16 (lib_padded m2) k)) by (apply blk16_block; [now apply bytes_lib_padded|lia]).
        assert (CH : chained iv (cr_out r1) k = chained iv (cr_out r2) k) by (destruct k as [|k']; [reflexivity|]; cbn [chained]; apply IHr; lia).
        rewrite CH. assert (GC : length (chained iv (cr_out r2) k) = 16) by (destruct k as [|k']; [apply I|]; apply (V2 k'); lia).
        rewrite !xorl_self, GC. now rewrite (proj1 P2).
  - intros j J. apply blk16_block; [now apply bytes_lib_padded|lia].
  - intros j J. apply blk16_block; [now apply bytes_lib_padded|lia].
  - intros j J. apply V1. lia.
  - intros j J. apply V2. lia.
Qed.

(** ** The reported length *)
(** the number the wrappers report for [n] bytes whose last one is [b] *)
Definition reported (n : nat) (b : N) : N := (N.of_nat n - (if (16 <? b)%N then 0 else b))%N.
Lemma last_get (l : list N) : l <> [] -> last l 0%N = get l (length l - 1).
Proof.
  intro H. destruct (exists_last H) as (a & x & ->). rewrite last_last, app_length. cbn [length]. unfold get. rewrite app_nth2 by lia.
  replace (length a + 1 - 1 - length a) with 0 by lia. reflexivity.
Qed.
Lemma wrapper_decrypt_ok D c post out cap iv : block_function D -> bytes c -> block16 iv -> length c mod 16 = 0 -> c <> [] ->
  (N.of_nat (length c) <= int_max)%N -> length c <= cap -> length out = cap ->
  exists r, wrapper_cbc_decrypt (lift D) (c ++ post) (length c) out cap iv = Some r /\ cr_ret r = true /\
    firstn (length c) (cr_out r) = cbc_decrypt_bytes D iv c /\
    cr_use r = Some (reported (length c) (get (cbc_decrypt_bytes D iv c) (length c - 1))).
Proof.
  intros HD B I M NE X C O. unfold wrapper_cbc_decrypt. rewrite cbc_decrypt_spec by assumption. cbn [bind cr_ret cr_out cr_iv].
  pose proof (length_cbc_dec_bytes D iv c HD I B M) as L.
  assert (NEd : cbc_decrypt_bytes D iv c <> []) by (intro Z; rewrite Z in L; destruct c; [congruence|discriminate]).
  unfold separate_length. pose proof (separate_pad_num_spec _ (skipn (length c) out) NEd) as SP. rewrite L in SP. rewrite SP. cbn [bind].
  eexists. split; [reflexivity|]. cbn [cr_ret cr_out cr_use]. split; [reflexivity|]. split.
  - now apply firstn_exact.
  - f_equal. rewrite last_get by exact NEd. rewrite L. set (b := get _ _).
    assert (16 <= length c) by (destruct c; [congruence|]; cbn [length] in *; lia).
    assert (BI : (0 <= Z.of_nat (length c) - Z.of_N (if (16 <? b)%N then 0 else b) < 2 ^ 31)%Z).
    { destruct (N.ltb_spec 16 b); unfold int_max in X; lia. }
    rewrite int_twice by exact BI. unfold reported. destruct (N.ltb_spec 16 b); lia.
Qed.
Lemma cbc_reported_lemma : forall D c post out cap iv, block_function D -> bytes c -> block16 iv -> length c mod 16 = 0 -> c <> [] ->
  (N.of_nat (length c) <= int_max)%N -> length c <= cap -> length out = cap ->
  exists r, wrapper_cbc_decrypt (lift D) (c ++ post) (length c) out cap iv = Some r /\ cr_ret r = true /\
    cr_use r = Some (reported (length c) (get (cr_out r) (length c - 1))).
Proof.
  intros D c post out cap iv HD B I M NE X C O. destruct (wrapper_decrypt_ok D c post out cap iv HD B I M NE X C O) as (r & R & T & F & U).
  exists r. split; [exact R|split; [exact T|]]. rewrite U, <- F. do 2 f_equal. unfold get. rewrite nth_firstn.
  destruct c; [congruence|]. cbn [length]. destruct (Nat.ltb_spec (S (length c) - 1) (S (length c))); [reflexivity|lia].
Qed.
Lemma reported_15 b : reported 16 b = 15%N <-> b = 1%N.
Proof. unfold reported. destruct (N.ltb_spec 16 b); split; intros; lia. Qed.
Lemma lxor_solve a b x : N.lxor a b = x <-> b = N.lxor a x.
Proof.
  split; [intros <-|intros ->]; rewrite <- N.lxor_assoc, N.lxor_nilpotent; [now rewrite N.lxor_0_l|now rewrite N.lxor_0_l].
Qed.
Lemma get_blk16 (l : list N) k i : i < 16 -> get (blk16 l k) i = get l (16 * k + i).
Proof. intro H. change (blk16 l k) with (slice l (16 * k) 16). now apply get_slice. Qed.
Lemma cbc_oracle_lemma : forall D c post out cap iv k iv' out' cap', block_function D -> bytes c -> block16 iv -> length c mod 16 = 0 ->
  (N.of_nat (length c) <= int_max)%N -> length c <= cap -> length out = cap -> 16 * S k <= length c ->
  bytes iv' -> length iv' = 15 -> 16 <= cap' -> length out' = cap' ->
  exists r, cbc128_decrypt (lift D) (c ++ post) (length c) out cap iv = Some r /\ cr_ret r = true /\
    forall v, byte v -> exists q, wrapper_cbc_decrypt (lift D) (blk16 c k) 16 out' cap' (iv' ++ [v]) = Some q /\ cr_ret q = true /\
      (cr_use q = Some 15%N <-> get (cr_out r) (16 * k + 15) = N.lxor (N.lxor v 1) (get (chained iv c k) 15)).
Proof.
  intros D c post out cap iv k iv' out' cap' HD B I M X C O K BI LI C' O'.
  destruct (cbc_decrypt_blocks_lemma D c post out cap iv HD B I M X C O) as (r & R & T & V). exists r. split; [exact R|split; [exact T|]]. intros v BV.
  pose proof (blk16_block c k B K) as [LB BB].
  assert (IV : block16 (iv' ++ [v])) by (split; [rewrite app_length; cbn [length]; lia|apply bytes_app; split; [exact BI|constructor; [exact BV|constructor]]]).
  assert (NE : blk16 c k <> []) by (intro Z; rewrite Z in LB; discriminate).
  destruct (wrapper_decrypt_ok D (blk16 c k) [] out' cap' (iv' ++ [v]) HD BB IV ltac:(rewrite LB; reflexivity) NE ltac:(rewrite LB; unfold int_max; lia) ltac:(lia) O') as (q & Q & TQ & _ & U).
  rewrite app_nil_r, LB in Q. rewrite LB in U. exists q. split; [exact Q|split; [exact TQ|]]. rewrite U.
  change (16 - 1) with 15.
  assert (D1 : cbc_decrypt_bytes D (iv' ++ [v]) (blk16 c k) = xorl (D (blk16 c k)) (iv' ++ [v])).
  { rewrite <- (app_nil_r (blk16 c k)) at 1. rewrite cbc_dec_bytes_app by exact LB. change (cbc_decrypt_bytes D (blk16 c k) []) with (@nil N). apply app_nil_r. }
  rewrite D1. assert (LD : length (D (blk16 c k)) = 16) by (apply HD; now split).
  rewrite get_xorl by (rewrite LD; symmetry; apply IV).
  rewrite <- (get_blk16 (cr_out r) k 15) by lia. rewrite V by exact K. rewrite get_xorl by (rewrite LD; symmetry; destruct k as [|k']; [apply I|]; apply (blk16_block c k'); [exact B|lia]).
  assert (GV : get (iv' ++ [v]) 15 = v) by (unfold get; rewrite app_nth2 by lia; rewrite LI; reflexivity). rewrite GV.
  set (d := get (D (blk16 c k)) 15). set (p := get (chained iv c k) 15). split.
  - intro H. assert (H' : reported 16 (N.lxor d v) = 15%N) by congruence. apply reported_15 in H'. f_equal. rewrite N.lxor_comm in H'. now apply lxor_solve.
  - intro H. f_equal. apply reported_15. rewrite N.lxor_comm. apply lxor_solve. apply (f_equal (fun t => N.lxor t p)) in H. now rewrite !N.lxor_assoc, N.lxor_nilpotent, !N.lxor_0_r in H.
Qed.
Lemma cbc_tamper_lemma : forall E D m out1 cap1 out2 cap2 iv want, block_cipher E D -> bytes m -> m <> [] -> block16 iv -> block16 want ->
  (N.of_nat (length (lib_padded m)) <= int_max)%N -> length (lib_padded m) <= cap1 -> length out1 = cap1 -> length (lib_padded m) <= cap2 -> length out2 = cap2 ->
  exists r d, cbc128_encrypt false (lift E) m out1 cap1 iv = Some r /\ cr_ret r = true /\
    cbc128_decrypt (lift D) (firstn (length (lib_padded m)) (cr_out r)) (length (lib_padded m)) out2 cap2
      (xorl iv (xorl (blk16 (lib_padded m) 0) want)) = Some d /\ cr_ret d = true /\
    firstn (length (lib_padded m)) (cr_out d) = want ++ skipn 16 (lib_padded m).
Proof.
  intros E D m out1 cap1 out2 cap2 iv want HC B NE I W X C1 O1 C2 O2. assert (HC' := HC). destruct HC' as (HE & HD & DE).
  destruct (encrypt_ok E m out1 cap1 iv HE B I X C1 O1) as (r & R & T & F). set (p := lib_padded m) in *.
  assert (PM : length p mod 16 = 0) by (unfold p; rewrite length_lib_padded; apply merge_length_spec).
  assert (PB : bytes p) by now apply bytes_lib_padded. assert (PN : p <> []) by (unfold p; rewrite lib_padded_nil_iff; exact NE).
  assert (P16 : 16 <= length p) by (destruct p; [congruence|]; cbn [length] in *; lia).
  destruct (cbc_encrypt_output_length_lemma E m iv HE B I) as (LC & _ & _). fold p in LC.
  assert (CB : bytes (cbc_encrypt_bytes E iv p)) by (apply (cbc_enc_bytes_block E iv p HE I PB PM)).
  set (c := cbc_encrypt_bytes E iv p) in *.
  assert (CN : c <> []) by (intro Z; rewrite Z in LC; cbn in LC; lia).
  assert (PK : block16 (blk16 p 0)) by (apply blk16_block; [exact PB|lia]).
  assert (I2 : block16 (xorl iv (xorl (blk16 p 0) want))) by (apply block16_xorl; [exact I|now apply block16_xorl]).
  destruct (cbc_change_iv_lemma D c [] out2 cap2 iv _ HD CB I I2 ltac:(now rewrite LC) CN ltac:(now rewrite LC) ltac:(lia) O2) as (d0 & d & D0 & T0 & D1 & T1 & F1 & F2).
  rewrite app_nil_r, LC in D0, D1. exists r, d. rewrite F. split; [exact R|]. split; [exact T|]. split; [exact D1|]. split; [exact T1|].
  destruct (decrypt_ok D c [] out2 cap2 iv HD CB I ltac:(now rewrite LC) ltac:(now rewrite LC) ltac:(lia) O2) as (d0' & D0' & _ & G & _).
  rewrite app_nil_r, LC in D0'. rewrite D0 in D0'. injection D0' as <-. rewrite LC in G.
  unfold c in G. rewrite (cbc_roundtrip_spec E D iv p HC I PB PM) in G.
  assert (G1 : firstn 16 (cr_out d0) = blk16 p 0) by (rewrite <- G at 1; unfold blk16; change (16 * 0) with 0; cbn [skipn]; rewrite firstn_firstn; f_equal; lia).
  rewrite G1 in F1. destruct I as [LI _], W as [LW _], PK as [LP _].
  assert (F1' : firstn 16 (cr_out d) = want).
  { rewrite F1. rewrite xorl_cancel_l by (rewrite length_xorl; lia). now apply xorl_cancel_l; lia. }
  rewrite <- (firstn_skipn 16 (firstn (length p) (cr_out d))). rewrite firstn_firstn. rewrite Nat.min_l by lia. rewrite F1'. f_equal.
  rewrite skipn_firstn_comm, F2, <- skipn_firstn_comm, G. reflexivity.
Qed.
