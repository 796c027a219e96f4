(** * GCM on inputs longer than an int (proofs for C52) *)
From Verif Require Import Base CbcModel CbcLong GcmModel WbaesModel WbgcmModel.
From Coq Require Import ZArith Lia.
Local Open Scope nat_scope.

Lemma low_firstn (inp : list N) : length (firstn (low32 (length inp)) inp) = low32 (length inp).
Proof. rewrite firstn_length. pose proof (low32_le (length inp)). lia. Qed.
Lemma low_low n : low32 (low32 n) = low32 n.
Proof. unfold low32. rewrite N2Nat.id, N.mod_mod by discriminate. reflexivity. Qed.
Lemma gcm_wraps_lemma : forall d blk c inp outlen, length inp <= outlen -> (N.of_nat (low32 (length inp)) <= int_max)%N ->
  gcm_crypt d blk c inp outlen = gcm_crypt d blk c (firstn (low32 (length inp)) inp) outlen.
Proof.
  intros d blk c inp outlen Ho Hl. unfold gcm_crypt. rewrite low_firstn. pose proof (low32_le (length inp)).
  destruct (Nat.ltb_spec outlen (length inp)); [lia|]. destruct (Nat.ltb_spec outlen (low32 (length inp))); [lia|].
  rewrite (c_int_low (length inp) Hl), (c_int_low (low32 (length inp))), low_low by (rewrite low_low; exact Hl). cbv zeta. rewrite Nat2Z.id.
  rewrite firstn_firstn, Nat.min_id. reflexivity.
Qed.
Lemma wbgcm_wraps_lemma : forall d k c inp outlen, length inp <= outlen -> (N.of_nat (low32 (length inp)) <= int_max)%N ->
  wbgcm_crypt d k c inp outlen = wbgcm_crypt d k c (firstn (low32 (length inp)) inp) outlen.
Proof.
  intros d k c inp outlen Ho Hl. unfold wbgcm_crypt. rewrite low_firstn. pose proof (low32_le (length inp)).
  destruct (Nat.ltb_spec outlen (length inp)); [lia|]. destruct (Nat.ltb_spec outlen (low32 (length inp))); [lia|].
  rewrite (c_int_low (length inp) Hl), (c_int_low (low32 (length inp))), low_low by (rewrite low_low; exact Hl). cbv zeta. rewrite Nat2Z.id.
  rewrite firstn_firstn, Nat.min_id. reflexivity.
Qed.
Lemma high_value n : (int_max < N.of_nat (low32 n))%N -> c_int (N.of_nat n) = (Z.of_nat (low32 n) - 2 ^ 32)%Z.
Proof. unfold low32, int_max, c_int. rewrite N2Nat.id. intros H. destruct (N.ltb_spec (N.of_nat n mod 2 ^ 32) (2 ^ 31)); lia. Qed.
Lemma low_lt n : (Z.of_nat (low32 n) < 2 ^ 32)%Z.
Proof. unfold low32. pose proof (N.mod_lt (N.of_nat n) (2 ^ 32) ltac:(discriminate)). lia. Qed.
Definition shrunk (l : N) (n : nat) : N := ((l + (2 ^ 64 - 2 ^ 32) + N.of_nat (low32 n)) mod 2 ^ 64)%N.
Lemma shrunk_eq l n : Z.to_N ((Z.of_N l + (Z.of_nat (low32 n) - 2 ^ 32)) mod 2 ^ 64)%Z = shrunk l n.
Proof.
  unfold shrunk. apply N2Z.inj. rewrite Z2N.id by (apply Z.mod_pos_bound; lia). rewrite N2Z.inj_mod.
  rewrite <- (Z.mod_add _ 1) by lia. f_equal. set (x := low32 n). clearbody x. lia.
Qed.
Lemma gcm_high_lemma : forall d blk c inp outlen, length inp <= outlen -> (int_max < N.of_nat (low32 (length inp)))%N ->
  gcm_crypt d blk c inp outlen = (true, mkgcm (shrunk (g_len c) (length inp)) (g_add_len c) (g_HL c) (g_HH c) (g_base c) (g_y c) (g_buf c), []).
Proof.
  intros d blk c inp outlen Ho Hl. unfold gcm_crypt. destruct (Nat.ltb_spec outlen (length inp)); [lia|].
  rewrite (high_value _ Hl), shrunk_eq. cbv zeta. replace (Z.to_nat (Z.of_nat (low32 (length inp)) - 2 ^ 32)) with 0 by (pose proof (low_lt (length inp)); lia).
  rewrite firstn_O, chunks_nil. reflexivity.
Qed.
Lemma wbgcm_high_lemma : forall d k c inp outlen, length inp <= outlen -> (int_max < N.of_nat (low32 (length inp)))%N ->
  wbgcm_crypt d k c inp outlen = (1%Z, mkgcm (shrunk (g_len c) (length inp)) (g_add_len c) (g_HL c) (g_HH c) (g_base c) (g_y c) (g_buf c), []).
Proof.
  intros d k c inp outlen Ho Hl. unfold wbgcm_crypt. destruct (Nat.ltb_spec outlen (length inp)); [lia|].
  rewrite (high_value _ Hl), shrunk_eq. cbv zeta. replace (Z.to_nat (Z.of_nat (low32 (length inp)) - 2 ^ 32)) with 0 by (pose proof (low_lt (length inp)); lia).
  rewrite firstn_O, chunks_nil. reflexivity.
Qed.
