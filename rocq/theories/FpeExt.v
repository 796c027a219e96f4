(** * FF1 and FF3 depend on the block cipher only through its values on 16-byte blocks *)
From Verif Require Import Base CbcSpec CbcProofs GcmSpec CipherExt FpeModel FpeSpec FpeCore FpeProofs.
From Coq Require Import ZArith.
Local Open Scope nat_scope.

Lemma PRF_ext E F X : agree E F -> block_function F -> bytes X -> length X mod 16 = 0 -> PRF E X = PRF F X /\ block16 (PRF F X).
Proof.
  intros A HF B L. unfold PRF. pose proof (chunks_blocks X B L) as C. generalize block16_zeros. generalize (repeat 0%N 16).
  induction C as [|x xs Hx _ IH]; intros y Y; [now split|]. cbn [fold_left]. rewrite A by now apply block16_xorl. apply IH. apply HF. now apply block16_xorl.
Qed.
Lemma F1_ext E F radix T n i X : agree E F -> block_function F -> bytes T -> (N.of_nat i < 256)%N -> std_F1 E radix T n i X = std_F1 F radix T n i X.
Proof.
  intros A HF B I. unfold std_F1. cbv zeta. set (b := ceil_div (ceil_log radix (n - n / 2)) 8).
  set (P := std_P radix n (length T) (n / 2) ++ _).
  assert (HP : bytes P /\ length P mod 16 = 0).
  { split.
    - unfold P, std_P. rewrite !bytes_app. repeat split; try apply bytes_N_to_be; try (repeat constructor; unfold byte; lia); auto.
      apply bytes_repeat. reflexivity.
    - unfold P, std_P. rewrite !app_length, !length_N_to_be, repeat_length. cbn [length].
      pose proof (Z.mod_pos_bound (- Z.of_nat (length T) - Z.of_nat b - 1) 16 ltac:(lia)) as M.
      apply Nat2Z.inj. rewrite Nat2Z.inj_mod. cbn [Z.of_nat].
      replace (Z.of_nat _) with ((Z.of_nat (length T) + Z.of_nat b + 1) + (- Z.of_nat (length T) - Z.of_nat b - 1) mod 16 + 1 * 16)%Z by lia.
      rewrite Z.mod_add by lia. rewrite Zplus_mod_idemp_r. replace (_ + _)%Z with 0%Z by lia. reflexivity. }
  destruct (PRF_ext E F P A HF (proj1 HP) (proj2 HP)) as [E1 E2]. rewrite E1. do 4 f_equal.
  apply map_ext. intros j. apply A. apply block16_xorl; [exact E2|]. split; [apply length_N_to_be|apply bytes_N_to_be].
Qed.
Lemma fold_left_ext_in {S A} (f g : S -> A -> S) l : (forall s a, In a l -> f s a = g s a) -> forall s, fold_left f l s = fold_left g l s.
Proof. induction l as [|a l IH]; intros H s; [reflexivity|]. cbn [fold_left]. rewrite H by now left. apply IH. intros s' a' I. apply H. now right. Qed.
Lemma FF1_Encrypt_ext E F radix T X : agree E F -> block_function F -> bytes T -> FF1_Encrypt E radix T X = FF1_Encrypt F radix T X.
Proof.
  intros A HF B. unfold FF1_Encrypt. cbv zeta. rewrite (fold_left_ext_in (FF1_enc_step E radix T (length X)) (FF1_enc_step F radix T (length X))); [reflexivity|].
  intros [a b] i I. unfold FF1_enc_step. rewrite (F1_ext E F) by (auto; cbn [In] in I; lia). reflexivity.
Qed.
Lemma FF1_Decrypt_ext E F radix T X : agree E F -> block_function F -> bytes T -> FF1_Decrypt E radix T X = FF1_Decrypt F radix T X.
Proof.
  intros A HF B. unfold FF1_Decrypt. cbv zeta. rewrite (fold_left_ext_in (FF1_dec_step E radix T (length X)) (FF1_dec_step F radix T (length X))); [reflexivity|].
  intros [a b] i I. unfold FF1_dec_step. rewrite (F1_ext E F) by (auto; cbn [In] in I; lia). reflexivity.
Qed.
Lemma F3_ext E F radix T i X : agree E F -> bytes T -> length T = 8 -> std_F3 E radix T i X = std_F3 F radix T i X.
Proof.
  intros A B L. unfold std_F3, std_S3. cbv zeta. do 2 f_equal. apply A. split.
  - rewrite rev_length, app_length, length_xorl, !length_N_to_be. destruct (Nat.even i); rewrite ?firstn_length, ?skipn_length; lia.
  - apply bytes_rev. apply bytes_app. split; [|apply bytes_N_to_be]. apply bytes_xorl; [|apply bytes_N_to_be]. destruct (Nat.even i); auto using bytes_firstn, bytes_skipn.
Qed.
Lemma FF3_Encrypt_ext E F radix T X : agree E F -> bytes T -> length T = 8 -> FF3_Encrypt E radix T X = FF3_Encrypt F radix T X.
Proof.
  intros A B L. unfold FF3_Encrypt. cbv zeta. rewrite (fold_left_ext_in (FF3_enc_step E radix T (length X)) (FF3_enc_step F radix T (length X))); [reflexivity|].
  intros [a b] i I. unfold FF3_enc_step. rewrite (F3_ext E F) by auto. reflexivity.
Qed.
Lemma FF3_Decrypt_ext E F radix T X : agree E F -> bytes T -> length T = 8 -> FF3_Decrypt E radix T X = FF3_Decrypt F radix T X.
Proof.
  intros A B L. unfold FF3_Decrypt. cbv zeta. rewrite (fold_left_ext_in (FF3_dec_step E radix T (length X)) (FF3_dec_step F radix T (length X))); [reflexivity|].
  intros [a b] i I. unfold FF3_dec_step. rewrite (F3_ext E F) by auto. reflexivity.
Qed.

(** FPE with an implementation [F] of the block function [E] *)
Lemma ff1_impl E F clog radix T c s junk : agree F E -> block_function E -> ff1_limits clog radix T (length s) -> ~ ff1_bad_tweak clog radix T (length s) ->
  (let v := length s - length s / 2 in clog radix v = ceil_log radix v) -> numeral_string radix s -> fpe_init T radix = Some c ->
  ff1_encrypt F clog c junk s = Ret (map char_of (FF1_Encrypt E radix T (map digit_of s)) ++ [0%N]) /\
  ff1_decrypt F clog c junk s = Ret (map char_of (FF1_Decrypt E radix T (map digit_of s)) ++ [0%N]).
Proof.
  intros A HE L NB C N I. assert (HF : block_function F) by (eapply agree_block; eauto). assert (B : bytes T) by apply L.
  rewrite <- (FF1_Encrypt_ext F E), <- (FF1_Decrypt_ext F E) by auto. now apply ff1_conforms_lemma.
Qed.
Lemma ff3_impl E F clog radix T c s : agree F E -> bytes T -> ff3_limits clog radix T (length s) -> (radix ^ N.of_nat (ceil_div (length s) 2) <= 2 ^ 96)%N ->
  numeral_string radix s -> fpe_init T radix = Some c ->
  ff3_encrypt F clog c s = Ret (map char_of (FF3_Encrypt E radix (firstn 8 T) (map digit_of s)) ++ [0%N]) /\
  ff3_decrypt F clog c s = Ret (map char_of (FF3_Decrypt E radix (firstn 8 T) (map digit_of s)) ++ [0%N]).
Proof.
  intros A B L R N I. assert (L8 : length (firstn 8 T) = 8) by (rewrite firstn_length; destruct L as (_ & L & _); lia).
  rewrite <- (FF3_Encrypt_ext F E), <- (FF3_Decrypt_ext F E) by (auto using bytes_firstn). now apply ff3_conforms_lemma.
Qed.
