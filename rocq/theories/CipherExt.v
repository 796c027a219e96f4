(** * The modes depend on the block cipher only through its values on 16-byte blocks *)
From Verif Require Import Base CbcModel CbcSpec CbcProofs GcmModel GcmSpec GcmProofs.
Local Open Scope nat_scope.

Definition agree (E F : list N -> list N) : Prop := forall b, block16 b -> E b = F b.

Lemma agree_block E F : agree E F -> block_function F -> block_function E.
Proof. intros HA HF b Hb. rewrite HA by auto. auto. Qed.
Lemma gctr_blocks_ext E F xs : agree E F -> forall y, block16 y -> gctr_blocks E y xs = gctr_blocks F y xs.
Proof.
  intros HA. induction xs as [|x xs IH]; intros y Hy; [reflexivity|]. cbn [gctr_blocks].
  rewrite HA by auto. f_equal. apply IH. now apply inc32_block.
Qed.
Lemma gctr_ext E F y x : agree E F -> block16 y -> gctr E y x = gctr F y x.
Proof. intros HA Hy. unfold gctr. f_equal. now apply gctr_blocks_ext. Qed.
Lemma hash_key_ext E F : agree E F -> hash_key E = hash_key F.
Proof. intros HA. unfold hash_key. apply HA, block16_zeros. Qed.
Lemma J0_ext E F iv : agree E F -> J0 E iv = J0 F iv.
Proof. intros HA. unfold J0. now rewrite (hash_key_ext E F HA). Qed.
Lemma gcm_tag_ext E F iv aad c t : agree E F -> bytes iv -> gcm_tag E iv aad c t = gcm_tag F iv aad c t.
Proof.
  intros HA Hiv. unfold gcm_tag. rewrite (hash_key_ext E F HA), (J0_ext E F iv HA).
  rewrite (HA (J0 F iv)) by now apply J0_block. reflexivity.
Qed.
Lemma cbc_enc_ext E F ps : agree E F -> block_function F -> Forall block16 ps ->
  forall iv, block16 iv -> cbc_enc E iv ps = cbc_enc F iv ps.
Proof.
  intros HA HF. induction ps as [|p ps IH]; intros HP iv Hiv; [reflexivity|]. inversion HP; subst. cbn [cbc_enc].
  rewrite (HA (xorl p iv)) by now apply block16_xorl. f_equal. apply IH; auto. apply HF. now apply block16_xorl.
Qed.
Lemma cbc_dec_ext D F cs : agree D F -> Forall block16 cs -> forall iv, cbc_dec D iv cs = cbc_dec F iv cs.
Proof.
  intros HA. induction cs as [|c cs IH]; intros HP iv; [reflexivity|]. inversion HP; subst. cbn [cbc_dec].
  rewrite HA by auto. f_equal. now apply IH.
Qed.
Lemma chunks_blocks m : bytes m -> length m mod 16 = 0 -> Forall block16 (chunks 16 m).
Proof.
  intros B L. pose proof (bytes_chunks 16 m ltac:(lia) B) as H1. pose proof (chunks_Forall_length 16 m ltac:(lia) L) as H2.
  rewrite Forall_forall in *. intros x Hx. split; auto.
Qed.
Lemma cbc_encrypt_bytes_ext E F iv m : agree E F -> block_function F -> block16 iv -> bytes m -> length m mod 16 = 0 ->
  cbc_encrypt_bytes E iv m = cbc_encrypt_bytes F iv m.
Proof. intros. unfold cbc_encrypt_bytes. f_equal. apply cbc_enc_ext; auto using chunks_blocks. Qed.
Lemma cbc_decrypt_bytes_ext D F iv m : agree D F -> bytes m -> length m mod 16 = 0 ->
  cbc_decrypt_bytes D iv m = cbc_decrypt_bytes F iv m.
Proof. intros. unfold cbc_decrypt_bytes. f_equal. apply cbc_dec_ext; auto using chunks_blocks. Qed.

(** a GCM session with an implementation [F] of the block function [E] *)
Lemma gcm_session_impl E F d iv aad p t : agree F E -> block_function E -> bytes iv -> bytes aad -> bytes p ->
  (8 * N.of_nat (length iv) < 2 ^ 32)%N -> (8 * N.of_nat (length aad) < 2 ^ 64)%N ->
  (N.of_nat (length p) <= 2147483647)%N -> t <= 16 ->
  let o := gctr E (inc32 (J0 E iv)) p in
  gcm_session d (lift F) iv aad [p] t = Some (o, gcm_tag E iv aad (match d with Enc => o | Dec => p end) t).
Proof.
  intros HA HE Hiv Haad Hp L1 L2 L3 Ht. cbv zeta. assert (HF : block_function F) by (eapply agree_block; eauto).
  rewrite <- (gctr_ext F E) by (auto; apply inc32_block, J0_block; auto).
  rewrite <- (gcm_tag_ext F E) by auto. rewrite <- (J0_ext F E) by auto.
  destruct d.
  - exact (gcm_conforms_lemma F iv aad p t HF Hiv Haad Hp L1 L2 L3 Ht).
  - exact (gcm_decrypt_conforms_lemma F iv aad p t HF Hiv Haad Hp L1 L2 L3 Ht).
Qed.
(** CBC encryption likewise *)
Lemma cbc_encrypt_impl E F m out cap iv : agree F E -> block_function E -> bytes m -> block16 iv ->
  (N.of_nat (length (lib_padded m)) <= int_max)%N -> length (lib_padded m) <= cap -> length out = cap ->
  wrapper_cbc_encrypt false (lift F) m out cap iv =
  Some {| cr_ret := true;
          cr_out := cbc_encrypt_bytes E iv (lib_padded m) ++ skipn (length (lib_padded m)) out;
          cr_use := Some (N.of_nat (length (lib_padded m)));
          cr_iv := iv |}.
Proof.
  intros HA HE Hm Hiv L1 L2 L3. assert (HF : block_function F) by (eapply agree_block; eauto).
  unfold wrapper_cbc_encrypt. rewrite (cbc_encrypt_conforms_lemma F m out cap iv HF Hm Hiv L1 L2 L3).
  rewrite (cbc_encrypt_bytes_ext F E); auto using bytes_lib_padded.
  destruct (cbc_encrypt_output_length_lemma F m iv HF Hm Hiv) as (_ & H & _). exact H.
Qed.
