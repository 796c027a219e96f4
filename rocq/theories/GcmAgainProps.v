(** * C97 (IVs of different lengths) and C102 *)
From Verif Require Import Base CbcModel CbcSpec CbcProofs GcmModel GcmSpec GfField Toy GcmAgain.
Local Open Scope nat_scope.
#[local] Opaque gf_mul gcm_mult block_mul gf_inv.

(** ** C97 *)
(** For every key with a non-zero hash key every IV, for instance one of 12 bytes, has a 16-byte IV that gives the same
    ciphertexts and tags. *)
Theorem gcm_iv_lengths_clash_refuted : forall E iv, block_function E -> hash_key E <> repeat 0%N 16 -> bytes iv ->
  exists iv', length iv' = 16 /\ bytes iv' /\ forall d aad ps t, gcm_session d (lift E) iv' aad ps t = gcm_session d (lift E) iv aad ps t.
Proof. exact gcm_iv_lengths_lemma. Qed.
Print Assumptions gcm_iv_lengths_clash_refuted.
Example gcm_iv_lengths_instance : block_function toyE /\ hash_key toyE <> repeat 0%N 16.
Proof. split; [apply toy_is_block_cipher|]. vm_compute. discriminate. Qed.

(** ** C102 *)
(** What calling WBCRYPTO_gcm_finish several times returns: the first tag is the tag of the message, the k-th is computed with the block of lengths hashed k times. *)
Theorem gcm_finish_again_actual : forall E d iv aad p ts, block_function E -> bytes iv -> bytes aad -> bytes p ->
  (8 * N.of_nat (length iv) < 2 ^ 32)%N -> (8 * N.of_nat (length aad) < 2 ^ 64)%N -> (N.of_nat (length p) <= 2147483647)%N -> Forall (fun t => t <= 16) ts ->
  let o := gcm_ciphertext E iv p in let c := match d with Enc => o | Dec => p end in
  gcm_tags d (lift E) iv aad p ts = Some (o, map (fun k =>
    firstn (nth k ts 0) (xorl (ghash (hash_key E) (pad16 aad ++ pad16 c ++ concat (repeat (len64 aad ++ len64 c) (S k)))) (E (J0 E iv)))) (seq 0 (length ts))).
Proof. exact gcm_tags_lemma. Qed.
Print Assumptions gcm_finish_again_actual.
(** The second tag is another one, for every key whose hash key is neither 0 nor 1: of any two messages of one block at most one has the same tag twice. *)
Theorem gcm_finish_again_refuted : forall E d iv aad p p' r r', block_function E -> hash_key E <> repeat 0%N 16 -> hash_key E <> N_to_be 16 (2 ^ 127) ->
  bytes iv -> bytes aad -> (8 * N.of_nat (length iv) < 2 ^ 32)%N -> (8 * N.of_nat (length aad) < 2 ^ 64)%N -> block16 p -> block16 p' -> p <> p' ->
  gcm_tags d (lift E) iv aad p [16; 16] = Some r -> gcm_tags d (lift E) iv aad p' [16; 16] = Some r' ->
  nth 1 (snd r) [] <> nth 0 (snd r) [] \/ nth 1 (snd r') [] <> nth 0 (snd r') [].
Proof. exact gcm_finish_again_lemma. Qed.
Print Assumptions gcm_finish_again_refuted.
Local Transparent gf_mul gcm_mult block_mul.
Example gcm_finish_again_instance : block_function toyE /\ hash_key toyE <> repeat 0%N 16 /\ hash_key toyE <> N_to_be 16 (2 ^ 127) /\
  exists o t1 t2 t3, gcm_tags Enc (lift toyE) (firstn 12 toy_iv) [] msg_bad [4; 16; 16] = Some (o, [t1; t2; t3]) /\ t1 = gcm_tag toyE (firstn 12 toy_iv) [] o 4 /\
    t1 <> firstn 4 t2 /\ t2 <> t3 /\ t2 <> gcm_tag toyE (firstn 12 toy_iv) [] o 16.
Proof.
  split; [apply toy_is_block_cipher|]. split; [vm_compute; discriminate|]. split; [vm_compute; discriminate|].
  eexists _, _, _, _. split; [vm_compute; reflexivity|]. repeat split; vm_compute; reflexivity || discriminate.
Qed.
