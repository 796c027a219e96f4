(** * Which table entries SM4 and GHASH read (C106) *)
From Verif Require Import Base CbcModel CbcSpec GcmModel GcmSpec Sm4Model Sm4Spec Sm4KeyProofs Toy TraceModel TraceProofs TraceGcm.
Local Open Scope nat_scope.
(** How many lookups there are and in which table is the same for all keys and blocks; the traced functions compute what the
    functions of Sm4Model compute. *)
Theorem sm4_lookups_partial : forall k b, bytes k -> block16 b ->
  fst (sm4_init_key_tr sm4_context_init k) = sm4_init_key sm4_context_init k /\
  fst (sm4_encrypt_tr (sm4_init_key sm4_context_init k) b) = sm4_encrypt (sm4_init_key sm4_context_init k) b /\
  fst (sm4_decrypt_tr (sm4_init_key sm4_context_init k) b) = sm4_decrypt (sm4_init_key sm4_context_init k) b /\
  map fst (snd (sm4_init_key_tr sm4_context_init k)) = repeat TSm4S 128 /\
  map fst (snd (sm4_encrypt_tr (sm4_init_key sm4_context_init k) b)) = repeat TSm4S 16 ++ repeat TSm4T 96 ++ repeat TSm4S 16 /\
  map fst (snd (sm4_decrypt_tr (sm4_init_key sm4_context_init k) b)) = repeat TSm4S 16 ++ repeat TSm4T 96 ++ repeat TSm4S 16.
Proof. exact sm4_lookups_lemma. Qed.
Print Assumptions sm4_lookups_partial.
(** False of the code: which entries are read does not depend on the key.  The first sixteen lookups of the key schedule tell
    any two keys apart that are not padded to the same one, whatever the contexts held before. *)
Theorem sm4_key_lookups_refuted : forall rk1 rk2 k1 k2, length rk1 = 32 -> length rk2 = 32 -> bytes k1 -> bytes k2 ->
  (firstn 16 (snd (sm4_init_key_tr rk1 k1)) = firstn 16 (snd (sm4_init_key_tr rk2 k2)) <-> normal_key k1 = normal_key k2).
Proof. exact sm4_key_lookups_lemma. Qed.
Print Assumptions sm4_key_lookups_refuted.
(** So do the first sixteen lookups of the encryption of any block known to the observer. *)
Theorem sm4_encrypt_lookups_refuted : forall k1 k2 b, bytes k1 -> bytes k2 -> block16 b ->
  (firstn 16 (snd (sm4_encrypt_tr (sm4_init_key sm4_context_init k1) b)) = firstn 16 (snd (sm4_encrypt_tr (sm4_init_key sm4_context_init k2) b)) <->
   normal_key k1 = normal_key k2).
Proof. exact sm4_encrypt_lookups_lemma. Qed.
Print Assumptions sm4_encrypt_lookups_refuted.
(** So do the lookups of the decryption of any block. *)
Theorem sm4_decrypt_lookups_refuted : forall k1 k2 b, bytes k1 -> bytes k2 -> block16 b ->
  (snd (sm4_decrypt_tr (sm4_init_key sm4_context_init k1) b) = snd (sm4_decrypt_tr (sm4_init_key sm4_context_init k2) b) <-> normal_key k1 = normal_key k2).
Proof. exact sm4_decrypt_lookups_lemma. Qed.
Print Assumptions sm4_decrypt_lookups_refuted.
(** False of GHASH too: the lookups for additional data of more than a block, the first of which is not zero, tell any two
    hash keys apart, whatever the block functions and IVs. *)
Theorem gcm_lookups_refuted : forall E1 E2 iv1 iv2 aad c1 c1' c2 c2', block_function E1 -> block_function E2 -> bytes aad ->
  16 < length aad -> firstn 16 aad <> repeat 0%N 16 ->
  gcm_init (lift E1) = Some c1 -> gcm_setiv (lift E1) c1 iv1 = (true, c1') ->
  gcm_init (lift E2) = Some c2 -> gcm_setiv (lift E2) c2 iv2 = (true, c2') ->
  fst (gcm_aad_tr c1' aad) = gcm_aad c1' aad /\
  (snd (gcm_aad_tr c1' aad) = snd (gcm_aad_tr c2' aad) -> hash_key E1 = hash_key E2).
Proof. exact gcm_lookups_lemma. Qed.
Print Assumptions gcm_lookups_refuted.
Example sm4_lookups_instance : let k := map N.of_nat (seq 1 16) in let k' := map N.of_nat (seq 2 16) in let b := repeat 7%N 16 in
  firstn 4 (snd (sm4_encrypt_tr (sm4_init_key sm4_context_init k) b)) <> firstn 4 (snd (sm4_encrypt_tr (sm4_init_key sm4_context_init k') b)) /\
  length (snd (sm4_encrypt_tr (sm4_init_key sm4_context_init k) b)) = 128.
Proof. cbv zeta. split; [vm_compute; discriminate|vm_compute; reflexivity]. Qed.
Example gcm_lookups_instance : exists c1 c2 d1 d2,
  gcm_init (lift toyE) = Some c1 /\ gcm_setiv (lift toyE) c1 (repeat 3%N 12) = (true, d1) /\
  gcm_init (lift (fun b => b)) = Some c2 /\ gcm_setiv (lift (fun b => b)) c2 (repeat 3%N 12) = (true, d2) /\
  hh_indices (firstn 95 (snd (gcm_aad_tr d1 (map N.of_nat (seq 1 20))))) = hh_indices (firstn 95 (snd (gcm_aad_tr d2 (map N.of_nat (seq 1 20))))) /\
  hh_indices (firstn 98 (snd (gcm_aad_tr d1 (map N.of_nat (seq 1 20))))) <> hh_indices (firstn 98 (snd (gcm_aad_tr d2 (map N.of_nat (seq 1 20))))).
Proof.
  do 4 eexists. split; [vm_compute; reflexivity|]. split; [vm_compute; reflexivity|]. split; [vm_compute; reflexivity|]. split; [vm_compute; reflexivity|].
  split; [vm_compute; reflexivity|vm_compute; discriminate].
Qed.
