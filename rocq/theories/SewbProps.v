(** * Properties of SE-WBSM4 (C44) and of its stored affine maps (C62) *)
From Verif Require Import Base Word32 CbcSpec Sm4Model Sm4Spec Sm4Proofs FpeModel MatModel MatSpec Wbsm4Model Wbsm4Enc Wbsm4Spec SewbTables SewbPairs SewbModel SewbProofs.
From Coq Require Import ZArith.
Local Open Scope nat_scope.
Local Opaque MatMulVec MatMulNum MatMulMat genaffinepair affinemix affinecom4 genaffinepairs SE_A SE_B std_sbox identityM.

(** ** C44 *)
(** Generation succeeds whatever the random numbers (which pick the stored maps), on a fresh context or one used
    before, and the tables compute SM4 on every block. *)
Theorem se_wbsm4_conforms : forall rnd ctx key, bytes key ->
  exists ctx', se_gen_table rnd ctx key = Ret ctx' /\
    forall b, block16 b -> se_encrypt ctx' b = sm4_for (se_encmode ctx) key b /\ se_decrypt ctx' b = sm4_for (se_encmode ctx) key b.
Proof. exact se_wbsm4_conforms_lemma. Qed.
Print Assumptions se_wbsm4_conforms.
(** the standard's example through the white box *)
Example se_wbsm4_standard_vector : forall rnd, let key := N_to_be 16 0x0123456789abcdeffedcba9876543210 in
  exists ctx, se_gen_table rnd (se_context_init 1) key = Ret ctx /\ se_encrypt ctx key = N_to_be 16 0x681edf34d206965e86b3e94f536e4246.
Proof.
  intros rnd key. assert (K : block16 key) by (split; [reflexivity|apply bytes_N_to_be]).
  destruct (se_wbsm4_conforms rnd (se_context_init 1) key (proj2 K)) as (ctx & E1 & E2). exists ctx. split; [exact E1|].
  destruct (E2 key K) as [E _]. rewrite E. Transparent std_sbox. vm_compute. reflexivity.
Qed.
Opaque std_sbox.
(** Tables generated for encryption and tables generated for decryption undo each other. *)
Theorem se_wbsm4_roundtrip : forall rnd rnd' ctx ctx' em key b, bytes key -> block16 b -> em <> 0%Z ->
  se_gen_table rnd (se_context_init em) key = Ret ctx -> se_gen_table rnd' (se_context_init 0) key = Ret ctx' ->
  se_decrypt ctx' (se_encrypt ctx b) = b /\ se_encrypt ctx (se_decrypt ctx' b) = b.
Proof. exact se_wbsm4_roundtrip_lemma. Qed.
Print Assumptions se_wbsm4_roundtrip.

(** ** C62 *)
(** Every stored pair (A, B) satisfies B(S(A(x))) = S(x) for every byte x. *)
Theorem stored_maps_are_self_equivalences : forall n x, (n < 2039)%N -> byte x ->
  affineU 8 (nth (N.to_nat n) SE_B aff0) (get sm4_sbox (N.to_nat (affineU 8 (nth (N.to_nat n) SE_A aff0) x))) = get sm4_sbox (N.to_nat x).
Proof. exact stored_maps_are_self_equivalences_lemma. Qed.
Print Assumptions stored_maps_are_self_equivalences.
Example stored_maps_example : let A := nth 5 SE_A aff0 in let B := nth 5 SE_B aff0 in
  affineU 8 A 0x12 <> 0x12%N /\ affineU 8 B (get sm4_sbox (N.to_nat (affineU 8 A 0x12))) = get sm4_sbox 18.
Proof. split; [intros E|]; vm_compute in *; [discriminate|reflexivity]. Qed.
