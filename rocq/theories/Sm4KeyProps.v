(** * Which keys are the same key (C89) *)
From Verif Require Import Base CbcModel Sm4Model Sm4Spec Sm4KeyProofs.
Local Open Scope nat_scope.

(** ** C89 *)
(** Two keys produce the same context exactly when they are the same 16-byte key: the key schedule loses nothing. *)
Theorem sm4_same_context_iff : forall rk1 rk2 k1 k2, length rk1 = 32 -> length rk2 = 32 -> bytes k1 -> bytes k2 ->
  (sm4_init_key rk1 k1 = sm4_init_key rk2 k2 <-> normal_key k1 = normal_key k2).
Proof. exact sm4_same_context_lemma. Qed.
Print Assumptions sm4_same_context_iff.
(** Two different keys are the same 16-byte key exactly when the longer one has 16 bytes or more and continues the
    shorter one as padding would; in particular two different keys shorter than 16 bytes never are. *)
Theorem key_padding_collision_iff : forall k1 k2, length k1 <= length k2 ->
  (normal_key k1 = normal_key k2 <->
   k1 = k2 \/ 16 <= length k2 /\ firstn 16 k2 = firstn 16 k1 ++ repeat (N.of_nat (16 - length k1)) (16 - length k1)).
Proof. exact key_collision_lemma. Qed.
Print Assumptions key_padding_collision_iff.
(** False of the code: different keys give different contexts.  Every key shorter than 16 bytes has a 16-byte key with the
    same context. *)
Theorem sm4_distinct_keys_refuted : forall k, bytes k -> length k < 16 ->
  bytes (normal_key k) /\ length (normal_key k) = 16 /\ normal_key k <> k /\
  sm4_init_key sm4_context_init k = sm4_init_key sm4_context_init (normal_key k).
Proof. exact sm4_short_keys_collide_lemma. Qed.
Print Assumptions sm4_distinct_keys_refuted.
(** The other padding function: 16 bytes, the key's own followed by zeros; two keys collide exactly when they agree on
    16 bytes, missing bytes counting as zero. *)
Theorem key_padding_zeros_value : forall k1 k2,
  length (key_padding_zeros k1) = 16 /\ (forall i, i < 16 -> get (key_padding_zeros k1) i = get k1 i) /\
  (key_padding_zeros k1 = key_padding_zeros k2 <-> forall i, i < 16 -> get k1 i = get k2 i).
Proof. exact zeros_collision_lemma. Qed.
Print Assumptions key_padding_zeros_value.
Example key_padding_instance : normal_key [1; 2; 3]%N = ([1; 2; 3] ++ repeat 13 13)%N /\
  normal_key [1; 2; 3]%N = normal_key (([1; 2; 3] ++ repeat 13 13) ++ [77; 78])%N /\
  normal_key [1; 2]%N <> normal_key [1; 2; 14]%N /\
  key_padding_zeros [1; 2]%N = key_padding_zeros [1; 2; 0]%N /\ key_padding_zeros [1; 2]%N <> key_padding_zeros [0; 1; 2]%N.
Proof. repeat split; try reflexivity; discriminate. Qed.
