(** * What SM3 digests and contexts tell (C107 - C109) *)
From Verif Require Import Base Sm3Model Sm3Spec Sm3Proofs Sm3More Sm3Props.
Local Open Scope nat_scope.

(** ** C107 *)
(** False of the code (and of the standard): only who knows a message can compute digests of messages that begin with it.  A
    context filled in from the digest and the length gives the digest of the message followed by its padding and any bytes. *)
Theorem sm3_extension_refuted : forall m s, bytes m -> bytes s ->
  sm3 (m ++ padding_of (length m) ++ s) = snd (sm3_final (sm3_update (resumed (sm3 m) (N.of_nat (length m + length (padding_of (length m))))) s)).
Proof. exact sm3_extension_lemma. Qed.
Print Assumptions sm3_extension_refuted.
(** Two messages of one length with one digest keep one digest when the same bytes follow their padding. *)
Theorem sm3_extension_same : forall m1 m2 s, bytes m1 -> bytes m2 -> bytes s -> length m1 = length m2 -> sm3 m1 = sm3 m2 ->
  sm3 (m1 ++ padding_of (length m1) ++ s) = sm3 (m2 ++ padding_of (length m2) ++ s).
Proof. exact sm3_extension_same_lemma. Qed.
Print Assumptions sm3_extension_same.
Example sm3_extension_instance : sm3 ([97; 98; 99]%N ++ padding_of 3 ++ [1; 2]%N) = snd (sm3_final (sm3_update (resumed sm3_abc_digest 64) [1; 2]%N)) /\
  length (padding_of 3) = 61.
Proof. split; vm_compute; reflexivity. Qed.

(** ** C108 *)
(** Such messages exist, of every length above 32 bytes. *)
Theorem sm3_collisions_exist : forall n, 32 < n -> exists m1 m2, bytes m1 /\ bytes m2 /\ length m1 = n /\ length m2 = n /\ m1 <> m2 /\ sm3 m1 = sm3 m2.
Proof. exact sm3_collisions_exist_lemma. Qed.
Print Assumptions sm3_collisions_exist.
(** Two messages with one digest: at some block of each, the compression function of the standard gives one value for two
    different pairs of chaining value and block, both found by hashing the messages. *)
Theorem sm3_collision : forall m1 m2, bytes m1 -> bytes m2 -> (N.of_nat (length m1) < 2 ^ 61)%N -> (N.of_nat (length m2) < 2 ^ 61)%N ->
  m1 <> m2 -> sm3 m1 = sm3 m2 ->
  exists i j, 64 * S i <= length (padded m1) /\ 64 * S j <= length (padded m2) /\
    (chain_at m1 i, block_at m1 i) <> (chain_at m2 j, block_at m2 j) /\
    CF (chain_at m1 i) (block_at m1 i) = CF (chain_at m2 j) (block_at m2 j).
Proof. exact sm3_collision_lemma. Qed.
Print Assumptions sm3_collision.
Example sm3_collision_instance : bytes [97]%N /\ bytes [98]%N /\ [97]%N <> [98]%N /\ 64 * 1 <= length (padded [97]%N) /\
  chain_at [97]%N 0 = IV /\ block_at [97]%N 0 <> block_at [98]%N 0.
Proof. split; [repeat constructor|]. split; [repeat constructor|]. split; [discriminate|]. split; [vm_compute; repeat constructor|]. split; [vm_compute; reflexivity|vm_compute; discriminate]. Qed.

(** ** C109 *)
(** What a context gives that is used again after SM3_Final without SM3_Init: the hash chain goes on from the padded first
    message, and the length field counts both messages without the first padding. *)
Theorem sm3_again_actual : forall m s, bytes m -> bytes s ->
  snd (sm3_final (sm3_update (fst (sm3_final (sm3_update sm3_init m))) s)) =
  digest_of (fold_left CF (chunks 64 (m ++ padding_of (length m) ++ s ++ [0x80%N] ++ repeat 0%N (pad_zeros (length s)) ++ N_to_be 8 (8 * N.of_nat (length m + length s)))) IV).
Proof. exact sm3_again_lemma. Qed.
Print Assumptions sm3_again_actual.
(** False of the code: a context can be used for the next message after SM3_Final. *)
Theorem sm3_again_refuted : ~ (forall m s, bytes m -> bytes s -> snd (sm3_final (sm3_update (fst (sm3_final (sm3_update sm3_init m))) s)) = sm3 s) /\
  ~ (forall m s, bytes m -> bytes s -> snd (sm3_final (sm3_update (fst (sm3_final (sm3_update sm3_init m))) s)) = sm3 (m ++ s)) /\
  ~ (forall m s, bytes m -> bytes s -> snd (sm3_final (sm3_update (fst (sm3_final (sm3_update sm3_init m))) s)) = sm3 (padded m ++ s)).
Proof. exact sm3_again_refuted_lemma. Qed.
Print Assumptions sm3_again_refuted.
