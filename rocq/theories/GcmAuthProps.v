(** * Property theorems: what the GCM tag and IV guarantee (C94 - C97) *)
From Verif Require Import Base CbcModel CbcSpec Toy GcmModel GcmSpec GcmProofs GfField GfGhash GcmAuth GcmIv.
Local Open Scope nat_scope.

(** ** The multiplication of the standard is that of a field *)
(** with exclusive or as addition and the block 10...0 as one; by C08 it is the multiplication of the code *)
Theorem gf_mul_field : forall a b c, (a < 2 ^ 128)%N -> (b < 2 ^ 128)%N -> (c < 2 ^ 128)%N ->
  gf_mul a b = gf_mul b a /\ gf_mul a (gf_mul b c) = gf_mul (gf_mul a b) c /\ gf_mul a (N.lxor b c) = N.lxor (gf_mul a b) (gf_mul a c) /\
  gf_mul (2 ^ 127) a = a /\ (a <> 0%N -> exists i, (i < 2 ^ 128)%N /\ gf_mul i a = (2 ^ 127)%N).
Proof.
  intros a b c Ha Hb Hc. split; [now apply mul_comm|]. split; [now apply mul_assoc|]. split; [apply mul_lxor_r|]. split; [apply mul_1_l|].
  intros NZ. exists (gf_inv a). split; [now apply gf_inv_bound|now apply gf_inv_l].
Qed.
Print Assumptions gf_mul_field.
Example gf_mul_field_case : (gf_mul 0x66e94bd4ef8a2c3b884cfa59ca342b2e 0x0388dace60b6a392f328c2b971b2fe78 = 0x5e2ec746917062882c85b0685353deb7)%N.
Proof. vm_compute. reflexivity. Qed.

(** ** C94 *)
(** Encrypt a message under a key whose hash key E(0) is not zero.  Whoever then changes bytes of one 16-byte block of the
    additional data, or of one block of the ciphertext, gets another tag from decryption, whatever the change. *)
Theorem gcm_block_change_detected : forall E iv aad p ct tag, block_function E -> hash_key E <> repeat 0%N 16 ->
  bytes iv -> bytes aad -> bytes p -> (8 * N.of_nat (length iv) < 2 ^ 32)%N -> (8 * N.of_nat (length aad) < 2 ^ 64)%N -> (N.of_nat (length p) <= 2147483647)%N ->
  gcm_session Enc (lift E) iv aad [p] 16 = Some (ct, tag) ->
  (forall i aad', bytes aad' -> length aad = length aad' -> aad <> aad' -> (forall j, j / 16 <> i -> get aad j = get aad' j) ->
     exists p' tag', gcm_session Dec (lift E) iv aad' [ct] 16 = Some (p', tag') /\ tag' <> tag) /\
  (forall i ct', bytes ct' -> length ct = length ct' -> ct <> ct' -> (forall j, j / 16 <> i -> get ct j = get ct' j) ->
     exists p' tag', gcm_session Dec (lift E) iv aad [ct'] 16 = Some (p', tag') /\ tag' <> tag).
Proof.
  intros E iv aad p ct tag HE HN B1 B2 B3 L1 L2 L3 HS.
  destruct (gcm_change_lemma E iv aad p ct tag HE HN (conj B1 (conj B2 (conj B3 (conj L1 (conj L2 L3))))) HS) as [HA HC]. split.
  - intros i aad' Ba HL Hne Hag. exact (HA i aad' Ba (conj HL (conj Hne Hag))).
  - intros i ct' Bc HL Hne Hag. exact (HC i ct' Bc (conj HL (conj Hne Hag))).
Qed.
Print Assumptions gcm_block_change_detected.
(** The condition is needed: when the hash key is zero every message has the same tag. *)
Theorem gcm_zero_hash_key_refuted : forall E iv aad c aad' c' t, block_function E -> hash_key E = repeat 0%N 16 ->
  gcm_limits iv aad c -> gcm_limits iv aad' c' -> t <= 16 ->
  exists p p' tag, gcm_session Dec (lift E) iv aad [c] t = Some (p, tag) /\ gcm_session Dec (lift E) iv aad' [c'] t = Some (p', tag).
Proof. exact gcm_zero_key_lemma. Qed.
Print Assumptions gcm_zero_hash_key_refuted.
(** the toy cipher is of the first kind, the identity of the second *)
Example gcm_change_instance : hash_key toyE <> repeat 0%N 16 /\ hash_key (fun b => b) = repeat 0%N 16 /\ block_function (fun b => b) /\
  (exists ct tag p' tag', gcm_session Enc (lift toyE) gcm_iv12 gcm_aad5 [gcm_msg] 16 = Some (ct, tag) /\
    gcm_session Dec (lift toyE) gcm_iv12 gcm_aad5 [set ct 20 (N.lxor (get ct 20) 1)] 16 = Some (p', tag') /\ tag <> tag').
Proof.
  split; [vm_compute; discriminate|]. split; [reflexivity|]. split; [intros b Hb; exact Hb|].
  eexists _, _, _, _. split; [vm_compute; reflexivity|]. split; [vm_compute; reflexivity|]. vm_compute. discriminate.
Qed.

(** ** C95 *)
(** A forger who has seen a message with its tag and submits another message (additional data, ciphertext), under the same IV, with
    the tag changed by delta, succeeds for at most n * 256^(16-t) of the 2^128 hash keys, where t is the tag length and n the number of blocks of the
    longer message, plus one.  (Stated of any collection of keys with distinct hash keys.) *)
Theorem gcm_forgery_bound : forall iv aad c aad' c' t delta Es, gcm_limits iv aad c -> gcm_limits iv aad' c' -> t <= 16 -> (aad, c) <> (aad', c') ->
  Forall block_function Es -> NoDup (map hash_key Es) ->
  Forall (fun E => exists p tag p' tag', gcm_session Dec (lift E) iv aad [c] t = Some (p, tag) /\
    gcm_session Dec (lift E) iv aad' [c'] t = Some (p', tag') /\ xorl tag tag' = delta) Es ->
  (N.of_nat (length Es) <= N.of_nat (Nat.max (blocks_of aad c) (blocks_of aad' c')) * 256 ^ N.of_nat (16 - t))%N.
Proof. exact gcm_forgery_lemma. Qed.
Print Assumptions gcm_forgery_bound.
(** the abbreviations: the limits of the interface, and (number of blocks of the additional data) + (number of blocks of the ciphertext) + 1 *)
Example gcm_limits_meaning : forall iv aad c, gcm_limits iv aad c <-> (bytes iv /\ bytes aad /\ bytes c /\
  (8 * N.of_nat (length iv) < 2 ^ 32)%N /\ (8 * N.of_nat (length aad) < 2 ^ 64)%N /\ (N.of_nat (length c) <= 2147483647)%N).
Proof. intros. reflexivity. Qed.
Example blocks_of_meaning : forall aad c, blocks_of aad c = (length aad + 15) / 16 + (length c + 15) / 16 + 1.
Proof. reflexivity. Qed.
(** two ciphers with different hash keys under which the same forgery does not pass with the same delta; one of them makes a list the theorem applies to *)
Example gcm_forgery_instance : exists delta tag tag', gcm_session Dec (lift toyE) gcm_iv12 gcm_aad5 [gcm_msg] 4 = tag /\
  gcm_session Dec (lift toyE) gcm_iv12 [] [gcm_msg] 4 = tag' /\ (exists p q a b, tag = Some (p, a) /\ tag' = Some (q, b) /\ xorl a b = delta) /\
  NoDup (map hash_key [toyE; fun b => b]).
Proof.
  eexists _, _, _. split; [vm_compute; reflexivity|]. split; [vm_compute; reflexivity|]. split; [eexists _, _, _, _; repeat (split; [reflexivity|]); reflexivity|].
  constructor; [|constructor; [intros []|constructor]]. intros [H|[]]. vm_compute in H. discriminate.
Qed.

(** ** C96 *)
(** IVs of 2^29 bytes or more: the code hashes the low 32 bits of the bit length only.  For every key of every cipher with a non-zero hash key the ciphertext is not the one
    the standard prescribes. *)
Theorem gcm_long_iv_refuted : forall E D iv aad p t, block_cipher E D -> hash_key E <> repeat 0%N 16 -> bytes iv -> bytes aad -> bytes p ->
  (2 ^ 32 <= 8 * N.of_nat (length iv) < 2 ^ 64)%N -> (8 * N.of_nat (length aad) < 2 ^ 64)%N -> 16 <= length p -> (N.of_nat (length p) <= 2147483647)%N -> t <= 16 ->
  exists ct tag, gcm_session Enc (lift E) iv aad [p] t = Some (ct, tag) /\ ct <> gcm_ciphertext E iv p.
Proof. exact gcm_long_iv_lemma. Qed.
Print Assumptions gcm_long_iv_refuted.
(** What it computes, for IVs of every length. *)
Theorem gcm_setiv_actual : forall E c0 iv, block_function E -> gcm_init (lift E) = Some c0 -> bytes iv ->
  g_y (snd (gcm_setiv (lift E) c0 iv)) =
  if length iv =? 12 then iv ++ [0; 0; 0; 1]%N else ghash (hash_key E) (pad16 iv ++ repeat 0%N 12 ++ N_to_be 4 (8 * N.of_nat (length iv))).
Proof. exact setiv_y. Qed.
Print Assumptions gcm_setiv_actual.
Example gcm_long_iv_instance : block_cipher toyE toyD /\ hash_key toyE <> repeat 0%N 16 /\ (2 ^ 32 <= 8 * N.of_nat (length (repeat 7%N (N.to_nat (2 ^ 29)))) < 2 ^ 64)%N.
Proof. split; [exact toy_is_block_cipher|]. split; [vm_compute; discriminate|]. rewrite repeat_length, N2Nat.id. split; [discriminate|reflexivity]. Qed.

(** ** C97 *)
(** Different 12-byte IVs: no block is encrypted twice, neither for the keystream nor for the tag. *)
Theorem gcm_iv12_disjoint : forall E c0 iv iv' n n' b, block_function E -> gcm_init (lift E) = Some c0 ->
  length iv = 12 -> length iv' = 12 -> bytes iv -> bytes iv' -> (N.of_nat n < 2 ^ 32)%N -> (N.of_nat n' < 2 ^ 32)%N -> iv <> iv' ->
  let y := g_y (snd (gcm_setiv (lift E) c0 iv)) in let y' := g_y (snd (gcm_setiv (lift E) c0 iv')) in
  In b (y :: counter_blocks n y) -> In b (y' :: counter_blocks n' y') -> False.
Proof. exact gcm_iv12_disjoint_lemma. Qed.
Print Assumptions gcm_iv12_disjoint.
(** Different IVs of the same length up to 16 bytes: the ciphertexts of a message of at least one block differ. *)
Theorem gcm_iv_short_partial : forall E D d iv iv' aad p t r r', block_cipher E D -> hash_key E <> repeat 0%N 16 -> bytes iv -> bytes iv' -> bytes aad -> bytes p ->
  length iv = length iv' -> length iv <= 16 -> iv <> iv' -> (8 * N.of_nat (length aad) < 2 ^ 64)%N -> 16 <= length p -> (N.of_nat (length p) <= 2147483647)%N -> t <= 16 ->
  gcm_session d (lift E) iv aad [p] t = Some r -> gcm_session d (lift E) iv' aad [p] t = Some r' -> fst r <> fst r'.
Proof. exact gcm_iv_short_session_lemma. Qed.
Print Assumptions gcm_iv_short_partial.
(** Without the bound on the length it is false, for every key: two different IVs of 32 bytes give the same ciphertexts and tags. *)
Theorem gcm_iv_clash_refuted : forall E, block_function E -> exists iv iv', iv <> iv' /\ length iv = 32 /\ length iv' = 32 /\ bytes iv /\ bytes iv' /\
  forall d aad ps t, gcm_session d (lift E) iv aad ps t = gcm_session d (lift E) iv' aad ps t.
Proof. intros E HE. exists iv_zero, (iv_clash E). exact (gcm_iv_clash_lemma E HE). Qed.
Print Assumptions gcm_iv_clash_refuted.
Example gcm_iv_instance : exists c0, gcm_init (lift toyE) = Some c0 /\ length gcm_iv12 = 12 /\ bytes gcm_iv12 /\ 16 <= length gcm_msg.
Proof. eexists. split; [vm_compute; reflexivity|]. split; [reflexivity|]. split; [repeat constructor|]. apply Nat.leb_le. reflexivity. Qed.
