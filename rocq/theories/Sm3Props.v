(** * Properties of SM3 *)
From Verif Require Import Base Sm3Model Sm3Spec Sm3Proofs.
Local Open Scope nat_scope.

(** C25: the one-shot hash is SM3, GM/T 0004-2012, for every message.  (The standard's length field is
    the bit length as a 64-bit number; [std_sm3] truncates it for messages beyond 2^64 bits, for which the
    standard defines nothing.) *)
Theorem sm3_conforms : forall m, bytes m -> sm3 m = std_sm3 m.
Proof. exact sm3_conforms_lemma. Qed.
Print Assumptions sm3_conforms.

(** C24: hashing in pieces is hashing the concatenation, for every way to cut a message. *)
Theorem sm3_streaming : forall pieces, Forall bytes pieces -> sm3_stream pieces = sm3 (concat pieces).
Proof. exact sm3_streaming_lemma. Qed.
Print Assumptions sm3_streaming.

(** the digest is always 32 bytes *)
Theorem sm3_digest_length : forall m, bytes m -> length (sm3 m) = 32.
Proof. exact sm3_digest_length_lemma. Qed.
Print Assumptions sm3_digest_length.

(** GM/T 0004-2012 appendix A.1 and A.2 *)
Definition sm3_abc_digest : list N :=
  N_to_be 32 0x66c7f0f462eeedd9d1f2d46bdc10e4e24167c4875cf2f7a2297da02b8f4ba8e0.
Example sm3_abc : sm3 [97; 98; 99]%N = sm3_abc_digest /\ bytes [97; 98; 99]%N.
Proof. split; [vm_compute; reflexivity|repeat constructor]. Qed.
Definition sm3_m2 : list N := concat (repeat [97; 98; 99; 100]%N 16).
Example sm3_abcd16 : sm3 sm3_m2
  = N_to_be 32 0xdebe9ff92275b8a138604889c18e5a4d6fdb70e5387e5765293dcba39c0c5732 /\ bytes sm3_m2.
Proof. split; [vm_compute; reflexivity|repeat constructor]. Qed.
(** pieces of 0, 3, 70 and 55 bytes: the 128-byte total crosses the buffer boundary twice *)
Definition sm3_pieces : list (list N) :=
  let m := map N.of_nat (seq 0 128) in
  [[]; firstn 3 m; firstn 70 (skipn 3 m); skipn 73 m].
Example sm3_streaming_instance :
  sm3_stream sm3_pieces = sm3 (map N.of_nat (seq 0 128)) /\ Forall bytes sm3_pieces.
Proof. split; [vm_compute; reflexivity|repeat constructor]. Qed.
