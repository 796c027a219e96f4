(** * Specification of PKCS#7 padding and of CBC (SP 800-38A section 6.2). *)
From Verif Require Import Base.

(** RFC 5652 section 6.3: append k bytes of value k, k = 16 - (length mod 16) in 1..16. *)
Definition pkcs7 (m : list N) : list N :=
  let k := 16 - length m mod 16 in m ++ repeat (N.of_nat k) k.

(** The rule this library implements: like PKCS#7, but nothing is appended to a message
    whose length is already a multiple of 16. *)
Definition lib_padded (m : list N) : list N :=
  if length m mod 16 =? 0 then m else pkcs7 m.

(** the messages from which the library's padding can be removed: not block-aligned, or the
    last byte cannot be mistaken for a pad count *)
Definition recoverable (m : list N) : Prop :=
  length m mod 16 <> 0 \/ (last m 0 = 0 \/ 16 < last m 0)%N.

(** SP 800-38A 6.2:  C_j = CIPH(P_j xor C_{j-1}),  C_0 = IV. *)
Fixpoint cbc_enc (E : list N -> list N) (iv : list N) (ps : list (list N)) : list (list N) :=
  match ps with
  | [] => []
  | p :: ps' => let c := E (xorl p iv) in c :: cbc_enc E c ps'
  end.

(** SP 800-38A 6.2:  P_j = CIPH^-1(C_j) xor C_{j-1},  C_0 = IV. *)
Fixpoint cbc_dec (D : list N -> list N) (iv : list N) (cs : list (list N)) : list (list N) :=
  match cs with
  | [] => []
  | c :: cs' => xorl (D c) iv :: cbc_dec D c cs'
  end.

(** on byte strings *)
Definition cbc_encrypt_bytes E iv m := concat (cbc_enc E iv (chunks 16 m)).
Definition cbc_decrypt_bytes D iv c := concat (cbc_dec D iv (chunks 16 c)).

(** the last complete block of a ciphertext (the IV if there is none): what chains into the
    next block *)
Definition last_block (iv c : list N) : list N := last (chunks 16 c) iv.

(** a permutation of 16-byte blocks together with its inverse *)
Definition block_function (E : list N -> list N) : Prop := forall b, block16 b -> block16 (E b).
Definition block_cipher (E D : list N -> list N) : Prop :=
  block_function E /\ block_function D /\ forall b, block16 b -> D (E b) = b.
