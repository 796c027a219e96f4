(** * SP 800-38D: GF(2^128) multiplication, GHASH, GCTR, GCM. *)
From Verif Require Import Base.

(** 6.3 Algorithm 1.  A 128-bit block is the number whose binary digits are the bits of the block,
    leftmost bit first. *)
Definition gf_R : N := (0xE1 * 2 ^ 120)%N.
Definition gf_shift (V : N) : N :=
  if N.testbit V 0 then N.lxor (N.shiftr V 1) gf_R else N.shiftr V 1.
(** [k] remaining bits of X, bit number 128-k from the left is handled first *)
Fixpoint gf_mul_loop (k : nat) (X Z V : N) : N :=
  match k with
  | O => Z
  | S k' => let Z' := if N.testbit X (N.of_nat k') then N.lxor Z V else Z in
            gf_mul_loop k' X Z' (gf_shift V)
  end.
Definition gf_mul (X Y : N) : N := gf_mul_loop 128 X 0 Y.

(** byte-string versions *)
Definition block_mul (X H : list N) : list N := N_to_be 16 (gf_mul (be_to_N X) (be_to_N H)).
(** 6.4 GHASH over a string whose length is a multiple of 16 *)
Definition ghash (H s : list N) : list N :=
  fold_left (fun Y X => block_mul (xorl Y X) H) (chunks 16 s) (repeat 0%N 16).
(** pad with zeros to a multiple of 16 *)
Definition pad16 (s : list N) : list N := s ++ repeat 0%N ((16 - length s mod 16) mod 16).
(** 6.2 inc_32 *)
Definition inc32 (b : list N) : list N :=
  firstn 12 b ++ N_to_be 4 ((be_to_N (skipn 12 b) + 1) mod 2 ^ 32).
(** 6.5 GCTR *)
Fixpoint gctr_blocks (E : list N -> list N) (cb : list N) (xs : list (list N)) : list (list N) :=
  match xs with
  | [] => []
  | x :: xs' => xorl x (firstn (length x) (E cb)) :: gctr_blocks E (inc32 cb) xs'
  end.
Definition gctr E icb x := concat (gctr_blocks E icb (chunks 16 x)).

(** number of bits as a 64-bit string *)
Definition len64 (s : list N) : list N := N_to_be 8 (8 * N.of_nat (length s)).

(** 7.1 steps 1-2: hash key and pre-counter block *)
Definition hash_key (E : list N -> list N) : list N := E (repeat 0%N 16).
Definition J0 (E : list N -> list N) (iv : list N) : list N :=
  if length iv =? 12 then iv ++ [0; 0; 0; 1]%N
  else ghash (hash_key E) (pad16 iv ++ repeat 0%N 8 ++ len64 iv).
(** 7.1 GCM-AE *)
Definition gcm_ciphertext E iv p := gctr E (inc32 (J0 E iv)) p.
Definition gcm_tag E iv aad c t :=
  firstn t (xorl (ghash (hash_key E) (pad16 aad ++ pad16 c ++ len64 aad ++ len64 c)) (E (J0 E iv))).

(** number of 16-byte blocks, the last possibly incomplete *)
Definition nblk (n : nat) : nat := (n + 15) / 16.
(** k-fold inc_32 *)
Fixpoint inc32_n (k : nat) (y : list N) : list N :=
  match k with O => y | S k' => inc32_n k' (inc32 y) end.
(** pieces of data a caller may pass to one call: byte strings no longer than INT_MAX *)
Definition small_pieces (ps : list (list N)) : Prop :=
  Forall (fun p => bytes p /\ (N.of_nat (length p) <= 2147483647)%N) ps.
