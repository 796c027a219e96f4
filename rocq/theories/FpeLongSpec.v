(** * FF3 as the library computes it for strings of every length

    SP 800-38G defines FF3 for halves of at most 96 bits.  For longer ones the library keeps the twelve leading bytes of
    the number. *)
From Verif Require Import Base GcmSpec FpeSpec.
Local Open Scope nat_scope.

(** the number of bytes of [x], and its twelve leading bytes *)
Definition byte_length (x : N) : N := ((N.size x + 7) / 8)%N.
Definition lead96 (x : N) : N := (x / 256 ^ (byte_length x - 12))%N.
Section Long.
Variable CIPH : list N -> list N.
Definition long_F3 (radix : N) (T : list N) (i : nat) (X : list N) : N :=
  let W := if Nat.even i then skipn 4 T else firstn 4 T in
  let P := xorl W (N_to_be 4 (N.of_nat i)) ++ N_to_be 12 (lead96 (NUM radix (rev X))) in
  be_to_N (rev (CIPH (rev P))).
Definition long_enc_step (radix : N) (T : list N) (n : nat) (s : list N * list N) (i : nat) : list N * list N :=
  let '(A, B) := s in
  let m := if Nat.even i then ceil_div n 2 else n - ceil_div n 2 in
  let c := ((NUM radix (rev A) + long_F3 radix T i B) mod radix ^ N.of_nat m)%N in
  (B, rev (STR radix m c)).
Definition long_dec_step (radix : N) (T : list N) (n : nat) (s : list N * list N) (i : nat) : list N * list N :=
  let '(A, B) := s in
  let m := if Nat.even i then ceil_div n 2 else n - ceil_div n 2 in
  let c := Z.to_N ((Z.of_N (NUM radix (rev B)) - Z.of_N (long_F3 radix T i A)) mod Z.of_N (radix ^ N.of_nat m)) in
  (rev (STR radix m c), A).
Definition long_start (X : list N) : list N * list N := (firstn (ceil_div (length X) 2) X, skipn (ceil_div (length X) 2) X).
Definition FF3_Encrypt_long (radix : N) (T X : list N) : list N :=
  let '(A, B) := fold_left (long_enc_step radix T (length X)) [0;1;2;3;4;5;6;7] (long_start X) in A ++ B.
Definition FF3_Decrypt_long (radix : N) (T X : list N) : list N :=
  let '(A, B) := fold_left (long_dec_step radix T (length X)) [7;6;5;4;3;2;1;0] (long_start X) in A ++ B.
(** the number in the first half after round [i], for even [i] *)
Definition left_number (radix : N) (T X : list N) (i : nat) : N :=
  NUM radix (rev (snd (fold_left (long_enc_step radix T (length X)) (seq 0 (S i)) (long_start X)))).
End Long.
