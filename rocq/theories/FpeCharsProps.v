(** * What format-preserving encryption does with characters outside the alphabet (C31) *)
From Verif Require Import Base CbcSpec GcmSpec Toy FpeModel FpeSpec FpeCore FpeProofs FpeCharsProofs.
Local Open Scope nat_scope.

(** ** C31 *)
(** The exact condition for a call to return: the second half, read as a number with the values the library gives to
    arbitrary characters, fits the buffer that was sized for valid digits.  Otherwise the buffer overflows.  The first
    half plays no part. *)
Theorem ff1_returns_iff : forall E clog radix T c s junk,
  block_function E -> ff1_limits clog radix T (length s) -> ~ ff1_bad_tweak clog radix T (length s) -> fpe_init T radix = Some c ->
  let B := skipn (length s / 2) (map map_char s) in
  let b := ceil_div (clog radix (length s - length s / 2)) 8 in
  ((NUM radix B < 256 ^ N.of_nat b)%N ->
     exists ct, ff1_encrypt E clog c junk s = Ret (ct ++ [0%N]) /\ length ct = length s /\ numeral_string radix ct) /\
  ((256 ^ N.of_nat b <= NUM radix B)%N -> ff1_encrypt E clog c junk s = Undef).
Proof. exact ff1_returns_iff_lemma. Qed.
Print Assumptions ff1_returns_iff.
Theorem ff3_returns_iff : forall E clog radix T c s,
  ff3_limits clog radix T (length s) -> fpe_init T radix = Some c ->
  let B := skipn (ceil_div (length s) 2) (map map_char s) in
  let b := ceil_div (clog radix (ceil_div (length s) 2)) 8 in
  ((NUM radix (rev B) < 256 ^ N.of_nat b)%N ->
     exists ct, ff3_encrypt E clog c s = Ret (ct ++ [0%N]) /\ length ct = length s /\ numeral_string radix ct) /\
  ((256 ^ N.of_nat b <= NUM radix (rev B))%N -> ff3_encrypt E clog c s = Undef).
Proof. exact ff3_returns_iff_lemma. Qed.
Print Assumptions ff3_returns_iff.
(** The first half enters only modulo radix^u, so an invalid first half is silently replaced by a valid one: every string
    whose second half is valid has the ciphertext of a valid string, for every cipher and tweak. *)
Theorem fpe_invalid_collides : forall E clog radix T c s junk, fpe_init T radix = Some c ->
  (numeral_string radix (skipn (length s / 2) s) ->
     exists s', numeral_string radix s' /\ length s' = length s /\ ff1_encrypt E clog c junk s' = ff1_encrypt E clog c junk s) /\
  (numeral_string radix (skipn (ceil_div (length s) 2) s) ->
     exists s', numeral_string radix s' /\ length s' = length s /\ ff3_encrypt E clog c s' = ff3_encrypt E clog c s).
Proof. exact fpe_invalid_collides_lemma. Qed.
Print Assumptions fpe_invalid_collides.
(** radix 10: "A1" has the ciphertext of "71" under FF1 and FF3 *)
Definition chars_T : list N := N_to_be 8 0x0102030405060708.
Example fpe_collision_instance : exists c o o3, fpe_init chars_T 10 = Some c /\ ~ numeral_string 10 [65; 49]%N /\ numeral_string 10 [55; 49]%N /\
  ff1_encrypt toyE ceil_log c [] [65; 49]%N = Ret o /\ ff1_encrypt toyE ceil_log c [] [55; 49]%N = Ret o /\
  ff3_encrypt toyE ceil_log c [65; 49]%N = Ret o3 /\ ff3_encrypt toyE ceil_log c [55; 49]%N = Ret o3.
Proof.
  do 3 eexists. split; [reflexivity|]. split.
  { intros H. inversion H as [|? ? H1 _]; subst. vm_compute in H1. repeat (destruct H1 as [H1|H1]; [discriminate|]). exact H1. }
  split; [apply numeral_check; vm_compute; reflexivity|]. split; [vm_compute; reflexivity|]. split; [vm_compute; reflexivity|].
  split; vm_compute; reflexivity.
Qed.
