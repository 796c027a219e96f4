(** * Properties of format-preserving encryption outside the domain of the standard (C87) *)
From Verif Require Import Base CbcSpec GcmSpec Sm4Model Sm4Spec FpeModel FpeSpec FpeProofs FpeLongSpec FpeLongProofs.
Local Open Scope nat_scope.

(** ** C87 *)
(** SP 800-38G demands at least 100 strings of the given length over the radix.  The library does not look: it encrypts
    strings from any smaller set, down to four strings for FF1 and two for FF3. *)
Theorem fpe_small_domain_refuted : forall E clog radix T c s junk,
  block_function E -> numeral_string radix s -> fpe_init T radix = Some c -> (radix ^ N.of_nat (length s) < 100)%N ->
  (ff1_limits clog radix T (length s) -> ~ ff1_bad_tweak clog radix T (length s) ->
     exists ct, ff1_encrypt E clog c junk s = Ret (ct ++ [0%N]) /\ length ct = length s /\ numeral_string radix ct) /\
  (ff3_limits clog radix T (length s) ->
     exists ct, ff3_encrypt E clog c s = Ret (ct ++ [0%N]) /\ length ct = length s /\ numeral_string radix ct).
Proof. exact fpe_small_domain_refuted_lemma. Qed.
Print Assumptions fpe_small_domain_refuted.
(** FF3 is defined for halves of at most 96 bits.  The library accepts longer strings as well and does not tell. *)
Theorem ff3_long_refuted : forall E clog radix T c s,
  ff3_limits clog radix T (length s) -> numeral_string radix s -> fpe_init T radix = Some c ->
  (2 ^ 96 < radix ^ N.of_nat (ceil_div (length s) 2))%N ->
  exists ct, ff3_encrypt E clog c s = Ret (ct ++ [0%N]) /\ length ct = length s /\ numeral_string radix ct.
Proof. exact ff3_long_refuted_lemma. Qed.
Print Assumptions ff3_long_refuted.
(** What it computes, for strings of every length: FF3 with the twelve leading bytes of the number in place of the number. *)
Theorem ff3_value : forall E clog radix T c s,
  ff3_limits clog radix T (length s) -> numeral_string radix s -> fpe_init T radix = Some c ->
  ff3_encrypt E clog c s = Ret (map char_of (FF3_Encrypt_long E radix (firstn 8 T) (map digit_of s)) ++ [0%N]) /\
  ff3_decrypt E clog c s = Ret (map char_of (FF3_Decrypt_long E radix (firstn 8 T) (map digit_of s)) ++ [0%N]).
Proof. exact ff3_value_lemma. Qed.
Print Assumptions ff3_value.
(** In consequence small differences pass through the cipher unchanged.  Two strings agree in the second half, and the
    numbers in their first halves differ by [d].  If [d] does not carry into the twelve leading bytes of the number in the
    first half after rounds 0, 2, 4 and 6, then the ciphertexts agree in the second half as well and the numbers in their
    first halves differ by [d], whatever the block cipher. *)
Theorem ff3_long_difference : forall E clog radix T c s s' d,
  ff3_limits clog radix T (length s) -> numeral_string radix s -> numeral_string radix s' -> length s' = length s -> fpe_init T radix = Some c ->
  let u := ceil_div (length s) 2 in
  let first x := NUM radix (rev (firstn u (map digit_of x))) in
  skipn u s' = skipn u s -> first s' = (first s + d)%N ->
  (forall i, In i [0; 2; 4; 6] -> let x := left_number E radix (firstn 8 T) (map digit_of s) i in
     (x + d < radix ^ N.of_nat u)%N /\ lead96 (x + d) = lead96 x) ->
  exists ct ct', ff3_encrypt E clog c s = Ret (ct ++ [0%N]) /\ ff3_encrypt E clog c s' = Ret (ct' ++ [0%N]) /\
    skipn u ct' = skipn u ct /\ first ct' = (first ct + d)%N.
Proof. exact ff3_long_difference_lemma. Qed.
Print Assumptions ff3_long_difference.
(** FF3 over SM4 with the key of the standard's example, 80 decimal digits: strings that differ in one digit have
    ciphertexts that differ in the same digit only. *)
Definition long_key : list N := N_to_be 16 0x0123456789abcdeffedcba9876543210.
Definition long_T : list N := N_to_be 8 0xd8e7920afa330a73.
Definition long_s : list N := map (fun i => 48 + N.of_nat (i * i mod 7))%N (seq 0 80).
Definition long_s' : list N := set long_s 0 (get long_s 0 + 1)%N.
Definition SM4 : list N -> list N := sm4_encrypt (sm4_init_key sm4_context_init long_key).
Definition long_enc (s : list N) : list N :=
  match fpe_init long_T 10 with
  | Some c => match ff3_encrypt SM4 ceil_log c s with Ret o => o | _ => [] end
  | None => []
  end.
Example ff3_long_instance : ff3_limits ceil_log 10 long_T (length long_s) /\ numeral_string 10 long_s /\ numeral_string 10 long_s' /\
  (2 ^ 96 < 10 ^ N.of_nat (ceil_div (length long_s) 2))%N /\
  (forall i, In i [0; 2; 4; 6] -> let x := left_number SM4 10 (firstn 8 long_T) (map digit_of long_s) i in
     (x + 1 < 10 ^ N.of_nat (ceil_div (length long_s) 2))%N /\ lead96 (x + 1) = lead96 x) /\
  long_s' = set long_s 0 (get long_s 0 + 1)%N /\ length (long_enc long_s) = 81 /\
  long_enc long_s' = set (long_enc long_s) 0 (get (long_enc long_s) 0 + 1)%N.
Proof.
  split; [repeat split; try (vm_compute; congruence); cbn; lia|].
  split; [apply numeral_check; vm_compute; reflexivity|]. split; [apply numeral_check; vm_compute; reflexivity|].
  split; [vm_compute; reflexivity|].
  split.
  { assert (C : forallb (fun i => let x := left_number SM4 10 (firstn 8 long_T) (map digit_of long_s) i in
      (x + 1 <? 10 ^ N.of_nat (ceil_div (length long_s) 2))%N && (lead96 (x + 1) =? lead96 x)%N) [0; 2; 4; 6] = true) by (vm_compute; reflexivity).
    rewrite forallb_forall in C. intros i I. specialize (C i I). cbv zeta in C. apply andb_prop in C as [C1 C2]. apply N.ltb_lt in C1. apply N.eqb_eq in C2. now split. }
  split; [reflexivity|]. split; vm_compute; reflexivity.
Qed.
(** two binary digits, a radix-2 domain of four strings, with FF1; one ternary digit with FF3 *)
Example fpe_small_instance : exists c c3 o o3, fpe_init long_T 2 = Some c /\ fpe_init long_T 3 = Some c3 /\
  (2 ^ N.of_nat 2 < 100)%N /\ ff1_encrypt SM4 ceil_log c [] [48; 49]%N = Ret o /\ ff3_encrypt SM4 ceil_log c3 [50]%N = Ret o3.
Proof. do 4 eexists. split; [reflexivity|]. split; [reflexivity|]. split; [reflexivity|]. split; vm_compute; reflexivity. Qed.
