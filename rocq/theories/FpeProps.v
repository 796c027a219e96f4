(** * Properties of format-preserving encryption (C26-C32, C56) *)
From Verif Require Import Base CbcSpec GcmSpec Toy FpeModel FpeSpec FpeCore FpeProofs.
Local Open Scope nat_scope.

(** In all statements: [E] is the block function, [clog] the C library's ceil(n * log2(radix)), [c] the
    context WBCRYPTO_fpe_init returned for the tweak [T] and the radix, [junk] the initial contents of
    malloc'd memory.  Strings do not include their terminator; outputs do ([++ [0]]). *)

(** ** fpe_init *)
Theorem fpe_init_accepts : forall T radix,
  fpe_init T radix <> None <-> (2 <= radix <= 36)%N.
Proof. exact fpe_init_accepts_lemma. Qed.
Print Assumptions fpe_init_accepts.

(** ** C26 *)
Theorem ff1_roundtrip : forall E clog radix T c s junk junk',
  block_function E -> ff1_limits clog radix T (length s) -> ~ ff1_bad_tweak clog radix T (length s) ->
  numeral_string radix s -> fpe_init T radix = Some c ->
  exists ct, ff1_encrypt E clog c junk s = Ret (ct ++ [0%N]) /\ ff1_decrypt E clog c junk' ct = Ret (s ++ [0%N]).
Proof. exact ff1_roundtrip_lemma. Qed.
Print Assumptions ff1_roundtrip.
(** decrypting first works as well *)
Theorem ff1_roundtrip_dec : forall E clog radix T c s junk junk',
  block_function E -> ff1_limits clog radix T (length s) -> ~ ff1_bad_tweak clog radix T (length s) ->
  numeral_string radix s -> fpe_init T radix = Some c ->
  exists pt, ff1_decrypt E clog c junk s = Ret (pt ++ [0%N]) /\ ff1_encrypt E clog c junk' pt = Ret (s ++ [0%N]).
Proof. exact ff1_roundtrip_dec_lemma. Qed.
Print Assumptions ff1_roundtrip_dec.
(** The excluded combination: with an empty tweak and halves of 15 bytes (mod 16) -- 67 to 72 decimal
    digits, for instance -- both calls abort the process. *)
Theorem ff1_empty_tweak_refuted : forall E clog radix T c s junk,
  ff1_limits clog radix T (length s) -> ff1_bad_tweak clog radix T (length s) -> fpe_init T radix = Some c ->
  ff1_encrypt E clog c junk s = Abort /\ ff1_decrypt E clog c junk s = Abort /\
  forall cnj, ff1_cmac_encrypt E clog cnj c junk s = Abort /\ ff1_cmac_decrypt E clog cnj c junk s = Abort.
Proof. exact ff1_empty_tweak_refuted_lemma. Qed.
Print Assumptions ff1_empty_tweak_refuted.
(** A single character aborts as well. *)
Theorem ff1_one_char_abort : forall E clog radix T c x junk,
  (2 <= radix <= 36)%N -> ceil_log radix 1 <= clog radix 1 ->
  (N.of_nat (length T) + N.of_nat (ceil_div (clog radix 1%nat) 8) < 2 ^ 31 - 32)%N -> 
  numeral_string radix [x] -> fpe_init T radix = Some c ->
  ff1_encrypt E clog c junk [x] = Abort.
Proof. exact one_char_abort. Qed.
Print Assumptions ff1_one_char_abort.
(** sample data: a shift cipher as block function, decimal digits *)
Definition ex_s : list N := [49; 51; 57; 48; 50; 55; 49; 48; 53; 48; 56]%N.       (* "13902710508" *)
Definition ex_T : list N := map N.of_nat (seq 65 20).
Example ff1_bad_tweak_instance : ff1_limits ceil_log 10 [] 70 /\ ff1_bad_tweak ceil_log 10 [] 70 /\
  ff1_limits ceil_log 10 [1%N] 70 /\ ~ ff1_bad_tweak ceil_log 10 [1%N] 70.
Proof.
  assert (L : forall T, bytes T -> length T < 2 -> ff1_limits ceil_log 10 T 70).
  { intros T B L. unfold ff1_limits. cbv zeta. change (70 - 70 / 2) with 35. replace (ceil_log 10 35) with 117 by (vm_compute; reflexivity).
    change (ceil_div 117 8) with 15. change (2 ^ 31)%N with 2147483648%N. change (2 ^ 30)%N with 1073741824%N.
    split; [lia|]. split; [exact B|]. repeat split; lia. }
  split; [apply L; [constructor|cbn; lia]|]. split; [split; [reflexivity|vm_compute; reflexivity]|].
  split; [apply L; [repeat constructor|cbn; lia]|]. intros [H _]. discriminate.
Qed.
Example ff1_instance : exists c ct, fpe_init ex_T 10 = Some c /\ ff1_limits ceil_log 10 ex_T (length ex_s) /\
  ~ ff1_bad_tweak ceil_log 10 ex_T (length ex_s) /\ numeral_string 10 ex_s /\
  ff1_encrypt toyE ceil_log c [] ex_s = Ret (ct ++ [0%N]) /\ ct <> ex_s /\
  ff1_decrypt toyE ceil_log c [] ct = Ret (ex_s ++ [0%N]).
Proof.
  eexists. exists [55; 53; 48; 57; 55; 50; 55; 49; 55; 48; 51]%N. split; [reflexivity|].
  split; [|split; [|split; [|split; [|split; [discriminate|]]]]].
  - repeat split; try (vm_compute; congruence); try (vm_compute; reflexivity). 
    + unfold ex_T. vm_compute. repeat constructor.
    + cbn. lia.
  - intros [H _]. discriminate.
  - apply numeral_check. vm_compute. reflexivity.
  - vm_compute. reflexivity.
  - vm_compute. reflexivity.
Qed.

(** ** C27 *)
(** The result is a string of the same length over the same alphabet, terminated by a NUL. *)
Theorem ff1_format : forall E clog radix T c s junk,
  block_function E -> ff1_limits clog radix T (length s) -> ~ ff1_bad_tweak clog radix T (length s) ->
  numeral_string radix s -> fpe_init T radix = Some c ->
  (exists ct, ff1_encrypt E clog c junk s = Ret (ct ++ [0%N]) /\ length ct = length s /\ numeral_string radix ct) /\
  (exists pt, ff1_decrypt E clog c junk s = Ret (pt ++ [0%N]) /\ length pt = length s /\ numeral_string radix pt).
Proof. exact ff1_format_lemma. Qed.
Print Assumptions ff1_format.
(** Whatever the input string, the characters of a result belong to the alphabet. *)
Theorem ff1_output_alphabet : forall E clog radix T c s junk o, fpe_init T radix = Some c ->
  ff1_encrypt E clog c junk s = Ret o \/ ff1_decrypt E clog c junk s = Ret o ->
  exists o', o = o' ++ [0%N] /\ numeral_string radix o'.
Proof. exact ff1_alphabet. Qed.
Print Assumptions ff1_output_alphabet.

(** ** C28 *)
(** With an exact logarithm the functions are FF1.Encrypt and FF1.Decrypt of SP 800-38G. *)
Theorem ff1_conforms : forall E clog radix T c s junk,
  block_function E -> ff1_limits clog radix T (length s) -> ~ ff1_bad_tweak clog radix T (length s) ->
  (let v := length s - length s / 2 in clog radix v = ceil_log radix v) ->
  numeral_string radix s -> fpe_init T radix = Some c ->
  ff1_encrypt E clog c junk s = Ret (map char_of (FF1_Encrypt E radix T (map digit_of s)) ++ [0%N]) /\
  ff1_decrypt E clog c junk s = Ret (map char_of (FF1_Decrypt E radix T (map digit_of s)) ++ [0%N]).
Proof. exact ff1_conforms_lemma. Qed.
Print Assumptions ff1_conforms.

(** ** C29 *)
Theorem ff3_roundtrip : forall E clog radix T c s,
  ff3_limits clog radix T (length s) -> numeral_string radix s -> fpe_init T radix = Some c ->
  exists ct, ff3_encrypt E clog c s = Ret (ct ++ [0%N]) /\ length ct = length s /\ numeral_string radix ct /\
             ff3_decrypt E clog c ct = Ret (s ++ [0%N]).
Proof. exact ff3_roundtrip_lemma. Qed.
Print Assumptions ff3_roundtrip.
Theorem ff3_roundtrip_dec : forall E clog radix T c s,
  ff3_limits clog radix T (length s) -> numeral_string radix s -> fpe_init T radix = Some c ->
  exists pt, ff3_decrypt E clog c s = Ret (pt ++ [0%N]) /\ length pt = length s /\ numeral_string radix pt /\
             ff3_encrypt E clog c pt = Ret (s ++ [0%N]).
Proof. exact ff3_roundtrip_dec_lemma. Qed.
Print Assumptions ff3_roundtrip_dec.
(** A tweak of fewer than 8 bytes is read beyond its end. *)
Theorem ff3_short_tweak_undefined : forall E clog radix T c s, length T < 8 -> s <> [] -> fpe_init T radix = Some c ->
  ff3_encrypt E clog c s = Undef.
Proof. exact ff3_short_tweak. Qed.
Print Assumptions ff3_short_tweak_undefined.
Theorem ff3_output_alphabet : forall E clog radix T c s o, fpe_init T radix = Some c ->
  ff3_encrypt E clog c s = Ret o \/ ff3_decrypt E clog c s = Ret o ->
  exists o', o = o' ++ [0%N] /\ numeral_string radix o'.
Proof. exact ff3_alphabet. Qed.
Print Assumptions ff3_output_alphabet.
Example ff3_instance : exists c ct, fpe_init ex_T 10 = Some c /\ ff3_limits ceil_log 10 ex_T (length ex_s) /\
  ff3_encrypt toyE ceil_log c ex_s = Ret (ct ++ [0%N]) /\ ct <> ex_s /\ ff3_decrypt toyE ceil_log c ct = Ret (ex_s ++ [0%N]).
Proof.
  eexists. exists [54; 49; 51; 51; 49; 54; 51; 49; 51; 55; 52]%N. split; [reflexivity|].
  split; [repeat split; try (vm_compute; congruence); try (cbn; lia)|].
  split; [vm_compute; reflexivity|]. split; [discriminate|]. vm_compute. reflexivity.
Qed.

(** ** C30 *)
(** The first eight bytes of the tweak are the standard's 64-bit tweak; the halves must fit 96 bits,
    as in the standard (radix^maxlen <= 2^192). *)
Theorem ff3_conforms : forall E clog radix T c s,
  ff3_limits clog radix T (length s) -> (radix ^ N.of_nat (ceil_div (length s) 2) <= 2 ^ 96)%N ->
  numeral_string radix s -> fpe_init T radix = Some c ->
  ff3_encrypt E clog c s = Ret (map char_of (FF3_Encrypt E radix (firstn 8 T) (map digit_of s)) ++ [0%N]) /\
  ff3_decrypt E clog c s = Ret (map char_of (FF3_Decrypt E radix (firstn 8 T) (map digit_of s)) ++ [0%N]).
Proof. exact ff3_conforms_lemma. Qed.
Print Assumptions ff3_conforms.

(** ** C31 *)
(** Characters outside the alphabet are not checked.  If the right half then exceeds the buffer the
    library sized for valid numerals, the buffer overflows. *)
Theorem ff1_invalid_overflow_refuted : forall E clog radix T c s junk,
  ff1_limits clog radix T (length s) -> ~ ff1_bad_tweak clog radix T (length s) -> fpe_init T radix = Some c ->
  (256 ^ N.of_nat (ceil_div (clog radix (length s - length s / 2)%nat) 8) <= NUM radix (skipn (length s / 2) (map map_char s)))%N ->
  ff1_encrypt E clog c junk s = Undef.
Proof. exact ff1_overflow. Qed.
Print Assumptions ff1_invalid_overflow_refuted.
Theorem ff3_invalid_overflow_refuted : forall E clog radix T c s,
  ff3_limits clog radix T (length s) -> fpe_init T radix = Some c ->
  (256 ^ N.of_nat (ceil_div (clog radix (ceil_div (length s) 2)) 8) <= NUM radix (rev (skipn (ceil_div (length s) 2) (map map_char s))))%N ->
  ff3_encrypt E clog c s = Undef.
Proof. exact ff3_overflow. Qed.
Print Assumptions ff3_invalid_overflow_refuted.
(** Otherwise the call may succeed, but no decryption returns the input: it is silently lost. *)
Theorem fpe_invalid_never_recovered : forall E clog radix T c s junk x, fpe_init T radix = Some c -> 
  ~ numeral_string radix s ->
  ff1_decrypt E clog c junk x <> Ret (s ++ [0%N]) /\ ff3_decrypt E clog c x <> Ret (s ++ [0%N]).
Proof. exact fpe_invalid_never_recovered_lemma. Qed.
Print Assumptions fpe_invalid_never_recovered.
(** radix 10: "0/" overflows, "1A" is accepted *)
Example fpe_invalid_instances : exists c, fpe_init ex_T 10 = Some c /\
  ff1_encrypt toyE ceil_log c [] [48; 47]%N = Undef /\ ff3_encrypt toyE ceil_log c [48; 47]%N = Undef /\
  ~ numeral_string 10 [49; 65]%N /\ (exists o, ff1_encrypt toyE ceil_log c [] [49; 65]%N = Ret o) /\
  (exists o, ff3_encrypt toyE ceil_log c [49; 65]%N = Ret o).
Proof.
  eexists. split; [reflexivity|]. split; [vm_compute; reflexivity|]. split; [vm_compute; reflexivity|].
  split; [|split; eexists; vm_compute; reflexivity].
  intros H. inversion H as [|? ? _ H1]; subst. inversion H1 as [|? ? H2 _]; subst.
  vm_compute in H2. repeat (destruct H2 as [H2|H2]; [discriminate|]). exact H2.
Qed.

(** ** C32 *)
(** FF1-CMAC: same ciphertext as FF1, decryption inverts it.  The tags agree when the tweak and a half
    together take at least 16 bytes; [cnj], [cnj'] are the contents of an uninitialised array. *)
Theorem ff1_cmac_roundtrip : forall E clog radix T c s junk junk' cnj cnj',
  block_function E -> ff1_limits clog radix T (length s) -> ~ ff1_bad_tweak clog radix T (length s) ->
  numeral_string radix s -> fpe_init T radix = Some c ->
  exists ct tag tag', ff1_cmac_encrypt E clog cnj c junk s = Ret (ct ++ [0%N], tag) /\
    ff1_encrypt E clog c junk s = Ret (ct ++ [0%N]) /\
    ff1_cmac_decrypt E clog cnj' c junk' ct = Ret (s ++ [0%N], tag') /\
    (16 <= length T + ceil_div (clog radix (length s - length s / 2)) 8 -> tag' = tag).
Proof. exact ff1_cmac_roundtrip_lemma. Qed.
Print Assumptions ff1_cmac_roundtrip.
(** With a shorter tweak the tag depends on uninitialised memory: for every input there are contents
    for which the receiver computes a different tag from the sender. *)
Theorem ff1_cmac_tag_refuted : forall E D clog radix T c s junk junk',
  block_cipher E D -> ff1_limits clog radix T (length s) -> ~ ff1_bad_tweak clog radix T (length s) ->
  numeral_string radix s -> fpe_init T radix = Some c ->
  length T + ceil_div (clog radix (length s - length s / 2)) 8 <= 15 ->
  exists cnj cnj' ct tag tag', ff1_cmac_encrypt E clog cnj c junk s = Ret (ct ++ [0%N], tag) /\
    ff1_cmac_decrypt E clog cnj' c junk' ct = Ret (s ++ [0%N], tag') /\ tag' <> tag.
Proof. exact ff1_cmac_tag_refuted_lemma. Qed.
Print Assumptions ff1_cmac_tag_refuted.
(** FF3-GMAC: same ciphertext, same tag on both sides. *)
Theorem ff3_gmac_roundtrip : forall E clog radix T c s,
  ff3_limits clog radix T (length s) -> 16 <= length T -> numeral_string radix s -> fpe_init T radix = Some c ->
  exists ct tag, ff3_gmac_encrypt E clog c s = Ret (ct ++ [0%N], tag) /\
    ff3_encrypt E clog c s = Ret (ct ++ [0%N]) /\ ff3_gmac_decrypt E clog c ct = Ret (s ++ [0%N], tag).
Proof. exact ff3_gmac_roundtrip_lemma. Qed.
Print Assumptions ff3_gmac_roundtrip.
(** The value of the tag. *)
Theorem ff3_gmac_tag_value : forall E clog radix T c s,
  block_function E -> bytes T -> ff3_limits clog radix T (length s) -> 16 <= length T ->
  (radix ^ N.of_nat (ceil_div (length s) 2) <= 2 ^ 96)%N -> numeral_string radix s -> fpe_init T radix = Some c ->
  exists ct, ff3_gmac_encrypt E clog c s = Ret (ct ++ [0%N], FF3_GMAC_tag E radix T (map digit_of s)).
Proof. exact ff3_gmac_tag_value_lemma. Qed.
Print Assumptions ff3_gmac_tag_value.
(** The value of the FF1-CMAC tag, when the logarithm is exact and the tweak long enough for the tag to be
    determined at all. *)
Theorem ff1_cmac_tag_value : forall E clog radix T c s junk cnj,
  block_function E -> ff1_limits clog radix T (length s) -> ~ ff1_bad_tweak clog radix T (length s) ->
  (let v := length s - length s / 2 in clog radix v = ceil_log radix v) ->
  16 <= length T + ceil_div (ceil_log radix (length s - length s / 2)) 8 ->
  numeral_string radix s -> fpe_init T radix = Some c ->
  exists ct, ff1_cmac_encrypt E clog cnj c junk s = Ret (ct ++ [0%N], FF1_CMAC_tag E radix T (map digit_of s)).
Proof. exact ff1_cmac_tag_value_lemma. Qed.
Print Assumptions ff1_cmac_tag_value.
(** It is not a CMAC of the data: for every message the tag is a sum of ten terms, each one of 256 values
    that depend on the key alone. *)
Theorem ff1_cmac_tag_ten_bytes : forall E clog radix T c s junk cnj,
  block_function E -> ff1_limits clog radix T (length s) -> ~ ff1_bad_tweak clog radix T (length s) ->
  (forall i, bytes (cnj i)) -> numeral_string radix s -> fpe_init T radix = Some c ->
  exists ct bs, length bs = 10 /\ bytes bs /\
    ff1_cmac_encrypt E clog cnj c junk s = Ret (ct ++ [0%N], fold_left xorl (map (cmac_byte_part E) bs) (repeat 0%N 16)).
Proof. exact ff1_cmac_tag_ten_bytes_lemma. Qed.
Print Assumptions ff1_cmac_tag_ten_bytes.
(** A tweak of fewer than 16 bytes is read beyond its end. *)
Theorem ff3_gmac_short_tweak_undefined : forall E clog radix T c s, length T < 16 -> fpe_init T radix = Some c ->
  ff3_gmac_encrypt E clog c s = Undef /\ ff3_gmac_decrypt E clog c s = Undef.
Proof. exact gmac_short_tweak. Qed.
Print Assumptions ff3_gmac_short_tweak_undefined.
Example mac_instances : exists c ct t1 ct3 t3, fpe_init ex_T 10 = Some c /\ block_cipher toyE toyD /\
  ff1_cmac_encrypt toyE ceil_log (fun _ => []) c [] ex_s = Ret (ct, t1) /\ 
  ff1_cmac_decrypt toyE ceil_log (fun _ => [9%N]) c [] (removelast ct) = Ret (ex_s ++ [0%N], t1) /\
  ff3_gmac_encrypt toyE ceil_log c ex_s = Ret (ct3, t3) /\
  ff3_gmac_decrypt toyE ceil_log c (removelast ct3) = Ret (ex_s ++ [0%N], t3).
Proof.
  eexists; eexists; eexists; eexists; eexists. split; [reflexivity|]. split; [exact toy_is_block_cipher|].
  split; [vm_compute; reflexivity|]. split; [vm_compute; reflexivity|]. split; [vm_compute; reflexivity|].
  vm_compute. reflexivity.
Qed.
Definition cmac_T : list N := [1;2;3;4;5;6;7;8;9;10;11;12;13;14;15;16]%N.
Example cmac_tag_instance : exists c ct, fpe_init cmac_T 10 = Some c /\
  ff1_cmac_encrypt toyE ceil_log (fun _ => []) c [] ex_s = Ret (ct, FF1_CMAC_tag toyE 10 cmac_T (map digit_of ex_s)).
Proof. eexists; eexists. split; [reflexivity|]. vm_compute. reflexivity. Qed.
Example cmac_short_instance : exists c o t1 t2, fpe_init [1; 2]%N 10 = Some c /\
  ff1_cmac_encrypt toyE ceil_log cn_zero c [] ex_s = Ret (o, t1) /\
  ff1_cmac_encrypt toyE ceil_log cn_one c [] ex_s = Ret (o, t2) /\ t1 <> t2.
Proof.
  eexists; eexists; eexists; eexists. split; [reflexivity|]. split; [vm_compute; reflexivity|]. split; [vm_compute; reflexivity|].
  vm_compute. discriminate.
Qed.
