(** * Property theorems: what an FF3-GMAC tag says about the tweak (C123) *)
From Verif Require Import Base CbcSpec GcmSpec FpeModel FpeSpec FpeProofs FpeProps Toy GmacTweak.
Local Open Scope nat_scope.

(** ** C123: an FF3-GMAC tag vouches for the tweak *)
(** False of the code.  Bytes 8 to 15 of the tweak do not take part in the encryption, and the tag is not enciphered: they
    add to it a multiple of the hash key.  Whoever has seen one string encrypted under two tweaks that differ there only can
    turn the tag of any other string under the first tweak into its tag under the second, without the key; the
    ciphertexts are the same. *)
Theorem ff3_gmac_tweak_refuted : forall E clog radix T T' c c' s s2 out tag out' tag' out2 tag2,
  block_function E -> bytes T -> bytes T' -> 16 <= length T -> 16 <= length T' -> firstn 8 T = firstn 8 T' ->
  fpe_init T radix = Some c -> fpe_init T' radix = Some c' -> (2 <= radix <= 36)%N ->
  (forall x, In x [s; s2] -> numeral_string radix x /\ 1 <= length x /\ (N.of_nat (length x) < 2 ^ 30)%N /\
    (radix ^ N.of_nat (ceil_div (length x) 2) <= 2 ^ 96)%N /\ ceil_log radix (ceil_div (length x) 2) <= clog radix (ceil_div (length x) 2)) ->
  ff3_gmac_encrypt E clog c s = Ret (out, tag) -> ff3_gmac_encrypt E clog c' s = Ret (out', tag') -> ff3_gmac_encrypt E clog c s2 = Ret (out2, tag2) ->
  out' = out /\ ff3_gmac_encrypt E clog c' s2 = Ret (out2, xorl tag2 (xorl tag tag')).
Proof.
  intros E clog radix T T' c c' s s2 out tag out' tag' out2 tag2 HE B B' L L' S8 I I' R F G G' G2.
  apply (forgery E clog radix T T' c c' HE B B' L L' S8 I I' s s2 out tag out' tag' out2 tag2 R); try assumption; apply F; cbn; auto.
Qed.
Print Assumptions ff3_gmac_tweak_refuted.
(** The same two tags give away the hash key: it is the only block that the difference of the tweaks, multiplied with it,
    takes to the difference of the tags. *)
Theorem ff3_gmac_hash_key_hidden_refuted : forall E clog radix T T' c c' s out tag out' tag' H,
  block_function E -> bytes T -> bytes T' -> 16 <= length T -> 16 <= length T' -> firstn 8 T = firstn 8 T' -> firstn 16 T <> firstn 16 T' ->
  fpe_init T radix = Some c -> fpe_init T' radix = Some c' -> (2 <= radix <= 36)%N ->
  (numeral_string radix s /\ 1 <= length s /\ (N.of_nat (length s) < 2 ^ 30)%N /\
    (radix ^ N.of_nat (ceil_div (length s) 2) <= 2 ^ 96)%N /\ ceil_log radix (ceil_div (length s) 2) <= clog radix (ceil_div (length s) 2)) ->
  ff3_gmac_encrypt E clog c s = Ret (out, tag) -> ff3_gmac_encrypt E clog c' s = Ret (out', tag') -> block16 H ->
  block_mul (xorl (firstn 16 T) (firstn 16 T')) H = xorl tag tag' <-> H = E (repeat 0%N 16).
Proof.
  intros E clog radix T T' c c' s out tag out' tag' H HE B B' L L' S8 D I I' R F G G' BH.
  exact (key_found E clog radix T T' c c' HE B B' L L' S8 I I' s out tag out' tag' H R F D BH G G').
Qed.
Print Assumptions ff3_gmac_hash_key_hidden_refuted.
Definition gt_T : list N := map N.of_nat (seq 65 16).
Definition gt_T' : list N := firstn 15 gt_T ++ [1%N].
Example ff3_gmac_tweak_instance : block_function toyE /\ bytes gt_T /\ bytes gt_T' /\ firstn 8 gt_T = firstn 8 gt_T' /\ firstn 16 gt_T <> firstn 16 gt_T' /\
  (forall x, In x [ex_s; rev ex_s] -> numeral_string 10 x /\ 1 <= length x /\ (N.of_nat (length x) < 2 ^ 30)%N /\
    (10 ^ N.of_nat (ceil_div (length x) 2) <= 2 ^ 96)%N /\ ceil_log 10 (ceil_div (length x) 2) <= ceil_log 10 (ceil_div (length x) 2)) /\
  exists c c' out tag tag' out2 tag2, fpe_init gt_T 10 = Some c /\ fpe_init gt_T' 10 = Some c' /\
  ff3_gmac_encrypt toyE ceil_log c ex_s = Ret (out, tag) /\ ff3_gmac_encrypt toyE ceil_log c' ex_s = Ret (out, tag') /\ tag <> tag' /\
  ff3_gmac_encrypt toyE ceil_log c (rev ex_s) = Ret (out2, tag2).
Proof.
  split; [apply toy_is_block_cipher|]. split; [unfold bytes, gt_T; cbn; repeat (apply Forall_cons; [reflexivity|]); apply Forall_nil|].
  split; [unfold bytes, gt_T', gt_T; cbn; repeat (apply Forall_cons; [reflexivity|]); apply Forall_nil|]. split; [reflexivity|]. split; [discriminate|]. split.
  - assert (NS : numeral_string 10 ex_s) by (destruct ff1_instance as (c & ct & _ & _ & _ & N & _); exact N).
    intros x [<-|[<-|[]]]; (split; [try apply Forall_rev; exact NS|]); (split; [cbn; lia|]); (split; [reflexivity|]); (split; [vm_compute; discriminate|apply le_n]).
  - do 7 eexists. split; [reflexivity|]. split; [reflexivity|]. split; [vm_compute; reflexivity|]. split; [vm_compute; reflexivity|]. split; [discriminate|].
    vm_compute. reflexivity.
Qed.
