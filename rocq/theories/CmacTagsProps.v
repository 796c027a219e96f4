(** * Property theorems: how many FF1-CMAC tags there are (C121) *)
From Verif Require Import Base CbcSpec FpeModel FpeSpec FpeProofs FpeProps Toy CmacTags.
Local Open Scope nat_scope.

(** ** C121: FF1-CMAC tags are as hard to guess as their length suggests *)
(** False of the code.  A tag has sixteen bytes, but each of the ten rounds adds one byte repeated sixteen times under the
    block function: under one key fewer than 2 ^ 59 of the 2 ^ 128 values are ever tags, whatever the strings, their lengths
    and radices and the tweaks. *)
Theorem ff1_cmac_tag_space_refuted : forall E, block_function E -> exists tags, (N.of_nat (length tags) < 2 ^ 59)%N /\
  forall clog radix T c s junk cnj out tag, ff1_limits clog radix T (length s) -> ~ ff1_bad_tweak clog radix T (length s) ->
    (forall i, bytes (cnj i)) -> numeral_string radix s -> fpe_init T radix = Some c -> ff1_cmac_encrypt E clog cnj c junk s = Ret (out, tag) -> In tag tags.
Proof. exact ff1_cmac_tags_lemma. Qed.
Print Assumptions ff1_cmac_tag_space_refuted.
Example ff1_cmac_tag_space_instance : block_function toyE /\ ff1_limits ceil_log 10 ex_T (length ex_s) /\ ~ ff1_bad_tweak ceil_log 10 ex_T (length ex_s) /\
  numeral_string 10 ex_s /\ exists c out tag, fpe_init ex_T 10 = Some c /\ ff1_cmac_encrypt toyE ceil_log (fun _ => []) c [] ex_s = Ret (out, tag) /\ length tag = 16.
Proof.
  split; [apply toy_is_block_cipher|]. destruct ff1_instance as (c & ct & I & L & B & N & _). split; [exact L|]. split; [exact B|]. split; [exact N|].
  destruct mac_instances as (c' & ct' & t & _ & _ & I' & _ & R & _). exists c', ct', t. split; [exact I'|]. split; [exact R|].
  revert R. injection I' as <-. intros R. vm_compute in R. injection R as _ <-. reflexivity.
Qed.
(** Under every key and tweak there are two different numbers of eighteen digits, the length of an ID number, with the
    same tag: their encryptions cannot be told apart by their tags. *)
Theorem ff1_cmac_collision_refuted : forall E clog T c junk cnj, block_function E -> ff1_limits clog 10 T 18 -> ~ ff1_bad_tweak clog 10 T 18 ->
  (forall i, bytes (cnj i)) -> fpe_init T 10 = Some c ->
  exists s s' out out' tag, s <> s' /\ length s = 18 /\ length s' = 18 /\ Forall (fun d => In d [48; 49; 50; 51; 52; 53; 54; 55; 56; 57]%N) s /\
    Forall (fun d => In d [48; 49; 50; 51; 52; 53; 54; 55; 56; 57]%N) s' /\
    ff1_cmac_encrypt E clog cnj c junk s = Ret (out, tag) /\ ff1_cmac_encrypt E clog cnj c junk s' = Ret (out', tag).
Proof. intros E clog T c junk cnj HE. apply ff1_cmac_collision_gen; [exact HE|vm_compute; discriminate]. Qed.
Print Assumptions ff1_cmac_collision_refuted.
Example ff1_cmac_collision_instance : ff1_limits ceil_log 10 ex_T 18 /\ ~ ff1_bad_tweak ceil_log 10 ex_T 18 /\ exists c, fpe_init ex_T 10 = Some c.
Proof.
  split; [|split; [intros [H _]; discriminate|eexists; reflexivity]].
  unfold ff1_limits. cbv zeta. change (18 - 18 / 2) with 9. replace (ceil_log 10 9) with 30 by (vm_compute; reflexivity).
  change (ceil_div 30 8) with 4. change (length ex_T) with 20. change (2 ^ 31)%N with 2147483648%N. change (2 ^ 30)%N with 1073741824%N.
  split; [lia|]. split; [unfold bytes, ex_T; cbn; repeat (apply Forall_cons; [reflexivity|]); apply Forall_nil|]. repeat split; lia.
Qed.
