(** * Property theorems: the key in white-box SM4 key files (C125) *)
From Verif Require Import Base CbcSpec Sm4Model Sm4Spec FpeModel MatModel Wbsm4Model Wbsm4Spec Wbsm4Props WbkeyModel Wbsm4Key KeyfileKey.
From Coq Require Import ZArith.
Local Open Scope nat_scope.

(** ** C125: a white-box SM4 key file does not give the key away *)
(** False of the code.  Whoever has the file, and nothing else, loads it into any context allocated for as many rounds and
    reads the key off the tables (see C117), whatever the random numbers, the direction and the number of dummy rounds. *)
Theorem wbsm4_keyfile_secret_refuted : forall rnd rs junk em d key ctx ctx2 file rest,
  bytes key -> length rs = 32 + d -> memory junk -> (N.of_nat d < 2 ^ 28)%N -> (- 2 ^ 31 <= em < 2 ^ 31)%Z ->
  wbsm4_gen_table rnd rs (wbsm4_context_init junk em d) key = Ret ctx -> wbsm4_key2file true ctx = Ret file -> 32 + 4 * d <= w_alloc ctx2 ->
  exists ctx', wbsm4_file2key ctx2 (Some (file ++ rest)) = Ret (true, ctx') /\ read_sm4 (wb_real ctx') (w_encmode ctx') = normal_key key.
Proof. exact keyfile_key_lemma. Qed.
Print Assumptions wbsm4_keyfile_secret_refuted.
(** Hence two files of different keys are different. *)
Theorem wbsm4_keyfile_separates_keys_actual : forall rnd rs junk em d key ctx file rnd' rs' junk' em' key' ctx' file',
  bytes key -> length rs = 32 + d -> memory junk -> (N.of_nat d < 2 ^ 28)%N -> (- 2 ^ 31 <= em < 2 ^ 31)%Z ->
  wbsm4_gen_table rnd rs (wbsm4_context_init junk em d) key = Ret ctx -> wbsm4_key2file true ctx = Ret file ->
  bytes key' -> length rs' = 32 + d -> memory junk' -> (- 2 ^ 31 <= em' < 2 ^ 31)%Z ->
  wbsm4_gen_table rnd' rs' (wbsm4_context_init junk' em' d) key' = Ret ctx' -> wbsm4_key2file true ctx' = Ret file' ->
  normal_key key <> normal_key key' -> file <> file'.
Proof.
  intros rnd rs junk em d key ctx file rnd' rs' junk' em' key' ctx' file' B L M D E G K B' L' M' E' G' K' NE Q. subst file'. apply NE.
  assert (A : 32 + 4 * d <= w_alloc (wbsm4_context_init junk em d)) by apply le_n.
  destruct (keyfile_key_lemma rnd rs junk em d key ctx (wbsm4_context_init junk em d) file [] B L M D E G K A) as (c1 & F1 & R1).
  destruct (keyfile_key_lemma rnd' rs' junk' em' d key' ctx' (wbsm4_context_init junk em d) file [] B' L' M' D E' G' K' A) as (c2 & F2 & R2).
  assert (c1 = c2) by congruence. congruence.
Qed.
Print Assumptions wbsm4_keyfile_separates_keys_actual.
(** such files exist for every key and all random numbers, with and without dummy rounds *)
Example wbsm4_keyfile_secret_instance : forall rnd em d, d <= 1 -> (- 2 ^ 31 <= em < 2 ^ 31)%Z -> exists ctx file, memory (fun _ => 0%N) /\
  wbsm4_gen_table rnd (repeat 0%N (32 + d)) (wbsm4_context_init (fun _ => 0%N) em d) [1; 2; 3]%N = Ret ctx /\ wbsm4_key2file true ctx = Ret file.
Proof.
  intros rnd em d Ld Hem. assert (B : bytes [1; 2; 3]%N) by (unfold bytes; repeat (apply Forall_cons; [reflexivity|]); apply Forall_nil).
  assert (M : memory (fun _ => 0%N)) by (intros l; reflexivity). assert (D : (N.of_nat d < 2 ^ 28)%N) by (change (2 ^ 28)%N with 268435456%N; lia).
  destruct (wbsm4_one_dummy_generates rnd (repeat 0%N (32 + d)) (fun _ => 0%N) em d [1; 2; 3]%N B Ld) as (ctx & E). exists ctx.
  destruct (wbsm4_keyfile_generated rnd (repeat 0%N (32 + d)) (fun _ => 0%N) em d [1; 2; 3]%N ctx (wbsm4_context_init (fun _ => 0%N) em d) [] B
    (repeat_length _ _) M D Hem E (le_n _)) as (file & _ & F & _). exists file. auto.
Qed.
