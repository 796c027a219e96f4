(** * Property theorems: the key in white-box SM4 tables (C117, C118) *)
From Verif Require Import Base Word32 CbcSpec GcmModel Sm4Model Sm4Spec FpeModel MatModel Wbsm4Model Wbsm4Proofs Wbsm4Enc Wbsm4Thms SewbModel SewbProofs Wbsm4Key SewbKey.
From Coq Require Import ZArith.
Local Open Scope nat_scope.

(** ** C117: white-box SM4 tables do not give the key away *)
(** False of the code, whatever the key, the random numbers, the former contents of the memory and the number d of dummy
    rounds for which the generation is defined, in both directions.  First, dummy rounds do not hide: they are the rounds
    whose tables are all zero. *)
Theorem wbsm4_dummy_rounds_hidden_refuted : forall rnd rs junk em d key ctx i, bytes key -> length rs = 32 + d ->
  wbsm4_gen_table rnd rs (wbsm4_context_init junk em d) key = Ret ctx -> i < 32 + 4 * d ->
  (forall j x, j < 4 -> byte x -> w_mem ctx (LTable i j x) = 0%N) <-> nth i (wbsm4_gen_dummyround_array rs 32 d) 0%N <> 0%N.
Proof. exact wbsm4_dummy_lemma. Qed.
Print Assumptions wbsm4_dummy_rounds_hidden_refuted.
(** Second, byte by byte: suppose the keys of the rounds before real round r are known (for r = 0, nothing is).  Each value k
    of byte j of the key of round r has a test: choose two pairs of blocks such that, if k is right, the states after
    round r are the same ([reach] computes such blocks by undoing the known rounds), run the tables up to that round,
    leaving out the dummy rounds ([wb_real]), and compare one encoded word each time.  Exactly one of the 256 values
    passes, the right one. *)
Theorem wbsm4_round_key_hidden_refuted : forall rnd rs junk em d key ctx r j k, bytes key -> length rs = 32 + d ->
  wbsm4_gen_table rnd rs (wbsm4_context_init junk em d) key = Ret ctx -> r < 32 -> j < 4 -> byte k ->
  let rk := if (em =? 0)%Z then rev (round_keys (normal_key key)) else round_keys (normal_key key) in
  let shown X := snd (wb_real ctx (S r) (reach (firstn r rk) X)) in
  let S d := N.lxor (std_sbox (N.lxor d k)) (std_sbox k) in
  (shown (0, at_byte j 1, 0, 0)%N = shown (Lin (at_byte j (S 1%N)), 0, 0, 0)%N /\
   shown (0, at_byte j 2, 0, 0)%N = shown (Lin (at_byte j (S 2%N)), 0, 0, 0)%N) <->
  k = byte_at (get rk r) (24 - 8 * N.of_nat j).
Proof. exact wbsm4_test_lemma. Qed.
Print Assumptions wbsm4_round_key_hidden_refuted.
(** Third, the whole key: the procedure [read_sm4] finds the bytes of the keys of the first four rounds one after the other
    by such tests (at most 16 * 256 of them, each on four blocks and at most four rounds) and undoes the key schedule. *)
Theorem wbsm4_key_hidden_refuted : forall rnd rs junk em d key ctx, bytes key -> length rs = 32 + d ->
  wbsm4_gen_table rnd rs (wbsm4_context_init junk em d) key = Ret ctx -> read_sm4 (wb_real ctx) em = normal_key key.
Proof. exact wbsm4_key_lemma. Qed.
Print Assumptions wbsm4_key_hidden_refuted.
(** such contexts exist for every key and all random numbers, in both directions, without dummy rounds and with one group *)
Example wbsm4_key_hidden_instance : forall rnd junk em d, d <= 1 -> length (repeat 0%N (32 + d)) = 32 + d /\ bytes [1; 2; 3]%N /\
  exists ctx, wbsm4_gen_table rnd (repeat 0%N (32 + d)) (wbsm4_context_init junk em d) [1; 2; 3]%N = Ret ctx.
Proof.
  intros rnd junk em d D. assert (B : bytes [1; 2; 3]%N) by (unfold bytes; repeat (apply Forall_cons; [reflexivity|]); apply Forall_nil).
  split; [apply repeat_length|]. split; [exact B|]. exact (wbsm4_one_dummy_generates_lemma rnd _ junk em d _ B D).
Qed.

(** ** C118: SE-WBSM4 tables do not give the key away *)
(** False of the code: the same test and the same procedure work on the tables of an SE-WBSM4 context, whose self-equivalences
    cancel from one round to the next just as the affine encodings do, for every key, all random numbers and both directions. *)
Theorem sewb_round_key_hidden_refuted : forall rnd em key ctx r j k, bytes key ->
  se_gen_table rnd (se_context_init em) key = Ret ctx -> r < 32 -> j < 4 -> byte k ->
  let rk := if (em =? 0)%Z then rev (round_keys (normal_key key)) else round_keys (normal_key key) in
  let shown X := snd (se_state ctx (S r) (reach (firstn r rk) X)) in
  let S d := N.lxor (std_sbox (N.lxor d k)) (std_sbox k) in
  (shown (0, at_byte j 1, 0, 0)%N = shown (Lin (at_byte j (S 1%N)), 0, 0, 0)%N /\
   shown (0, at_byte j 2, 0, 0)%N = shown (Lin (at_byte j (S 2%N)), 0, 0, 0)%N) <->
  k = byte_at (get rk r) (24 - 8 * N.of_nat j).
Proof. exact sewb_test_lemma. Qed.
Print Assumptions sewb_round_key_hidden_refuted.
Theorem sewb_key_hidden_refuted : forall rnd em key ctx, bytes key ->
  se_gen_table rnd (se_context_init em) key = Ret ctx -> read_sm4 (se_state ctx) em = normal_key key.
Proof. exact sewb_key_lemma. Qed.
Print Assumptions sewb_key_hidden_refuted.
Example sewb_key_hidden_instance : forall rnd em, bytes [1; 2; 3]%N /\ exists ctx, se_gen_table rnd (se_context_init em) [1; 2; 3]%N = Ret ctx.
Proof.
  intros rnd em. assert (B : bytes [1; 2; 3]%N) by (unfold bytes; repeat (apply Forall_cons; [reflexivity|]); apply Forall_nil). split; [exact B|].
  destruct (se_gen_table_ok rnd (se_context_init em) _ B) as (P & ctx & E & _). now exists ctx.
Qed.
