(** * Reading the key off SE-WBSM4 tables *)
From Verif Require Import GfProofs Base Word32 CbcSpec GcmModel Sm4Model Sm4Spec Sm4Proofs FpeModel MatModel MatSpec MatProofs GaussProofs ComProofs
  Wbsm4Model Wbsm4Proofs Wbsm4Enc SewbModel SewbProofs Wbsm4Key.
From Coq Require Import ZArith.
Local Open Scope nat_scope.
Local Opaque MatMulVec MatMulNum MatMulMat genaffinepairs se_gen_round se_round.

(** se_wbsm4.c:98-106 and the first n iterations of the loop that follows: the four words the encryption of the block b then holds *)
Definition se_state (ctx : sectx) (n : nat) (b : list N) : state :=
  let SE i := affineU 32 (nth i (se_SE ctx) aff0) in
  fold_left (se_round ctx) (seq 0 n) (SE 0 (GET32 b 0), SE 1 (GET32 b 4), SE 2 (GET32 b 8), SE 3 (GET32 b 12)).
(** after all rounds, they are the words the encryption decodes and returns *)
Lemma se_state_encrypt ctx b : se_encrypt ctx b = let FE i := affineU 32 (nth i (se_FE ctx) aff0) in
  let '(x0, x1, x2, x3) := se_state ctx 32 b in put_u32_be (FE 0 x3) ++ put_u32_be (FE 1 x2) ++ put_u32_be (FE 2 x1) ++ put_u32_be (FE 3 x0).
Proof. reflexivity. Qed.
Lemma se_held rnd em key ctx : bytes key -> se_gen_table rnd (se_context_init em) key = Ret ctx ->
  exists P, inv_pairs 32 36 P /\ forall n b, n <= 32 -> block16 b -> se_state ctx n b = enc P n (rounds T (firstn n (wb_keys em key)) (st_of b)).
Proof.
  intros B E. destruct (se_gen_table_ok rnd (se_context_init em) key B) as (P & ctx' & E' & HP & _ & H). assert (ctx' = ctx) by congruence. subst ctx'.
  exists P. split; [exact HP|]. intros n b N Bb. pose proof (st_of_word b Bb) as W. change (se_encmode (se_context_init em)) with em in H. unfold se_state. cbv zeta. pose proof H as [_ HE].
  assert (S : forall i, i < 4 -> nth i (se_SE ctx) aff0 = pair_fst P i) by (intros; now apply HE). rewrite !S by lia. clear S HE.
  assert (E0 : (affineU 32 (pair_fst P 0) (GET32 b 0), affineU 32 (pair_fst P 1) (GET32 b 4), affineU 32 (pair_fst P 2) (GET32 b 8), affineU 32 (pair_fst P 3) (GET32 b 12)) = enc P 0 (st_of b)).
  { destruct Bb as [L Bb]. rewrite !GET32_be by exact Bb. clear W. do 16 (destruct b as [|? b]; [discriminate|]). destruct b; [|discriminate]. clear L Bb. reflexivity. }
  rewrite E0. pose proof (wb_keys_word em key B) as WK. pose proof (length_wb_keys em key) as LK. rewrite (se_rounds_spec P (wb_keys em key)) by (auto; lia). reflexivity.
Qed.
Lemma sewb_test_lemma rnd em key ctx r j k : bytes key -> se_gen_table rnd (se_context_init em) key = Ret ctx -> r < 32 -> j < 4 -> byte k ->
  let rk := if (em =? 0)%Z then rev (round_keys (normal_key key)) else round_keys (normal_key key) in
  let shown X := snd (se_state ctx (S r) (reach (firstn r rk) X)) in
  let S d := N.lxor (std_sbox (N.lxor d k)) (std_sbox k) in
  (shown (0, at_byte j 1, 0, 0)%N = shown (Lin (at_byte j (S 1%N)), 0, 0, 0)%N /\
   shown (0, at_byte j 2, 0, 0)%N = shown (Lin (at_byte j (S 2%N)), 0, 0, 0)%N) <->
  k = byte_at (get rk r) (24 - 8 * N.of_nat j).
Proof. intros B E. destruct (se_held rnd em key ctx B E) as (P & HP & H). exact (test_lemma P _ em key r j k HP B H). Qed.
Lemma sewb_key_lemma rnd em key ctx : bytes key -> se_gen_table rnd (se_context_init em) key = Ret ctx -> read_sm4 (se_state ctx) em = normal_key key.
Proof. intros B E. destruct (se_held rnd em key ctx B E) as (P & HP & H). exact (key_lemma P _ em key HP B H). Qed.
