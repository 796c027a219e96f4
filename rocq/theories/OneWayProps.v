(** * Property theorems: white-box contexts do not fix a direction (C122) *)
From Verif Require Import Base Word32 CbcModel CbcSpec GcmModel Sm4Model Sm4Spec Sm4Proofs FpeModel MatModel AesSpec AesProofs WbaesModel WbaesProofs WbgcmModel WbgcmProofs WbgcmKeys WbaesKey WbaesKeyProps
  Wbsm4Model Wbsm4Proofs Wbsm4Enc Wbsm4Spec Wbsm4Thms SewbModel SewbProofs Wbsm4Key SewbKey Wbsm4KeyProps OneWay.
From Coq Require Import ZArith.
Local Open Scope nat_scope.
#[local] Opaque aes_inv_sbox aes_encrypt aes_decrypt std_encrypt std_decrypt wbaes_gen_table wbsm4_gen_table se_gen_table wbsm4_encrypt se_encrypt wbaes_encrypt
  ee_gen_table mask_gen_table read_aes read_sm4.

(** ** C122: a white-box context made for one direction cannot be used for the other *)
(** False of the code.  [read_aes] and [read_sm4] are functions of the tables of a context alone; what they return is used
    as the key of standard AES or SM4 in the other direction, and this undoes what the context does, for every block.
    Whoever holds a context for encryption can decrypt, and whoever holds one for decryption can encrypt. *)
Theorem wbaes_one_way_refuted : forall rnd junk key ctx b, bytes key -> 16 <= length key -> wbaes_gen_table rnd junk key = Ret ctx -> block16 b ->
  aes_decrypt (read_aes (wb_t ctx)) (wbaes_encrypt ctx b) = b.
Proof. exact wbaes_one_way_lemma. Qed.
Print Assumptions wbaes_one_way_refuted.
Theorem wbsm4_one_way_refuted : forall rnd rs junk em key ctx b c, bytes key -> length rs = 32 -> block16 b ->
  wbsm4_gen_table rnd rs (wbsm4_context_init junk em 0) key = Ret ctx -> wbsm4_encrypt ctx b = Ret c ->
  (if (em =? 0)%Z then std_encrypt else std_decrypt) (read_sm4 (wb_real ctx) em) c = b.
Proof. exact wbsm4_one_way_lemma. Qed.
Print Assumptions wbsm4_one_way_refuted.
Theorem sewb_one_way_refuted : forall rnd em key ctx b, bytes key -> block16 b -> se_gen_table rnd (se_context_init em) key = Ret ctx ->
  (if (em =? 0)%Z then std_encrypt else std_decrypt) (read_sm4 (se_state ctx) em) (se_encrypt ctx b) = b.
Proof. exact sewb_one_way_lemma. Qed.
Print Assumptions sewb_one_way_refuted.
(** The contexts of white-box GCM contain the key in the same way: both contexts made with masks and the one made with
    external encodings. *)
Theorem wbgcm_key_read_actual : forall rnd junk key, bytes key -> 16 <= length key ->
  (forall ctx, ee_gen_table rnd junk key = Ret ctx -> read_aes (ee_t ctx) = firstn 16 key) /\
  (forall enc dec, mask_gen_table rnd junk key = Ret (enc, dec) -> read_aes (mk_t enc) = firstn 16 key /\ read_aes (mk_t dec) = firstn 16 key).
Proof. intros rnd junk key B L. exact (proj2 (read_contexts rnd junk key B L)). Qed.
Print Assumptions wbgcm_key_read_actual.
(** such contexts exist for all random numbers and in both directions, and their ciphertexts are not the plaintexts *)
Example one_way_instances : forall rnd junk junk' em, exists key b, bytes key /\ 16 <= length key /\ block16 b /\
  (exists ctx, wbaes_gen_table rnd junk key = Ret ctx /\ wbaes_encrypt ctx b <> b) /\
  (exists ctx c, wbsm4_gen_table rnd (repeat 0%N 32) (wbsm4_context_init junk' em 0) key = Ret ctx /\ wbsm4_encrypt ctx b = Ret c /\ c <> b) /\
  (exists ctx, se_gen_table rnd (se_context_init em) key = Ret ctx /\ se_encrypt ctx b <> b).
Proof.
  intros rnd junk junk' em. set (k := [1;2;3;4;5;6;7;8;9;10;11;12;13;14;15;16]%N). exists k, k.
  assert (B : bytes k) by (unfold k, bytes; repeat (apply Forall_cons; [reflexivity|]); apply Forall_nil).
  assert (L : 16 <= length k) by apply le_n. assert (Bb : block16 k) by (split; [reflexivity|exact B]).
  assert (N : sm4_for em k k <> k).
  { unfold sm4_for. destruct (em =? 0)%Z; vm_compute; discriminate. }
  split; [exact B|]. split; [exact L|]. split; [exact Bb|]. split; [|split].
  - destruct (wbaes_conforms_lemma rnd junk k B L) as (ctx & E & C). exists ctx. split; [exact E|]. rewrite (C k Bb).
    intros Q. assert (F : nth 0 (aes_encrypt (firstn 16 k) k) 0%N <> 1%N) by (vm_compute; discriminate). apply F. rewrite Q. reflexivity.
  - destruct (wbsm4_conforms_lemma rnd (repeat 0%N 32) junk' em k k B Bb) as (ctx & E & C). exists ctx, (sm4_for em k k). auto.
  - destruct (se_wbsm4_conforms_lemma rnd (se_context_init em) k B) as (ctx & E & C). exists ctx. split; [exact E|].
    destruct (C k Bb) as [-> _]. exact N.
Qed.
