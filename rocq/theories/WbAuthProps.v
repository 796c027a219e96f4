(** * Property theorems: what white-box GCM tags protect, and IVs used again (C128, C129) *)
From Verif Require Import Base CbcModel CbcSpec CbcProofs GcmModel GcmSpec GcmProofs GcmAuth GcmReuse Toy FpeModel AesSpec WbaesModel WbgcmModel WbgcmSpec WbgcmProofs WbgcmKeys WbgcmTop WbAuth WbMaskXor.
Local Open Scope nat_scope.
#[local] Opaque ee_gen_table mask_gen_table ee_key mask_key wbgcm_session.

(** ** C128: a receiver with the ee variant notices every change within one block *)
(** For every key whose hash key is not zero: decrypting with additional data or a ciphertext that differ from the sent
    ones within one block of sixteen bytes gives another tag, also with other tables of the key. *)
Theorem ee_block_change_detected : forall rnd junk rnd' junk' key ctx ctx' iv aad p ct tag, bytes key -> ee_gen_table rnd junk key = Ret ctx -> ee_gen_table rnd' junk' key = Ret ctx' ->
  hash_key (aes_encrypt (firstn 16 key)) <> repeat 0%N 16 -> gcm_limits iv aad p -> nothing aad [p] = false -> wbgcm_session Enc (ee_key ctx) iv aad [p] 16 = Some ([ct], tag) ->
  (forall i aad', bytes aad' -> length aad = length aad' -> aad <> aad' -> (forall j, j / 16 <> i -> get aad j = get aad' j) ->
     exists p' tag', wbgcm_session Dec (ee_key ctx') iv aad' [ct] 16 = Some ([p'], tag') /\ tag' <> tag) /\
  (forall i ct', bytes ct' -> length ct = length ct' -> ct <> ct' -> (forall j, j / 16 <> i -> get ct j = get ct' j) ->
     exists p' tag', wbgcm_session Dec (ee_key ctx') iv aad [ct'] 16 = Some ([p'], tag') /\ tag' <> tag).
Proof. exact ee_change_lemma. Qed.
Print Assumptions ee_block_change_detected.
Definition auth_key : list N := N_to_be 16 0xfeffe9928665731c6d6a8f9467308308.
Lemma auth_key_ok : bytes auth_key /\ 16 <= length auth_key.
Proof. split; [apply bytes_N_to_be|unfold auth_key; now rewrite length_N_to_be]. Qed.
Lemma auth_limits : gcm_limits gcm_iv12 gcm_aad5 gcm_msg.
Proof. repeat split; try (vm_compute; reflexivity); try (vm_compute; discriminate); repeat constructor. Qed.
Example ee_block_change_instance : forall rnd junk rnd' junk', exists ctx ctx' ct tag, ee_gen_table rnd junk auth_key = Ret ctx /\ ee_gen_table rnd' junk' auth_key = Ret ctx' /\
  hash_key (aes_encrypt (firstn 16 auth_key)) <> repeat 0%N 16 /\ gcm_limits gcm_iv12 gcm_aad5 gcm_msg /\ nothing gcm_aad5 [gcm_msg] = false /\
  wbgcm_session Enc (ee_key ctx) gcm_iv12 gcm_aad5 [gcm_msg] 16 = Some ([ct], tag) /\
  exists p' tag', wbgcm_session Dec (ee_key ctx') gcm_iv12 (N.lxor 1 (get gcm_aad5 0) :: skipn 1 gcm_aad5) [ct] 16 = Some ([p'], tag') /\ tag' <> tag.
Proof.
  intros rnd junk rnd' junk'. destruct auth_key_ok as [B L]. destruct (ee_conforms_lemma rnd junk auth_key B L) as (ctx & E1 & _). destruct (ee_conforms_lemma rnd' junk' auth_key B L) as (ctx' & E2 & _).
  assert (NN : nothing gcm_aad5 [gcm_msg] = false) by reflexivity. assert (NZ : hash_key (aes_encrypt (firstn 16 auth_key)) <> repeat 0%N 16) by (clear; vm_compute; discriminate).
  destruct (ee_bridge rnd junk auth_key ctx Enc gcm_iv12 gcm_aad5 gcm_msg 16 B E1 auth_limits NN (Nat.le_refl _)) as (ct & tag & Q & _).
  exists ctx, ctx', ct, tag. split; [exact E1|]. split; [exact E2|]. split; [exact NZ|]. split; [exact auth_limits|]. split; [exact NN|]. split; [exact Q|].
  destruct (ee_block_change_detected rnd junk rnd' junk' auth_key ctx ctx' gcm_iv12 gcm_aad5 gcm_msg ct tag B E1 E2 NZ auth_limits NN Q) as [H _].
  apply (H 0); [repeat constructor|reflexivity|discriminate|]. intros [|j] J; [now elim J|reflexivity].
Qed.

(** ** C129: using an IV again in white-box GCM *)
(** The ee variant: from two ciphertexts and tags that differ in the last block one computes the hash key, and with it
    and the first message the tag of any additional data and ciphertext.  No tables are used. *)
Theorem ee_iv_reuse_refuted : exists (recover : list N -> list N -> list N -> list N -> list N) (forge : list N -> list N -> list N -> list N -> list N -> list N -> list N),
  forall rnd junk key ctx iv aad u x1 x2 c1 t1 c2 t2, bytes key -> ee_gen_table rnd junk key = Ret ctx -> gcm_limits iv aad (u ++ x1) -> bytes x2 ->
  length u mod 16 = 0 -> 1 <= length x1 <= 16 -> length x2 = length x1 -> x1 <> x2 ->
  wbgcm_session Enc (ee_key ctx) iv aad [u ++ x1] 16 = Some ([c1], t1) -> wbgcm_session Enc (ee_key ctx) iv aad [u ++ x2] 16 = Some ([c2], t2) ->
  recover c1 t1 c2 t2 = aes_encrypt (firstn 16 key) (repeat 0%N 16) /\ forall aad' c', gcm_limits iv aad' c' -> nothing aad' [c'] = false ->
    exists p', wbgcm_session Dec (ee_key ctx) iv aad' [c'] 16 = Some ([p'], forge (recover c1 t1 c2 t2) aad c1 t1 aad' c').
Proof. exact ee_reuse_lemma. Qed.
Print Assumptions ee_iv_reuse_refuted.
Example ee_iv_reuse_instance : forall rnd junk, exists ctx c1 t1 c2 t2, ee_gen_table rnd junk auth_key = Ret ctx /\ gcm_limits gcm_iv12 gcm_aad5 (repeat 5%N 32 ++ [1; 2; 3]%N) /\
  wbgcm_session Enc (ee_key ctx) gcm_iv12 gcm_aad5 [repeat 5%N 32 ++ [1; 2; 3]%N] 16 = Some ([c1], t1) /\
  wbgcm_session Enc (ee_key ctx) gcm_iv12 gcm_aad5 [repeat 5%N 32 ++ [1; 9; 3]%N] 16 = Some ([c2], t2).
Proof.
  intros rnd junk. destruct auth_key_ok as [B L]. destruct (ee_conforms_lemma rnd junk auth_key B L) as (ctx & E1 & _).
  assert (G : forall x, byte x -> gcm_limits gcm_iv12 gcm_aad5 (repeat 5%N 32 ++ [1; x; 3]%N)).
  { intros x X. repeat split; try (vm_compute; reflexivity); try (vm_compute; discriminate); repeat constructor. exact X. }
  assert (G9 : gcm_limits gcm_iv12 gcm_aad5 (repeat 5%N 32 ++ [1; 9; 3]%N)) by (apply G; reflexivity). assert (G2 : gcm_limits gcm_iv12 gcm_aad5 (repeat 5%N 32 ++ [1; 2; 3]%N)) by (apply G; reflexivity).
  destruct (ee_bridge rnd junk auth_key ctx Enc _ _ _ 16 B E1 G2 eq_refl (Nat.le_refl _)) as (c1 & t1 & Q1 & _). destruct (ee_bridge rnd junk auth_key ctx Enc _ _ _ 16 B E1 G9 eq_refl (Nat.le_refl _)) as (c2 & t2 & Q2 & _).
  exists ctx, c1, t1, c2, t2. split; [exact E1|]. split; [exact G2|]. split; [exact Q1|exact Q2].
Qed.
(** The mask variant: two ciphertexts under one IV show at which positions the messages agree, whatever the additional
    data and the random bijections are. *)
Theorem mask_iv_reuse_refuted : forall rnd junk key ctxs iv aad1 aad2 p1 p2 c1 t1 c2 t2, bytes key -> mask_gen_table rnd junk key = Ret ctxs ->
  gcm_limits iv aad1 p1 -> gcm_limits iv aad2 p2 -> p1 <> [] -> p2 <> [] ->
  wbgcm_session Enc (mask_key (fst ctxs)) iv aad1 [p1] 16 = Some ([c1], t1) -> wbgcm_session Enc (mask_key (fst ctxs)) iv aad2 [p2] 16 = Some ([c2], t2) ->
  forall j, j < length p1 -> j < length p2 -> (get c1 j = get c2 j <-> get p1 j = get p2 j).
Proof. exact mask_reuse_lemma. Qed.
Print Assumptions mask_iv_reuse_refuted.
Example mask_iv_reuse_instance : forall rnd junk, exists ctxs c1 t1 c2 t2, mask_gen_table rnd junk auth_key = Ret ctxs /\ gcm_limits gcm_iv12 gcm_aad5 gcm_msg /\ gcm_limits gcm_iv12 [] [7; 7]%N /\
  wbgcm_session Enc (mask_key (fst ctxs)) gcm_iv12 gcm_aad5 [gcm_msg] 16 = Some ([c1], t1) /\ wbgcm_session Enc (mask_key (fst ctxs)) gcm_iv12 [] [[7; 7]%N] 16 = Some ([c2], t2).
Proof.
  intros rnd junk. destruct auth_key_ok as [B L]. destruct (mask_defined_lemma rnd junk auth_key B L) as (ctxs & E2).
  assert (G2 : gcm_limits gcm_iv12 [] [7; 7]%N) by (repeat split; try (vm_compute; reflexivity); try (vm_compute; discriminate); repeat constructor).
  assert (Q : forall aad p, gcm_limits gcm_iv12 aad p -> nothing aad [p] = false -> exists c t, wbgcm_session Enc (mask_key (fst ctxs)) gcm_iv12 aad [p] 16 = Some ([c], t)).
  { intros aad p (Biv & Ba & Bp & Liv & La & Lp) NN. destruct (mask_enc_lemma rnd junk auth_key ctxs gcm_iv12 aad [] p 16 B E2 Biv Ba) as (cs & H1 & H2 & _); auto.
    - constructor; [split; assumption|constructor].
    - cbn [concat app]. lia.
    - destruct cs as [|c [|c' cs]]; try discriminate H2. eauto. }
  destruct (Q _ _ auth_limits eq_refl) as (c1 & t1 & Q1). destruct (Q _ _ G2 eq_refl) as (c2 & t2 & Q2).
  exists ctxs, c1, t1, c2, t2. split; [exact E2|]. split; [exact auth_limits|]. split; [exact G2|]. split; [exact Q1|exact Q2].
Qed.
(** More: one linear bijection of bytes per position in the block, the same for all IVs, gives the difference of the
    ciphertexts from that of the messages.  (The hypotheses are those of [mask_iv_reuse_instance].) *)
Theorem mask_iv_reuse_xor_refuted : forall rnd junk key ctxs, bytes key -> mask_gen_table rnd junk key = Ret ctxs ->
  exists f : nat -> N -> N, (forall i x y, i < 16 -> f i (N.lxor x y) = N.lxor (f i x) (f i y)) /\ (forall i x y, i < 16 -> byte x -> byte y -> f i x = f i y -> x = y) /\
  forall iv aad1 aad2 p1 p2 c1 t1 c2 t2, gcm_limits iv aad1 p1 -> gcm_limits iv aad2 p2 -> p1 <> [] -> p2 <> [] ->
  wbgcm_session Enc (mask_key (fst ctxs)) iv aad1 [p1] 16 = Some ([c1], t1) -> wbgcm_session Enc (mask_key (fst ctxs)) iv aad2 [p2] 16 = Some ([c2], t2) ->
  forall j, j < length p1 -> j < length p2 -> N.lxor (get c1 j) (get c2 j) = f (j mod 16) (N.lxor (get p1 j) (get p2 j)).
Proof. exact mask_xor_lemma. Qed.
Print Assumptions mask_iv_reuse_xor_refuted.
