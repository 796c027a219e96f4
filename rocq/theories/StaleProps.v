(** * Property theorems: contexts used for several messages (C12, C13, C127) *)
From Verif Require Import Base CbcModel CbcSpec CbcProofs GcmModel GcmSpec GcmProofs Toy FileModel FpeModel AesSpec WbaesModel WbgcmModel WbgcmProofs WbgcmTop Stale WbStale.
Local Open Scope nat_scope.

(** ** C12 *)
(** The property fails for every key whose hash key is not zero: after any calls, the last additional data of which are
    not empty, setiv without aad makes the context compute the same bytes as a new one and another tag, for every
    non-empty message. *)
Theorem gcm_reuse_every_key_refuted : forall E c0 ops a rest c iv d p, block_function E -> hash_key E <> repeat 0%N 16 -> gcm_init (lift E) = Some c0 ->
  gcm_run (lift E) c0 (ops ++ OpAad a :: rest) = Some c -> Forall no_aad rest -> a <> [] -> (8 * N.of_nat (length a) < 2 ^ 64)%N ->
  bytes iv -> bytes p -> p <> [] -> (N.of_nat (length p) <= 2147483647)%N ->
  exists fresh used o t1 t2, gcm_setiv (lift E) c0 iv = (true, fresh) /\ gcm_setiv (lift E) c iv = (true, used) /\
    tagged d (lift E) fresh p = Some (o, t1) /\ tagged d (lift E) used p = Some (o, t2) /\ t1 <> t2.
Proof. exact stale_reuse_lemma. Qed.
Print Assumptions gcm_reuse_every_key_refuted.
Example gcm_reuse_every_key_instance : exists c0 c, gcm_init (lift toyE) = Some c0 /\ block_function toyE /\ hash_key toyE <> repeat 0%N 16 /\
  gcm_run (lift toyE) c0 ([OpSetiv gcm_iv20; OpAad []] ++ OpAad gcm_aad5 :: [OpCrypt Enc gcm_msg 39; OpFinish 16; OpSetiv gcm_iv12]) = Some c /\
  Forall no_aad [OpCrypt Enc gcm_msg 39; OpFinish 16; OpSetiv gcm_iv12] /\ gcm_aad5 <> [] /\ gcm_msg <> [].
Proof.
  eexists; eexists. split; [vm_compute; reflexivity|]. split; [apply toy_is_block_cipher|]. split; [vm_compute; discriminate|].
  split; [vm_compute; reflexivity|]. split; [repeat constructor|]. split; discriminate.
Qed.

(** ** C13 *)
(** The property fails for every key whose hash key is not zero, every non-empty first piece of whole blocks, every
    second piece and every non-empty message: the tag is another one than with a single call. *)
Theorem gcm_aad_pieces_every_key_refuted : forall E c0 iv c a b d p, block_function E -> hash_key E <> repeat 0%N 16 -> gcm_init (lift E) = Some c0 -> gcm_setiv (lift E) c0 iv = (true, c) ->
  bytes iv -> bytes a -> bytes b -> a <> [] -> length a mod 16 = 0 -> (8 * N.of_nat (length (a ++ b)) < 2 ^ 64)%N -> bytes p -> p <> [] -> (N.of_nat (length p) <= 2147483647)%N ->
  exists o t1 t2, tagged d (lift E) (gcm_aad c (a ++ b)) p = Some (o, t1) /\ tagged d (lift E) (gcm_aad (gcm_aad c a) b) p = Some (o, t2) /\ t1 <> t2.
Proof. exact stale_pieces_lemma. Qed.
Print Assumptions gcm_aad_pieces_every_key_refuted.
Example gcm_aad_pieces_every_key_instance : exists c0 c, gcm_init (lift toyE) = Some c0 /\ gcm_setiv (lift toyE) c0 gcm_iv12 = (true, c) /\ hash_key toyE <> repeat 0%N 16 /\
  length (repeat 7%N 32) mod 16 = 0 /\ repeat 7%N 32 <> [] /\ gcm_msg <> [].
Proof.
  eexists; eexists. split; [vm_compute; reflexivity|]. split; [vm_compute; reflexivity|]. split; [vm_compute; discriminate|]. split; [reflexivity|]. split; discriminate.
Qed.

(** ** C127: a white-box GCM context can be used for message after message *)
#[local] Opaque ee_gen_table mask_gen_table ee_key mask_key wbgcm_init wbgcm_setiv wbgcm_aad wbgcm_crypt wbgcm_finish.
(** True when both the IV and the additional data are set for each message: after any calls on data and files, for
    either variant and any tables, the context is the one a new context would be. *)
Theorem wbgcm_again_partial : forall k c iv aad, wb_use k (wbgcm_init k) c -> wbgcm_aad (wbgcm_setiv k c iv) aad = wbgcm_open k iv aad.
Proof. exact wb_again_lemma. Qed.
Print Assumptions wbgcm_again_partial.
(** False when the aad call is left out because the next message has no additional data: the output is that of a new
    context and the tag is another one, in both variants, on either side, for every key whose hash key is not zero. *)
Theorem wbgcm_again_refuted : forall rnd junk key ctx rnd' junk' ctxs k c a c' iv d p, bytes key -> ee_gen_table rnd junk key = Ret ctx -> mask_gen_table rnd' junk' key = Ret ctxs ->
  In k [ee_key ctx; mask_key (fst ctxs); mask_key (snd ctxs)] -> hash_key (aes_encrypt (firstn 16 key)) <> repeat 0%N 16 ->
  wb_use k (wbgcm_init k) c -> wb_quiet k (wbgcm_aad c a) c' -> a <> [] -> (8 * N.of_nat (length a) < 2 ^ 64)%N ->
  bytes iv -> bytes p -> p <> [] -> (N.of_nat (length p) <= 2147483647)%N ->
  exists o t1 t2, wb_tagged d k (wbgcm_setiv k (wbgcm_init k) iv) p = Some (o, t1) /\ wb_tagged d k (wbgcm_setiv k c' iv) p = Some (o, t2) /\ t1 <> t2.
Proof. exact wb_stale_all. Qed.
Print Assumptions wbgcm_again_refuted.
Definition stale_key : list N := N_to_be 16 0xfeffe9928665731c6d6a8f9467308308.
Lemma wb_quiet_witness k c x : exists c', wb_quiet k c c' /\ exists z c1 o t, wbgcm_crypt Enc k c x (length x) = (z, c1, o) /\ wbgcm_finish k c1 16 = Some (c', t).
Proof.
  destruct (wbgcm_crypt Enc k c x (length x)) as [[z c1] o] eqn:R.
  assert (F : exists c' t, wbgcm_finish k c1 16 = Some (c', t)).
  { Local Transparent wbgcm_finish. unfold wbgcm_finish. change (16 <? 16) with false. cbn match. destruct (_ && _); eauto. }
  destruct F as (c' & t & F). exists c'. split; [|now exists z, c1, o, t]. eapply q_data; [exact R|]. eapply q_tag; [exact F|]. apply q_none.
Qed.
Example wbgcm_again_instance : forall rnd junk, exists ctx ctxs, bytes stale_key /\ ee_gen_table rnd junk stale_key = Ret ctx /\ mask_gen_table rnd junk stale_key = Ret ctxs /\
  hash_key (aes_encrypt (firstn 16 stale_key)) <> repeat 0%N 16 /\
  forall k, In k [ee_key ctx; mask_key (fst ctxs); mask_key (snd ctxs)] ->
    exists c c', c = wbgcm_setiv k (wbgcm_init k) gcm_iv12 /\ wb_use k (wbgcm_init k) c /\ wb_quiet k (wbgcm_aad c gcm_aad5) c'.
Proof.
  intros rnd junk. assert (B : bytes stale_key) by apply bytes_N_to_be. assert (L : 16 <= length stale_key) by (unfold stale_key; now rewrite length_N_to_be).
  destruct (ee_conforms_lemma rnd junk stale_key B L) as (ctx & E1 & _). destruct (mask_defined_lemma rnd junk stale_key B L) as (ctxs & E2).
  exists ctx, ctxs. split; [exact B|]. split; [exact E1|]. split; [exact E2|]. split; [clear; vm_compute; discriminate|].
  intros k _. destruct (wb_quiet_witness k (wbgcm_aad (wbgcm_setiv k (wbgcm_init k) gcm_iv12) gcm_aad5) gcm_msg) as (c' & Q & _).
  eexists; exists c'. split; [reflexivity|]. split; [|exact Q]. eapply wb_iv. apply wb_none.
Qed.
