(** * Properties of the key store (C49) and of contexts copied and cleared as bytes (C72 - C74) *)
From Verif Require Import Base Word32 CbcSpec Toy GcmModel FpeModel FileModel Sm4Spec MatModel Sm4Model Wbsm4Model Wbsm4Spec Wbsm4Proofs KeyexModel KeyexProofs.
From Coq Require Import ZArith.
Local Open Scope nat_scope.
Local Opaque MatMulVec MatMulNum MatMulMat genaffinepair affinemix affinecom4 genaffinepairs wRandomShuffleU8.

(** ** C49 *)
(** A key written to a file that can be opened, on a device with room for it, is read back by the read function,
    and no other file changes.  The memory after the key keeps its contents. *)
Theorem keystore_roundtrip : forall wr room fs buf len p, wr p = true -> len <= length buf -> len <= room ->
  exists fs', keystore_key_to_file wr room fs buf len p = Ret (true, fs') /\
    (forall q, q <> p -> fs' q = fs q) /\
    forall part old, len <= length old -> keystore_file_to_key fs' part old len p = Ret (true, firstn len buf ++ skipn len old).
Proof.
  intros wr room fs buf len p W L R. destruct (keystore_succeeds wr room fs buf len p W L) as (fs' & E).
  exists fs'. split; [exact E|]. exact (keystore_roundtrip_lemma wr room fs buf len p fs' W L R E).
Qed.
Print Assumptions keystore_roundtrip.
Example keystore_case : exists fs', keystore_key_to_file (fun _ => true) 100 (fun _ => None) [1; 2; 3; 4]%N 3 [107]%N = Ret (true, fs') /\
  keystore_file_to_key fs' [] [9; 9; 9; 9]%N 3 [107]%N = Ret (true, [1; 2; 3; 9]%N).
Proof. eexists. split; reflexivity. Qed.
(** The functions report success when the key was not stored or not read: on a device without room for all of it
    the write returns 1 and leaves a shorter file; reading any file shorter than the key returns 1 and the memory at
    ctx is then whatever fread left there, all values being possible. *)
Theorem keystore_short_write_refuted : forall wr room fs buf len p, wr p = true -> room < len <= length buf ->
  exists fs' f, keystore_key_to_file wr room fs buf len p = Ret (true, fs') /\ fs' p = Some f /\ length f < len.
Proof.
  intros wr room fs buf len p W (R & L). destruct (keystore_succeeds wr room fs buf len p W L) as (fs' & E).
  exists fs'. unfold keystore_key_to_file in E. rewrite W in E. cbn [negb] in E. destruct (Nat.ltb_spec (length buf) len); [lia|].
  exists (firstn room (firstn len buf)). split.
  - unfold keystore_key_to_file. rewrite W. cbn [negb]. destruct (Nat.ltb_spec (length buf) len); [lia|]. exact E.
  - apply Ret_inj in E. injection E as <-. rewrite upd_same. split; [reflexivity|]. rewrite !firstn_length. lia.
Qed.
Print Assumptions keystore_short_write_refuted.
Theorem keystore_short_file_refuted : forall fs p f len old, fs p = Some f -> length f < len -> length old = len ->
  forall v, length v = len -> exists part, keystore_file_to_key fs part old len p = Ret (true, v).
Proof.
  intros fs p f len old F L O v V. exists v. unfold keystore_file_to_key. rewrite F.
  destruct (Nat.ltb_spec (length old) len); [lia|]. destruct (Nat.ltb_spec (length f) len); [|lia].
  rewrite firstn_all2, skipn_all2 by lia. now rewrite app_nil_r.
Qed.
Print Assumptions keystore_short_file_refuted.
(** And a file that cannot be opened is not reported but ends in undefined behaviour. *)
Theorem keystore_open_refuted : forall fs p, fs p = None ->
  (forall part old len, keystore_file_to_key fs part old len p = Undef) /\
  (forall wr room buf len, wr p = false -> keystore_key_to_file wr room fs buf len p = Undef).
Proof.
  intros fs p F. unfold keystore_file_to_key, keystore_key_to_file. rewrite F. split; [reflexivity|]. intros wr room buf len W. now rewrite W.
Qed.
Print Assumptions keystore_open_refuted.
Example keystore_open_case : keystore_file_to_key (fun _ => None) [] [0]%N 1 [107]%N = Undef.
Proof. reflexivity. Qed.

(** ** C72: copying a context through key2bytes and bytes2key, in the process that made it *)
(** Whatever the target context was, it then encrypts like the source; for a context with tables for a key that is
    SM4 under that key, and stays so when the source is passed to context_free. *)
Theorem wbsm4_bytes_copy : forall rnd rs junk h a em key s0, bytes key ->
  exists h1 s1, ws_gen_table rnd rs (fst (ws_init junk h a em 0)) (snd (ws_init junk h a em 0)) key = Ret (h1, s1) /\
    k_len (wbsm4_key2bytes s1) = 32812%N /\
    let copy := wbsm4_bytes2key s0 (wbsm4_key2bytes s1) in
    forall b, block16 b -> ws_encrypt h1 copy b = Ret (sm4_for em key b) /\ ws_encrypt (fst (ws_context_free h1 s1)) copy b = Ret (sm4_for em key b).
Proof.
  intros rnd rs junk h a em key s0 BK. destruct (ws_conforms rnd rs junk h a em key BK) as (h1 & s1 & E & _ & _ & _ & _ & H).
  exists h1, s1. split; [exact E|]. split; [reflexivity|]. intros copy b Bb. split; exact (H b Bb).
Qed.
Print Assumptions wbsm4_bytes_copy.
Example wbsm4_bytes_copy_case : forall rnd rs junk h s0, let key := N_to_be 16 0x0123456789abcdeffedcba9876543210 in
  exists h1 s1, ws_gen_table rnd rs (fst (ws_init junk h 4096 1 0)) (snd (ws_init junk h 4096 1 0)) key = Ret (h1, s1) /\
    ws_encrypt h1 (wbsm4_bytes2key s0 (wbsm4_key2bytes s1)) key = Ret (N_to_be 16 0x681edf34d206965e86b3e94f536e4246).
Proof.
  intros rnd rs junk h s0 key. assert (K : block16 key) by (split; [reflexivity|apply bytes_N_to_be]).
  destruct (wbsm4_bytes_copy rnd rs junk h 4096 1 key s0 (proj2 K)) as (h1 & s1 & E & _ & H). exists h1, s1. split; [exact E|].
  rewrite (proj1 (H key K)). apply f_equal. vm_compute. reflexivity.
Qed.
(** ** C73: the stream does not carry the tables *)
(** In a process where the address is not that of such tables the imported context cannot be used at all ... *)
Theorem wbsm4_bytes_exchange_refuted : forall rnd rs junk h a em key s0 h', bytes key -> h' a = None ->
  exists h1 s1, ws_gen_table rnd rs (fst (ws_init junk h a em 0)) (snd (ws_init junk h a em 0)) key = Ret (h1, s1) /\
    forall b, ws_encrypt h' (wbsm4_bytes2key s0 (wbsm4_key2bytes s1)) b = Undef.
Proof.
  intros rnd rs junk h a em key s0 h' BK F. destruct (ws_conforms rnd rs junk h a em key BK) as (h1 & s1 & E & P & R & _ & _ & _).
  exists h1, s1. split; [exact E|]. intros b. cbn [wbsm4_bytes2key wbsm4_key2bytes k_struct]. unfold ws_encrypt, ws_view.
  rewrite P, F, R. reflexivity.
Qed.
Print Assumptions wbsm4_bytes_exchange_refuted.
(** ... and in the same process source and copy share them: generating the source again for another key changes what
    the copy computes, to the other key's cipher when the random numbers are the same. *)
Theorem wbsm4_bytes_independent_refuted : forall rnd rs junk h a em k1 k2 s0, bytes k1 -> bytes k2 ->
  exists h1 s1, ws_gen_table rnd rs (fst (ws_init junk h a em 0)) (snd (ws_init junk h a em 0)) k1 = Ret (h1, s1) /\
    let copy := wbsm4_bytes2key s0 (wbsm4_key2bytes s1) in
    exists h2 s2, ws_gen_table rnd rs h1 s1 k2 = Ret (h2, s2) /\
      forall b, block16 b -> ws_encrypt h1 copy b = Ret (sm4_for em k1 b) /\ ws_encrypt h2 copy b = Ret (sm4_for em k2 b).
Proof.
  intros rnd rs junk h a em k1 k2 s0 B1 B2. destruct (ws_conforms rnd rs junk h a em k1 B1) as (h1 & s1 & E & _ & _ & _ & _ & H).
  exists h1, s1. split; [exact E|]. cbv zeta. destruct (wbsm4_alias_lemma rnd rs junk h a em k1 k2 h1 s1 s0 rnd rs B1 B2 E) as (h2 & s2 & E2 & A).
  exists h2, s2. split; [exact E2|]. intros b Bb. split; [exact (H b Bb)|exact (A eq_refl eq_refl b Bb)].
Qed.
Print Assumptions wbsm4_bytes_independent_refuted.
Example wbsm4_two_keys_differ : sm4_for 1 (N_to_be 16 1) (N_to_be 16 0) <> sm4_for 1 (N_to_be 16 2) (N_to_be 16 0).
Proof. vm_compute. discriminate. Qed.

(** ** C74: context_free *)
(** The cleared context still encrypts, and reports success: every block to sixteen zero bytes.  (No memory is at
    the null address.) *)
Theorem wbsm4_use_after_free_refuted : forall h s b, h 0%N = None -> ws_encrypt (fst (ws_context_free h s)) (snd (ws_context_free h s)) b = Ret (repeat 0%N 16).
Proof. exact ws_free_encrypts_zero. Qed.
Print Assumptions wbsm4_use_after_free_refuted.
(** The tables are neither released nor erased: after context_free they are still in memory, and with the two arrays of
    the structure they still encrypt under the key. *)
Theorem wbsm4_free_erases_refuted : forall rnd rs junk h a em key, bytes key ->
  exists h1 s1, ws_gen_table rnd rs (fst (ws_init junk h a em 0)) (snd (ws_init junk h a em 0)) key = Ret (h1, s1) /\
    let h2 := fst (ws_context_free h1 s1) in
    exists tab, h2 a = Some (32, tab) /\
    forall b, block16 b -> wbsm4_encrypt (mkwctx 32 em 32 (fun l => if in_struct l then s_arrays s1 l else tab l)) b = Ret (sm4_for em key b).
Proof.
  intros rnd rs junk h a em key BK. destruct (ws_conforms rnd rs junk h a em key BK) as (h1 & s1 & E & P & R & M & (tab & T) & H).
  exists h1, s1. split; [exact E|]. exists tab. split; [exact T|]. intros b Bb. rewrite <- (H b Bb).
  unfold ws_encrypt, ws_view. rewrite P, T, R, M. cbn [obind]. reflexivity.
Qed.
Print Assumptions wbsm4_free_erases_refuted.
