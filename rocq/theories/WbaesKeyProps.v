(** * Property theorems: the key in white-box AES tables (C116) *)
From Verif Require Import Base CbcModel CbcSpec FpeModel MatModel AesSpec WbaesModel WbaesProofs WbgcmModel WbgcmProofs WbgcmKeys WbaesKey.
Local Open Scope nat_scope.

(** ** C116: white-box AES tables do not give the key away *)
(** False of the code.  Byte i of the key can be read off 512 entries of a key context, alone and whatever the random
    numbers were: row i of TypeIa, which encodes byte i of the input, and the row of TypeII[0] that byte goes to.  For each
    of the 256 values there is a test that makes at most 8 * 31 * 256 comparisons of nibbles of entries, and exactly one value
    passes, the one that was used.  This holds for the contexts of wbaes.c, for those of white-box GCM with external
    encodings, and for both contexts of white-box GCM with masks. *)
(** the test: the value [k] for the key byte passes if, for each of the eight nibbles of the entries of TypeII[0], there is
    a difference below 32 such that S-box outputs with this difference, supposing [k], always give the same nibble *)
Definition passes (II Ia : list N) (k : N) : Prop := forall n, n < 8 -> exists d, (1 <= d < 32)%N /\ forall s, byte s ->
  nib n (get II (N.to_nat (get Ia (N.to_nat (N.lxor (aes_inv_sbox s) k))))) = nib n (get II (N.to_nat (get Ia (N.to_nat (N.lxor (aes_inv_sbox (N.lxor s d)) k))))).
(** where ShiftRows puts byte i *)
Definition lands_at : list nat := [0; 13; 10; 7; 4; 1; 14; 11; 8; 5; 2; 15; 12; 9; 6; 3].
(** the contents of an array of 256 entries *)
Definition entries (f : N -> N) : list N := map (fun x => f (N.of_nat x)) (seq 0 256).
Theorem wbaes_key_hidden_refuted : forall rnd junk key i k, bytes key -> i < 16 -> byte k ->
  let context_passes t := passes (entries (t_II t 0 (nth i lands_at 0))) (entries (t_Ia t i)) k in
  (forall ctx, wbaes_gen_table rnd junk key = Ret ctx -> context_passes (wb_t ctx) <-> k = get key i) /\
  (forall ctx, ee_gen_table rnd junk key = Ret ctx -> context_passes (ee_t ctx) <-> k = get key i) /\
  (forall enc dec, mask_gen_table rnd junk key = Ret (enc, dec) ->
     (context_passes (mk_t enc) <-> k = get key i) /\ (context_passes (mk_t dec) <-> k = get key i)).
Proof. exact wbaes_key_lemma. Qed.
Print Assumptions wbaes_key_hidden_refuted.
(** such contexts exist for every key of sixteen bytes and all random numbers *)
Example wbaes_key_hidden_instance : forall rnd junk,
  bytes (map N.of_nat (seq 16 16)) /\ (exists ctx, wbaes_gen_table rnd junk (map N.of_nat (seq 16 16)) = Ret ctx) /\
  (exists ctx, ee_gen_table rnd junk (map N.of_nat (seq 16 16)) = Ret ctx) /\ (exists enc dec, mask_gen_table rnd junk (map N.of_nat (seq 16 16)) = Ret (enc, dec)).
Proof.
  intros rnd junk. assert (B : bytes (map N.of_nat (seq 16 16))) by (unfold bytes; repeat (apply Forall_cons; [reflexivity|]); apply Forall_nil).
  assert (L : 16 <= length (map N.of_nat (seq 16 16))) by (rewrite map_length, seq_length; apply le_n).
  split; [exact B|]. split; [|split].
  - destruct (wbaes_conforms_lemma rnd junk _ B L) as (ctx & E & _). now exists ctx.
  - destruct (ee_sound rnd junk _ B L) as (ctx & E & _). now exists ctx.
  - destruct (mask_sound rnd junk _ B L) as ([enc dec] & E & _). now exists enc, dec.
Qed.
(** No choice of random numbers makes the tables of two keys the same. *)
Theorem wbaes_tables_separate_keys_actual : forall rnd junk rnd' junk' key key' ctx ctx', bytes key -> bytes key' ->
  wbaes_gen_table rnd junk key = Ret ctx -> wbaes_gen_table rnd' junk' key' = Ret ctx' -> firstn 16 key <> firstn 16 key' ->
  array16 (t_II (wb_t ctx) 0) <> array16 (t_II (wb_t ctx') 0) \/ array16 (t_Ia (wb_t ctx)) <> array16 (t_Ia (wb_t ctx')).
Proof. exact tables_determine_key_lemma. Qed.
Print Assumptions wbaes_tables_separate_keys_actual.
