(** * Decrypting with white-box tables made for encryption *)
From Verif Require Import Base Word32 CbcModel CbcSpec GcmModel Sm4Model Sm4Spec Sm4Proofs FpeModel MatModel AesSpec AesProofs WbaesModel WbaesProofs WbgcmModel WbgcmProofs WbgcmKeys WbaesKey WbaesKeyProps
  Wbsm4Model Wbsm4Proofs Wbsm4Enc Wbsm4Spec Wbsm4Thms SewbModel SewbProofs Wbsm4Key SewbKey.
From Coq Require Import ZArith.
Local Open Scope nat_scope.
#[local] Opaque nib aes_inv_sbox aes_encrypt aes_decrypt std_encrypt std_decrypt wbaes_gen_table wbsm4_gen_table se_gen_table wbsm4_encrypt se_encrypt wbaes_encrypt.

(** ** White-box AES: the test of C116 as a procedure *)
Definition all_bytes : list N := map N.of_nat (seq 0 256).
Lemma in_all_bytes x : In x all_bytes <-> byte x.
Proof.
  unfold all_bytes. rewrite in_map_iff. unfold byte. split.
  - intros (n & <- & I). apply in_seq in I. lia.
  - intros B. exists (N.to_nat x). split; [apply N2Nat.id|apply in_seq; lia].
Qed.
Definition differences : list N := map N.of_nat (seq 1 31).
Lemma in_differences x : In x differences <-> (1 <= x < 32)%N.
Proof.
  unfold differences. rewrite in_map_iff. split.
  - intros (n & <- & I). apply in_seq in I. lia.
  - intros B. exists (N.to_nat x). split; [apply N2Nat.id|apply in_seq; lia].
Qed.
#[local] Opaque all_bytes differences.
Definition test_byte (II Ia : list N) (k : N) : bool :=
  forallb (fun n => existsb (fun d => forallb (fun s =>
    (nib n (get II (N.to_nat (get Ia (N.to_nat (N.lxor (aes_inv_sbox s) k))))) =? nib n (get II (N.to_nat (get Ia (N.to_nat (N.lxor (aes_inv_sbox (N.lxor s d)) k))))))%N)
    all_bytes) differences) (seq 0 8).
Lemma test_byte_ok II Ia k : test_byte II Ia k = true <-> passes II Ia k.
Proof.
  unfold test_byte, passes. rewrite forallb_forall. split.
  - intros H n L. specialize (H n ltac:(apply in_seq; lia)). apply existsb_exists in H as (d & D & F). exists d. split; [now apply in_differences|].
    rewrite forallb_forall in F. intros s B. apply N.eqb_eq. apply F. now apply in_all_bytes.
  - intros H n I. apply in_seq in I. destruct (H n ltac:(lia)) as (d & D & F). apply existsb_exists. exists d. split; [now apply in_differences|].
    apply forallb_forall. intros s B. apply N.eqb_eq. apply F. now apply in_all_bytes.
Qed.
#[local] Opaque test_byte.
(** the key the tables of a context stand for: sixteen searches among 256 values *)
Definition read_aes_byte (t : wbtables) (i : nat) : N :=
  match find (test_byte (entries (t_II t 0 (nth i lands_at 0))) (entries (t_Ia t i))) all_bytes with Some k => k | None => 0%N end.
Definition read_aes (t : wbtables) : list N := map (read_aes_byte t) (seq 0 16).
Lemma read_aes_byte_ok t i b : byte b -> (forall k, byte k -> passes (entries (t_II t 0 (nth i lands_at 0))) (entries (t_Ia t i)) k <-> k = b) -> read_aes_byte t i = b.
Proof.
  intros B H. unfold read_aes_byte. destruct (find _ all_bytes) as [k|] eqn:F.
  - apply find_some in F as [I F]. apply in_all_bytes in I. apply test_byte_ok in F. now apply H.
  - exfalso. pose proof (find_none _ _ F b ltac:(now apply in_all_bytes)) as Q. cbv beta in Q.
    assert (P : test_byte (entries (t_II t 0 (nth i lands_at 0))) (entries (t_Ia t i)) b = true) by (apply test_byte_ok, H; auto). congruence.
Qed.
#[local] Opaque read_aes_byte.
Lemma firstn_map_get n : forall (l : list N), n <= length l -> map (get l) (seq 0 n) = firstn n l.
Proof.
  intros l L. apply (nth_ext _ _ 0%N 0%N); [rewrite map_length, seq_length, firstn_length; lia|]. intros i I. rewrite map_length, seq_length in I.
  rewrite (nth_indep _ 0%N (get l 0)) by (rewrite map_length, seq_length; exact I). rewrite (map_nth (get l)), seq_nth by exact I. unfold get. cbn [plus].
  rewrite <- (firstn_skipn n l) at 1. rewrite app_nth1 by (rewrite firstn_length; lia). reflexivity.
Qed.
Lemma read_aes_ok t key : 16 <= length key -> bytes key ->
  (forall i k, i < 16 -> byte k -> passes (entries (t_II t 0 (nth i lands_at 0))) (entries (t_Ia t i)) k <-> k = get key i) -> read_aes t = firstn 16 key.
Proof.
  intros L B H. rewrite <- firstn_map_get by exact L. unfold read_aes. apply map_ext_in. intros i I. apply in_seq in I.
  apply read_aes_byte_ok; [now apply bytes_get|]. intros k K. apply H; [lia|exact K].
Qed.
Lemma read_contexts rnd junk key : bytes key -> 16 <= length key ->
  (forall ctx, wbaes_gen_table rnd junk key = Ret ctx -> read_aes (wb_t ctx) = firstn 16 key) /\
  (forall ctx, ee_gen_table rnd junk key = Ret ctx -> read_aes (ee_t ctx) = firstn 16 key) /\
  (forall enc dec, mask_gen_table rnd junk key = Ret (enc, dec) -> read_aes (mk_t enc) = firstn 16 key /\ read_aes (mk_t dec) = firstn 16 key).
Proof.
  intros B L. split; [|split].
  - intros ctx E. apply read_aes_ok; auto. intros i k I K. exact (proj1 (wbaes_key_hidden_refuted rnd junk key i k B I K) ctx E).
  - intros ctx E. apply read_aes_ok; auto. intros i k I K. exact (proj1 (proj2 (wbaes_key_hidden_refuted rnd junk key i k B I K)) ctx E).
  - intros enc dec E. split; apply read_aes_ok; auto; intros i k I K.
    + exact (proj1 (proj2 (proj2 (wbaes_key_hidden_refuted rnd junk key i k B I K)) enc dec E)).
    + exact (proj2 (proj2 (proj2 (wbaes_key_hidden_refuted rnd junk key i k B I K)) enc dec E)).
Qed.
Lemma wbaes_one_way_lemma rnd junk key ctx b : bytes key -> 16 <= length key -> wbaes_gen_table rnd junk key = Ret ctx -> block16 b ->
  aes_decrypt (read_aes (wb_t ctx)) (wbaes_encrypt ctx b) = b.
Proof.
  intros B L E Bb. rewrite (proj1 (read_contexts rnd junk key B L) ctx E).
  destruct (wbaes_conforms_lemma rnd junk key B L) as (ctx' & E' & C). assert (ctx' = ctx) by congruence. subst ctx'. rewrite C by exact Bb.
  apply aes_decrypt_encrypt; [|exact Bb]. split; [rewrite firstn_length; lia|now apply bytes_firstn].
Qed.
(** the other direction of standard SM4 *)
Definition turned (em : Z) : list N -> list N -> list N := if (em =? 0)%Z then std_encrypt else std_decrypt.
Lemma turned_back em key b : bytes key -> block16 b -> turned em (normal_key key) (sm4_for em key b) = b.
Proof.
  intros B Bb. unfold turned, sm4_for. destruct (em =? 0)%Z; [apply std_roundtrip'|apply std_roundtrip]; auto using Wbsm4Enc.normal_key_block.
Qed.
Lemma wbsm4_one_way_lemma rnd rs junk em key ctx b c : bytes key -> length rs = 32 -> block16 b ->
  wbsm4_gen_table rnd rs (wbsm4_context_init junk em 0) key = Ret ctx -> wbsm4_encrypt ctx b = Ret c -> turned em (read_sm4 (wb_real ctx) em) c = b.
Proof.
  intros B L Bb E C. rewrite (wbsm4_key_lemma rnd rs junk em 0 key ctx B) by assumption.
  destruct (wbsm4_conforms_lemma rnd rs junk em key b B Bb) as (ctx' & E' & C'). assert (ctx' = ctx) by congruence. subst ctx'.
  assert (c = sm4_for em key b) by congruence. subst c. now apply turned_back.
Qed.
Lemma sewb_one_way_lemma rnd em key ctx b : bytes key -> block16 b ->
  se_gen_table rnd (se_context_init em) key = Ret ctx -> turned em (read_sm4 (se_state ctx) em) (se_encrypt ctx b) = b.
Proof.
  intros B Bb E. rewrite (sewb_key_lemma rnd em key ctx B E).
  destruct (se_wbsm4_conforms_lemma rnd (se_context_init em) key B) as (ctx' & E' & C). assert (ctx' = ctx) by congruence. subst ctx'.
  destruct (C b Bb) as [-> _]. now apply turned_back.
Qed.
