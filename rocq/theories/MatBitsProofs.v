(** * Proofs about the small functions on vectors and matrices *)
From Verif Require Import Base MatModel MatSpec MatProofs Mat128Model Mat128Spec Mat128Proofs MatBitsModel.
Local Open Scope nat_scope.

Lemma entry_flipbit n A i j r c : size n -> matrix n A -> i < n -> j < n -> c < n ->
  entry n (flipbit n A i j) r c = xorb (entry n A r c) ((r =? i) && (c =? j)).
Proof.
  intros S [L F] I J C. unfold flipbit. rewrite entry_set by lia. destruct (Nat.eqb_spec r i) as [->|]; cbn [andb].
  - rewrite bit_lxor, bit_id by auto. rewrite (Nat.eqb_sym j c). reflexivity.
  - now rewrite xorb_false_r.
Qed.
Lemma bits_lemma n A i j b : size n -> matrix n A -> i < n -> j < n ->
  readbit n A i j = entry n A i j /\
  matrix n (flipbit n A i j) /\ matrix n (setbit n A i j b) /\
  (forall r c, r < n -> c < n -> entry n (flipbit n A i j) r c = xorb (entry n A r c) ((r =? i) && (c =? j))) /\
  (forall r c, r < n -> c < n -> entry n (setbit n A i j b) r c = if (r =? i) && (c =? j) then b else entry n A r c).
Proof.
  intros S M I J. assert (R : readbit n A i j = entry n A i j) by (now apply readbit_spec). split; [exact R|].
  assert (MF : matrix n (flipbit n A i j)). { unfold flipbit. apply matrix_set; [exact M|]. apply vector_lxor; [now apply matrix_get|now apply vector_id]. }
  split; [exact MF|]. split; [unfold setbit; destruct (Bool.eqb _ _); [exact M|exact MF]|].
  split; [intros r c _ C; now apply entry_flipbit|]. intros r c Hr C. unfold setbit. rewrite R.
  destruct (Bool.eqb (entry n A i j) b) eqn:E.
  - apply Bool.eqb_prop in E. destruct (Nat.eqb_spec r i) as [->|]; [|reflexivity]. destruct (Nat.eqb_spec c j) as [->|]; [exact E|reflexivity].
  - rewrite entry_flipbit by auto. destruct (Nat.eqb_spec r i) as [->|]; [|apply xorb_false_r].
    destruct (Nat.eqb_spec c j) as [->|]; [|apply xorb_false_r]. cbn [andb]. destruct (entry n A i j), b; cbn in *; congruence.
Qed.
Lemma equal_lemma n A B a b : matrix n A -> matrix n B -> (isequalM n A B = true <-> A = B) /\ (isequalV a b = true <-> a = b).
Proof.
  intros [LA FA] [LB FB]. split; [|apply N.eqb_eq]. unfold isequalM. split; [|intros ->; apply forallb_forall; intros; apply N.eqb_refl].
  intros H. rewrite forallb_forall in H. apply list_ext_get; [congruence|]. intros i I. apply N.eqb_eq, H, in_seq. lia.
Qed.
Lemma equal128_lemma a b : isequalV128 a b = true <-> a = b.
Proof.
  destruct a as [a0 a1], b as [b0 b1]. unfold isequalV128. cbn [fst snd]. rewrite andb_true_iff, !N.eqb_eq. split; [intros [-> ->]; reflexivity|intros E; now injection E].
Qed.
Lemma set_next {A} (l l' : list A) i d : length l = length l' -> i < length l' ->
  set (firstn i l ++ skipn i l') i (nth i l d) = firstn (S i) l ++ skipn (S i) l'.
Proof.
  revert l l'. induction i as [|i IH]; intros [|x l] [|y l'] E I; cbn in *; try lia; [reflexivity|]. f_equal. apply IH; lia.
Qed.
Lemma copy_gen {A} (l old : list A) d n k : length l = n -> length old = n -> k <= n ->
  fold_left (fun B i => set B i (nth i l d)) (seq 0 k) old = firstn k l ++ skipn k old.
Proof.
  intros L1 L2. induction k as [|k IH]; intros K; [reflexivity|]. rewrite seq_S, fold_left_app, IH by lia. cbn [fold_left Nat.add]. apply set_next; lia.
Qed.
Lemma copy_lemma n A old : length A = n -> length old = n -> copyM n A old = A.
Proof.
  intros L1 L2. unfold copyM. change (fun B i => set B i (get A i)) with (fun B i => set B i (nth i A 0%N)). rewrite (copy_gen A old 0%N n n) by auto.
  subst n. now rewrite firstn_all, <- L2, skipn_all, app_nil_r.
Qed.
Lemma copy128_lemma A old : length A = 128 -> length old = 128 -> copyM128 A old = A.
Proof.
  intros L1 L2. unfold copyM128, grow. rewrite (copy_gen A old (0%N, 0%N) 128 128) by auto. rewrite <- L1 at 1. rewrite firstn_all, <- L2, skipn_all. apply app_nil_r.
Qed.
Lemma vecadd_lemma n a b : vector n a -> vector n b ->
  vector n (VecAddVec a b) /\ forall i, bit n (VecAddVec a b) i = xorb (bit n a i) (bit n b i).
Proof. intros A B. split; [now apply vector_lxor|]. intros i. apply bit_lxor. Qed.
Lemma vecadd128_lemma a b : words a -> words b ->
  words (VecAddVec128 a b) /\ forall i, bit 128 (pack (VecAddVec128 a b)) i = xorb (bit 128 (pack a) i) (bit 128 (pack b) i).
Proof.
  intros A B. change (VecAddVec128 a b) with (radd a b). split; [now apply words_radd|]. intros i. rewrite pack_radd by auto. apply bit_lxor.
Qed.
