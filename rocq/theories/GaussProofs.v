(** * Proofs about elimination, generated pairs and permutations *)
From Coq Require Import Permutation.
From Verif Require Import Base Word32 FpeModel MatModel MatSpec MatProofs.
Local Open Scope nat_scope.

(** ** Mutually inverse matrices and functions *)
Lemma inverse_intro n A B : size n -> matrix n A -> matrix n B ->
  (forall x, vector n x -> MatMulVec n A (MatMulVec n B x) = x) -> (forall x, vector n x -> MatMulVec n B (MatMulVec n A x) = x) ->
  mutually_inverse n A B.
Proof.
  intros S MA MB AB BA. split; [exact MA|]. split; [exact MB|]. intros i j I J.
  assert (Q : forall A B, matrix n A -> matrix n B -> (forall x, vector n x -> MatMulVec n A (MatMulVec n B x) = x) ->
    xsum n (fun k => entry n A i k && entry n B k j) = (i =? j)).
  { clear - S I J. intros A B MA MB H. specialize (H (get (idM n) j) (vector_id n j S J)). apply (f_equal (fun y => bit n y i)) in H.
    rewrite bit_mulv, bit_id in H by auto. rewrite Nat.eqb_sym, <- H. apply xsum_ext. intros k K. now rewrite mulv_id. }
  split; auto.
Qed.
Lemma inverse_left n A B x : size n -> mutually_inverse n A B -> vector n x -> MatMulVec n A (MatMulVec n B x) = x.
Proof.
  intros S (MA & MB & E) V. apply (bit_ext n); auto using vector_mulv. intros i I. rewrite bit_mulv by auto.
  rewrite (xsum_ext _ _ (fun k => xsum n (fun j => entry n A i k && entry n B k j && bit n x j))).
  - rewrite xsum_swap. rewrite (xsum_ext _ _ (fun j => (i =? j) && bit n x j)); [now apply xsum_unit_l with (f := bit n x)|].
    intros j J. rewrite xsum_and_r. now rewrite (proj1 (E i j I J)).
  - intros k K. rewrite bit_mulv by auto. rewrite <- xsum_and. apply xsum_ext. intros. now rewrite andb_assoc.
Qed.
Lemma inverse_sym n A B : mutually_inverse n A B -> mutually_inverse n B A.
Proof. intros (MA & MB & E). split; [exact MB|]. split; [exact MA|]. intros i j I J. destruct (E i j I J). auto. Qed.

(** ** Row operations *)
Definition validop (n : nat) (o : op) : Prop := match o with OAdd j i | OSwap j i => j < n /\ i < n /\ i <> j end.
(** the operation on a column vector *)
Definition vop (n : nat) (o : op) (x : N) : N :=
  match o with
  | OAdd j i => if bit n x i then N.lxor x (get (idM n) j) else x
  | OSwap j i => if Bool.eqb (bit n x i) (bit n x j) then x else N.lxor (N.lxor x (get (idM n) i)) (get (idM n) j)
  end.
Definition applyops (ops : list op) (A : list N) : list N := fold_left (fun M o => applyop o M) ops A.
Definition vops (n : nat) (ops : list op) (x : N) : N := fold_left (fun x o => vop n o x) ops x.

Lemma matrix_applyop n o A : matrix n A -> matrix n (applyop o A).
Proof. intros M. destruct o as [j i|j i]; cbn [applyop]; auto 6 using matrix_set, vector_lxor, matrix_get. Qed.
Lemma matrix_applyops n ops : forall A, matrix n A -> matrix n (applyops ops A).
Proof. induction ops as [|o ops IH]; intros A M; [exact M|]. apply IH. now apply matrix_applyop. Qed.
Lemma entry_add n j i A r c : matrix n A -> j < n -> i < n -> entry n (applyop (OAdd j i) A) r c = if r =? j then xorb (entry n A j c) (entry n A i c) else entry n A r c.
Proof. intros [L M] J I. cbn [applyop]. rewrite entry_set by lia. destruct (r =? j); [|reflexivity]. apply bit_lxor. Qed.
Lemma entry_swap n j i A r c : matrix n A -> j < n -> i < n -> entry n (applyop (OSwap j i) A) r c = if r =? j then entry n A i c else if r =? i then entry n A j c else entry n A r c.
Proof. intros [L M] J I. cbn [applyop]. rewrite entry_set by (rewrite length_set; lia). rewrite entry_set by lia. reflexivity. Qed.

Lemma vector_vop n o x : size n -> validop n o -> vector n x -> vector n (vop n o x).
Proof.
  intros S V X. destruct o as [j i|j i]; cbn [vop validop] in *.
  - destruct (bit n x i); auto. apply vector_lxor, vector_id; tauto.
  - destruct (Bool.eqb _ _); auto. apply vector_lxor, vector_id; try tauto. apply vector_lxor, vector_id; tauto.
Qed.
Lemma bit_vop_add n j i x k : size n -> j < n -> k < n -> bit n (vop n (OAdd j i) x) k = if k =? j then xorb (bit n x j) (bit n x i) else bit n x k.
Proof.
  intros S J K. cbn [vop]. destruct (Nat.eqb_spec k j) as [->|N].
  - destruct (bit n x i); [|now rewrite xorb_false_r]. now rewrite bit_lxor, bit_id, Nat.eqb_refl by auto.
  - destruct (bit n x i); [|reflexivity]. rewrite bit_lxor, bit_id by auto. apply not_eq_sym, Nat.eqb_neq in N. now rewrite N, xorb_false_r.
Qed.
Lemma bit_vop_swap n j i x k : size n -> j < n -> i < n -> i <> j -> k < n -> bit n (vop n (OSwap j i) x) k = if k =? j then bit n x i else if k =? i then bit n x j else bit n x k.
Proof.
  intros S J I NE K. cbn [vop]. destruct (Bool.eqb (bit n x i) (bit n x j)) eqn:E.
  - apply eqb_prop in E. destruct (Nat.eqb_spec k j) as [->|]; [auto|]. destruct (Nat.eqb_spec k i) as [->|]; auto.
  - rewrite !bit_lxor, !bit_id by auto. rewrite (Nat.eqb_sym k j), (Nat.eqb_sym k i).
    destruct (Nat.eqb_spec j k) as [e|]; destruct (Nat.eqb_spec i k) as [e'|]; try lia; try subst k; rewrite ?xorb_false_r; auto;
      destruct (bit n x i), (bit n x j); try reflexivity; discriminate.
Qed.
Lemma vop_invol n o x : size n -> validop n o -> vector n x -> vop n o (vop n o x) = x.
Proof.
  intros S V X. apply (bit_ext n); auto using vector_vop. intros k K. destruct o as [j i|j i]; cbn [validop] in V; destruct V as (J & I & NE).
  - rewrite !bit_vop_add by auto. destruct (Nat.eqb_spec k j) as [->|]; [|reflexivity]. rewrite Nat.eqb_refl.
    destruct (Nat.eqb_spec i j); [lia|]. destruct (bit n x j), (bit n x i); reflexivity.
  - rewrite !bit_vop_swap by auto. rewrite !Nat.eqb_refl. destruct (Nat.eqb_spec k j) as [->|]; destruct (Nat.eqb_spec i j); try lia; auto.
    destruct (Nat.eqb_spec k i) as [->|]; auto.
Qed.
Lemma vop_0 n o : vop n o 0 = 0%N.
Proof. destruct o; cbn [vop]; now rewrite !bit_0. Qed.
Lemma mulv_applyop n o A x : size n -> matrix n A -> validop n o -> MatMulVec n (applyop o A) x = vop n o (MatMulVec n A x).
Proof.
  intros S M V. apply (bit_ext n); auto using vector_vop, vector_mulv, matrix_applyop. intros k K. rewrite bit_mulv by auto using matrix_applyop.
  destruct o as [j i|j i]; cbn [validop] in V; destruct V as (J & I & NE).
  - rewrite bit_vop_add by auto. rewrite (xsum_ext _ _ (fun c => (if k =? j then xorb (entry n A j c) (entry n A i c) else entry n A k c) && bit n x c))
      by (intros; now rewrite entry_add). destruct (k =? j); [|now rewrite bit_mulv].
    rewrite !bit_mulv by auto. rewrite <- xsum_xor. apply xsum_ext. intros c _. destruct (bit n x c), (entry n A j c), (entry n A i c); reflexivity.
  - rewrite bit_vop_swap by auto. rewrite (xsum_ext _ _ (fun c => (if k =? j then entry n A i c else if k =? i then entry n A j c else entry n A k c) && bit n x c))
      by (intros; now rewrite entry_swap). destruct (k =? j); [now rewrite bit_mulv|]. destruct (k =? i); now rewrite bit_mulv.
Qed.
Lemma vector_vops n ops : size n -> Forall (validop n) ops -> forall x, vector n x -> vector n (vops n ops x).
Proof. intros S V. induction V as [|o ops V F IH]; intros x X; [exact X|]. apply IH. now apply vector_vop. Qed.
Lemma mulv_applyops n ops : size n -> Forall (validop n) ops -> forall A x, matrix n A -> MatMulVec n (applyops ops A) x = vops n ops (MatMulVec n A x).
Proof.
  intros S V. induction V as [|o ops V F IH]; intros A x M; [reflexivity|]. unfold applyops, vops in *. cbn [fold_left].
  rewrite IH by auto using matrix_applyop. now rewrite mulv_applyop.
Qed.
Lemma vops_app n a b x : vops n (a ++ b) x = vops n b (vops n a x).
Proof. unfold vops. apply fold_left_app. Qed.
Lemma vops_rev n ops : size n -> Forall (validop n) ops -> forall x, vector n x -> vops n (rev ops) (vops n ops x) = x.
Proof.
  intros S V. induction V as [|o ops V F IH]; intros x X; [reflexivity|]. cbn [rev]. rewrite vops_app.
  change (vops n (o :: ops) x) with (vops n ops (vop n o x)). rewrite IH by auto using vector_vop. now apply vop_invol.
Qed.
Lemma Forall_rev' {A} (P : A -> Prop) l : Forall P l -> Forall P (rev l).
Proof. rewrite !Forall_forall. intros H x X. apply H. now apply in_rev. Qed.
Lemma vops_rev' n ops x : size n -> Forall (validop n) ops -> vector n x -> vops n ops (vops n (rev ops) x) = x.
Proof. intros S V X. rewrite <- (rev_involutive ops) at 1. apply vops_rev; auto using Forall_rev'. Qed.
Lemma vops_0 n ops : vops n ops 0 = 0%N.
Proof. unfold vops. induction ops as [|o ops IH]; [reflexivity|]. cbn [fold_left]. now rewrite vop_0. Qed.
Lemma mulv_opmatrix n ops x : size n -> Forall (validop n) ops -> vector n x -> MatMulVec n (applyops ops (identityM n)) x = vops n ops x.
Proof.
  intros S V X. destruct (identity_spec n S) as [M E]. rewrite mulv_applyops by auto. now rewrite (mulv_identity n) by (auto; split; auto).
Qed.
(** the pair built from the trail *)
Lemma trail_pair n ops : size n -> Forall (validop n) ops -> mutually_inverse n (applyops (rev ops) (identityM n)) (applyops ops (identityM n)).
Proof.
  intros S V. destruct (identity_spec n S) as [M E]. pose proof (Forall_rev' _ _ V) as V'. apply inverse_intro; auto using matrix_applyops.
  - intros x X. rewrite (mulv_opmatrix n ops x) by auto. rewrite mulv_opmatrix by auto using vector_vops. now apply vops_rev.
  - intros x X. rewrite (mulv_opmatrix n (rev ops) x) by auto. rewrite mulv_opmatrix by auto using vector_vops. now apply vops_rev'.
Qed.
(** elimination to the identity *)
Lemma reduced_pair n ops A : size n -> matrix n A -> Forall (validop n) ops -> is_identity n (applyops ops A) ->
  mutually_inverse n A (applyops ops (identityM n)).
Proof.
  intros S MA V Id. destruct (identity_spec n S) as [M E]. assert (F : forall x, vector n x -> vops n ops (MatMulVec n A x) = x).
  { intros x X. rewrite <- mulv_applyops by auto. now apply mulv_identity. }
  apply inverse_intro; auto using matrix_applyops.
  - intros x X. rewrite mulv_opmatrix by auto. rewrite <- (vops_rev n ops S V (MatMulVec n A (vops n ops x))) by auto using vector_mulv.
    rewrite F by auto using vector_vops. now apply vops_rev.
  - intros x X. rewrite mulv_opmatrix by auto using vector_mulv. now apply F.
Qed.

(** ** The loops as lists of operations *)
(** the first k columns are those of a unit upper triangular matrix *)
Definition clean (n k : nat) (A : list N) : Prop := forall r c, c < k -> c <= r -> r < n -> entry n A r c = (r =? c).
Section Runs.
  Context {S : Type} (n : nat) (temp : S -> list N) (step : op -> S -> S).
  Hypothesis Hsize : size n.
  Hypothesis Htemp : forall o s, temp (step o s) = applyop o (temp s).
  Definition runs (ops : list op) (s : S) : S := fold_left (fun s o => step o s) ops s.
  Lemma runs_app a b s : runs (a ++ b) s = runs b (runs a s).
  Proof. apply fold_left_app. Qed.
  Lemma temp_runs ops : forall s, temp (runs ops s) = applyops ops (temp s).
  Proof. induction ops as [|o ops IH]; intros s; [reflexivity|]. change (temp (runs ops (step o s)) = applyops ops (applyop o (temp s))). now rewrite IH, Htemp. Qed.

  Lemma elim_rows i s (rows : list nat) : i < n -> Forall (fun j => j < n /\ i <> j) rows -> NoDup rows -> matrix n (temp s) ->
    exists ops, fold_left (fun s j => if readbit n (temp s) j i then step (OAdd j i) s else s) rows s = runs ops s /\
      Forall (validop n) ops /\ length ops <= length rows /\
      forall r c, r < n -> c < n -> entry n (applyops ops (temp s)) r c =
        xorb (entry n (temp s) r c) (existsb (Nat.eqb r) rows && entry n (temp s) r i && entry n (temp s) i c).
  Proof.
    intros I. revert s. induction rows as [|j rows IH]; intros s V ND M.
    - exists []. split; [reflexivity|]. split; [constructor|]. split; [cbn; lia|]. intros. cbn [existsb andb applyops fold_left]. now rewrite xorb_false_r.
    - inversion V as [|? ? (J & NE) V']; subst. inversion ND as [|? ? NI ND']; subst. cbn [fold_left]. rewrite readbit_spec by auto.
      destruct (entry n (temp s) j i) eqn:B.
      + destruct (IH (step (OAdd j i) s) V' ND') as (ops & E & VO & LO & Q); [rewrite Htemp; now apply matrix_applyop|].
        exists (OAdd j i :: ops). split; [exact E|]. split; [constructor; cbn; auto|]. split; [cbn [length]; lia|].
        intros r c R C. specialize (Q r c R C). rewrite Htemp in Q. change (applyops (OAdd j i :: ops) (temp s)) with (applyops ops (applyop (OAdd j i) (temp s))).
        rewrite Q. rewrite !entry_add by auto. destruct (Nat.eqb_spec i j) as [|_]; [lia|].
        cbn [existsb]. destruct (Nat.eqb_spec r j) as [->|NR].
        * assert (X : existsb (Nat.eqb j) rows = false).
          { destruct (existsb (Nat.eqb j) rows) eqn:X; [|reflexivity]. apply existsb_exists in X. destruct X as (y & Y & Z). apply Nat.eqb_eq in Z. subst. contradiction. }
          rewrite X. cbn [orb andb]. rewrite B. now rewrite xorb_false_r.
        * reflexivity.
      + destruct (IH s V' ND' M) as (ops & E & VO & LO & Q). exists ops. split; [exact E|]. split; [exact VO|]. split; [cbn [length]; lia|].
        intros r c R C. rewrite (Q r c R C). cbn [existsb]. destruct (Nat.eqb_spec r j) as [->|NR]; [|reflexivity].
        rewrite B. now rewrite !andb_false_r.
  Qed.
  Lemma existsb_seq r a k : existsb (Nat.eqb r) (seq a k) = (a <=? r) && (r <? a + k).
  Proof.
    destruct (existsb (Nat.eqb r) (seq a k)) eqn:X; symmetry.
    - apply existsb_exists in X. destruct X as (y & Y & Z). apply Nat.eqb_eq in Z. subst. apply in_seq in Y. apply andb_true_iff. split; [apply Nat.leb_le|apply Nat.ltb_lt]; lia.
    - destruct (Nat.leb_spec a r); [|reflexivity]. destruct (Nat.ltb_spec r (a + k)); [|reflexivity]. exfalso.
      assert (Y : existsb (Nat.eqb r) (seq a k) = true) by (apply existsb_exists; exists r; split; [apply in_seq; lia|apply Nat.eqb_refl]). congruence.
  Qed.
  Lemma elim_below_runs i s : i < n -> matrix n (temp s) ->
    exists ops, elim_below n temp step i s = runs ops s /\ Forall (validop n) ops /\ length ops <= n - 1 - i /\
      (clean n i (temp s) -> entry n (temp s) i i = true -> clean n (i + 1) (applyops ops (temp s))).
  Proof.
    intros I M. destruct (elim_rows i s (seq (i + 1) (n - 1 - i)) I) as (ops & E & V & L & Q); auto using seq_NoDup.
    { apply Forall_forall. intros j J. apply in_seq in J. lia. }
    rewrite seq_length in L. exists ops. split; [exact E|]. split; [exact V|]. split; [exact L|].
    intros C P r c Cl Le R. rewrite Q by lia. rewrite existsb_seq. destruct (Nat.eq_dec c i) as [->|NC].
    - rewrite P, andb_true_r. destruct (Nat.eqb_spec r i) as [->|NR].
      + destruct (Nat.leb_spec (i + 1) i); [lia|]. cbn [andb]. now rewrite P.
      + destruct (Nat.leb_spec (i + 1) r); [|lia]. destruct (Nat.ltb_spec r (i + 1 + (n - 1 - i))); [|lia]. cbn [andb]. apply xorb_nilpotent.
    - rewrite (C i c) by lia. destruct (Nat.eqb_spec i c); [lia|]. rewrite andb_false_r, xorb_false_r. apply C; lia.
  Qed.
  Lemma find_pivot_spec i s : i < n -> match find_pivot n temp i s with
    | Some j => i < j < n /\ entry n (temp s) j i = true
    | None => forall r, i < r -> r < n -> entry n (temp s) r i = false end.
  Proof.
    intros I. unfold find_pivot. destruct (find _ _) eqn:F.
    - apply find_some in F. destruct F as [F1 F2]. apply in_seq in F1. rewrite readbit_spec in F2 by auto. split; [lia|exact F2].
    - intros r R1 R2. pose proof (find_none _ _ F r) as G. rewrite <- readbit_spec by auto. apply G. apply in_seq. lia.
  Qed.
  (** one column *)
  Definition column (i : nat) (s : S) : option S :=
    if readbit n (temp s) i i then Some (elim_below n temp step i s)
    else match find_pivot n temp i s with None => None | Some j => Some (elim_below n temp step i (step (OSwap j i) s)) end.
  Lemma column_spec i s : i < n -> matrix n (temp s) ->
    match column i s with
    | Some s' => exists ops, s' = runs ops s /\ Forall (validop n) ops /\ length ops <= (if i <? n - 1 then n - i else 0) /\
        (clean n i (temp s) -> clean n (i + 1) (applyops ops (temp s)))
    | None => forall r, i <= r -> r < n -> entry n (temp s) r i = false
    end.
  Proof.
    intros I M. unfold column. rewrite readbit_spec by auto. destruct (entry n (temp s) i i) eqn:P.
    - destruct (elim_below_runs i s I M) as (ops & E & V & L & C). exists ops. split; [exact E|]. split; [exact V|]. split; [|auto].
      destruct (Nat.ltb_spec i (n - 1)); lia.
    - pose proof (find_pivot_spec i s I) as F. destruct (find_pivot n temp i s) as [j|].
      + destruct F as [J B]. destruct (elim_below_runs i (step (OSwap j i) s) I) as (ops & E & V & L & C); [rewrite Htemp; now apply matrix_applyop|].
        exists (OSwap j i :: ops). split; [exact E|]. split; [constructor; cbn; auto; lia|]. split; [cbn [length]; destruct (Nat.ltb_spec i (n - 1)); lia|].
        intros CL. change (applyops (OSwap j i :: ops) (temp s)) with (applyops ops (applyop (OSwap j i) (temp s))). rewrite Htemp in C. apply C.
        * intros r c Cc Le R. rewrite entry_swap by (auto; lia). destruct (Nat.eqb_spec r j) as [->|].
          { rewrite CL by lia. destruct (Nat.eqb_spec i c), (Nat.eqb_spec j c); try reflexivity; lia. }
          destruct (Nat.eqb_spec r i) as [->|]; [|apply CL; lia]. rewrite CL by lia. destruct (Nat.eqb_spec j c), (Nat.eqb_spec i c); try reflexivity; lia.
        * rewrite entry_swap by (auto; lia). destruct (Nat.eqb_spec i j); [lia|]. now rewrite Nat.eqb_refl.
      + intros r R1 R2. destruct (Nat.eq_dec r i) as [->|]; [exact P|]. apply F; lia.
  Qed.
  Lemma elim_above_runs s : matrix n (temp s) ->
    exists ops, elim_above n temp step s = runs ops s /\ Forall (validop n) ops /\ 2 * length ops <= n * (n - 1) /\
      (clean n n (temp s) -> is_identity n (applyops ops (temp s))).
  Proof.
    intros M. unfold elim_above.
    assert (G : forall k s, k <= n -> matrix n (temp s) -> exists ops,
      fold_left (fun s i => fold_left (fun s j => if readbit n (temp s) j i then step (OAdd j i) s else s) (rev (seq 0 i)) s) (rev (seq 0 k)) s = runs ops s /\
      Forall (validop n) ops /\ 2 * length ops <= k * (k - 1) /\
      ((forall r c, r < n -> c < n -> k <= c \/ c <= r -> entry n (temp s) r c = (r =? c)) -> is_identity n (applyops ops (temp s)))).
    { induction k as [|k IH]; intros s' K M'.
      - exists []. split; [reflexivity|]. split; [constructor|]. split; [cbn; lia|]. intros H. cbn [applyops fold_left]. split; [exact M'|].
        intros i j I J. apply H; auto. lia.
      - rewrite seq_S, rev_app_distr. cbn [rev app fold_left plus].
        destruct (elim_rows k s' (rev (seq 0 k))) as (ops & E & V & L & Q); auto.
        { apply Forall_rev'. apply Forall_forall. intros j J. apply in_seq in J. lia. }
        { apply NoDup_rev, seq_NoDup. }
        rewrite rev_length, seq_length in L. rewrite E.
        destruct (IH (runs ops s') ltac:(lia)) as (ops2 & E2 & V2 & L2 & Q2); [rewrite temp_runs; now apply matrix_applyops|].
        exists (ops ++ ops2). rewrite runs_app. split; [exact E2|]. split; [apply Forall_app; auto|]. split; [rewrite app_length; nia|].
        intros H. assert (EQ : applyops (ops ++ ops2) (temp s') = applyops ops2 (temp (runs ops s'))) by (rewrite temp_runs; apply fold_left_app).
        rewrite EQ. apply Q2. intros r c R C D. rewrite temp_runs, Q by auto.
        assert (X : existsb (Nat.eqb r) (rev (seq 0 k)) = (r <? k)).
        { destruct (Nat.ltb_spec r k).
          - apply existsb_exists. exists r. split; [apply -> in_rev; apply in_seq; lia|apply Nat.eqb_refl].
          - destruct (existsb (Nat.eqb r) (rev (seq 0 k))) eqn:X; [|reflexivity]. apply existsb_exists in X. destruct X as (y & Y & Z). apply Nat.eqb_eq in Z. apply in_rev, in_seq in Y. lia. }
        rewrite X. rewrite (H k c) by (auto; lia). destruct (Nat.eqb_spec k c) as [<-|NC].
        + rewrite andb_true_r. destruct (Nat.ltb_spec r k).
          * cbn [andb]. rewrite xorb_nilpotent. symmetry. apply Nat.eqb_neq. lia.
          * cbn [andb]. rewrite xorb_false_r. apply H; auto; lia.
        + rewrite andb_false_r, xorb_false_r. apply H; auto. lia. }
    destruct (G n s (le_n n) M) as (ops & E & V & L & Q). exists ops. split; [exact E|]. split; [exact V|]. split; [exact L|].
    intros C. apply Q. intros r c R Cc D. apply C; lia.
  Qed.
End Runs.

(** ** isinvert *)
Lemma not_both n A : size n -> invertible n A -> singular n A -> False.
Proof.
  intros S (B & H) (x & V & N & Im). pose proof H as (MA & MB & _). apply N. rewrite <- (inverse_left n B A x S (inverse_sym _ _ _ H) V).
  rewrite (image_unique _ _ _ _ _ (image_MatMulVec n A x S MA) Im). now apply mulv_0.
Qed.
Lemma no_pivot_singular n i A : size n -> matrix n A -> i < n -> clean n i A -> (forall r, i <= r -> r < n -> entry n A r i = false) ->
  exists x, vector n x /\ x <> 0%N /\ MatMulVec n A x = 0%N.
Proof.
  intros S M I C P.
  assert (G : forall k, k <= i -> exists x, vector n x /\ bit n x i = true /\ (forall c, i < c -> c < n -> bit n x c = false) /\
    forall r, i - k <= r -> r < n -> bit n (MatMulVec n A x) r = false).
  { induction k as [|k IH]; intros K.
    - exists (get (idM n) i). split; [now apply vector_id|]. split; [rewrite bit_id by auto; apply Nat.eqb_refl|]. split.
      + intros c C1 C2. rewrite bit_id by auto. apply Nat.eqb_neq. lia.
      + intros r R1 R2. rewrite mulv_id by auto. apply P; lia.
    - destruct (IH ltac:(lia)) as (x & V & B & H & Q). destruct (bit n (MatMulVec n A x) (i - Datatypes.S k)) eqn:T.
      + exists (N.lxor x (get (idM n) (i - Datatypes.S k))). split; [apply vector_lxor, vector_id; auto; lia|]. split.
        { rewrite bit_lxor, bit_id, B by (auto; lia). destruct (Nat.eqb_spec (i - Datatypes.S k) i); [lia|reflexivity]. }
        split.
        { intros c C1 C2. rewrite bit_lxor, bit_id, H by (auto; lia). destruct (Nat.eqb_spec (i - Datatypes.S k) c); [lia|reflexivity]. }
        intros r R1 R2. rewrite mulv_lxor, bit_lxor, mulv_id by (auto; lia). rewrite C by lia.
        destruct (Nat.eqb_spec r (i - Datatypes.S k)) as [->|]; [now rewrite T|]. now rewrite Q by lia.
      + exists x. split; [exact V|]. split; [exact B|]. split; [exact H|]. intros r R1 R2.
        destruct (Nat.eq_dec r (i - Datatypes.S k)) as [->|]; [exact T|apply Q; lia]. }
  destruct (G i (le_n i)) as (x & V & B & _ & Q). exists x. split; [exact V|]. split; [intros ->; now rewrite bit_0 in B|].
  apply (bit_ext n); auto using vector_0, vector_mulv. intros r R. rewrite Q by lia. symmetry. apply bit_0.
Qed.
Lemma ops_singular n ops A x : size n -> matrix n A -> Forall (validop n) ops -> vector n x -> x <> 0%N -> MatMulVec n (applyops ops A) x = 0%N -> singular n A.
Proof.
  intros S M V X N E. exists x. split; [exact X|]. split; [exact N|]. rewrite mulv_applyops in E by auto.
  assert (Z : MatMulVec n A x = 0%N) by (rewrite <- (vops_rev n ops S V (MatMulVec n A x)), E by auto using vector_mulv; apply vops_0).
  rewrite <- Z. now apply image_MatMulVec.
Qed.
Lemma clean_0 n A : clean n 0 A.
Proof. intros r c C. lia. Qed.
Lemma isinvert_loop_column n i is A : isinvert_loop n (i :: is) A =
  match column n (fun A => A) applyop i A with None => None | Some A' => isinvert_loop n is A' end.
Proof. cbn [isinvert_loop]. unfold column. destruct (readbit n A i i); [reflexivity|]. destruct (find_pivot n (fun A => A) i A); reflexivity. Qed.
Lemma isinvert_loop_spec n k : size n -> forall i A, i + k = n -> matrix n A -> clean n i A ->
  match isinvert_loop n (seq i k) A with
  | Some A' => exists ops, A' = applyops ops A /\ Forall (validop n) ops /\ clean n n A'
  | None => singular n A
  end.
Proof.
  intros S. induction k as [|k IH]; intros i A E M C.
  - cbn [seq isinvert_loop]. exists []. split; [reflexivity|]. split; [constructor|]. now replace n with i at 2 by lia.
  - cbn [seq]. rewrite isinvert_loop_column. pose proof (column_spec n (fun A => A) applyop S (fun _ _ => eq_refl) i A ltac:(lia) M) as Q.
    destruct (column n (fun A => A) applyop i A) as [A'|].
    + destruct Q as (ops & -> & V & _ & CL). specialize (CL C). change (runs applyop ops A) with (applyops ops A) in *.
      specialize (IH (Datatypes.S i) (applyops ops A) ltac:(lia) (matrix_applyops n ops A M)). rewrite <- Nat.add_1_r in IH at 1. specialize (IH CL).
      destruct (isinvert_loop n (seq (Datatypes.S i) k) (applyops ops A)) as [A''|].
      * destruct IH as (ops2 & -> & V2 & C2). exists (ops ++ ops2). split; [symmetry; apply fold_left_app|]. split; [apply Forall_app; auto|exact C2].
      * destruct IH as (x & X & N & Im). apply (ops_singular n ops A x); auto. apply (image_unique n (applyops ops A) x); auto. apply image_MatMulVec; auto using matrix_applyops.
    + destruct (no_pivot_singular n i A S M ltac:(lia) C Q) as (x & X & N & Z). exists x. split; [exact X|]. split; [exact N|]. rewrite <- Z. now apply image_MatMulVec.
Qed.
Lemma clean_last n A : size n -> matrix n A -> clean n n A -> get A (n - 1) = get (idM n) (n - 1).
Proof.
  intros S M C. pose proof (size_pos n S). apply (bit_ext n); [now apply matrix_get|apply vector_id; auto; lia|].
  intros j J. rewrite bit_id by (auto; lia). apply (C (n - 1) j); lia.
Qed.
Lemma clean_invertible n ops A : size n -> matrix n A -> Forall (validop n) ops -> clean n n (applyops ops A) -> invertible n A.
Proof.
  intros S M V C. destruct (elim_above_runs n (fun A => A) applyop S (fun _ _ => eq_refl) (applyops ops A) (matrix_applyops n ops A M)) as (ops2 & _ & V2 & _ & Id).
  exists (applyops (ops ++ ops2) (identityM n)). apply reduced_pair; auto; [apply Forall_app; auto|]. specialize (Id C).
  assert (E : applyops (ops ++ ops2) A = applyops ops2 (applyops ops A)) by apply fold_left_app. rewrite E. exact Id.
Qed.
Lemma isinvert_true n A : size n -> matrix n A -> isinvert n A = true -> invertible n A.
Proof.
  intros S M. unfold isinvert. pose proof (isinvert_loop_spec n n S 0 A eq_refl M (clean_0 n A)) as Q.
  destruct (isinvert_loop n (seq 0 n) A) as [A'|]; [|discriminate]. intros _. destruct Q as (ops & -> & V & C). now apply (clean_invertible n ops).
Qed.
Lemma isinvert_false n A : size n -> matrix n A -> isinvert n A = false -> singular n A.
Proof.
  intros S M. unfold isinvert. pose proof (isinvert_loop_spec n n S 0 A eq_refl M (clean_0 n A)) as Q.
  destruct (isinvert_loop n (seq 0 n) A) as [A'|]; [|intros _; exact Q]. destruct Q as (ops & -> & V & C).
  rewrite clean_last by auto using matrix_applyops. rewrite N.eqb_refl. discriminate.
Qed.

(** ** invs *)
Lemma invs_forward_column n s i : match column n fst step2 i s with Some s' => invs_forward n s i = s' | None => True end.
Proof. unfold column, invs_forward. destruct (readbit n (fst s) i i); [reflexivity|]. destruct (find_pivot n fst i s); reflexivity. Qed.
Lemma runs2 ops : forall s, runs step2 ops s = (applyops ops (fst s), applyops ops (snd s)).
Proof. induction ops as [|o ops IH]; intros s; [now destruct s|]. exact (IH (step2 o s)). Qed.
Lemma invs_spec n A : size n -> invertible n A -> mutually_inverse n A (invs n A).
Proof.
  intros S H. assert (M : matrix n A) by (destruct H as (B & MA & _); exact MA). unfold invs.
  assert (G : forall k, k <= n -> exists ops, fold_left (invs_forward n) (seq 0 k) (A, identityM n) = (applyops ops A, applyops ops (identityM n)) /\ Forall (validop n) ops /\ clean n k (applyops ops A)).
  { induction k as [|k IH]; intros K.
    - exists []. split; [reflexivity|]. split; [constructor|apply clean_0].
    - destruct (IH ltac:(lia)) as (ops & E & V & C). rewrite seq_S, fold_left_app, E. cbn [fold_left plus].
      set (s := (applyops ops A, applyops ops (identityM n))). pose proof (invs_forward_column n s k) as F.
      pose proof (column_spec n fst step2 S (fun _ _ => eq_refl) k s ltac:(lia) (matrix_applyops n ops A M)) as Q.
      destruct (column n fst step2 k s) as [s'|].
      + rewrite F. destruct Q as (ops2 & -> & V2 & _ & C2). rewrite runs2. unfold s. cbn [fst snd] in *. exists (ops ++ ops2).
        assert (EA : forall B, applyops (ops ++ ops2) B = applyops ops2 (applyops ops B)) by (intros; apply fold_left_app).
        rewrite !EA. split; [reflexivity|]. split; [apply Forall_app; auto|]. rewrite <- Nat.add_1_r. apply C2. exact C.
      + exfalso. destruct (no_pivot_singular n k (applyops ops A) S (matrix_applyops n ops A M) ltac:(lia) C Q) as (x & X & N & Z).
        apply (not_both n A S H). now apply (ops_singular n ops A x). }
  destruct (G n (le_n n)) as (ops & E & V & C). rewrite E.
  destruct (elim_above_runs n fst step2 S (fun _ _ => eq_refl) (applyops ops A, applyops ops (identityM n)) (matrix_applyops n ops A M)) as (ops2 & E2 & V2 & _ & Id).
  rewrite E2, runs2. cbn [fst snd] in *. specialize (Id C).
  assert (EA : forall B, applyops ops2 (applyops ops B) = applyops (ops ++ ops2) B) by (intros; symmetry; apply fold_left_app).
  rewrite EA. rewrite EA in Id. apply reduced_pair; auto. apply Forall_app; auto.
Qed.

(** ** genMatpair *)
Lemma randM_matrix n rnd pos : size n -> matrix n (fst (randM n rnd pos)).
Proof.
  intros S. unfold randM. destruct (Nat.eqb_spec n 128) as [->|]; [|destruct (Nat.eqb_spec n 64) as [->|]].
  - cbn [fst]. apply matrix_intro; [now rewrite map_length, seq_length|]. intros i I. rewrite get_map_seq by auto. unfold vector.
    change (2 ^ N.of_nat 128)%N with (18446744073709551616 * 18446744073709551616)%N.
    assert (B : forall k, (draw rnd k < 4294967296)%N) by (intros; apply N.mod_lt; discriminate).
    pose proof (B (pos + 4 * i)). pose proof (B (pos + 4 * i + 1)). pose proof (B (pos + 4 * i + 2)). pose proof (B (pos + 4 * i + 3)).
    set (a := draw rnd (pos + 4 * i)) in *. set (b := draw rnd (pos + 4 * i + 1)) in *. set (c := draw rnd (pos + 4 * i + 2)) in *.
    set (d := draw rnd (pos + 4 * i + 3)) in *. clearbody a b c d. lia.
  - cbn [fst]. apply matrix_intro; [now rewrite map_length, seq_length|]. intros i I. rewrite get_map_seq by auto. unfold vector, draw.
    change (2 ^ N.of_nat 64)%N with 18446744073709551616%N.
    pose proof (N.mod_lt (rnd (pos + 2 * i)) 4294967296 ltac:(discriminate)). pose proof (N.mod_lt (rnd (pos + 2 * i + 1)) 4294967296 ltac:(discriminate)).
    set (a := (rnd (pos + 2 * i)%nat mod 4294967296)%N) in *. set (b := (rnd (pos + 2 * i + 1)%nat mod 4294967296)%N) in *. clearbody a b. lia.
  - cbn [fst]. apply matrix_intro; [now rewrite map_length, seq_length|]. intros i I. rewrite get_map_seq by auto. apply N.mod_lt, N.pow_nonzero. discriminate.
Qed.
Lemma randV_vector n rnd pos : size n -> vector n (fst (randV n rnd pos)).
Proof.
  intros S. unfold randV. assert (B : forall k, (draw rnd (pos + k)%nat mod 65536 < 65536)%N) by (intros; apply N.mod_lt; discriminate).
  destruct (Nat.eqb_spec n 128) as [->|]; [|destruct (Nat.eqb_spec n 64) as [->|]].
  - cbn [fst]. unfold vector. change (2 ^ N.of_nat 128)%N with (18446744073709551616 * 18446744073709551616)%N.
    pose proof (B 0). pose proof (B 1). pose proof (B 2). pose proof (B 3). pose proof (B 4). pose proof (B 5). pose proof (B 6). pose proof (B 7).
    set (a := (draw rnd (pos + 0)%nat mod 65536)%N) in *. set (b := (draw rnd (pos + 1)%nat mod 65536)%N) in *.
    set (c := (draw rnd (pos + 2)%nat mod 65536)%N) in *. set (d := (draw rnd (pos + 3)%nat mod 65536)%N) in *.
    set (e := (draw rnd (pos + 4)%nat mod 65536)%N) in *. set (f := (draw rnd (pos + 5)%nat mod 65536)%N) in *.
    set (g := (draw rnd (pos + 6)%nat mod 65536)%N) in *. set (h := (draw rnd (pos + 7)%nat mod 65536)%N) in *. clearbody a b c d e f g h. lia.
  - cbn [fst]. unfold vector. change (2 ^ N.of_nat 64)%N with 18446744073709551616%N.
    pose proof (B 0). pose proof (B 1). pose proof (B 2). pose proof (B 3).
    set (a := (draw rnd (pos + 0)%nat mod 65536)%N) in *. set (b := (draw rnd (pos + 1)%nat mod 65536)%N) in *.
    set (c := (draw rnd (pos + 2)%nat mod 65536)%N) in *. set (d := (draw rnd (pos + 3)%nat mod 65536)%N) in *. clearbody a b c d. lia.
  - destruct (Nat.eqb_spec n 32) as [->|].
    + cbn [fst]. unfold vector. change (2 ^ N.of_nat 32)%N with 4294967296%N. pose proof (B 0). pose proof (B 1).
      set (a := (draw rnd (pos + 0)%nat mod 65536)%N) in *. set (b := (draw rnd (pos + 1)%nat mod 65536)%N) in *. clearbody a b. lia.
    + cbn [fst]. apply N.mod_lt, N.pow_nonzero. discriminate.
Qed.
Lemma g_runs n ops : forall s, runs (gstep n) ops s =
  mkgst (applyops ops (g_temp s)) (applyops ops (g_inv s)) (rev ops ++ g_trail s) (g_ok s && ((length ops =? 0) || (length (g_trail s) + length ops <=? n * n))).
Proof.
  induction ops as [|o ops IH]; intros s.
  - destruct s. cbn. now rewrite andb_true_r.
  - change (runs (gstep n) (o :: ops) s) with (runs (gstep n) ops (gstep n o s)). rewrite IH. unfold gstep. cbn [g_temp g_inv g_trail g_ok]. f_equal.
    + cbn [rev]. now rewrite <- app_assoc.
    + cbn [length]. rewrite <- andb_assoc. f_equal. destruct (Nat.ltb_spec (length (g_trail s)) (n * n)); destruct (Nat.eqb_spec (length ops) 0); destruct (Nat.leb_spec (S (length (g_trail s)) + length ops) (n * n)); destruct (Nat.leb_spec (length (g_trail s) + S (length ops)) (n * n)); cbn; try reflexivity; lia.
Qed.
Lemma g_runs_ok n ops s : g_ok s = true -> length (g_trail s) + length ops <= n * n -> g_ok (runs (gstep n) ops s) = true.
Proof. intros O L. rewrite g_runs. cbn [g_ok]. rewrite O. apply Nat.leb_le in L. now rewrite L, orb_true_r. Qed.
Lemma g_runs_norec ops : forall s, runs gstep_norec ops s = mkgst (applyops ops (g_temp s)) (applyops ops (g_inv s)) (g_trail s) (g_ok s).
Proof. induction ops as [|o ops IH]; intros s; [now destruct s|]. exact (IH (gstep_norec o s)). Qed.
Lemma gen_forward_column n rnd s inv pos i : gen_forward n rnd (s, inv, pos) i =
  match column n g_temp (gstep n) i s with
  | Some s' => (s', inv, pos)
  | None => let '(s', pos') := gen_scramble n rnd i s pos in (s', false, pos')
  end.
Proof. unfold gen_forward, column. destruct (readbit n (g_temp s) i i); [reflexivity|]. destruct (find_pivot n g_temp i s); reflexivity. Qed.
Lemma gen_scramble_runs n rnd i s pos : i < n -> exists ops pos', gen_scramble n rnd i s pos = (runs (gstep n) ops s, pos') /\ Forall (validop n) ops /\ length ops <= (if i <? n - 1 then n - i else 0).
Proof.
  intros I. unfold gen_scramble. destruct (Nat.ltb_spec i (n - 1)) as [L|L].
  - set (p := i + 1 + N.to_nat (draw rnd pos mod N.of_nat (n - 1 - i))%N).
    assert (P : i < p < n) by (unfold p; pose proof (N.mod_lt (draw rnd pos) (N.of_nat (n - 1 - i)) ltac:(lia)); lia). clearbody p. cbv zeta.
    assert (G : forall k s pos, i + k < n -> exists ops pos', fold_left (fun sp t => let '(s, pos) := sp in (if (draw rnd pos mod 2 =? 0)%N then s else gstep n (OAdd t i) s, pos + 1)) (seq (i + 1) k) (s, pos) =
       (runs (gstep n) ops s, pos') /\ Forall (validop n) ops /\ length ops <= k).
    { induction k as [|k IH]; intros s' pos' K.
      - exists [], pos'. split; [reflexivity|]. split; [constructor|cbn; lia].
      - rewrite seq_S, fold_left_app. cbn [fold_left]. destruct (IH s' pos' ltac:(lia)) as (ops & q & E & V & Le). rewrite E.
        destruct (draw rnd q mod 2 =? 0)%N.
        + exists ops, (q + 1). split; [reflexivity|]. split; [exact V|lia].
        + exists (ops ++ [OAdd (i + 1 + k) i]), (q + 1). split; [now rewrite runs_app|]. split; [apply Forall_app; split; [exact V|constructor; [cbn; lia|constructor]]|]. rewrite app_length. cbn. lia. }
    destruct (G (n - 1 - i) (gstep n (OSwap p i) s) (pos + 1) ltac:(lia)) as (ops & q & E & V & Le). rewrite E.
    exists (OSwap p i :: ops), q. split; [reflexivity|]. split; [constructor; [cbn; lia|exact V]|]. cbn [length]. lia.
  - exists [], pos. split; [reflexivity|]. split; [constructor|cbn; lia].
Qed.
Definition room (n k : nat) : nat := Nat.min k (n - 1) * (2 * n + 1 - Nat.min k (n - 1)).
Lemma room_step n k : k < n -> room n k + 2 * (if k <? n - 1 then n - k else 0) <= room n (S k).
Proof.
  intros K. unfold room. destruct (Nat.ltb_spec k (n - 1)).
  - rewrite !Nat.min_l by lia. nia.
  - rewrite !Nat.min_r by lia. lia.
Qed.
Lemma room_end n : 0 < n -> room n n + n * (n - 1) + 2 = 2 * (n * n).
Proof. intros H. unfold room. rewrite Nat.min_r by lia. nia. Qed.
Lemma genMatpair_lemma n rnd pos : size n -> exists A B pos', genMatpair n rnd pos = Ret (A, B, pos') /\ mutually_inverse n A B.
Proof.
  intros S. unfold genMatpair. pose proof (randM_matrix n rnd pos S) as M. destruct (randM n rnd pos) as [A p0]. cbn [fst] in M.
  destruct (identity_spec n S) as [MI EI]. set (s0 := mkgst A (identityM n) [] true).
  assert (G : forall k, k <= n -> exists ops inv p, fold_left (gen_forward n rnd) (seq 0 k) (s0, true, p0) = (runs (gstep n) ops s0, inv, p) /\
     Forall (validop n) ops /\ 2 * length ops <= room n k /\ (inv = true -> clean n k (applyops ops A))).
  { induction k as [|k IH]; intros K.
    - exists [], true, p0. split; [reflexivity|]. split; [constructor|]. split; [cbn; lia|]. intros _. apply clean_0.
    - destruct (IH ltac:(lia)) as (ops & inv & p & E & V & L & C). rewrite seq_S, fold_left_app, E. cbn [fold_left plus]. rewrite gen_forward_column.
      assert (T : g_temp (runs (gstep n) ops s0) = applyops ops A) by (rewrite g_runs; reflexivity).
      pose proof (column_spec n g_temp (gstep n) S (fun _ _ => eq_refl) k (runs (gstep n) ops s0) ltac:(lia) ltac:(rewrite T; now apply matrix_applyops)) as Q.
      pose proof (room_step n k ltac:(lia)) as RS.
      destruct (column n g_temp (gstep n) k (runs (gstep n) ops s0)) as [s'|].
      + destruct Q as (ops2 & -> & V2 & L2 & C2). exists (ops ++ ops2), inv, p. rewrite runs_app. split; [reflexivity|]. split; [apply Forall_app; auto|].
        split; [rewrite app_length; lia|]. intros Hi. rewrite T in C2. assert (EA : applyops (ops ++ ops2) A = applyops ops2 (applyops ops A)) by apply fold_left_app.
        rewrite EA, <- Nat.add_1_r. auto.
      + destruct (gen_scramble_runs n rnd k (runs (gstep n) ops s0) p ltac:(lia)) as (ops2 & p' & E2 & V2 & L2). rewrite E2.
        exists (ops ++ ops2), false, p'. rewrite runs_app. split; [reflexivity|]. split; [apply Forall_app; auto|]. split; [rewrite app_length; lia|discriminate]. }
  destruct (G n (le_n n)) as (ops & inv & p & E & V & L & C). rewrite E. pose proof (room_end n (size_pos n S)) as RE.
  set (s := runs (gstep n) ops s0) in *.
  assert (T : s = mkgst (applyops ops A) (applyops ops (identityM n)) (rev ops) true).
  { unfold s. rewrite g_runs. unfold s0. cbn [g_temp g_inv g_trail g_ok length]. rewrite app_nil_r. f_equal.
    destruct (Nat.leb_spec (0 + length ops) (n * n)); [now rewrite orb_true_r|lia]. }
  clearbody s. subst s. destruct inv.
  - destruct (elim_above_runs n g_temp gstep_norec S (fun _ _ => eq_refl) (mkgst (applyops ops A) (applyops ops (identityM n)) (rev ops) true) (matrix_applyops n ops A M)) as (ops2 & E2 & V2 & L2 & Id).
    rewrite E2, g_runs_norec. cbn [g_ok g_inv g_temp] in *. exists A, (applyops ops2 (applyops ops (identityM n))), p. split; [reflexivity|].
    assert (EA : forall B, applyops ops2 (applyops ops B) = applyops (ops ++ ops2) B) by (intros; symmetry; apply fold_left_app).
    specialize (Id (C eq_refl)). rewrite EA in *. apply reduced_pair; auto. apply Forall_app; auto.
  - destruct (elim_above_runs n g_temp (gstep n) S (fun _ _ => eq_refl) (mkgst (applyops ops A) (applyops ops (identityM n)) (rev ops) true) (matrix_applyops n ops A M)) as (ops2 & E2 & V2 & L2 & _).
    rewrite E2. assert (O : g_ok (runs (gstep n) ops2 (mkgst (applyops ops A) (applyops ops (identityM n)) (rev ops) true)) = true).
    { apply g_runs_ok; [reflexivity|]. cbn [g_trail]. rewrite rev_length. lia. }
    rewrite O, g_runs. cbn [g_inv g_trail g_temp].
    assert (EA : forall B, applyops ops2 (applyops ops B) = applyops (ops ++ ops2) B) by (intros; symmetry; apply fold_left_app).
    rewrite EA, <- rev_app_distr. eexists _, _, _. split; [reflexivity|]. apply trail_pair; auto. apply Forall_app; auto.
Qed.
Lemma genaffinepair_lemma n rnd pos : size n -> exists a b pos', genaffinepair n rnd pos = Ret (a, b, pos') /\ affine n a /\ affine n b /\
  mutually_inverse n (a_mat a) (a_mat b) /\ a_vec b = MatMulVec n (a_mat b) (a_vec a).
Proof.
  intros S. unfold genaffinepair. destruct (genMatpair_lemma n rnd pos S) as (A & B & p & E & H). rewrite E. cbn [obind].
  pose proof (randV_vector n rnd p S) as V. destruct (randV n rnd p) as [v p']. cbn [fst] in V. pose proof H as (MA & MB & _).
  eexists _, _, _. split; [reflexivity|]. cbn [a_mat a_vec]. split; [split; auto|]. split; [split; cbn; auto using vector_mulv|]. split; [exact H|reflexivity].
Qed.
Lemma affine_pair n a b x : size n -> affine n a -> affine n b -> mutually_inverse n (a_mat a) (a_mat b) -> a_vec b = MatMulVec n (a_mat b) (a_vec a) ->
  vector n x -> affineU n a (affineU n b x) = x /\ affineU n b (affineU n a x) = x.
Proof.
  intros S [MA VA] [MB VB] H E X. unfold affineU. rewrite E. split.
  - rewrite mulv_lxor by auto. rewrite !(inverse_left n (a_mat a) (a_mat b)) by auto. rewrite N.lxor_assoc, N.lxor_nilpotent. apply N.lxor_0_r.
  - rewrite mulv_lxor by auto. rewrite (inverse_left n (a_mat b) (a_mat a)) by (auto using inverse_sym). rewrite N.lxor_assoc, N.lxor_nilpotent. apply N.lxor_0_r.
Qed.
