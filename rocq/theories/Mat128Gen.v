(** * Inversion and generation of 128-bit matrices; concatenation *)
From Verif Require Import Base Word32 FpeModel MatModel MatSpec MatProofs GaussProofs ComProofs Mat128Model Mat128Spec Mat128Proofs.
Local Open Scope nat_scope.
Local Strategy 500 [fold_left seq].

Lemma low_0 n A : low n 0 A.
Proof. intros r c C. lia. Qed.

Lemma fold_inv {S X} (P : S -> Prop) (f : S -> X -> S) l : (forall s x, In x l -> P s -> P (f s x)) -> forall s, P s -> P (fold_left f l s).
Proof.
  induction l as [|x l IH]; intros H s Q; [exact Q|]. cbn [fold_left]. apply IH; [|apply H; [now left|exact Q]]. intros. apply H; [now right|assumption].
Qed.

(** ** isinvertM128 *)
Lemma isinvert_loop_column n i is A : isinvert_loop n (i :: is) A =
  match column n (fun A => A) applyop i A with None => None | Some A' => isinvert_loop n is A' end.
Proof. cbn [isinvert_loop]. unfold column. destruct (readbit n A i i); [reflexivity|]. destruct (find_pivot n (fun A => A) i A); reflexivity. Qed.
Lemma isinvert_loop128_column i is A : isinvert_loop128 (i :: is) A =
  match column128 (fun A => A) applyop128 i A with None => None | Some A' => isinvert_loop128 is A' end.
Proof. cbn [isinvert_loop128]. unfold column128. destruct (readbit128 A i i); [reflexivity|]. destruct (find_pivot128 (fun A => A) i A); reflexivity. Qed.
Lemma isinvert_loop_app n a b A : isinvert_loop n (a ++ b) A = match isinvert_loop n a A with None => None | Some A' => isinvert_loop n b A' end.
Proof.
  revert A. induction a as [|i a IH]; intros A; [reflexivity|]. cbn [app]. rewrite !isinvert_loop_column. destruct (column _ _ _ i A); [apply IH|reflexivity].
Qed.
Lemma isinvert_loop_same is : forall A, matrix128 A -> Forall (fun i => i < 128) is -> (Forall (fun i => i < 64) is \/ (top A /\ Forall (fun i => 64 <= i) is)) ->
  match isinvert_loop128 is A with
  | Some A' => isinvert_loop 128 is (val A) = Some (val A') /\ matrix128 A' /\ (top A -> Forall (fun i => 64 <= i) is -> top A')
  | None => isinvert_loop 128 is (val A) = None
  end.
Proof.
  induction is as [|i is IH]; intros A M I T; [cbn; auto|]. rewrite isinvert_loop_column, isinvert_loop128_column.
  inversion I as [|? ? I1 I2]; subst.
  assert (F : ft (fun A => A) (fun A => A) (fun _ _ => True) i A (val A)).
  { split; [split; [exact M|split; [reflexivity|exact Logic.I]]|]. intros L. destruct T as [T|[T _]]; [inversion T; lia|exact T]. }
  pose proof (column_same (fun A => A) applyop128 (fun A => A) applyop (fun _ _ => True) (fun _ _ _ => eq_refl) (fun _ _ => eq_refl) (fun _ _ _ _ h => h) i A (val A) I1 F) as C.
  destruct (column128 (fun A => A) applyop128 i A) as [A1|]; [|rewrite C; reflexivity]. destruct C as (g' & C & (M1 & E1 & _) & T1). rewrite C. subst g'.
  specialize (IH A1 M1 I2). assert (T' : Forall (fun i => i < 64) is \/ (top A1 /\ Forall (fun i => 64 <= i) is)).
  { destruct T as [T|[T L]]; [left; now inversion T|]. right. inversion L; subst. auto. }
  specialize (IH T'). destruct (isinvert_loop128 is A1) as [A2|]; [|exact IH]. destruct IH as (E2 & M2 & T2). split; [exact E2|]. split; [exact M2|].
  intros TA L. inversion L; subst. auto.
Qed.
Lemma isinvert_loop_low n : size n -> forall k i A A', i + k <= n -> matrix n A -> low n i A -> isinvert_loop n (seq i k) A = Some A' -> matrix n A' /\ low n (i + k) A'.
Proof.
  intros SZ k. induction k as [|k IH]; intros i A A' K M L E.
  - injection E as <-. rewrite Nat.add_0_r. auto.
  - cbn [seq] in E. rewrite isinvert_loop_column in E. destruct (column n (fun A => A) applyop i A) as [A1|] eqn:C; [|discriminate].
    destruct (column_low n (fun A => A) applyop SZ (fun _ _ => eq_refl) i A A1 ltac:(lia) M L C) as [M1 L1]. rewrite Nat.add_1_r in L1.
    destruct (IH (Datatypes.S i) A1 A' ltac:(lia) M1 L1 E) as [M2 L2]. split; [exact M2|]. now rewrite <- Nat.add_succ_comm.
Qed.
Lemma range a k : Forall (fun i => a <= i /\ i < a + k) (seq a k).
Proof. apply Forall_forall. intros i I. apply in_seq in I. lia. Qed.
Lemma isinvert128_val A : matrix128 A -> isinvert128 A = isinvert 128 (val A).
Proof.
  intros M. unfold isinvert128, isinvert. rewrite seq_halves, isinvert_loop_app.
  pose proof (isinvert_loop_same (seq 0 64) A M) as Q1.
  assert (I1 : Forall (fun i => i < 128) (seq 0 64)) by (eapply Forall_impl; [|apply range]; cbn beta; lia).
  assert (J1 : Forall (fun i => i < 64) (seq 0 64)) by (eapply Forall_impl; [|apply range]; cbn beta; lia).
  assert (I2 : Forall (fun i => i < 128) (seq 64 64)) by (eapply Forall_impl; [|apply range]; cbn beta; lia).
  assert (J2 : Forall (fun i => 64 <= i) (seq 64 64)) by (eapply Forall_impl; [|apply range]; cbn beta; lia).
  specialize (Q1 I1 (or_introl J1)). destruct (isinvert_loop128 (seq 0 64) A) as [A1|]; [|now rewrite Q1]. destruct Q1 as (E1 & M1 & _).
  assert (T1 : top A1). { apply top_low; [exact M1|]. destruct (isinvert_loop_low 128 size128 64 0 (val A) (val A1) ltac:(lia) (matrix_val A M) (low_0 _ _) E1) as [_ L]. exact L. }
  rewrite E1. pose proof (isinvert_loop_same (seq 64 64) A1 M1 I2 (or_intror (conj T1 J2))) as Q2. destruct (isinvert_loop128 (seq 64 64) A1) as [A2|]; [|now rewrite Q2].
  destruct Q2 as (E2 & M2 & T2). rewrite E2. specialize (T2 T1 J2). change (128 - 1) with 127. rewrite get_val. unfold pack. rewrite (T2 127) by lia.
  rewrite N.mul_0_l, N.add_0_l. reflexivity.
Qed.

(** ** invsM128 *)
Definition rel2 (s : list row * list row) (g : list N * list N) : Prop := matrix128 (snd s) /\ snd g = val (snd s).
Lemma rel2_step p o s g : rel2 s g -> rel2 (step2_128 p o s) (step2 o g).
Proof. intros [M E]. split; cbn [step2_128 step2 snd]; [now apply matrix_applyop128|]. rewrite E. symmetry. now apply applyop128_both. Qed.
Definition ft2 := ft (fst : list row * list row -> list row) (fst : list N * list N -> list N) rel2.
Lemma invs_forward_same i s g : i < 128 -> ft2 i s g -> ft2 i (invs_forward128 s i) (invs_forward 128 g i).
Proof.
  intros I F. unfold invs_forward128, invs_forward. rewrite (read_same _ _ _ i i s g (proj1 F)) by auto.
  assert (EB : forall s g, ft2 i s g -> ft2 i (elim_below128 fst step2_128 i s) (elim_below 128 fst step2 i g)).
  { intros. apply (elim_below_same fst step2_128 fst step2 rel2); auto using rel2_step. }
  destruct (readbit 128 (fst g) i i); [now apply EB|]. rewrite (find_pivot_same _ _ _ i s g I (proj1 F)). destruct (find_pivot 128 fst i g) as [j|] eqn:P; [|now apply EB].
  apply (pivot_range fst step2 (fun _ _ => eq_refl)) in P. apply EB. apply (fwd_step fst step2_128 fst step2 rel2); auto using rel2_step. cbn [okop]. lia.
Qed.
Lemma invs_forward_low n g i : size n -> i < n -> matrix n (fst g) -> low n i (fst g) -> matrix n (fst (invs_forward n g i)) /\ low n (i + 1) (fst (invs_forward n g i)).
Proof.
  intros SZ I M L. unfold invs_forward. rewrite readbit_spec by auto. destruct (entry n (fst g) i i) eqn:P.
  - apply elim_below_low; auto.
  - pose proof (find_pivot_spec n fst step2 SZ (fun _ _ => eq_refl) i g I) as F. destruct (find_pivot n fst i g) as [j|].
    + destruct F as [J B]. apply elim_below_low; auto; [now apply (matrix_applyop n (OSwap j i))|apply swap_low; auto; lia|].
      left. cbn [step2 fst]. rewrite entry_swap by (auto; lia). destruct (Nat.eqb_spec i j); [lia|]. now rewrite Nat.eqb_refl.
    + apply elim_below_low; auto.
Qed.
Lemma low_fold {S} n (temp : S -> list N) (f : S -> nat -> S) :
  (forall s i, i < n -> matrix n (temp s) -> low n i (temp s) -> matrix n (temp (f s i)) /\ low n (i + 1) (temp (f s i))) ->
  forall k i s, i + k <= n -> matrix n (temp s) -> low n i (temp s) -> matrix n (temp (fold_left f (seq i k) s)) /\ low n (i + k) (temp (fold_left f (seq i k) s)).
Proof.
  intros H k. induction k as [|k IH]; intros i s K M L.
  - rewrite Nat.add_0_r. auto.
  - cbn [seq fold_left]. destruct (H s i ltac:(lia) M L) as [M1 L1]. rewrite Nat.add_1_r in L1. rewrite <- Nat.add_succ_comm. apply IH; auto; lia.
Qed.
Lemma invs128_val A : matrix128 A -> matrix128 (invs128 A) /\ val (invs128 A) = invs 128 (val A).
Proof.
  intros M. unfold invs128, invs. cbv zeta. rewrite seq_halves, fold_left_app.
  assert (F0 : ft2 0 (A, identityM128) (val A, identityM 128)).
  { split; [|lia]. split; [exact M|]. split; [reflexivity|]. split; [apply matrix_identity|symmetry; apply val_identity]. }
  pose proof (fold_sim (ft2 0) invs_forward128 (invs_forward 128) (seq 0 64)) as Q1.
  assert (X1 : forall s g i, In i (seq 0 64) -> ft2 0 s g -> ft2 0 (invs_forward128 s i) (invs_forward 128 g i)).
  { intros s g i I F. apply in_seq in I. split; [|lia]. apply (invs_forward_same i s g); [lia|]. split; [apply F|lia]. }
  specialize (Q1 X1 _ _ F0). destruct (low_fold 128 fst (invs_forward 128) (fun g i => invs_forward_low 128 g i size128) 64 0 (val A, identityM 128) ltac:(lia) (matrix_val A M) (low_0 _ _)) as [_ L].
  change (0 + 64) with 64 in L. cbn [fst] in L.
  set (s1 := fold_left invs_forward128 (seq 0 64) (A, identityM128)) in *. set (g1 := fold_left (invs_forward 128) (seq 0 64) (val A, identityM 128)) in *. clearbody s1 g1.
  destruct Q1 as [(M1 & E1 & R1) _]. rewrite E1 in L. assert (F1 : ft2 64 s1 g1) by (split; [split; auto|]; intros _; now apply top_low).
  pose proof (fold_sim (ft2 64) invs_forward128 (invs_forward 128) (seq 64 64)) as Q2.
  assert (X2 : forall s g i, In i (seq 64 64) -> ft2 64 s g -> ft2 64 (invs_forward128 s i) (invs_forward 128 g i)).
  { intros s g i I [F T]. apply in_seq in I. destruct (invs_forward_same i s g ltac:(lia)) as [F' T']; [split; [exact F|intros _; apply T; lia]|]. split; [exact F'|intros _; apply T'; lia]. }
  specialize (Q2 X2 _ _ F1). destruct Q2 as [F2 T2].
  destruct (elim_above_same fst step2_128 fst step2 rel2 (fun _ _ _ => eq_refl) (fun _ _ => eq_refl) rel2_step _ _ F2 (T2 (le_n 64))) as [M3 E3]. split; [exact M3|symmetry; exact E3].
Qed.

(** ** genMatpairM128 *)
Definition rel3 (s : gst128) (g : gst) : Prop := (matrix128 (h_inv s) /\ g_inv g = val (h_inv s)) /\ g_trail g = h_trail s /\ g_ok g = h_ok s.
Lemma rel3_step p o s g : rel3 s g -> rel3 (gstep128 p o s) (gstep 128 o g).
Proof.
  intros ((M & E) & T & O). unfold gstep128, gstep, rel3. cbn [h_inv h_trail h_ok g_inv g_trail g_ok]. rewrite T, O, E.
  split; [split; [now apply matrix_applyop128|symmetry; now apply applyop128_both]|]. split; reflexivity.
Qed.
Lemma rel3_norec p o s g : rel3 s g -> rel3 (gstep_norec128 p o s) (gstep_norec o g).
Proof.
  intros ((M & E) & T & O). unfold gstep_norec128, gstep_norec, rel3. cbn [h_inv h_trail h_ok g_inv g_trail g_ok]. rewrite T, O, E.
  split; [split; [now apply matrix_applyop128|symmetry; now apply applyop128_both]|]. split; reflexivity.
Qed.
Definition ft3 := ft h_temp g_temp rel3.
Lemma scramble_same rnd i s g pos : i < 128 -> ft3 i s g ->
  ft3 i (fst (gen_scramble128 rnd i s pos)) (fst (gen_scramble 128 rnd i g pos)) /\ snd (gen_scramble128 rnd i s pos) = snd (gen_scramble 128 rnd i g pos).
Proof.
  intros I F. unfold gen_scramble128, gen_scramble. change (128 - 1) with 127.
  assert (C : (i <? 64) || (i <? 127) = (i <? 127)) by (destruct (Nat.ltb_spec i 64), (Nat.ltb_spec i 127); try reflexivity; lia). rewrite C. clear C.
  destruct (Nat.ltb_spec i 127) as [L|L]; [|cbn [fst snd]; auto]. cbv zeta.
  set (p := i + 1 + N.to_nat (draw rnd pos mod N.of_nat (127 - i))%N).
  assert (P : i < p < 128) by (unfold p; pose proof (N.mod_lt (draw rnd pos) (N.of_nat (127 - i)) ltac:(lia)); lia). clearbody p.
  match goal with |- ft3 i (fst ?X) (fst ?Y) /\ _ => assert (Q : (fun (x : gst128 * nat) (y : gst * nat) => ft3 i (fst x) (fst y) /\ snd x = snd y) X Y) end; [|exact Q].
  apply (fold_sim (fun (x : gst128 * nat) (y : gst * nat) => ft3 i (fst x) (fst y) /\ snd x = snd y)).
  - intros [s1 p1] [g1 p2] t T [F1 E1]. cbn [fst snd] in *. subst p2. apply in_seq in T. split; [|reflexivity]. destruct (draw rnd p1 mod 2 =? 0)%N; [exact F1|].
    apply (fwd_step h_temp gstep128 g_temp (gstep 128) rel3); auto using rel3_step. cbn [okop]. lia.
  - cbn [fst snd]. split; [|reflexivity]. apply (fwd_step h_temp gstep128 g_temp (gstep 128) rel3); auto using rel3_step. cbn [okop]. lia.
Qed.
Definition fst3 (i : nat) (x : gst128 * bool * nat) (y : gst * bool * nat) : Prop :=
  ft3 i (fst (fst x)) (fst (fst y)) /\ snd (fst x) = snd (fst y) /\ snd x = snd y.
Lemma gen_forward_same rnd i x y : i < 128 -> fst3 i x y -> fst3 i (gen_forward128 rnd x i) (gen_forward 128 rnd y i).
Proof.
  destruct x as [[s iv] pos], y as [[g iv'] pos']. intros I (F & E1 & E2). cbn [fst snd] in F, E1, E2. subst iv' pos'. unfold gen_forward128, gen_forward.
  rewrite (read_same _ _ _ i i s g (proj1 F)) by auto.
  assert (EB : forall s g, ft3 i s g -> ft3 i (elim_below128 h_temp gstep128 i s) (elim_below 128 g_temp (gstep 128) i g)).
  { intros. apply (elim_below_same h_temp gstep128 g_temp (gstep 128) rel3); auto using rel3_step. }
  destruct (readbit 128 (g_temp g) i i); [split; [now apply EB|split; reflexivity]|].
  rewrite (find_pivot_same _ _ _ i s g I (proj1 F)). destruct (find_pivot 128 g_temp i g) as [j|] eqn:P.
  - apply (pivot_range g_temp (gstep 128) (fun _ _ => eq_refl)) in P. split; [|split; reflexivity]. apply EB.
    apply (fwd_step h_temp gstep128 g_temp (gstep 128) rel3); auto using rel3_step. cbn [okop]. lia.
  - destruct (scramble_same rnd i s g pos I F) as [Q1 Q2]. destruct (gen_scramble128 rnd i s pos) as [s1 p1], (gen_scramble 128 rnd i g pos) as [g1 p2].
    cbn [fst snd] in Q1, Q2. subst p2. split; [exact Q1|split; reflexivity].
Qed.
Lemma scramble_low n rnd i g pos : i < n -> matrix n (g_temp g) -> low n i (g_temp g) -> (forall r, i <= r -> r < n -> entry n (g_temp g) r i = false) ->
  matrix n (g_temp (fst (gen_scramble n rnd i g pos))) /\ low n (i + 1) (g_temp (fst (gen_scramble n rnd i g pos))).
Proof.
  intros I M L Z.
  set (inv := fun A => matrix n A /\ low n i A /\ forall r, i <= r -> r < n -> entry n A r i = false).
  assert (OP : forall A j, inv A -> i < j -> j < n -> inv (applyop (OAdd j i) A) /\ inv (applyop (OSwap j i) A)).
  { clear. intros A j (M & L & Z) J J'. split; (split; [now apply matrix_applyop|]); split.
    - intros r c C C' R. rewrite entry_add by (auto; lia). destruct (Nat.eqb_spec r j); [|now apply L]. rewrite (L j c), (L i c) by lia. reflexivity.
    - intros r R R'. rewrite entry_add by (auto; lia). destruct (Nat.eqb_spec r j); [|now apply Z]. rewrite (Z j), (Z i) by lia. reflexivity.
    - intros r c C C' R. rewrite entry_swap by (auto; lia). destruct (Nat.eqb_spec r j); [apply L; lia|]. destruct (Nat.eqb_spec r i); apply L; lia.
    - intros r R R'. rewrite entry_swap by (auto; lia). destruct (Nat.eqb_spec r j); [apply Z; lia|]. destruct (Nat.eqb_spec r i); apply Z; lia. }
  assert (Q : inv (g_temp (fst (gen_scramble n rnd i g pos)))).
  { unfold gen_scramble. destruct (Nat.ltb_spec i (n - 1)) as [K|K]; [|split; auto]. cbv zeta.
    set (p := i + 1 + N.to_nat (draw rnd pos mod N.of_nat (n - 1 - i))%N).
    assert (P : i < p < n) by (unfold p; pose proof (N.mod_lt (draw rnd pos) (N.of_nat (n - 1 - i)) ltac:(lia)); lia). clearbody p.
    match goal with |- inv (g_temp (fst (fold_left ?f ?l ?z))) =>
      apply (fold_inv (fun x : gst * nat => inv (g_temp (fst x))) f l) end.
    - intros [s1 p1] t T Q. apply in_seq in T. cbn [fst] in *. destruct (draw rnd p1 mod 2 =? 0)%N; [exact Q|]. cbn [gstep g_temp]. apply OP; auto; lia.
    - cbn [fst gstep g_temp]. apply OP; [split; auto|lia|lia]. }
  destruct Q as (M' & L' & Z'). split; [exact M'|]. intros r c C C' R. destruct (Nat.eq_dec c i) as [->|]; [apply Z'; lia|apply L'; lia].
Qed.
Lemma gen_forward_low n rnd y i : size n -> i < n -> matrix n (g_temp (fst (fst y))) -> low n i (g_temp (fst (fst y))) ->
  matrix n (g_temp (fst (fst (gen_forward n rnd y i)))) /\ low n (i + 1) (g_temp (fst (fst (gen_forward n rnd y i)))).
Proof.
  destruct y as [[g iv] pos]. cbn [fst]. intros SZ I M L. unfold gen_forward.
  pose proof (column_low n g_temp (gstep n) SZ (fun _ _ => eq_refl) i g) as CL. pose proof (column_spec n g_temp (gstep n) SZ (fun _ _ => eq_refl) i g I M) as CS. unfold column in CL, CS.
  destruct (readbit n (g_temp g) i i); [now apply CL|]. destruct (find_pivot n g_temp i g) as [j|]; [now apply CL|].
  pose proof (scramble_low n rnd i g pos I M L CS) as Q. destruct (gen_scramble n rnd i g pos) as [g1 p1]. exact Q.
Qed.
Lemma randM128_val rnd pos : matrix128 (fst (randM128 rnd pos)) /\ (val (fst (randM128 rnd pos)), snd (randM128 rnd pos)) = randM 128 rnd pos.
Proof.
  assert (D : forall k, (draw rnd k < 4294967296)%N) by (intros; apply N.mod_lt; discriminate).
  split.
  - cbn [randM128 fst]. apply matrix128_intro; [now rewrite map_length, seq_length|]. intros i I. rewrite grow_map_seq by auto. unfold words, vector. cbn [fst snd].
    change (2 ^ N.of_nat 64)%N with 18446744073709551616%N.
    pose proof (D (pos + 4 * i)). pose proof (D (pos + 4 * i + 1)). pose proof (D (pos + 4 * i + 2)). pose proof (D (pos + 4 * i + 3)).
    set (a := draw rnd (pos + 4 * i)) in *. set (b := draw rnd (pos + 4 * i + 1)) in *. set (c := draw rnd (pos + 4 * i + 2)) in *.
    set (d := draw rnd (pos + 4 * i + 3)) in *. clearbody a b c d. lia.
  - unfold randM128, randM. cbn [Nat.eqb fst snd]. f_equal. unfold val. rewrite map_map. apply map_ext. intros i. unfold pack. cbn [fst snd].
    set (a := draw rnd (pos + 4 * i)). set (b := draw rnd (pos + 4 * i + 1)). set (c := draw rnd (pos + 4 * i + 2)).
    set (d := draw rnd (pos + 4 * i + 3)). clearbody a b c d. lia.
Qed.
Lemma randV128_val rnd pos : words (fst (randV128 rnd pos)) /\ (pack (fst (randV128 rnd pos)), snd (randV128 rnd pos)) = randV 128 rnd pos.
Proof.
  assert (B : forall k, (draw rnd (pos + k)%nat mod 65536 < 65536)%N) by (intros; apply N.mod_lt; discriminate).
  pose proof (B 0). pose proof (B 1). pose proof (B 2). pose proof (B 3). pose proof (B 4). pose proof (B 5). pose proof (B 6). pose proof (B 7).
  unfold randV128, randV. cbn [Nat.eqb fst snd]. cbv zeta.
  set (a := (draw rnd (pos + 0)%nat mod 65536)%N) in *. set (b := (draw rnd (pos + 1)%nat mod 65536)%N) in *.
  set (c := (draw rnd (pos + 2)%nat mod 65536)%N) in *. set (d := (draw rnd (pos + 3)%nat mod 65536)%N) in *.
  set (e := (draw rnd (pos + 4)%nat mod 65536)%N) in *. set (f := (draw rnd (pos + 5)%nat mod 65536)%N) in *.
  set (g := (draw rnd (pos + 6)%nat mod 65536)%N) in *. set (h := (draw rnd (pos + 7)%nat mod 65536)%N) in *. clearbody a b c d e f g h.
  split.
  - unfold words, vector. cbn [fst snd]. change (2 ^ N.of_nat 64)%N with 18446744073709551616%N. lia.
  - f_equal. unfold pack. cbn [fst snd]. lia.
Qed.
Lemma genMatpair128_val rnd pos : exists A B pos', genMatpair128 rnd pos = Ret (A, B, pos') /\ matrix128 A /\ matrix128 B /\ genMatpair 128 rnd pos = Ret (val A, val B, pos').
Proof.
  destruct (genMatpair_lemma 128 rnd pos size128) as (A' & B' & q & EG & _). revert EG. unfold genMatpair128, genMatpair.
  destruct (randM128_val rnd pos) as [MA EA]. rewrite <- EA. destruct (randM128 rnd pos) as [A p0]. cbn [fst snd] in MA |- *. clear EA.
  assert (F0 : fst3 0 (mkgst128 A identityM128 [] true, true, p0) (mkgst (val A) (identityM 128) [] true, true, p0)).
  { split; [|split; reflexivity]. cbn [fst]. split; [|lia]. split; [exact MA|]. split; [reflexivity|]. split; [split; [apply matrix_identity|symmetry; apply val_identity]|split; reflexivity]. }
  pose proof (low_fold 128 (fun y : gst * bool * nat => g_temp (fst (fst y))) (gen_forward 128 rnd) (fun y i => gen_forward_low 128 rnd y i size128) 64 0
    (mkgst (val A) (identityM 128) [] true, true, p0) ltac:(lia) (matrix_val A MA) (low_0 _ _)) as [_ L].
  change (0 + 64) with 64 in L.
  rewrite seq_halves, fold_left_app. cbv zeta.
  pose proof (fold_sim (fst3 0) (gen_forward128 rnd) (gen_forward 128 rnd) (seq 0 64)) as Q1.
  assert (X1 : forall x y i, In i (seq 0 64) -> fst3 0 x y -> fst3 0 (gen_forward128 rnd x i) (gen_forward 128 rnd y i)).
  { intros x y i I (F & E1 & E2). apply in_seq in I. destruct (gen_forward_same rnd i x y) as (F' & E1' & E2'); [lia|split; [split; [apply F|lia]|auto]|].
    split; [split; [apply F'|lia]|auto]. }
  specialize (Q1 X1 _ _ F0).
  set (x1 := fold_left (gen_forward128 rnd) (seq 0 64) _) in *. set (y1 := fold_left (gen_forward 128 rnd) (seq 0 64) _) in *. clearbody x1 y1.
  destruct Q1 as ([(M1 & T1 & R1) _] & E1 & E2). rewrite T1 in L.
  assert (F1 : fst3 64 x1 y1) by (split; [split; [split; auto|]; intros _; now apply top_low|auto]).
  pose proof (fold_sim (fst3 64) (gen_forward128 rnd) (gen_forward 128 rnd) (seq 64 64)) as Q2.
  assert (X2 : forall x y i, In i (seq 64 64) -> fst3 64 x y -> fst3 64 (gen_forward128 rnd x i) (gen_forward 128 rnd y i)).
  { intros x y i I ((F & T) & E1' & E2'). apply in_seq in I. destruct (gen_forward_same rnd i x y) as ((F' & T') & E3 & E4); [lia|split; [split; [exact F|intros _; apply T; lia]|auto]|].
    split; [split; [exact F'|intros _; apply T'; lia]|auto]. }
  specialize (Q2 X2 _ _ F1).
  destruct (fold_left (gen_forward128 rnd) (seq 64 64) x1) as [[s iv] p1], (fold_left (gen_forward 128 rnd) (seq 64 64) y1) as [[g iv'] p2].
  destruct Q2 as ((F & T) & E3 & E4). cbn [fst snd] in F, T, E3, E4. subst iv' p2. specialize (T (le_n 64)). destruct iv.
  - destruct (elim_above_same h_temp gstep_norec128 g_temp gstep_norec rel3 (fun _ _ _ => eq_refl) (fun _ _ => eq_refl) rel3_norec _ _ F T) as ((M3 & E5) & E6 & E7).
    rewrite E7. destruct (h_ok (elim_above128 h_temp gstep_norec128 s)); [|discriminate]. intros _. eexists _, _, _. split; [reflexivity|]. split; [exact MA|]. split; [exact M3|]. now rewrite E5.
  - destruct (elim_above_same h_temp gstep128 g_temp (gstep 128) rel3 (fun _ _ _ => eq_refl) (fun _ _ => eq_refl) rel3_step _ _ F T) as ((M3 & E5) & E6 & E7).
    rewrite E7. destruct (h_ok (elim_above128 h_temp gstep128 s)); [|discriminate]. intros _. rewrite E6, E5.
    destruct (fold_sim (fun M M' => matrix128 M /\ val M = M') (fun M o => applyop128 Both o M) (fun M o => applyop o M) (h_trail (elim_above128 h_temp gstep128 s))) with (s := identityM128) (t := identityM 128) as [MT ET].
    + intros M M' o _ [Q <-]. split; [now apply matrix_applyop128|now apply applyop128_both].
    + split; [apply matrix_identity|apply val_identity].
    + eexists _, _, _. split; [reflexivity|]. split; [exact MT|]. split; [exact M3|]. now rewrite ET.
Qed.
