(** * FF3 under related tweaks, and FF3-1 *)
From Verif Require Import Base CbcSpec GcmSpec FpeModel FpeSpec FpeCore FpeProofs.
Local Open Scope nat_scope.
Local Opaque ff3_encrypt ff3_decrypt.

(** the mask by which related tweaks differ: bit 2 of the fourth and of the eighth byte *)
Definition slide_mask : list N := [0; 0; 0; 4; 0; 0; 0; 4]%N.

(** SP 800-38G Rev. 1, Algorithm 9 FF3-1.Encrypt: the tweak is 56 bits T, of which
    T_L = T[0..27] || 0^4 and T_R = T[32..55] || T[28..31] || 0^4 take the places of FF3's halves *)
Definition FF3_1_tweak (T : list N) : list N :=
  let b3 := get T 3 in
  [get T 0; get T 1; get T 2; (b3 / 16 * 16)%N; get T 4; get T 5; get T 6; ((b3 mod 16) * 16)%N].
Definition FF3_1_Encrypt (E : list N -> list N) (radix : N) (T X : list N) : list N := FF3_Encrypt E radix (FF3_1_tweak T) X.
Definition FF3_1_Decrypt (E : list N -> list N) (radix : N) (T X : list N) : list N := FF3_Decrypt E radix (FF3_1_tweak T) X.

Section Slide.
Variable E : list N -> list N.
Variable radix : N.
Hypothesis Hr : (2 <= radix <= 36)%N.
Variable T : list N.
Hypothesis HT : length T = 8.
Let T' := xorl T slide_mask.
Let step := FF3_enc_step E radix T.
Let step' := FF3_enc_step E radix T'.

Definition W3 (t : list N) (i : nat) : list N := xorl (if Nat.even i then skipn 4 t else firstn 4 t) (N_to_be 4 (N.of_nat i)).
Lemma W3_slide i : i < 4 -> W3 T' i = W3 T (i + 4) /\ W3 T' (i + 4) = W3 T i.
Proof.
  intros Hi. unfold T', W3.
  destruct T as [|t0 [|t1 [|t2 [|t3 [|t4 [|t5 [|t6 [|t7 [|]]]]]]]]]; try discriminate.
  assert (N0 : N_to_be 4 (N.of_nat 0) = [0; 0; 0; 0]%N) by reflexivity. assert (N1 : N_to_be 4 (N.of_nat 1) = [0; 0; 0; 1]%N) by reflexivity.
  assert (N2 : N_to_be 4 (N.of_nat 2) = [0; 0; 0; 2]%N) by reflexivity. assert (N3 : N_to_be 4 (N.of_nat 3) = [0; 0; 0; 3]%N) by reflexivity.
  assert (N4 : N_to_be 4 (N.of_nat 4) = [0; 0; 0; 4]%N) by reflexivity. assert (N5 : N_to_be 4 (N.of_nat 5) = [0; 0; 0; 5]%N) by reflexivity.
  assert (N6 : N_to_be 4 (N.of_nat 6) = [0; 0; 0; 6]%N) by reflexivity. assert (N7 : N_to_be 4 (N.of_nat 7) = [0; 0; 0; 7]%N) by reflexivity.
  do 4 (destruct i as [|i]; [cbn [Nat.add Nat.even]; rewrite ?N0, ?N1, ?N2, ?N3, ?N4, ?N5, ?N6, ?N7; unfold slide_mask;
    cbn [xorl skipn firstn]; rewrite ?N.lxor_assoc; split; reflexivity|]).
  lia.
Qed.
Lemma S3_slide i X : i < 4 -> std_S3 E radix T' i X = std_S3 E radix T (i + 4) X /\ std_S3 E radix T' (i + 4) X = std_S3 E radix T i X.
Proof.
  intros Hi. unfold std_S3. cbv zeta. destruct (W3_slide i Hi) as [A B]. unfold W3 in A, B. rewrite A, B. split; reflexivity.
Qed.
Lemma step_slide n s i : i < 4 -> step' n s i = step n s (i + 4) /\ step' n s (i + 4) = step n s i.
Proof.
  intros Hi. unfold step, step', FF3_enc_step, std_F3. destruct s as [A B]. destruct (S3_slide i B Hi) as [-> ->].
  replace (Nat.even (i + 4)) with (Nat.even i); [auto|]. do 4 (destruct i as [|i]; [reflexivity|]). lia.
Qed.

(** the first and the last four rounds on numeral strings *)
Definition half (is : list nat) (X : list N) : list N :=
  let n := length X in let u := ceil_div n 2 in
  let '(A, B) := fold_left (step n) is (firstn u X, skipn u X) in A ++ B.
Definition first_half := half [0; 1; 2; 3].
Definition last_half := half [4; 5; 6; 7].

Lemma u_le n : ceil_div n 2 <= n.
Proof. unfold ceil_div. destruct n; [cbn; lia|]. apply Nat.div_le_upper_bound; lia. Qed.

Definition wf (n : nat) (s : list N * list N) : Prop :=
  length (fst s) = ceil_div n 2 /\ length (snd s) = n - ceil_div n 2 /\ digits radix (fst s) /\ digits radix (snd s).
Lemma STR_length m x : length (STR radix m x) = m.
Proof. unfold STR. now rewrite map_length, seq_length. Qed.
Lemma two_steps n s i : Nat.even i = true -> wf n s -> wf n (step n (step n s i) (S i)).
Proof.
  intros Hi (L1 & L2 & D1 & D2). destruct s as [A B]. cbn [fst snd] in *. unfold step, FF3_enc_step. rewrite Hi.
  rewrite Nat.even_succ, <- Nat.negb_even, Hi. cbn [negb]. unfold wf. cbn [fst snd].
  rewrite !rev_length, !STR_length. split; [auto|]. split; [auto|]. split; apply Forall_rev, digits_STR; lia.
Qed.
Lemma fold_wf n s is : wf n s -> is = [0; 1; 2; 3] \/ is = [4; 5; 6; 7] -> wf n (fold_left (step n) is s).
Proof. intros H [-> | ->]; cbn [fold_left]; do 2 (apply two_steps; [reflexivity|]); exact H. Qed.
Lemma split_wf X : digits radix X -> wf (length X) (firstn (ceil_div (length X) 2) X, skipn (ceil_div (length X) 2) X).
Proof.
  intros D. pose proof (u_le (length X)). unfold wf. cbn [fst snd]. rewrite firstn_length, skipn_length. split; [lia|]. split; [reflexivity|].
  unfold digits in *. rewrite <- (firstn_skipn (ceil_div (length X) 2) X) in D. apply Forall_app in D. tauto.
Qed.
Lemma join_split n s : wf n s -> length (fst s ++ snd s) = n /\ firstn (ceil_div n 2) (fst s ++ snd s) = fst s /\
  skipn (ceil_div n 2) (fst s ++ snd s) = snd s /\ digits radix (fst s ++ snd s).
Proof.
  intros (L1 & L2 & D1 & D2). pose proof (u_le n). rewrite app_length. split; [lia|].
  rewrite firstn_app, skipn_app, L1, Nat.sub_diag, firstn_O, <- L1, firstn_all, skipn_all, app_nil_r. split; [reflexivity|]. split; [reflexivity|].
  apply Forall_app. auto.
Qed.
Lemma half_eq is X : half is X = let s := fold_left (step (length X)) is (firstn (ceil_div (length X) 2) X, skipn (ceil_div (length X) 2) X) in fst s ++ snd s.
Proof. unfold half. cbv zeta. now destruct (fold_left _ is _). Qed.

Lemma halves_ok is X : is = [0; 1; 2; 3] \/ is = [4; 5; 6; 7] -> digits radix X -> length (half is X) = length X /\ digits radix (half is X).
Proof.
  intros HI D. rewrite half_eq. cbv zeta. pose proof (fold_wf _ _ is (split_wf X D) HI) as W. apply join_split in W. tauto.
Qed.
Lemma half_half is is' X : is = [0; 1; 2; 3] \/ is = [4; 5; 6; 7] -> digits radix X ->
  half is' (half is X) = let s := fold_left (step (length X)) (is ++ is') (firstn (ceil_div (length X) 2) X, skipn (ceil_div (length X) 2) X) in fst s ++ snd s.
Proof.
  intros HI D. rewrite half_eq. cbv zeta. rewrite (proj1 (halves_ok is X HI D)). rewrite fold_left_app.
  pose proof (fold_wf _ _ is (split_wf X D) HI) as W. apply join_split in W as (_ & W1 & W2 & _).
  rewrite half_eq. cbv zeta. rewrite W1, W2. now destruct (fold_left (step (length X)) is _).
Qed.
(** Encryption is the first half and then the last; under the related tweak it is the other way round. *)
Lemma FF3_halves X : digits radix X -> FF3_Encrypt E radix T X = last_half (first_half X).
Proof.
  intros D. unfold last_half, first_half. rewrite half_half by auto. cbn [app]. unfold FF3_Encrypt. cbv zeta. fold step.
  now destruct (fold_left _ _ _).
Qed.
Lemma FF3_halves' X : digits radix X -> FF3_Encrypt E radix T' X = first_half (last_half X).
Proof.
  intros D. unfold last_half, first_half. rewrite half_half by auto. cbn [app]. unfold FF3_Encrypt. cbv zeta. fold step'.
  set (s := (_, _)). assert (F : forall s n, fold_left (step' n) [0; 1; 2; 3; 4; 5; 6; 7] s = fold_left (step n) [4; 5; 6; 7; 0; 1; 2; 3] s).
  { clear s. intros s n. cbn [fold_left].
    rewrite (proj1 (step_slide n s 0 ltac:(lia))). cbn [Nat.add].
    rewrite (proj1 (step_slide n _ 1 ltac:(lia))). cbn [Nat.add]. rewrite (proj1 (step_slide n _ 2 ltac:(lia))). cbn [Nat.add].
    rewrite (proj1 (step_slide n _ 3 ltac:(lia))). cbn [Nat.add].
    rewrite (proj2 (step_slide n _ 0 ltac:(lia)) : step' n _ 4 = _). rewrite (proj2 (step_slide n _ 1 ltac:(lia)) : step' n _ 5 = _).
    rewrite (proj2 (step_slide n _ 2 ltac:(lia)) : step' n _ 6 = _). rewrite (proj2 (step_slide n _ 3 ltac:(lia)) : step' n _ 7 = _). reflexivity. }
  rewrite F. now destruct (fold_left _ _ s).
Qed.
Lemma FF3_slide X : digits radix X -> FF3_Encrypt E radix T' (first_half X) = first_half (FF3_Encrypt E radix T X).
Proof.
  intros D. rewrite FF3_halves by exact D. rewrite FF3_halves' by (apply halves_ok; auto). reflexivity.
Qed.
End Slide.

Lemma FF3_digits E radix T X : (2 <= radix <= 36)%N -> length T = 8 -> digits radix X ->
  length (FF3_Encrypt E radix T X) = length X /\ digits radix (FF3_Encrypt E radix T X).
Proof.
  intros Hr HT D. rewrite FF3_halves by assumption. unfold last_half, first_half.
  destruct (halves_ok E radix Hr T HT [0; 1; 2; 3] X ltac:(auto) D) as [L1 D1].
  destruct (halves_ok E radix Hr T HT [4; 5; 6; 7] _ ltac:(auto) D1) as [L2 D2]. split; [congruence|exact D2].
Qed.

Lemma ret_inj {A} (a b : A) : Ret a = Ret b -> a = b.
Proof. intros H. now injection H. Qed.
Lemma ff3_related_lemma : forall E clog radix T T' c c', 
  fpe_init T radix = Some c -> fpe_init T' radix = Some c' -> 8 <= length T -> 8 <= length T' ->
  firstn 8 T' = xorl (firstn 8 T) slide_mask ->
  exists G : list N -> list N,
    (forall s, numeral_string radix s -> numeral_string radix (G s) /\ length (G s) = length s) /\
    forall s, numeral_string radix s -> ff3_limits clog radix T (length s) -> (radix ^ N.of_nat (ceil_div (length s) 2) <= 2 ^ 96)%N ->
      exists ct, ff3_encrypt E clog c s = Ret (ct ++ [0%N]) /\ ff3_encrypt E clog c' (G s) = Ret (G ct ++ [0%N]) /\
        (forall s2, numeral_string radix s2 -> length s2 = length s -> G s2 = G s -> s2 = s).
Proof.
  intros E clog radix T T' c c' HI HI' LT LT' HX. assert (Hr : (2 <= radix <= 36)%N) by exact (init_radix _ _ _ HI).
  assert (L8 : length (firstn 8 T) = 8) by (rewrite firstn_length; lia).
  set (g := first_half E radix (firstn 8 T)).
  exists (fun s => map char_of (g (map digit_of s))).
  assert (GD : forall s, numeral_string radix s -> digits radix (g (map digit_of s)) /\ length (g (map digit_of s)) = length s).
  { intros s HN. destruct (map_chars_valid radix s Hr HN) as (_ & M2 & _).
    destruct (halves_ok E radix Hr (firstn 8 T) L8 [0; 1; 2; 3] _ ltac:(auto) M2) as [L D]. rewrite map_length in L. auto. }
  split.
  { intros s HN. destruct (GD s HN) as [D L]. destruct (inverse_map_valid radix _ Hr D) as (V1 & V2 & V3). rewrite V3. split; [exact V1|]. now rewrite map_length. }
  intros s HN HL H96. destruct (map_chars_valid radix s Hr HN) as (_ & M2 & M3).
  destruct (GD s HN) as [D L]. destruct (inverse_map_valid radix _ Hr D) as (V1 & V2 & V3).
  destruct (FF3_digits E radix (firstn 8 T) _ Hr L8 M2) as [L1 D1]. destruct (inverse_map_valid radix _ Hr D1) as (W1 & W2 & W3).
  exists (map char_of (FF3_Encrypt E radix (firstn 8 T) (map digit_of s))). split; [apply ff3_conforms_lemma with (T := T); auto|]. split.
  - assert (HL' : ff3_limits clog radix T' (length (map char_of (g (map digit_of s))))).
    { rewrite map_length, L. destruct HL as (A1 & A2 & A3 & A4 & A5). repeat (split; [assumption|]). exact A5. }
    destruct (ff3_conforms_lemma E clog radix T' c' (map char_of (g (map digit_of s))) HL') as [C _]; auto.
    + now rewrite map_length, L.
    + now rewrite V3.
    + rewrite C. do 2 f_equal. rewrite HX. rewrite V3, V2, W3, W2. f_equal.
      apply FF3_slide; auto.
  - intros s2 HN2 LS HG. destruct (map_chars_valid radix s2 Hr HN2) as (_ & M2' & M3').
    destruct (GD s2 HN2) as [D2 L2]. destruct (inverse_map_valid radix _ Hr D2) as (Z1 & Z2 & Z3).
    rewrite V3, Z3 in HG. apply (f_equal (map digit_of)) in HG. rewrite V2, Z2 in HG.
    assert (EQ : FF3_Encrypt E radix (firstn 8 T) (map digit_of s2) = FF3_Encrypt E radix (firstn 8 T) (map digit_of s)).
    { rewrite !FF3_halves by assumption. fold g. now rewrite HG. }
    assert (HL2 : ff3_limits clog radix T (length s2)) by (now rewrite LS).
    destruct (ff3_roundtrip_lemma E clog radix T c s HL HN HI) as (ct & E1 & _ & _ & R1).
    destruct (ff3_roundtrip_lemma E clog radix T c s2 HL2 HN2 HI) as (ct2 & E2 & _ & _ & R2).
    rewrite (proj1 (ff3_conforms_lemma E clog radix T c s HL H96 HN HI)) in E1.
    rewrite (proj1 (ff3_conforms_lemma E clog radix T c s2 HL2 ltac:(now rewrite LS) HN2 HI)) in E2.
    apply ret_inj in E1. apply ret_inj in E2. apply app_inj_tail in E1 as [E1 _]. apply app_inj_tail in E2 as [E2 _].
    assert (Q : ct = ct2) by (rewrite <- E1, <- E2, EQ; reflexivity). rewrite <- Q, R1 in R2. apply ret_inj in R2. apply app_inj_tail in R2 as [R2 _]. auto.
Qed.

Lemma ff3_1_actual_lemma : forall E clog radix T7 T c s, bytes T7 -> length T7 = 7 ->
  fpe_init T radix = Some c -> firstn 8 T = FF3_1_tweak T7 ->
  ff3_limits clog radix T (length s) -> (radix ^ N.of_nat (ceil_div (length s) 2) <= 2 ^ 96)%N -> numeral_string radix s ->
  ff3_encrypt E clog c s = Ret (map char_of (FF3_1_Encrypt E radix T7 (map digit_of s)) ++ [0%N]) /\
  ff3_decrypt E clog c s = Ret (map char_of (FF3_1_Decrypt E radix T7 (map digit_of s)) ++ [0%N]).
Proof.
  intros E clog radix T7 T c s _ _ HI HT HL H96 HN. unfold FF3_1_Encrypt, FF3_1_Decrypt. rewrite <- HT. now apply ff3_conforms_lemma.
Qed.
