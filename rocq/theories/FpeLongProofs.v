(** * Proofs about FF3 on strings of every length *)
From Verif Require Import Base CbcSpec GcmSpec FpeModel FpeSpec FpeCore FpeProofs FpeLongSpec.
From Coq Require Import ZArith.
Local Open Scope nat_scope.

Lemma firstn_N_to_be k n x : k <= n -> firstn k (N_to_be n x) = N_to_be k (x / 256 ^ N.of_nat (n - k)).
Proof.
  revert n x. induction k as [|k IH]; intros n x H; [reflexivity|]. destruct n as [|n]; [lia|]. cbn [N_to_be firstn Nat.sub].
  rewrite IH by lia. f_equal. rewrite N.div_div by (apply N.pow_nonzero; lia). rewrite <- N.pow_add_r. do 3 f_equal. lia.
Qed.
Lemma clip12_lead x : clip12 x = N_to_be 12 (lead96 x).
Proof.
  unfold clip12. cbv zeta. rewrite length_bn2bin. unfold lead96.
  assert (L : byte_length x = N.of_nat (bn_bytes x)) by (unfold byte_length, bn_bytes; now rewrite N2Nat.id).
  rewrite L. destruct (Nat.ltb_spec 12 (bn_bytes x)).
  - unfold bn2bin. rewrite firstn_N_to_be by lia. do 3 f_equal. lia.
  - replace (N.of_nat (bn_bytes x) - 12)%N with 0%N by lia. now rewrite N.pow_0_r, N.div_1_r.
Qed.
Lemma lead96_small x : (x < 2 ^ 96)%N -> lead96 x = x.
Proof.
  intros H. change (2 ^ 96)%N with (256 ^ N.of_nat 12)%N in H. apply bn_bytes_le in H. unfold lead96.
  replace (byte_length x - 12)%N with 0%N; [now rewrite N.pow_0_r, N.div_1_r|]. unfold byte_length. unfold bn_bytes in H. lia.
Qed.
Lemma S3_long E radix T i X : S3 E T i (NUM radix (rev X)) =
  rev (E (rev (xorl (if Nat.even i then skipn 4 (firstn 8 T) else firstn 4 (firstn 8 T)) (N_to_be 4 (N.of_nat i)) ++ N_to_be 12 (lead96 (NUM radix (rev X)))))).
Proof.
  unfold S3. rewrite clip12_lead. do 4 f_equal.
  rewrite <- Nat.negb_odd, firstn_firstn. destruct (Nat.odd i); cbn [negb]; [reflexivity|]. now rewrite (skipn_firstn_comm 4 8 T).
Qed.
Section Value.
Variables (E : list N -> list N) (clog : N -> nat -> nat) (radix : N) (T : list N) (inlen : nat).
Lemma long_enc_eq X : length X = inlen -> FF3_Encrypt_long E radix (firstn 8 T) X = enc_all3 E radix T inlen X.
Proof.
  intros L. unfold FF3_Encrypt_long, long_start. rewrite L.
  assert (ST : forall k a s, fold_left (long_enc_step E radix (firstn 8 T) inlen) (seq a k) s = fold_left (enc3 E radix T inlen) (seq a k) s).
  { induction k as [|k IH]; intros a s; [reflexivity|]. cbn [seq fold_left].
    assert (ES : long_enc_step E radix (firstn 8 T) inlen s a = enc3 E radix T inlen s a).
    { destruct s as [A B]. unfold long_enc_step, enc3, es. cbn [fst snd]. unfold F3b, long_F3. rewrite S3_long. unfold mfun3. rewrite <- Nat.negb_odd.
      destruct (Nat.odd a); reflexivity. }
    rewrite ES. apply IH. }
  change [0;1;2;3;4;5;6;7] with (seq 0 8). rewrite ST. unfold enc_all3, halves3, join.
  destruct (fold_left (enc3 E radix T inlen) (seq 0 8) _) as [A B]. reflexivity.
Qed.
Lemma long_dec_eq X : length X = inlen -> FF3_Decrypt_long E radix (firstn 8 T) X = dec_all3 E radix T inlen X.
Proof.
  intros L. unfold FF3_Decrypt_long, long_start. rewrite L.
  assert (ST : forall l s, fold_left (long_dec_step E radix (firstn 8 T) inlen) l s = fold_left (dec3 E radix T inlen) l s).
  { induction l as [|a l IH]; intros s; [reflexivity|]. cbn [fold_left].
    assert (ES : long_dec_step E radix (firstn 8 T) inlen s a = dec3 E radix T inlen s a).
    { destruct s as [A B]. unfold long_dec_step, dec3, ds, bn_mod_sub. cbn [fst snd]. unfold F3b, long_F3. rewrite S3_long. unfold mfun3. rewrite <- Nat.negb_odd.
      destruct (Nat.odd a); reflexivity. }
    rewrite ES. apply IH. }
  change [7;6;5;4;3;2;1;0] with (rev (seq 0 8)). rewrite ST. unfold dec_all3, halves3, join.
  destruct (fold_left (dec3 E radix T inlen) (rev (seq 0 8)) _) as [A B]. reflexivity.
Qed.
End Value.

Lemma ff3_value_lemma : forall E clog radix T c s,
  ff3_limits clog radix T (length s) -> numeral_string radix s -> fpe_init T radix = Some c ->
  ff3_encrypt E clog c s = Ret (map char_of (FF3_Encrypt_long E radix (firstn 8 T) (map digit_of s)) ++ [0%N]) /\
  ff3_decrypt E clog c s = Ret (map char_of (FF3_Decrypt_long E radix (firstn 8 T) (map digit_of s)) ++ [0%N]).
Proof.
  intros E clog radix T c s HL HN HI. apply init_ctx in HI as ->. pose proof (limits3_fit clog radix T _ HL) as Hfit. cbv zeta in Hfit.
  destruct HL as (Hr & HT & H1 & H30 & HC). cbv zeta in HC.
  destruct (map_chars_valid radix s Hr HN) as (_ & M2 & M3).
  assert (LX : length (map digit_of s) = length s) by apply map_length.
  destruct (enc_all3_ok E clog radix T (length s) Hr H1 H30 HT Hfit 0%N _ M2 LX) as (D & L & R).
  destruct (dec_all3_ok E clog radix T (length s) Hr H1 H30 HT Hfit 0%N _ M2 LX) as (D' & L' & R').
  destruct (inverse_map_valid radix _ Hr D) as (_ & _ & V). destruct (inverse_map_valid radix _ Hr D') as (_ & _ & V').
  rewrite (long_enc_eq E radix T (length s)) by auto. rewrite (long_dec_eq E radix T (length s)) by auto. rewrite V, V'.
  split; [exact (encrypt3_ok E clog radix T (length s) Hr H1 H30 HT Hfit _ s HN eq_refl)|exact (decrypt3_ok E clog radix T (length s) Hr H1 H30 HT Hfit _ s HN eq_refl)].
Qed.

(** ** A difference that survives all rounds *)
Section Diff.
Variables (E : list N -> list N) (radix : N) (T : list N) (n : nat).
Hypothesis Hr : (2 <= radix)%N.
Let u := ceil_div n 2.
Let q := (radix ^ N.of_nat u)%N.
Let num (X : list N) : N := NUM radix (rev X).
Let step := long_enc_step E radix T n.
Lemma num_str k x : (x < radix ^ N.of_nat k)%N -> NUM radix (rev (rev (STR radix k x))) = x.
Proof. intros H. rewrite rev_involutive. apply NUM_STR; [lia|exact H]. Qed.
Lemma long_F3_lead i X Y : lead96 (num X) = lead96 (num Y) -> long_F3 E radix T i X = long_F3 E radix T i Y.
Proof. intros H. unfold long_F3. fold (num X). fold (num Y). now rewrite H. Qed.
(** two states with the same second half, the first halves differing by [d] modulo [q] *)
Definition apart (d : N) (s t : list N * list N) : Prop := snd t = snd s /\ (num (fst t) mod q = (num (fst s) + d) mod q)%N.
Lemma q_pos : (q <> 0)%N. Proof. apply N.pow_nonzero. lia. Qed.
Lemma even_step d s t i : Nat.even i = true -> apart d s t -> let x := num (snd (step s i)) in (x + d < q)%N ->
  fst (step t i) = fst (step s i) /\ num (snd (step t i)) = (x + d)%N.
Proof.
  intros Ev [Es En] x Hx. destruct s as [A B], t as [A' B']. cbn [fst snd] in *. subst B'. unfold x, step, long_enc_step in *. rewrite Ev in *. cbn [fst snd] in *.
  split; [reflexivity|]. change (ceil_div n 2) with u in Hx |- *. change (radix ^ N.of_nat u)%N with q in Hx |- *. unfold num in *. pose proof q_pos.
  rewrite num_str in Hx by (apply N.mod_lt; exact q_pos). rewrite !num_str by (apply N.mod_lt; exact q_pos).
  rewrite N.add_mod, En, <- N.add_mod by exact q_pos. rewrite <- (N.mod_small _ _ Hx). rewrite N.add_mod_idemp_l by exact q_pos. f_equal. lia.
Qed.
Lemma odd_step d s t i x : Nat.even i = false -> fst t = fst s -> num (snd s) = x -> num (snd t) = (x + d)%N -> lead96 (x + d) = lead96 x ->
  apart d (step s i) (step t i).
Proof.
  intros Ev F X X' Ld. destruct s as [A B], t as [A' B']. cbn [fst snd] in *. subst A'. unfold step, long_enc_step. rewrite Ev. split; cbn [fst snd].
  - rewrite (long_F3_lead i B' B); [reflexivity|]. now rewrite X, X'.
  - now rewrite X, X'.
Qed.
Lemma rounds d k : forall s t, apart d s t ->
  (forall j, j < k -> let x := num (snd (fold_left step (seq 0 (S (2 * j))) s)) in (x + d < q)%N /\ lead96 (x + d) = lead96 x) ->
  apart d (fold_left step (seq 0 (2 * k)) s) (fold_left step (seq 0 (2 * k)) t).
Proof.
  induction k as [|k IH]; intros s t A H; [exact A|].
  replace (2 * S k) with (S (S (2 * k))) by lia. rewrite 2 seq_S. rewrite !fold_left_app. cbn [fold_left Nat.add].
  assert (Ek : Nat.even (2 * k) = true) by (rewrite Nat.even_mul; reflexivity).
  assert (Ok : Nat.even (S (2 * k)) = false) by (rewrite Nat.even_succ, <- Nat.negb_even, Ek; reflexivity).
  specialize (IH s t A (fun j Hj => H j (Nat.lt_lt_succ_r _ _ Hj))). specialize (H k (Nat.lt_succ_diag_r k)). cbv zeta in H.
  rewrite seq_S, fold_left_app in H. cbn [fold_left Nat.add] in H. destruct H as [H1 H2].
  destruct (even_step d _ _ (2 * k) Ek IH H1) as [F G].
  eapply odd_step; [exact Ok|exact F|reflexivity|exact G|exact H2].
Qed.
Lemma last_left s : let A := fst (fold_left step (seq 0 8) s) in length A = u /\ (num A < q)%N.
Proof.
  cbv zeta. change (seq 0 8) with (seq 0 7 ++ [7]). rewrite fold_left_app. cbn [fold_left].
  change (seq 0 7) with (seq 0 6 ++ [6]). rewrite fold_left_app. cbn [fold_left]. destruct (fold_left step (seq 0 6) s) as [A B].
  unfold step, long_enc_step. cbn [Nat.even fst]. split; [rewrite rev_length; apply length_STR|]. unfold num. rewrite num_str; apply N.mod_lt; exact q_pos.
Qed.
End Diff.

Lemma ff3_long_difference_lemma : forall E clog radix T c s s' d,
  ff3_limits clog radix T (length s) -> numeral_string radix s -> numeral_string radix s' -> length s' = length s -> fpe_init T radix = Some c ->
  let u := ceil_div (length s) 2 in
  let first x := NUM radix (rev (firstn u (map digit_of x))) in
  skipn u s' = skipn u s -> first s' = (first s + d)%N ->
  (forall i, In i [0; 2; 4; 6] -> let x := left_number E radix (firstn 8 T) (map digit_of s) i in
     (x + d < radix ^ N.of_nat u)%N /\ lead96 (x + d) = lead96 x) ->
  exists ct ct', ff3_encrypt E clog c s = Ret (ct ++ [0%N]) /\ ff3_encrypt E clog c s' = Ret (ct' ++ [0%N]) /\
    skipn u ct' = skipn u ct /\ first ct' = (first ct + d)%N.
Proof.
  intros E clog radix T c s s' d HL HN HN' LS HI u first HS HF HC.
  assert (HL' : ff3_limits clog radix T (length s')) by now rewrite LS.
  destruct (ff3_value_lemma E clog radix T c s HL HN HI) as [V _]. destruct (ff3_value_lemma E clog radix T c s' HL' HN' HI) as [V' _].
  eexists. eexists. split; [exact V|]. split; [exact V'|]. clear V V'.
  pose proof (limits3_fit clog radix T _ HL) as Hfit. cbv zeta in Hfit. destruct HL as (Hr & HT & H1 & H30 & _).
  destruct (map_chars_valid radix s Hr HN) as (_ & M2 & _). destruct (map_chars_valid radix s' Hr HN') as (_ & M2' & _).
  set (X := map digit_of s) in *. set (X' := map digit_of s') in *.
  assert (LX : length X = length s) by apply map_length. assert (LX' : length X' = length s) by (unfold X'; now rewrite map_length).
  destruct (enc_all3_ok E clog radix T (length s) Hr H1 H30 HT Hfit 0%N X M2 LX) as (D & L & _).
  destruct (enc_all3_ok E clog radix T (length s) Hr H1 H30 HT Hfit 0%N X' M2' LX') as (D' & L' & _).
  rewrite <- (long_enc_eq E radix T (length s) X LX) in D, L. rewrite <- (long_enc_eq E radix T (length s) X' LX') in D', L'.
  assert (DC : forall Y, digits radix Y -> map digit_of (map char_of Y) = Y).
  { intros Y DY. destruct (inverse_map_valid radix Y Hr DY) as (_ & I & W). rewrite W. exact I. }
  pose proof (rounds E radix (firstn 8 T) (length s) ltac:(lia) d 4 (long_start X) (long_start X')) as R.
  assert (A0 : apart radix (length s) d (long_start X) (long_start X')).
  { unfold long_start. rewrite LX, LX'. split; cbn [fst snd].
    - fold u. unfold X, X'. rewrite !skipn_map. now rewrite HS.
    - fold u. unfold first in HF. fold X X' in HF. now rewrite HF. }
  specialize (R A0). destruct R as [R1 R2].
  { intros j Hj. specialize (HC (2 * j)). unfold left_number in HC. rewrite LX in HC. apply HC. cbn [In]. lia. }
  change (2 * 4) with 8 in R1, R2.
  unfold first. rewrite !skipn_map. rewrite (DC _ D), (DC _ D').
  unfold FF3_Encrypt_long in *. change [0;1;2;3;4;5;6;7] with (seq 0 8) in *. rewrite LX in D, L |- *. rewrite LX' in D', L' |- *.
  pose proof (last_left E radix (firstn 8 T) (length s) ltac:(lia) (long_start X)) as [LA BA].
  pose proof (last_left E radix (firstn 8 T) (length s) ltac:(lia) (long_start X')) as [LA' BA'].
  assert (Hl : let x := NUM radix (rev (fst (fold_left (long_enc_step E radix (firstn 8 T) (length s)) (seq 0 8) (long_start X)))) in (x + d < radix ^ N.of_nat u)%N).
  { specialize (HC 6 ltac:(cbn [In]; lia)). destruct HC as [HC _]. unfold left_number in HC. rewrite LX in HC.
    change (seq 0 8) with (seq 0 7 ++ [7]). rewrite fold_left_app. cbn [fold_left]. destruct (fold_left _ (seq 0 7) (long_start X)) as [A B]. exact HC. }
  destruct (fold_left _ (seq 0 8) (long_start X)) as [A B]. destruct (fold_left _ (seq 0 8) (long_start X')) as [A' B']. cbn [fst snd] in *.
  fold u in LA, LA', BA, BA', R2. rewrite <- LA in R2, BA, BA', Hl, LA' |- *.
  subst B'.
  assert (SK : forall Z, length Z = length A -> skipn (length A) (Z ++ B) = B /\ firstn (length A) (Z ++ B) = Z).
  { intros Z <-. split; [rewrite skipn_app, skipn_all, Nat.sub_diag; reflexivity|rewrite firstn_app, firstn_all, Nat.sub_diag; apply app_nil_r]. }
  rewrite (proj1 (SK A eq_refl)), (proj2 (SK A eq_refl)), (proj1 (SK A' LA')), (proj2 (SK A' LA')). split; [reflexivity|].
  rewrite N.mod_small in R2 by exact BA'. rewrite R2. apply N.mod_small. exact Hl.
Qed.
Lemma fpe_small_domain_refuted_lemma : forall E clog radix T c s junk,
  block_function E -> numeral_string radix s -> fpe_init T radix = Some c -> (radix ^ N.of_nat (length s) < 100)%N ->
  (ff1_limits clog radix T (length s) -> ~ ff1_bad_tweak clog radix T (length s) ->
     exists ct, ff1_encrypt E clog c junk s = Ret (ct ++ [0%N]) /\ length ct = length s /\ numeral_string radix ct) /\
  (ff3_limits clog radix T (length s) ->
     exists ct, ff3_encrypt E clog c s = Ret (ct ++ [0%N]) /\ length ct = length s /\ numeral_string radix ct).
Proof.
  intros E clog radix T c s junk HE HN HI _. split.
  - intros HL HB. apply (ff1_format_lemma E clog radix T c s junk HE HL HB HN HI).
  - intros HL. destruct (ff3_roundtrip_lemma E clog radix T c s HL HN HI) as (ct & A & B & C & _). exists ct. auto.
Qed.
Lemma ff3_long_refuted_lemma : forall E clog radix T c s,
  ff3_limits clog radix T (length s) -> numeral_string radix s -> fpe_init T radix = Some c ->
  (2 ^ 96 < radix ^ N.of_nat (ceil_div (length s) 2))%N ->
  exists ct, ff3_encrypt E clog c s = Ret (ct ++ [0%N]) /\ length ct = length s /\ numeral_string radix ct.
Proof. intros E clog radix T c s HL HN HI _. destruct (ff3_roundtrip_lemma E clog radix T c s HL HN HI) as (ct & A & B & C & _). exists ct. auto. Qed.
