(** * Proofs about format-preserving encryption of strings with characters outside the alphabet *)
From Verif Require Import Base CbcSpec GcmSpec FpeModel FpeSpec FpeCore FpeProofs.
Local Open Scope nat_scope.

Section One.
Variables (E : list N -> list N) (clog : N -> nat -> nat) (radix : N) (T : list N) (inlen : nat).
Hypothesis HE : block_function E.
Hypothesis Hradix : (2 <= radix <= 36)%N.
Hypothesis Hlen : 2 <= inlen.
Hypothesis Hbig : (N.of_nat inlen < 2 ^ 30)%N.
Let u := inlen / 2.
Let v := inlen - u.
Let b := ceil_div (clog radix v) 8.
Hypothesis Hsize : (N.of_nat (length T) + N.of_nat b < 2 ^ 31 - 32)%N.
Hypothesis HT : bytes T.
Hypothesis Hfit : (radix ^ N.of_nat v <= 256 ^ N.of_nat b)%N.
Let c := mkfpe radix T (N.of_nat (length T) mod 2 ^ 32)%N.
Let n := ff1_setup clog c inlen.
Notation mf := (mfun inlen).
Lemma loose_round i A B Q : i < 256 -> length A = mf i -> length B = mf (S i) -> Qok clog radix T inlen Q -> (NUM radix B < 256 ^ N.of_nat b)%N ->
  ff1_enc_round E n (A, B, Q) i = Ret (enc1 E clog radix T inlen (A, B) i, Qof clog radix T inlen i (NUM radix B)).
Proof.
  intros Hi L1 L2 HQ Hf.
  unfold ff1_enc_round. unfold n, c. rewrite (fe_radix clog radix T inlen), (fe_u clog radix T inlen), (fe_v clog radix T inlen), (fe_qu clog radix T inlen), (fe_qv clog radix T inlen), (fe_inlen clog radix T inlen) by auto.
  cbv zeta. fold (mfun inlen i). rewrite (mfun_compl clog radix T inlen Hradix Hlen Hbig Hsize Hfit).
  rewrite !str2num_NUM. rewrite (firstn_all2 B) by lia. rewrite (firstn_all2 A) by lia. rewrite (Q_step clog radix T inlen) by auto.
  match goal with |- context [(NUM radix B <? ?x)%N] => destruct (N.ltb_spec (NUM radix B) x) as [_|G]; [|unfold b, v, u in Hf; lia] end.
  cbn [obind]. rewrite (F_step E clog radix T inlen) by auto. rewrite (u_pos clog radix T inlen Hradix Hlen Hbig Hsize Hfit), (mfun_q radix inlen), num2str_STR by lia. reflexivity.
Qed.
Lemma loose_encrypt s junk : length s = inlen -> ff1_assert n = true -> (NUM radix (skipn u (map_chars s)) < 256 ^ N.of_nat b)%N ->
  ff1_encrypt E clog c junk s =
    Ret (map inverse_map_char (join (fold_left (enc1 E clog radix T inlen) (seq 0 10) (firstn u (map_chars s), skipn u (map_chars s)))) ++ [0%N]) /\
  length (join (fold_left (enc1 E clog radix T inlen) (seq 0 10) (firstn u (map_chars s), skipn u (map_chars s)))) = inlen.
Proof.
  intros L HA Hf. unfold ff1_encrypt, ff1_run. rewrite L. fold n. assert (ES : ff1_sizes n = false) by (apply (sizes_ok clog radix T inlen); assumption). rewrite ES.
  rewrite HA. cbn [negb]. cbv zeta. assert (EU : n_u n = u) by (apply (fe_u clog radix T inlen); assumption). rewrite EU.
  assert (UV : u + v = inlen /\ u <= v <= S u /\ 1 <= u).
  { unfold v, u. pose proof (Nat.div_mod inlen 2 ltac:(lia)). pose proof (Nat.mod_upper_bound inlen 2 ltac:(lia)). lia. }
  set (A := firstn u (map_chars s)). set (B := skipn u (map_chars s)).
  assert (LA : length A = mf 0) by (unfold A, map_chars, mfun; cbn [Nat.odd Nat.even negb]; rewrite firstn_length, map_length; fold u; lia).
  assert (LB : length B = mf 1) by (unfold B, map_chars, mfun; cbn [Nat.odd Nat.even negb]; rewrite skipn_length, map_length; fold u; lia).
  change (seq 0 10) with (0 :: 1 :: seq 2 8). cbn [ofold fold_left].
  rewrite (loose_round 0 A B) by first [exact Hf|assumption|lia|exact (Q0_ok clog radix T inlen Hradix Hlen Hbig Hsize Hfit junk)]. cbn [obind].
  set (C := enc1 E clog radix T inlen (A, B) 0).
  assert (HC : fst C = B /\ digits radix (snd C) /\ length (snd C) = mf 0).
  { unfold C, enc1, es. cbn [fst snd]. split; [reflexivity|]. split; [apply digits_STR; lia|apply length_STR]. }
  destruct C as [B' C]. cbn [fst snd] in HC. destruct HC as (-> & DC & LC).
  rewrite (loose_round 1 B C) by first [assumption|lia|apply (fits_half clog radix T inlen Hradix Hlen Hbig Hsize Hfit 0); assumption|apply Qof_ok; auto]. cbn [obind].
  set (D := enc1 E clog radix T inlen (B, C) 1).
  assert (HD : wf radix mf 2 D).
  { unfold D, enc1, es, wf. cbn [fst snd]. repeat split; auto; [apply digits_STR; lia|apply length_STR]. }
  destruct (ofold_enc (ff1_enc_round E n) (enc1 E clog radix T inlen) (Rel1 clog radix T inlen) 256 (enc_round_ok E clog radix T inlen HE Hradix Hlen Hbig Hsize HT Hfit)
      8 2 (D, Qof clog radix T inlen 1 (NUM radix C)) D) as (s' & E1 & E2 & E3 & _); [lia| |].
  - split; [reflexivity|]. split; [exact HD|apply Qof_ok; auto].
  - rewrite E1. cbn [obind]. destruct s' as [[X Y] q]. cbn [fst] in E2. rewrite <- E2. destruct E3 as (_ & _ & L1 & L2). rewrite <- E2 in L1, L2. cbn [fst snd] in L1, L2.
    split; [reflexivity|]. unfold join. cbn [fst snd]. rewrite app_length, L1, L2. change (mf (2 + 8)) with u. change (mf (S (2 + 8))) with v. lia.
Qed.
End One.

(** FF3 *)
Section Three.
Variables (E : list N -> list N) (clog : N -> nat -> nat) (radix : N) (T : list N) (inlen : nat).
Hypothesis Hradix : (2 <= radix <= 36)%N.
Hypothesis Hlen : 1 <= inlen.
Hypothesis Hbig : (N.of_nat inlen < 2 ^ 30)%N.
Hypothesis HT : 8 <= length T.
Let u := ceil_div inlen 2.
Let v := inlen - u.
Let b := ceil_div (clog radix u) 8.
Hypothesis Hfit : (radix ^ N.of_nat u <= 256 ^ N.of_nat b)%N.
Variable tl : N.
Let c := mkfpe radix T tl.
Let n := ff3_setup clog c inlen.
Notation mf := (mfun3 inlen).
Lemma loose_round3 i A B : i < 256 -> length A = mf i -> length B = mf (S i) -> (NUM radix (rev B) < 256 ^ N.of_nat b)%N ->
  ff3_enc_round E n (A, B) i = Ret (enc3 E radix T inlen (A, B) i).
Proof.
  intros Hi L1 L2 Hf. unfold ff3_enc_round. unfold n, c.
  rewrite (ge_radix E clog radix T inlen), (ge_u E clog radix T inlen), (ge_v E clog radix T inlen), (ge_qu E clog radix T inlen), (ge_qv E clog radix T inlen), (ge_inlen E clog radix T inlen) by auto.
  cbv zeta. fold (mfun3 inlen i). rewrite (mfun3_compl E clog radix T inlen Hradix Hlen Hbig HT Hfit tl).
  rewrite !str2num_rev_NUM. rewrite (firstn_all2 B) by lia. rewrite (firstn_all2 A) by lia. rewrite (S_step E clog radix T inlen) by auto.
  match goal with |- context [(NUM radix (rev B) <? ?x)%N] => destruct (N.ltb_spec (NUM radix (rev B)) x) as [_|G]; [|unfold b, v, u in Hf; lia] end.
  cbn [obind]. rewrite (u_pos3 E clog radix T inlen Hradix Hlen Hbig HT Hfit tl), (q3 radix inlen), num2str_rev_STR by lia. reflexivity.
Qed.
Lemma loose_encrypt3 s : length s = inlen -> (NUM radix (rev (skipn u (map_chars s))) < 256 ^ N.of_nat b)%N ->
  let r := join (fold_left (enc3 E radix T inlen) (seq 0 8) (firstn u (map_chars s), skipn u (map_chars s))) in
  ff3_encrypt E clog c s = Ret (map inverse_map_char r ++ [0%N]) /\ length r = inlen.
Proof.
  intros L Hf. cbv zeta. unfold ff3_encrypt, ff3_run. rewrite L. fold n. rewrite (sizes3_ok E clog radix T inlen Hradix Hlen Hbig HT Hfit tl). cbv zeta.
  assert (EU : m_u n = u) by (apply (ge_u E clog radix T inlen); assumption). rewrite EU.
  pose proof (uv3 E clog radix T inlen Hradix Hlen Hbig HT Hfit tl) as UV. fold u v in UV.
  set (A := firstn u (map_chars s)). set (B := skipn u (map_chars s)).
  assert (LA : length A = mf 0) by (unfold A, map_chars, mfun3; cbn [Nat.odd Nat.even negb]; rewrite firstn_length, map_length; fold u; lia).
  assert (LB : length B = mf 1) by (unfold B, map_chars, mfun3; cbn [Nat.odd Nat.even negb]; rewrite skipn_length, map_length; fold u; lia).
  change (seq 0 8) with (0 :: 1 :: seq 2 6). cbn [ofold fold_left].
  rewrite (loose_round3 0 A B) by first [exact Hf|assumption|lia]. cbn [obind].
  set (C := enc3 E radix T inlen (A, B) 0).
  assert (HC : fst C = B /\ digits radix (snd C) /\ length (snd C) = mf 0).
  { unfold C, enc3, es. cbn [fst snd]. split; [reflexivity|]. split; [apply digits_rev, digits_STR; lia|rewrite rev_length; apply length_STR]. }
  destruct C as [B' C]. cbn [fst snd] in HC. destruct HC as (-> & DC & LC).
  rewrite (loose_round3 1 B C) by first [assumption|lia|apply (fits3 E clog radix T inlen Hradix Hlen Hbig HT Hfit tl 0); assumption]. cbn [obind].
  set (D := enc3 E radix T inlen (B, C) 1).
  assert (HD : wf radix mf 2 D).
  { unfold D, enc3, es, wf. cbn [fst snd]. repeat split; auto; [apply digits_rev, digits_STR; lia|rewrite rev_length; apply length_STR]. }
  destruct (ofold_enc (ff3_enc_round E n) (enc3 E radix T inlen) (Rel3 radix inlen) 256 (enc_round3_ok E clog radix T inlen Hradix Hlen Hbig HT Hfit tl)
      6 2 D D) as (s' & E1 & E2 & E3); [lia|split; [reflexivity|exact HD]|].
  rewrite E1. cbn [obind]. destruct s' as [X Y]. rewrite <- E2 in E3 |- *. destruct E3 as (_ & _ & L1 & L2). cbn [fst snd] in L1, L2.
  split; [reflexivity|]. unfold join. cbn [fst snd]. rewrite app_length, L1, L2. change (mf (2 + 6)) with u. change (mf (S (2 + 6))) with v. lia.
Qed.
End Three.

Definition returns_string (radix : N) (len : nat) (o : outcome (list N)) : Prop :=
  exists ct, o = Ret (ct ++ [0%N]) /\ length ct = len /\ numeral_string radix ct.
Lemma alphabet_inj radix o r : (exists o', o = o' ++ [0%N] /\ numeral_string radix o') -> o = r ++ [0%N] -> numeral_string radix r.
Proof. intros (o' & E1 & E2) E3. rewrite E1 in E3. apply app_inj_tail in E3 as [<- _]. exact E2. Qed.
Lemma ff1_returns_iff_lemma : forall E clog radix T c s junk,
  block_function E -> ff1_limits clog radix T (length s) -> ~ ff1_bad_tweak clog radix T (length s) -> fpe_init T radix = Some c ->
  let B := skipn (length s / 2) (map map_char s) in
  let b := ceil_div (clog radix (length s - length s / 2)) 8 in
  ((NUM radix B < 256 ^ N.of_nat b)%N -> returns_string radix (length s) (ff1_encrypt E clog c junk s)) /\
  ((256 ^ N.of_nat b <= NUM radix B)%N -> ff1_encrypt E clog c junk s = Undef).
Proof.
  intros E clog radix T c s junk HE HL HB HI B b. split; [|intros H; eapply ff1_overflow; eauto].
  intros H. pose proof HI as HI'. destruct (ff1_ready E clog radix T c s HL HB HI) as (Hfit & HA & ->). destruct HL as (Hr & HT & H2 & H30 & HC & HS). cbv zeta in *.
  destruct (loose_encrypt E clog radix T (length s) HE Hr H2 H30 HS HT Hfit s junk eq_refl HA H) as [E1 E2].
  eexists. split; [exact E1|]. split; [rewrite map_length; exact E2|]. eapply alphabet_inj; [|reflexivity].
  eapply ff1_alphabet; [exact HI'|left; exact E1].
Qed.
Lemma ff3_returns_iff_lemma : forall E clog radix T c s,
  ff3_limits clog radix T (length s) -> fpe_init T radix = Some c ->
  let B := skipn (ceil_div (length s) 2) (map map_char s) in
  let b := ceil_div (clog radix (ceil_div (length s) 2)) 8 in
  ((NUM radix (rev B) < 256 ^ N.of_nat b)%N -> returns_string radix (length s) (ff3_encrypt E clog c s)) /\
  ((256 ^ N.of_nat b <= NUM radix (rev B))%N -> ff3_encrypt E clog c s = Undef).
Proof.
  intros E clog radix T c s HL HI B b. split; [|intros H; eapply ff3_overflow; eauto].
  intros H. pose proof HI as HI'. apply init_ctx in HI as ->. pose proof (limits3_fit clog radix T _ HL) as Hfit. destruct HL as (Hr & HT & H2 & H30 & HC). cbv zeta in *.
  destruct (loose_encrypt3 E clog radix T (length s) Hr H2 H30 HT Hfit (N.of_nat (length T) mod 2 ^ 32)%N s eq_refl H) as [E1 E2].
  eexists. split; [exact E1|]. split; [rewrite map_length; exact E2|]. eapply alphabet_inj; [|reflexivity].
  eapply ff3_alphabet; [exact HI'|left; exact E1].
Qed.

(** the first half enters modulo radix^u only *)
Lemma ff1_first_round E n A A' B Q : (str2num (firstn (n_u n) A) (n_radix n) mod n_qu n = str2num (firstn (n_u n) A') (n_radix n) mod n_qu n)%N ->
  n_qu n <> 0%N -> ff1_enc_round E n (A, B, Q) 0 = ff1_enc_round E n (A', B, Q) 0.
Proof.
  intros H Hq. unfold ff1_enc_round. cbn [Nat.odd Nat.even negb]. rewrite Nat.eqb_refl. cbv zeta.
  destruct (ff1_Q n Q 0 _) as [Q'| |]; [|reflexivity|reflexivity]. cbn [obind].
  rewrite (N.add_mod (str2num (firstn (n_u n) A) _)), H, <- N.add_mod by exact Hq. reflexivity.
Qed.
Lemma ff3_first_round E n A A' B : (str2num_rev (firstn (m_u n) A) (m_radix n) mod m_qu n = str2num_rev (firstn (m_u n) A') (m_radix n) mod m_qu n)%N ->
  m_qu n <> 0%N -> ff3_enc_round E n (A, B) 0 = ff3_enc_round E n (A', B) 0.
Proof.
  intros H Hq. unfold ff3_enc_round. cbn [Nat.odd Nat.even negb]. cbv zeta.
  destruct (ff3_S E n 0 _) as [S'| |]; [|reflexivity|reflexivity]. cbn [obind].
  rewrite (N.add_mod (str2num_rev (firstn (m_u n) A) _)), H, <- N.add_mod by exact Hq. reflexivity.
Qed.
Lemma fpe_first_half_lemma : forall E clog radix T c s s' junk,
  fpe_init T radix = Some c -> length s' = length s ->
  (let u := length s / 2 in skipn u s' = skipn u s ->
     (NUM radix (map map_char (firstn u s')) mod radix ^ N.of_nat u = NUM radix (map map_char (firstn u s)) mod radix ^ N.of_nat u)%N ->
     ff1_encrypt E clog c junk s' = ff1_encrypt E clog c junk s) /\
  (let u := ceil_div (length s) 2 in skipn u s' = skipn u s ->
     (NUM radix (rev (map map_char (firstn u s'))) mod radix ^ N.of_nat u = NUM radix (rev (map map_char (firstn u s))) mod radix ^ N.of_nat u)%N ->
     ff3_encrypt E clog c s' = ff3_encrypt E clog c s).
Proof.
  intros E clog radix T c s s' junk HI L. assert (Hr : (2 <= radix <= 36)%N) by (apply (fpe_init_accepts_lemma T radix); rewrite HI; discriminate).
  apply init_ctx in HI as ->. split; cbv zeta; intros HS HN.
  - unfold ff1_encrypt, ff1_run. rewrite L. set (n := ff1_setup clog _ (length s)). destruct (ff1_sizes n); [reflexivity|]. destruct (ff1_assert n); [|reflexivity]. cbn [negb].
    change (seq 0 10) with (0 :: seq 1 9). cbn [ofold]. f_equal.
    assert (EU : n_u n = length s / 2) by (unfold n, ff1_setup; destruct (pow_uv _ _ _); reflexivity).
    assert (ER : n_radix n = radix) by (unfold n, ff1_setup; destruct (pow_uv _ _ _); reflexivity).
    assert (EQ : n_qu n = (radix ^ N.of_nat (length s / 2))%N).
    { unfold n, ff1_setup. cbn [f_radix]. change (floor2 (length s) 1) with (length s / 2). pose proof (Nat.div_mod (length s) 2 ltac:(lia)). pose proof (Nat.mod_upper_bound (length s) 2 ltac:(lia)). rewrite pow_uv_spec by lia. reflexivity. }
    rewrite EU. unfold map_chars. rewrite !skipn_map, HS, !firstn_map. f_equal.
    apply ff1_first_round; [|rewrite EQ; apply N.pow_nonzero; lia]. rewrite EU, ER, EQ, !str2num_NUM. rewrite !firstn_map, !firstn_firstn, !Nat.min_id. exact HN.
  - unfold ff3_encrypt, ff3_run. rewrite L. set (n := ff3_setup clog _ (length s)). destruct (ff3_sizes (length s)); [reflexivity|].
    change (seq 0 8) with (0 :: seq 1 7). cbn [ofold]. f_equal.
    assert (EU : m_u n = ceil_div (length s) 2) by (unfold n, ff3_setup; destruct (pow_uv _ _ _); cbn [m_u]; rewrite ceil2_div; reflexivity).
    assert (ER : m_radix n = radix) by (unfold n, ff3_setup; destruct (pow_uv _ _ _); reflexivity).
    assert (EQ : m_qu n = (radix ^ N.of_nat (ceil_div (length s) 2))%N).
    { unfold n, ff3_setup. cbn [f_radix]. rewrite !ceil2_div. change (2 ^ 1) with 2. unfold ceil_div. pose proof (Nat.div_mod (length s + 2 - 1) 2 ltac:(lia)). pose proof (Nat.mod_upper_bound (length s + 2 - 1) 2 ltac:(lia)). rewrite pow_uv_spec by lia. reflexivity. }
    rewrite EU. unfold map_chars. rewrite !skipn_map, HS, !firstn_map. f_equal.
    apply ff3_first_round; [|rewrite EQ; apply N.pow_nonzero; lia]. rewrite EU, ER, EQ, !str2num_rev_NUM. rewrite !firstn_map, !firstn_firstn, !Nat.min_id. exact HN.
Qed.
Lemma valid_first_half radix u (s : list N) : (2 <= radix <= 36)%N -> u <= length s -> numeral_string radix (skipn u s) ->
  forall Y, digits radix Y -> length Y = u ->
  let s' := map inverse_map_char Y ++ skipn u s in
  numeral_string radix s' /\ length s' = length s /\ skipn u s' = skipn u s /\ map map_char (firstn u s') = Y.
Proof.
  intros Hr Hu HS Y DY LY s'. destruct (inverse_map_valid radix Y Hr DY) as (V & I & _). 
  destruct (map_chars_valid radix (map inverse_map_char Y) Hr V) as (M & _).
  assert (LM : length (map inverse_map_char Y) = u) by (now rewrite map_length).
  split; [apply Forall_app; split; [exact V|exact HS]|]. split; [unfold s'; rewrite app_length, skipn_length; lia|].
  unfold s'. split.
  - rewrite skipn_app, LM, Nat.sub_diag, skipn_all2 by lia. reflexivity.
  - rewrite firstn_app, LM, Nat.sub_diag, firstn_O, app_nil_r, firstn_all2 by lia. unfold map_chars in M. rewrite M. exact I.
Qed.
Lemma fpe_invalid_collides_lemma : forall E clog radix T c s junk, fpe_init T radix = Some c ->
  (numeral_string radix (skipn (length s / 2) s) ->
     exists s', numeral_string radix s' /\ length s' = length s /\ ff1_encrypt E clog c junk s' = ff1_encrypt E clog c junk s) /\
  (numeral_string radix (skipn (ceil_div (length s) 2) s) ->
     exists s', numeral_string radix s' /\ length s' = length s /\ ff3_encrypt E clog c s' = ff3_encrypt E clog c s).
Proof.
  intros E clog radix T c s junk HI. assert (Hr : (2 <= radix <= 36)%N) by (apply (fpe_init_accepts_lemma T radix); rewrite HI; discriminate).
  split; intros HS.
  - set (u := length s / 2) in *. set (x := (NUM radix (map map_char (firstn u s)) mod radix ^ N.of_nat u)%N).
    assert (Hx : (x < radix ^ N.of_nat u)%N) by (apply N.mod_lt, N.pow_nonzero; lia).
    assert (Hu : u <= length s) by (unfold u; apply Nat.div_le_upper_bound; lia).
    destruct (valid_first_half radix u s Hr Hu HS (STR radix u x)) as (V & L & K & M); [apply digits_STR; lia|apply length_STR|].
    eexists. split; [exact V|]. split; [exact L|]. apply (proj1 (fpe_first_half_lemma E clog radix T c s _ junk HI L)); [exact K|].
    fold u. rewrite M, NUM_STR by (try lia; exact Hx). unfold x at 1. apply N.mod_mod, N.pow_nonzero. lia.
  - set (u := ceil_div (length s) 2) in *. set (x := (NUM radix (rev (map map_char (firstn u s))) mod radix ^ N.of_nat u)%N).
    assert (Hx : (x < radix ^ N.of_nat u)%N) by (apply N.mod_lt, N.pow_nonzero; lia).
    assert (Hu : u <= length s).
    { unfold u, ceil_div. destruct (length s) as [|k]; [cbn; lia|]. apply Nat.div_le_upper_bound; lia. }
    destruct (valid_first_half radix u s Hr Hu HS (rev (STR radix u x))) as (V & L & K & M);
      [apply digits_rev, digits_STR; lia|rewrite rev_length; apply length_STR|].
    eexists. split; [exact V|]. split; [exact L|]. apply (proj2 (fpe_first_half_lemma E clog radix T c s _ junk HI L)); [exact K|].
    fold u. rewrite M, rev_involutive, NUM_STR by (try lia; exact Hx). unfold x at 1. apply N.mod_mod, N.pow_nonzero. lia.
Qed.
