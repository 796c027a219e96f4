(** * Proofs of the properties of src/fpe *)
From Coq Require Import ZArith Lia List Bool.
From Verif Require Import Base CbcModel CbcSpec GcmModel GcmSpec GfProofs GcmProofs FpeModel FpeSpec FpeCore.
Local Open Scope nat_scope.

(** ** from the limits of the specification to the hypotheses of the sections *)
Lemma init_ctx T radix c : fpe_init T radix = Some c -> c = mkfpe radix T (N.of_nat (length T) mod 2 ^ 32)%N.
Proof. unfold fpe_init. destruct (_ || _); [discriminate|]. now intros [= <-]. Qed.
Lemma limits_fit clog radix T len : ff1_limits clog radix T len ->
  let v := len - len / 2 in (radix ^ N.of_nat v <= 256 ^ N.of_nat (ceil_div (clog radix v) 8))%N.
Proof.
  intros (Hr & HT & H2 & H30 & HC & HS). cbv zeta. eapply ceil_log_fits; [apply Hr|exact HC|]. rewrite ceil2_div. reflexivity.
Qed.
Lemma ff1_ready (E : list N -> list N) clog radix T c (s : list N) : ff1_limits clog radix T (length s) -> ~ ff1_bad_tweak clog radix T (length s) ->
  fpe_init T radix = Some c ->
  (let v := length s - length s / 2 in (radix ^ N.of_nat v <= 256 ^ N.of_nat (ceil_div (clog radix v) 8))%N) /\
  ff1_assert (ff1_setup clog (mkfpe radix T (N.of_nat (length T) mod 2 ^ 32)%N) (length s)) = true /\
  c = mkfpe radix T (N.of_nat (length T) mod 2 ^ 32)%N.
Proof.
  intros HL HB HI. pose proof (limits_fit clog radix T _ HL) as HF. cbv zeta in HF. split; [exact HF|]. split; [|now apply init_ctx].
  destruct HL as (Hr & HT & H2 & H30 & HC & HS). cbv zeta in *.
  rewrite assert_iff by auto. rewrite pad_zero by auto. apply negb_true_iff, andb_false_iff. rewrite !Nat.eqb_neq.
  destruct (Nat.eq_dec (length T) 0) as [L|L]; [right|now left]. intros HM. apply HB. split; [now apply length_zero_iff_nil|].
  rewrite L in HM. cbn [Nat.add] in HM. set (b := ceil_div _ 8) in *. clearbody b.
  pose proof (Nat.div_mod (b + 1) 16 ltac:(lia)). pose proof (Nat.div_mod b 16 ltac:(lia)). pose proof (Nat.mod_upper_bound b 16 ltac:(lia)). lia.
Qed.
Lemma ff1_not_ready (E : list N -> list N) clog radix T c (s : list N) : ff1_limits clog radix T (length s) -> ff1_bad_tweak clog radix T (length s) ->
  fpe_init T radix = Some c ->
  ff1_sizes (ff1_setup clog c (length s)) = false /\ ff1_assert (ff1_setup clog c (length s)) = false.
Proof.
  intros HL HB HI. apply init_ctx in HI as ->. pose proof (limits_fit clog radix T _ HL) as HF.
  destruct HL as (Hr & HT & H2 & H30 & HC & HS). cbv zeta in *. destruct HB as [-> HB]. 
  split; [now apply sizes_ok|]. rewrite assert_iff by auto. rewrite pad_zero by auto. apply negb_false_iff, andb_true_iff. rewrite !Nat.eqb_eq.
  split; [reflexivity|]. cbn [length Nat.add]. set (b := ceil_div _ 8) in *. clearbody b.
  pose proof (Nat.div_mod (b + 1) 16 ltac:(lia)). pose proof (Nat.div_mod b 16 ltac:(lia)). pose proof (Nat.mod_upper_bound (b + 1) 16 ltac:(lia)). lia.
Qed.
Lemma one_char_abort E clog radix T c x junk :
  (2 <= radix <= 36)%N -> ceil_log radix 1 <= clog radix 1 ->
  (N.of_nat (length T) + N.of_nat (ceil_div (clog radix 1%nat) 8) < 2 ^ 31 - 32)%N -> 
  numeral_string radix [x] -> fpe_init T radix = Some c -> ff1_encrypt E clog c junk [x] = Abort.
Proof.
  intros Hr HC HS HN HI. apply init_ctx in HI as ->. destruct (map_chars_valid radix [x] Hr HN) as (M1 & M2 & _).
  unfold ff1_encrypt, ff1_run. cbn [length].
  set (c := mkfpe radix T _). set (n := ff1_setup clog c 1).
  assert (Eu : n_u n = 0) by reflexivity. assert (Ev : n_v n = 1) by reflexivity. assert (Ei : n_inlen n = 1) by reflexivity.
  assert (Er : n_radix n = radix) by reflexivity. 
  assert (Eb : n_b n = ceil_div (clog radix 1) 8) by (transitivity (ceil2 (clog radix 1) 3); [reflexivity|apply ceil2_div]).
  destruct (ff1_sizes n) eqn:ES.
  { exfalso. unfold ff1_sizes in ES. rewrite Ei in ES. cbn [Nat.eqb orb] in ES. change (2 ^ 30 <=? N.of_nat 1)%N with false in ES. cbn [orb] in ES.
    apply N.leb_le in ES. assert (EQ : n_Qlen n = n_t n + n_pad n + 1 + n_b n) by reflexivity.
    assert (ET : n_t n = length T).
    { transitivity (N.to_nat (N.of_nat (length T) mod 2 ^ 32)); [reflexivity|]. rewrite N.mod_small; [apply Nat2N.id|].
      change (2 ^ 31)%N with 2147483648%N in HS. change (2 ^ 32)%N with 4294967296%N. lia. }
    assert (EP : n_pad n < 16).
    { unfold n, ff1_setup. destruct (pow_uv _ _ _). cbn [n_pad]. match goal with |- N.to_nat (?a mod 16) < 16 => pose proof (N.mod_lt a 16 ltac:(discriminate)) end. lia. }
    change (2 ^ 31)%N with 2147483648%N in *. lia. }
  destruct (negb (ff1_assert n)); [reflexivity|]. cbv zeta. rewrite M1, Eu. cbn [map firstn skipn].
  change (seq 0 10) with (0 :: seq 1 9). cbn [ofold]. unfold ff1_enc_round at 1. rewrite Eu, Ei, Er. cbn [Nat.odd Nat.even negb Nat.sub firstn].
  unfold ff1_Q at 1. rewrite Eb, length_bn2bin.
  destruct (Nat.ltb_spec (ceil_div (clog radix 1) 8) (bn_bytes (str2num [digit_of x] radix))) as [G|G].
  - exfalso. assert (G' : bn_bytes (str2num [digit_of x] radix) <= ceil_div (clog radix 1) 8); [|lia].
    apply bn_bytes_le. rewrite str2num_NUM. cbn [map] in M2. eapply N.lt_le_trans; [apply NUM_bound, M2|].
    eapply ceil_log_fits; [apply Hr|exact HC|]. rewrite ceil2_div. reflexivity.
  - reflexivity.
Qed.
Lemma numeral_check radix s : forallb (fun c => existsb (N.eqb c) (alphabet radix)) s = true -> numeral_string radix s.
Proof.
  rewrite forallb_forall. intros H. apply Forall_forall. intros x Hx. apply H in Hx. apply existsb_exists in Hx as (y & Hy & EQ).
  apply N.eqb_eq in EQ. now subst.
Qed.

Lemma limits3_fit clog radix T len : ff3_limits clog radix T len ->
  let u := ceil_div len 2 in (radix ^ N.of_nat u <= 256 ^ N.of_nat (ceil_div (clog radix u) 8))%N.
Proof.
  intros (Hr & HT & H2 & H30 & HC). cbv zeta. eapply ceil_log_fits; [apply Hr|exact HC|]. rewrite ceil2_div. reflexivity.
Qed.
(** ** outputs are numerals, whatever the input *)
Lemma ofold_app {A I} (f : A -> I -> outcome A) l1 l2 a : ofold f (l1 ++ l2) a = obind (ofold f l1 a) (ofold f l2).
Proof.
  revert a. induction l1 as [|i l1 IH]; intros a; [reflexivity|]. cbn [app ofold]. destruct (f a i); cbn [obind]; auto.
Qed.
Lemma obind_Ret {A B} (o : outcome A) (f : A -> outcome B) r : obind o f = Ret r -> exists a, o = Ret a /\ f a = Ret r.
Proof. destruct o; cbn [obind]; intros H; try discriminate. eauto. Qed.
Lemma digits_num2str radix x m : (radix <> 0)%N -> digits radix (num2str x radix m).
Proof. intros H. rewrite num2str_STR by auto. now apply digits_STR. Qed.
Lemma digits_num2str_rev radix x m : (radix <> 0)%N -> digits radix (num2str_rev x radix m).
Proof. intros H. rewrite num2str_rev_STR by auto. now apply digits_rev, digits_STR. Qed.
Lemma enc_round_shape E n s i s' : ff1_enc_round E n s i = Ret s' ->
  fst (fst s') = snd (fst s) /\ exists x m, snd (fst s') = num2str x (n_radix n) m.
Proof.
  destruct s as [[A B] Q]. unfold ff1_enc_round. intros H. apply obind_Ret in H as (Q' & _ & H).
  destruct (n_u n =? 0); [discriminate|]. injection H as <-. cbn [fst snd]. eauto.
Qed.
Lemma dec_round_shape E n s i s' : ff1_dec_round E n s i = Ret s' ->
  snd (fst s') = fst (fst s) /\ exists x m, fst (fst s') = num2str x (n_radix n) m.
Proof.
  destruct s as [[A B] Q]. unfold ff1_dec_round. intros H. apply obind_Ret in H as (Q' & _ & H).
  destruct (n_u n =? 0); [discriminate|]. injection H as <-. cbn [fst snd]. eauto.
Qed.
Lemma numerals_of radix X : (2 <= radix <= 36)%N -> digits radix X -> numeral_string radix (map inverse_map_char X).
Proof. intros Hr H. now apply inverse_map_valid. Qed.
Lemma init_radix T radix c : fpe_init T radix = Some c -> (2 <= radix <= 36)%N.
Proof. unfold fpe_init. destruct (N.ltb_spec radix 2), (N.ltb_spec 36 radix); cbn [orb]; try discriminate. lia. Qed.
Lemma setup_radix clog c k : n_radix (ff1_setup clog c k) = f_radix c.
Proof. unfold ff1_setup. destruct (pow_uv _ _ _). reflexivity. Qed.
Lemma setup3_radix clog c k : m_radix (ff3_setup clog c k) = f_radix c.
Proof. unfold ff3_setup. destruct (pow_uv _ _ _). reflexivity. Qed.
Lemma setup3_tweak clog c k : m_tweak (ff3_setup clog c k) = f_tweak c.
Proof. unfold ff3_setup. destruct (pow_uv _ _ _). reflexivity. Qed.
Lemma ff1_alphabet E clog radix T c s junk o : fpe_init T radix = Some c ->
  ff1_encrypt E clog c junk s = Ret o \/ ff1_decrypt E clog c junk s = Ret o ->
  exists o', o = o' ++ [0%N] /\ numeral_string radix o'.
Proof.
  intros HI. pose proof (init_radix _ _ _ HI) as Hr. apply init_ctx in HI as ->.
  assert (NZ : (radix <> 0)%N) by lia.
  intros [H|H]; [unfold ff1_encrypt in H|unfold ff1_decrypt in H]; unfold ff1_run in H; cbv zeta in H;
    set (n := ff1_setup clog _ (length s)) in *; assert (ER : n_radix n = radix) by apply setup_radix;
    (destruct (ff1_sizes n); [discriminate|]); (destruct (negb (ff1_assert n)); [discriminate|]);
    apply obind_Ret in H as ([[A B] Q] & H & HO); injection HO as <-; exists (map inverse_map_char (A ++ B)); (split; [reflexivity|]);
    apply numerals_of; auto.
  - change (seq 0 10) with (seq 0 8 ++ [8; 9]) in H. rewrite ofold_app in H. apply obind_Ret in H as (s1 & _ & H). cbn [ofold] in H.
    apply obind_Ret in H as (s2 & H8 & H). apply obind_Ret in H as (s3 & H9 & H). injection H as ->.
    apply enc_round_shape in H8 as (_ & x & m & H8). apply enc_round_shape in H9 as (H9 & x' & m' & H9').
    cbn [fst snd] in *. rewrite H9, H9', H8, ER. apply digits_app. auto using digits_num2str.
  - change (rev (seq 0 10)) with ([9; 8; 7; 6; 5; 4; 3; 2] ++ [1; 0]) in H. rewrite ofold_app in H. apply obind_Ret in H as (s1 & _ & H). cbn [ofold] in H.
    apply obind_Ret in H as (s2 & H8 & H). apply obind_Ret in H as (s3 & H9 & H). injection H as ->.
    apply dec_round_shape in H8 as (_ & x & m & H8). apply dec_round_shape in H9 as (H9 & x' & m' & H9').
    cbn [fst snd] in *. rewrite H9, H9', H8, ER. apply digits_app. auto using digits_num2str.
Qed.
Lemma enc_round3_shape E n s i s' : ff3_enc_round E n s i = Ret s' ->
  fst s' = snd s /\ exists x m, snd s' = num2str_rev x (m_radix n) m.
Proof.
  destruct s as [A B]. unfold ff3_enc_round. intros H. apply obind_Ret in H as (Q' & _ & H).
  destruct (m_u n =? 0); [discriminate|]. injection H as <-. cbn [fst snd]. eauto.
Qed.
Lemma dec_round3_shape E n s i s' : ff3_dec_round E n s i = Ret s' ->
  snd s' = fst s /\ exists x m, fst s' = num2str_rev x (m_radix n) m.
Proof.
  destruct s as [A B]. unfold ff3_dec_round. intros H. apply obind_Ret in H as (Q' & _ & H).
  destruct (m_u n =? 0); [discriminate|]. injection H as <-. cbn [fst snd]. eauto.
Qed.
Lemma ff3_alphabet E clog radix T c s o : fpe_init T radix = Some c ->
  ff3_encrypt E clog c s = Ret o \/ ff3_decrypt E clog c s = Ret o ->
  exists o', o = o' ++ [0%N] /\ numeral_string radix o'.
Proof.
  intros HI. pose proof (init_radix _ _ _ HI) as Hr. apply init_ctx in HI as ->.
  assert (NZ : (radix <> 0)%N) by lia.
  intros [H|H]; [unfold ff3_encrypt in H|unfold ff3_decrypt in H]; unfold ff3_run in H; cbv zeta in H;
    set (n := ff3_setup clog _ (length s)) in *; assert (ER : m_radix n = radix) by apply setup3_radix;
    (destruct (ff3_sizes (length s)); [discriminate|]);
    apply obind_Ret in H as ([A B] & H & HO); injection HO as <-; exists (map inverse_map_char (A ++ B)); (split; [reflexivity|]);
    apply numerals_of; auto.
  - change (seq 0 8) with (seq 0 6 ++ [6; 7]) in H. rewrite ofold_app in H. apply obind_Ret in H as (s1 & _ & H). cbn [ofold] in H.
    apply obind_Ret in H as (s2 & H8 & H). apply obind_Ret in H as (s3 & H9 & H). injection H as ->.
    apply enc_round3_shape in H8 as (_ & x & m & H8). apply enc_round3_shape in H9 as (H9 & x' & m' & H9').
    cbn [fst snd] in *. rewrite H9, H9', H8, ER. apply digits_app. auto using digits_num2str_rev.
  - change (rev (seq 0 8)) with ([7; 6; 5; 4; 3; 2] ++ [1; 0]) in H. rewrite ofold_app in H. apply obind_Ret in H as (s1 & _ & H). cbn [ofold] in H.
    apply obind_Ret in H as (s2 & H8 & H). apply obind_Ret in H as (s3 & H9 & H). injection H as ->.
    apply dec_round3_shape in H8 as (_ & x & m & H8). apply dec_round3_shape in H9 as (H9 & x' & m' & H9').
    cbn [fst snd] in *. rewrite H9, H9', H8, ER. apply digits_app. auto using digits_num2str_rev.
Qed.
Lemma ff3_short_tweak E clog radix T c s : length T < 8 -> s <> [] -> fpe_init T radix = Some c -> ff3_encrypt E clog c s = Undef.
Proof.
  intros L NE HI. apply init_ctx in HI as ->. unfold ff3_encrypt, ff3_run. cbv zeta. destruct (ff3_sizes (length s)); [reflexivity|].
  change (seq 0 8) with (0 :: seq 1 7). cbn [ofold]. unfold ff3_enc_round at 1. unfold ff3_S. rewrite setup3_tweak.
  cbn [f_tweak Nat.odd Nat.even negb]. unfold read_at. destruct (Nat.leb_spec (4 + 4) (length T)); [lia|]. reflexivity.
Qed.
Lemma gmac_short_tweak E clog radix T c s : length T < 16 -> fpe_init T radix = Some c ->
  ff3_gmac_encrypt E clog c s = Undef /\ ff3_gmac_decrypt E clog c s = Undef.
Proof.
  intros L HI. apply init_ctx in HI as ->. unfold ff3_gmac_encrypt, ff3_gmac_decrypt, gmac_run. cbv zeta.
  destruct (ff3_sizes (length s)); [auto|]. unfold ff3_setup. cbn [f_radix f_tweak]. destruct (pow_uv _ _ _). cbn [m_tweak].
  unfold read_at. destruct (Nat.leb_spec (0 + 16) (length T)); [lia|]. auto.
Qed.
(** ** oversized halves *)
Lemma ff1_overflow E clog radix T c s junk :
  ff1_limits clog radix T (length s) -> ~ ff1_bad_tweak clog radix T (length s) -> fpe_init T radix = Some c ->
  (256 ^ N.of_nat (ceil_div (clog radix (length s - length s / 2)%nat) 8) <= NUM radix (skipn (length s / 2) (map map_char s)))%N ->
  ff1_encrypt E clog c junk s = Undef.
Proof.
  intros HL HB HI HX. destruct (ff1_ready E clog radix T c s HL HB HI) as (Hfit & HA & ->). destruct HL as (Hr & HT & H2 & H30 & HC & HS). cbv zeta in *.
  unfold ff1_encrypt, ff1_run. rewrite (sizes_ok clog radix T (length s)), HA by auto. cbn [negb]. cbv zeta.
  change (seq 0 10) with (0 :: seq 1 9). cbn [ofold]. unfold ff1_enc_round at 1.
  rewrite (Q_step clog radix T (length s)) by (auto; apply Q0_ok; auto).
  rewrite str2num_NUM, (fe_u clog radix T (length s)), (fe_inlen clog radix T (length s)), (fe_radix clog radix T (length s)) by auto. cbn [Nat.odd Nat.even negb].
  rewrite firstn_all2 by (rewrite skipn_length; unfold map_chars; rewrite map_length; lia). unfold map_chars.
  match goal with |- context [(?a <? ?b)%N] => destruct (N.ltb_spec a b) as [G|G]; [lia|] end. reflexivity.
Qed.
Lemma ff3_overflow E clog radix T c s :
  ff3_limits clog radix T (length s) -> fpe_init T radix = Some c ->
  (256 ^ N.of_nat (ceil_div (clog radix (ceil_div (length s) 2)) 8) <= NUM radix (rev (skipn (ceil_div (length s) 2) (map map_char s))))%N ->
  ff3_encrypt E clog c s = Undef.
Proof.
  intros HL HI HX. apply init_ctx in HI as ->. pose proof (limits3_fit clog radix T _ HL) as Hfit. destruct HL as (Hr & HT & H2 & H30 & HC). cbv zeta in *.
  unfold ff3_encrypt, ff3_run. rewrite (sizes3_ok E clog radix T) by auto. cbv zeta.
  change (seq 0 8) with (0 :: seq 1 7). cbn [ofold]. unfold ff3_enc_round at 1.
  rewrite (S_step E clog radix T (length s)) by (auto; lia).
  rewrite str2num_rev_NUM, (ge_u E clog radix T (length s)), (ge_inlen E clog radix T (length s)), (ge_radix E clog radix T (length s)) by auto. cbn [Nat.odd Nat.even negb].
  rewrite firstn_all2 by (rewrite skipn_length; unfold map_chars; rewrite map_length; lia). unfold map_chars.
  match goal with |- context [(?a <? ?b)%N] => destruct (N.ltb_spec a b) as [G|G]; [lia|] end. reflexivity.
Qed.

Local Open Scope nat_scope.
Lemma fpe_init_accepts_lemma : forall T radix,
  fpe_init T radix <> None <-> (2 <= radix <= 36)%N.
Proof.
  intros T radix. unfold fpe_init. destruct (N.ltb_spec radix 2); destruct (N.ltb_spec 36 radix); cbn [orb]; split; intros H'; try lia; try congruence.
Qed.

Lemma ff1_roundtrip_lemma : forall E clog radix T c s junk junk',
  block_function E -> ff1_limits clog radix T (length s) -> ~ ff1_bad_tweak clog radix T (length s) ->
  numeral_string radix s -> fpe_init T radix = Some c ->
  exists ct, ff1_encrypt E clog c junk s = Ret (ct ++ [0%N]) /\ ff1_decrypt E clog c junk' ct = Ret (s ++ [0%N]).
Proof.
  intros E clog radix T c s junk junk' HE HL HB HN HI.
  destruct (ff1_ready E clog radix T c s HL HB HI) as (Hfit & HA & ->). destruct HL as (Hr & HT & H2 & H30 & HC & HS). cbv zeta in HC, HS.
  destruct (map_chars_valid radix s Hr HN) as (_ & M2 & M3).
  assert (LX : length (map digit_of s) = length s) by apply map_length.
  destruct (enc_all_ok E clog radix T (length s) Hr H2 H30 HS Hfit _ M2 LX) as (D & L & R).
  set (X := enc_all E clog radix T (length s) (map digit_of s)) in *.
  destruct (inverse_map_valid radix X Hr D) as (V & I & _).
  exists (map inverse_map_char X). split.
  - exact (encrypt_ok E clog radix T (length s) HE Hr H2 H30 HS HT Hfit junk s HN eq_refl HA).
  - assert (LE : length (map inverse_map_char X) = length s) by (now rewrite map_length).
    rewrite (decrypt_ok E clog radix T (length s) HE Hr H2 H30 HS HT Hfit junk' _ V LE HA). rewrite I, R, M3. reflexivity.
Qed.

Lemma ff1_roundtrip_dec_lemma : forall E clog radix T c s junk junk',
  block_function E -> ff1_limits clog radix T (length s) -> ~ ff1_bad_tweak clog radix T (length s) ->
  numeral_string radix s -> fpe_init T radix = Some c ->
  exists pt, ff1_decrypt E clog c junk s = Ret (pt ++ [0%N]) /\ ff1_encrypt E clog c junk' pt = Ret (s ++ [0%N]).
Proof.
  intros E clog radix T c s junk junk' HE HL HB HN HI.
  destruct (ff1_ready E clog radix T c s HL HB HI) as (Hfit & HA & ->). destruct HL as (Hr & HT & H2 & H30 & HC & HS). cbv zeta in HC, HS.
  destruct (map_chars_valid radix s Hr HN) as (_ & M2 & M3).
  assert (LX : length (map digit_of s) = length s) by apply map_length.
  destruct (dec_all_ok E clog radix T (length s) Hr H2 H30 HS Hfit _ M2 LX) as (D & L & R).
  set (X := dec_all E clog radix T (length s) (map digit_of s)) in *.
  destruct (inverse_map_valid radix X Hr D) as (V & I & _).
  exists (map inverse_map_char X). split.
  - exact (decrypt_ok E clog radix T (length s) HE Hr H2 H30 HS HT Hfit junk s HN eq_refl HA).
  - assert (LE : length (map inverse_map_char X) = length s) by (now rewrite map_length).
    rewrite (encrypt_ok E clog radix T (length s) HE Hr H2 H30 HS HT Hfit junk' _ V LE HA). rewrite I, R, M3. reflexivity.
Qed.

Lemma ff1_empty_tweak_refuted_lemma : forall E clog radix T c s junk,
  ff1_limits clog radix T (length s) -> ff1_bad_tweak clog radix T (length s) -> fpe_init T radix = Some c ->
  ff1_encrypt E clog c junk s = Abort /\ ff1_decrypt E clog c junk s = Abort /\
  forall cnj, ff1_cmac_encrypt E clog cnj c junk s = Abort /\ ff1_cmac_decrypt E clog cnj c junk s = Abort.
Proof.
  intros E clog radix T c s junk HL HB HI. destruct (ff1_not_ready E clog radix T c s HL HB HI) as (HS & HA).
  unfold ff1_encrypt, ff1_decrypt, ff1_cmac_encrypt, ff1_cmac_decrypt, ff1_run, cmac_run. rewrite HS, HA. cbn [negb]. auto.
Qed.

Lemma ff1_format_lemma : forall E clog radix T c s junk,
  block_function E -> ff1_limits clog radix T (length s) -> ~ ff1_bad_tweak clog radix T (length s) ->
  numeral_string radix s -> fpe_init T radix = Some c ->
  (exists ct, ff1_encrypt E clog c junk s = Ret (ct ++ [0%N]) /\ length ct = length s /\ numeral_string radix ct) /\
  (exists pt, ff1_decrypt E clog c junk s = Ret (pt ++ [0%N]) /\ length pt = length s /\ numeral_string radix pt).
Proof.
  intros E clog radix T c s junk HE HL HB HN HI.
  destruct (ff1_ready E clog radix T c s HL HB HI) as (Hfit & HA & ->). destruct HL as (Hr & HT & H2 & H30 & HC & HS). cbv zeta in HC, HS.
  destruct (map_chars_valid radix s Hr HN) as (_ & M2 & M3).
  assert (LX : length (map digit_of s) = length s) by apply map_length.
  destruct (enc_all_ok E clog radix T (length s) Hr H2 H30 HS Hfit _ M2 LX) as (D & L & R).
  destruct (dec_all_ok E clog radix T (length s) Hr H2 H30 HS Hfit _ M2 LX) as (D' & L' & R').
  destruct (inverse_map_valid radix _ Hr D) as (V & _). destruct (inverse_map_valid radix _ Hr D') as (V' & _).
  split; eexists.
  - split; [exact (encrypt_ok E clog radix T (length s) HE Hr H2 H30 HS HT Hfit junk s HN eq_refl HA)|]. split; [now rewrite map_length|exact V].
  - split; [exact (decrypt_ok E clog radix T (length s) HE Hr H2 H30 HS HT Hfit junk s HN eq_refl HA)|]. split; [now rewrite map_length|exact V'].
Qed.

Lemma ff1_conforms_lemma : forall E clog radix T c s junk,
  block_function E -> ff1_limits clog radix T (length s) -> ~ ff1_bad_tweak clog radix T (length s) ->
  (let v := length s - length s / 2 in clog radix v = ceil_log radix v) ->
  numeral_string radix s -> fpe_init T radix = Some c ->
  ff1_encrypt E clog c junk s = Ret (map char_of (FF1_Encrypt E radix T (map digit_of s)) ++ [0%N]) /\
  ff1_decrypt E clog c junk s = Ret (map char_of (FF1_Decrypt E radix T (map digit_of s)) ++ [0%N]).
Proof.
  intros E clog radix T c s junk HE HL HB HX HN HI.
  destruct (ff1_ready E clog radix T c s HL HB HI) as (Hfit & HA & ->). destruct HL as (Hr & HT & H2 & H30 & HC & HS). cbv zeta in HC, HS, HX.
  destruct (map_chars_valid radix s Hr HN) as (_ & M2 & M3).
  assert (LX : length (map digit_of s) = length s) by apply map_length.
  destruct (enc_all_ok E clog radix T (length s) Hr H2 H30 HS Hfit _ M2 LX) as (D & L & R).
  destruct (dec_all_ok E clog radix T (length s) Hr H2 H30 HS Hfit _ M2 LX) as (D' & L' & R').
  destruct (inverse_map_valid radix _ Hr D) as (_ & _ & V). destruct (inverse_map_valid radix _ Hr D') as (_ & _ & V').
  rewrite (std_enc E clog radix T (length s)) by auto. rewrite (std_dec E clog radix T (length s)) by auto. rewrite V, V'.
  split; [exact (encrypt_ok E clog radix T (length s) HE Hr H2 H30 HS HT Hfit junk s HN eq_refl HA)|exact (decrypt_ok E clog radix T (length s) HE Hr H2 H30 HS HT Hfit junk s HN eq_refl HA)].
Qed.

Lemma ff3_roundtrip_lemma : forall E clog radix T c s,
  ff3_limits clog radix T (length s) -> numeral_string radix s -> fpe_init T radix = Some c ->
  exists ct, ff3_encrypt E clog c s = Ret (ct ++ [0%N]) /\ length ct = length s /\ numeral_string radix ct /\
             ff3_decrypt E clog c ct = Ret (s ++ [0%N]).
Proof.
  intros E clog radix T c s HL HN HI. apply init_ctx in HI as ->. pose proof (limits3_fit clog radix T _ HL) as Hfit. cbv zeta in Hfit.
  destruct HL as (Hr & HT & H1 & H30 & HC). cbv zeta in HC.
  destruct (map_chars_valid radix s Hr HN) as (_ & M2 & M3).
  assert (LX : length (map digit_of s) = length s) by apply map_length.
  destruct (enc_all3_ok E clog radix T (length s) Hr H1 H30 HT Hfit 0%N _ M2 LX) as (D & L & R).
  set (X := enc_all3 E radix T (length s) (map digit_of s)) in *.
  destruct (inverse_map_valid radix X Hr D) as (V & I & _).
  assert (LE : length (map inverse_map_char X) = length s) by (now rewrite map_length).
  exists (map inverse_map_char X). split; [exact (encrypt3_ok E clog radix T (length s) Hr H1 H30 HT Hfit _ s HN eq_refl)|]. split; [exact LE|]. split; [exact V|].
  rewrite (decrypt3_ok E clog radix T (length s) Hr H1 H30 HT Hfit _ _ V LE). rewrite I, R, M3. reflexivity.
Qed.

Lemma ff3_roundtrip_dec_lemma : forall E clog radix T c s,
  ff3_limits clog radix T (length s) -> numeral_string radix s -> fpe_init T radix = Some c ->
  exists pt, ff3_decrypt E clog c s = Ret (pt ++ [0%N]) /\ length pt = length s /\ numeral_string radix pt /\
             ff3_encrypt E clog c pt = Ret (s ++ [0%N]).
Proof.
  intros E clog radix T c s HL HN HI. apply init_ctx in HI as ->. pose proof (limits3_fit clog radix T _ HL) as Hfit. cbv zeta in Hfit.
  destruct HL as (Hr & HT & H1 & H30 & HC). cbv zeta in HC.
  destruct (map_chars_valid radix s Hr HN) as (_ & M2 & M3).
  assert (LX : length (map digit_of s) = length s) by apply map_length.
  destruct (dec_all3_ok E clog radix T (length s) Hr H1 H30 HT Hfit 0%N _ M2 LX) as (D & L & R).
  set (X := dec_all3 E radix T (length s) (map digit_of s)) in *.
  destruct (inverse_map_valid radix X Hr D) as (V & I & _).
  assert (LE : length (map inverse_map_char X) = length s) by (now rewrite map_length).
  exists (map inverse_map_char X). split; [exact (decrypt3_ok E clog radix T (length s) Hr H1 H30 HT Hfit _ s HN eq_refl)|]. split; [exact LE|]. split; [exact V|].
  rewrite (encrypt3_ok E clog radix T (length s) Hr H1 H30 HT Hfit _ _ V LE). rewrite I, R, M3. reflexivity.
Qed.

Lemma ff3_conforms_lemma : forall E clog radix T c s,
  ff3_limits clog radix T (length s) -> (radix ^ N.of_nat (ceil_div (length s) 2) <= 2 ^ 96)%N ->
  numeral_string radix s -> fpe_init T radix = Some c ->
  ff3_encrypt E clog c s = Ret (map char_of (FF3_Encrypt E radix (firstn 8 T) (map digit_of s)) ++ [0%N]) /\
  ff3_decrypt E clog c s = Ret (map char_of (FF3_Decrypt E radix (firstn 8 T) (map digit_of s)) ++ [0%N]).
Proof.
  intros E clog radix T c s HL H96 HN HI. apply init_ctx in HI as ->. pose proof (limits3_fit clog radix T _ HL) as Hfit. cbv zeta in Hfit.
  destruct HL as (Hr & HT & H1 & H30 & HC). cbv zeta in HC. change (2 ^ 96)%N with (256 ^ 12)%N in H96.
  destruct (map_chars_valid radix s Hr HN) as (_ & M2 & M3).
  assert (LX : length (map digit_of s) = length s) by apply map_length.
  destruct (enc_all3_ok E clog radix T (length s) Hr H1 H30 HT Hfit 0%N _ M2 LX) as (D & L & R).
  destruct (dec_all3_ok E clog radix T (length s) Hr H1 H30 HT Hfit 0%N _ M2 LX) as (D' & L' & R').
  destruct (inverse_map_valid radix _ Hr D) as (_ & _ & V). destruct (inverse_map_valid radix _ Hr D') as (_ & _ & V').
  rewrite (std_enc3 E clog radix T (length s) Hr H1 H30 HT Hfit 0%N) by auto. rewrite (std_dec3 E clog radix T (length s) Hr H1 H30 HT Hfit 0%N) by auto. rewrite V, V'.
  split; [exact (encrypt3_ok E clog radix T (length s) Hr H1 H30 HT Hfit _ s HN eq_refl)|exact (decrypt3_ok E clog radix T (length s) Hr H1 H30 HT Hfit _ s HN eq_refl)].
Qed.

Lemma fpe_invalid_never_recovered_lemma : forall E clog radix T c s junk x, fpe_init T radix = Some c -> 
  ~ numeral_string radix s ->
  ff1_decrypt E clog c junk x <> Ret (s ++ [0%N]) /\ ff3_decrypt E clog c x <> Ret (s ++ [0%N]).
Proof.
  intros E clog radix T c s junk x HI HN. split; intros H; apply HN.
  - destruct (ff1_alphabet E clog radix T c x junk _ HI (or_intror H)) as (o' & EQ & V). apply app_inj_tail in EQ as [-> _]. exact V.
  - destruct (ff3_alphabet E clog radix T c x _ HI (or_intror H)) as (o' & EQ & V). apply app_inj_tail in EQ as [-> _]. exact V.
Qed.

Lemma ff1_cmac_roundtrip_lemma : forall E clog radix T c s junk junk' cnj cnj',
  block_function E -> ff1_limits clog radix T (length s) -> ~ ff1_bad_tweak clog radix T (length s) ->
  numeral_string radix s -> fpe_init T radix = Some c ->
  exists ct tag tag', ff1_cmac_encrypt E clog cnj c junk s = Ret (ct ++ [0%N], tag) /\
    ff1_encrypt E clog c junk s = Ret (ct ++ [0%N]) /\
    ff1_cmac_decrypt E clog cnj' c junk' ct = Ret (s ++ [0%N], tag') /\
    (16 <= length T + ceil_div (clog radix (length s - length s / 2)) 8 -> tag' = tag).
Proof.
  intros E clog radix T c s junk junk' cnj cnj' HE HL HB HN HI.
  destruct (ff1_ready E clog radix T c s HL HB HI) as (Hfit & HA & ->). destruct HL as (Hr & HT & H2 & H30 & HC & HS). cbv zeta in HC, HS.
  destruct (map_chars_valid radix s Hr HN) as (_ & M2 & M3).
  assert (LX : length (map digit_of s) = length s) by apply map_length.
  destruct (enc_all_ok E clog radix T (length s) Hr H2 H30 HS Hfit _ M2 LX) as (D & L & R).
  set (X := enc_all E clog radix T (length s) (map digit_of s)) in *.
  destruct (inverse_map_valid radix X Hr D) as (V & I & _).
  assert (LE : length (map inverse_map_char X) = length s) by (now rewrite map_length).
  exists (map inverse_map_char X), (etag E clog radix T (length s) cnj (map digit_of s)), (dtag E clog radix T (length s) cnj' X).
  split; [exact (cmac_encrypt_ok E clog radix T (length s) HE Hr H2 H30 HS HT Hfit _ junk s HN eq_refl HA)|]. split; [exact (encrypt_ok E clog radix T (length s) HE Hr H2 H30 HS HT Hfit junk s HN eq_refl HA)|]. split.
  - rewrite (cmac_decrypt_ok E clog radix T (length s) HE Hr H2 H30 HS HT Hfit _ junk' _ V LE HA). rewrite I, R, M3. reflexivity.
  - intros H16. rewrite (dtag_indep E clog radix T (length s) Hr H2 H30 HS Hfit cnj' cnj X H16). exact (tags_same E clog radix T (length s) Hr H2 H30 HS Hfit cnj _ M2 LX).
Qed.

Lemma ff1_cmac_tag_refuted_lemma : forall E D clog radix T c s junk junk',
  block_cipher E D -> ff1_limits clog radix T (length s) -> ~ ff1_bad_tweak clog radix T (length s) ->
  numeral_string radix s -> fpe_init T radix = Some c ->
  length T + ceil_div (clog radix (length s - length s / 2)) 8 <= 15 ->
  exists cnj cnj' ct tag tag', ff1_cmac_encrypt E clog cnj c junk s = Ret (ct ++ [0%N], tag) /\
    ff1_cmac_decrypt E clog cnj' c junk' ct = Ret (s ++ [0%N], tag') /\ tag' <> tag.
Proof.
  intros E D clog radix T c s junk junk' (HE & _ & HD) HL HB HN HI H15.
  destruct (ff1_ready E clog radix T c s HL HB HI) as (Hfit & HA & ->). destruct HL as (Hr & HT & H2 & H30 & HC & HS). cbv zeta in HC, HS.
  destruct (map_chars_valid radix s Hr HN) as (_ & M2 & M3).
  assert (LX : length (map digit_of s) = length s) by apply map_length.
  destruct (enc_all_ok E clog radix T (length s) Hr H2 H30 HS Hfit _ M2 LX) as (DD & L & R).
  set (X := enc_all E clog radix T (length s) (map digit_of s)) in *.
  destruct (inverse_map_valid radix X Hr DD) as (V & I & _).
  assert (LE : length (map inverse_map_char X) = length s) by (now rewrite map_length).
  exists cn_one, cn_zero, (map inverse_map_char X), (etag E clog radix T (length s) cn_one (map digit_of s)), (dtag E clog radix T (length s) cn_zero X).
  split; [exact (cmac_encrypt_ok E clog radix T (length s) HE Hr H2 H30 HS HT Hfit _ junk s HN eq_refl HA)|]. split.
  - rewrite (cmac_decrypt_ok E clog radix T (length s) HE Hr H2 H30 HS HT Hfit _ junk' _ V LE HA). rewrite I, R, M3. reflexivity.
  - unfold X. rewrite (tags_same E clog radix T (length s) Hr H2 H30 HS Hfit cn_zero _ M2 LX).
    exact (etag_junk E clog radix T (length s) HE Hr H2 H30 HS HT Hfit D _ HD H15).
Qed.

Lemma ff3_gmac_roundtrip_lemma : forall E clog radix T c s,
  ff3_limits clog radix T (length s) -> 16 <= length T -> numeral_string radix s -> fpe_init T radix = Some c ->
  exists ct tag, ff3_gmac_encrypt E clog c s = Ret (ct ++ [0%N], tag) /\
    ff3_encrypt E clog c s = Ret (ct ++ [0%N]) /\ ff3_gmac_decrypt E clog c ct = Ret (s ++ [0%N], tag).
Proof.
  intros E clog radix T c s HL HT16 HN HI. apply init_ctx in HI as ->. pose proof (limits3_fit clog radix T _ HL) as Hfit. cbv zeta in Hfit.
  destruct HL as (Hr & HT & H1 & H30 & HC). cbv zeta in HC.
  destruct (map_chars_valid radix s Hr HN) as (_ & M2 & M3).
  assert (LX : length (map digit_of s) = length s) by apply map_length.
  destruct (enc_all3_ok E clog radix T (length s) Hr H1 H30 HT Hfit 0%N _ M2 LX) as (D & L & R).
  set (X := enc_all3 E radix T (length s) (map digit_of s)) in *.
  destruct (inverse_map_valid radix X Hr D) as (V & I & _).
  assert (LE : length (map inverse_map_char X) = length s) by (now rewrite map_length).
  exists (map inverse_map_char X), (etag3 E radix T (length s) (map digit_of s)). split; [exact (gmac_encrypt_ok E clog radix T (length s) Hr H1 H30 HT Hfit _ s HN eq_refl HT16)|].
  split; [exact (encrypt3_ok E clog radix T (length s) Hr H1 H30 HT Hfit _ s HN eq_refl)|].
  rewrite (gmac_decrypt_ok E clog radix T (length s) Hr H1 H30 HT Hfit _ _ V LE HT16). rewrite I, R, M3.
  pose proof (tags3_same E clog radix T (length s) Hr H1 H30 HT Hfit 0%N _ M2 LX) as TS. fold X in TS. rewrite TS. reflexivity.
Qed.

Lemma ff3_gmac_tag_value_lemma : forall E clog radix T c s,
  block_function E -> bytes T -> ff3_limits clog radix T (length s) -> 16 <= length T ->
  (radix ^ N.of_nat (ceil_div (length s) 2) <= 2 ^ 96)%N -> numeral_string radix s -> fpe_init T radix = Some c ->
  exists ct, ff3_gmac_encrypt E clog c s = Ret (ct ++ [0%N], FF3_GMAC_tag E radix T (map digit_of s)).
Proof.
  intros E clog radix T c s HE BT HL HT16 H96 HN HI. apply init_ctx in HI as ->. pose proof (limits3_fit clog radix T _ HL) as Hfit. cbv zeta in Hfit.
  destruct HL as (Hr & HT & H1 & H30 & HC). cbv zeta in HC. change (2 ^ 96)%N with (256 ^ 12)%N in H96.
  destruct (map_chars_valid radix s Hr HN) as (_ & M2 & M3).
  assert (LX : length (map digit_of s) = length s) by apply map_length.
  eexists. rewrite <- (etag3_std E clog radix T (length s) Hr H1 H30 HT Hfit 0%N) by auto. exact (gmac_encrypt_ok E clog radix T (length s) Hr H1 H30 HT Hfit _ s HN eq_refl HT16).
Qed.

Lemma ff1_cmac_tag_value_lemma : forall E clog radix T c s junk cnj,
  block_function E -> ff1_limits clog radix T (length s) -> ~ ff1_bad_tweak clog radix T (length s) ->
  (let v := length s - length s / 2 in clog radix v = ceil_log radix v) ->
  16 <= length T + ceil_div (ceil_log radix (length s - length s / 2)) 8 ->
  numeral_string radix s -> fpe_init T radix = Some c ->
  exists ct, ff1_cmac_encrypt E clog cnj c junk s = Ret (ct ++ [0%N], FF1_CMAC_tag E radix T (map digit_of s)).
Proof.
  intros E clog radix T c s junk cnj HE HL HB HV H16 HN HI. cbv zeta in HV. rewrite <- HV in H16.
  destruct (ff1_ready E clog radix T c s HL HB HI) as (Hfit & HA & ->). destruct HL as (Hr & HT & H2 & H30 & HC & HS). cbv zeta in HC, HS.
  eexists. rewrite <- (etag_std E clog radix T (length s) HE Hr H2 H30 HS Hfit cnj _ HV H16) by now rewrite map_length.
  exact (cmac_encrypt_ok E clog radix T (length s) HE Hr H2 H30 HS HT Hfit _ junk s HN eq_refl HA).
Qed.

Lemma ff1_cmac_tag_ten_bytes_lemma : forall E clog radix T c s junk cnj,
  block_function E -> ff1_limits clog radix T (length s) -> ~ ff1_bad_tweak clog radix T (length s) ->
  (forall i, bytes (cnj i)) -> numeral_string radix s -> fpe_init T radix = Some c ->
  exists ct bs, length bs = 10 /\ bytes bs /\
    ff1_cmac_encrypt E clog cnj c junk s = Ret (ct ++ [0%N], fold_left xorl (map (cmac_byte_part E) bs) (repeat 0%N 16)).
Proof.
  intros E clog radix T c s junk cnj HE HL HB HJ HN HI.
  destruct (ff1_ready E clog radix T c s HL HB HI) as (Hfit & HA & ->). destruct HL as (Hr & HT & H2 & H30 & HC & HS). cbv zeta in HC, HS.
  destruct (etag_ten E clog radix T (length s) HE Hr H2 H30 HS HT Hfit cnj (map digit_of s) HJ) as (bs & Lb & Bb & Eb).
  eexists; exists bs. split; [exact Lb|]. split; [exact Bb|]. rewrite <- Eb.
  exact (cmac_encrypt_ok E clog radix T (length s) HE Hr H2 H30 HS HT Hfit _ junk s HN eq_refl HA).
Qed.
