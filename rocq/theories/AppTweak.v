(** * What the kept characters of numbers and texts do to the encrypted ones *)
From Verif Require Import Base CbcSpec FpeModel FpeSpec FpeProofs AppModel AppSpec AppProofs CnProofs.
Local Open Scope nat_scope.
Local Opaque ff1_encrypt ff1_decrypt ff3_encrypt ff3_decrypt.

(** the characters of [num] at the marked positions, and the others, in order *)
Definition marked (sample num : list N) : list N := map (get num) (filter (starredb sample) (seq 0 (length num))).
Definition unmarked (sample num : list N) : list N :=
  map (get num) (filter (fun i => negb (starredb sample i)) (seq 0 (length num))).
(** the characters of a text marked with a star, and the others, in order *)
Definition cn_marked (ms : list mark) (text : list N) : list N := map snd (filter (fun p => is_star (fst p)) (combine ms text)).
Definition cn_unmarked (ms : list mark) (text : list N) : list N := map snd (filter (fun p => negb (is_star (fst p))) (combine ms text)).
(** four duodecimal numerals of a character: its distance from U+4E00, least significant first *)
Definition duo_numerals (cp : N) : list N := rev (STR 12 4 (cp - 0x4E00)).
Definition text_numerals (text : list N) : list N := concat (map duo_numerals text).
(** NIST's algorithm of that name; everything but "ff1" means FF3, which has eight bytes of tweak *)
Definition std_ffx (ffx : list N) (E : list N -> list N) (radix : N) (T X : list N) : list N :=
  if list_eq_dec N.eq_dec ffx [102; 102; 49]%N then FF1_Encrypt E radix T X else FF3_Encrypt E radix (firstn 8 T) X.
(** where the standard is followed: FF1 with the exact logarithm, FF3 with halves below 2^96 *)
Definition ffx_exact (clog : N -> nat -> nat) (ffx : list N) (radix : N) (n : nat) : Prop :=
  (is_ff1 ffx -> forall v, v <= n -> clog radix v = ceil_log radix v) /\
  (~ is_ff1 ffx -> (radix ^ N.of_nat (ceil_div n 2) <= 2 ^ 96)%N).

Section Select.
Lemma select_seq b (f : nat -> bool) : forall s k,
  select b (map f (seq k (length s))) s = map (fun i => get s (i - k)) (filter (fun i => Bool.eqb (f i) b) (seq k (length s))).
Proof.
  induction s as [|c s IH]; intros k; [reflexivity|]. cbn [length seq map select filter].
  assert (R : map (fun i => get s (i - S k)) (filter (fun i => Bool.eqb (f i) b) (seq (S k) (length s))) =
              map (fun i => get (c :: s) (i - k)) (filter (fun i => Bool.eqb (f i) b) (seq (S k) (length s)))).
  { apply map_ext_in. intros i Hi. apply filter_In in Hi as [Hi _]. apply in_seq in Hi. replace (i - k) with (S (i - S k)) by lia. reflexivity. }
  rewrite IH, R. destruct (Bool.eqb (f k) b); [|reflexivity]. cbn [map]. rewrite Nat.sub_diag. reflexivity.
Qed.
Lemma select_unmarked sample num : sample = [] \/ length num <= length sample ->
  select true (kept_mask sample (length num)) num = unmarked sample num.
Proof.
  intros HS. unfold kept_mask, unmarked. rewrite select_seq.
  rewrite (filter_ext_in _ (fun i => negb (starredb sample i))).
  - apply map_ext_in. intros i _. now rewrite Nat.sub_0_r.
  - intros i Hi. apply in_seq in Hi. rewrite (kept_starredb sample (length num)) by (auto; lia). now destruct (starredb sample i).
Qed.
Lemma select_marked sample num : sample = [] \/ length num <= length sample ->
  select false (kept_mask sample (length num)) num = marked sample num.
Proof.
  intros HS. unfold kept_mask, marked. rewrite select_seq.
  rewrite (filter_ext_in _ (starredb sample)).
  - apply map_ext_in. intros i _. now rewrite Nat.sub_0_r.
  - intros i Hi. apply in_seq in Hi. rewrite (kept_starredb sample (length num)) by (auto; lia). now destruct (starredb sample i).
Qed.
End Select.

Section Values.
Variable ciph : cipher_kind -> list N -> list N -> list N.
Variable clog : N -> nat -> nat.

Lemma ffx_value ffx E c radix T s junk : block_function E -> (2 <= radix <= 36)%N -> bytes T -> T <> [] ->
  clog_sane clog radix (length s) -> (N.of_nat (length s) < 2 ^ 30)%N -> (N.of_nat (length T) < 2 ^ 29)%N ->
  ffx_fits ffx (length s) (length T) -> ffx_exact clog ffx radix (length s) ->
  numeral_string radix s -> fpe_init T radix = Some c ->
  choose_encrypt clog ffx E c junk s = Ret (map char_of (std_ffx ffx E radix T (map digit_of s)) ++ [0%N]).
Proof.
  intros HE Hr HT NT HC Hs HTl (F1 & F3) (X1 & X3) HN HI. unfold choose_encrypt, std_ffx.
  destruct (streq_spec ffx s_ff1) as [->|NF].
  - destruct (list_eq_dec N.eq_dec s_ff1 [102; 102; 49]%N) as [_|NE]; [|exfalso; apply NE; reflexivity].
    assert (H2 : 2 <= length s) by (apply F1; reflexivity).
    assert (L : ff1_limits clog radix T (length s)) by (apply ff1_limits_intro; auto).
    assert (NB : ~ ff1_bad_tweak clog radix T (length s)) by (intros [B _]; auto).
    apply (ff1_conforms_lemma E clog radix T c s junk HE L NB); auto. cbv zeta. apply X1; [reflexivity|lia].
  - destruct (list_eq_dec N.eq_dec ffx [102; 102; 49]%N) as [EQ|_]; [exfalso; apply NF; exact EQ|].
    assert (NI : ~ is_ff1 ffx) by (intros H; apply NF; exact H).
    destruct (F3 NI) as [G1 G2].
    assert (L : ff3_limits clog radix T (length s)).
    { unfold ff3_limits. cbv zeta. split; [exact Hr|]. split; [lia|]. split; [lia|]. split; [exact Hs|].
      apply HC. unfold ceil_div. assert ((length s + 2 - 1) / 2 < length s + 1); [|lia]. apply Nat.div_lt_upper_bound; lia. }
    pose proof (proj1 (ff3_conforms_lemma E clog radix T c s L (X3 NI) HN HI)) as V.
    destruct (streq ffx s_ff3); exact V.
Qed.

(** the encrypted number: its format and its marked characters *)
Lemma fmt_value junk0 key keylen cipher ffx ctx num sample j :
  app_init junk0 key keylen cipher ffx = Ret ctx -> block_function (ciph (a_kind ctx) (a_key ctx)) ->
  bytes num -> (forall i, i < length num -> starred sample i -> digit (get num i)) ->
  sample = [] \/ length num <= length sample -> (N.of_nat (length num) < 2 ^ 28)%N ->
  clog_sane clog 10 (length num) ->
  ffx_fits ffx (n_starred sample (length num)) (S (n_kept sample (length num))) ->
  ffx_exact clog ffx 10 (n_starred sample (length num)) ->
  exists num', fmt_body ciph ctx j (choose_encrypt clog (a_ffx ctx)) sample num = Ret (num', [0%N]) /\
    same_format sample num num' /\
    marked sample num' = map char_of (std_ffx ffx (ciph (a_kind ctx) (a_key ctx)) 10 (unmarked sample num ++ [0%N]) (map digit_of (marked sample num))).
Proof.
  intros HI HE HB HD HS HL HC HF HX.
  destruct (fmt_roundtrip ciph clog junk0 key keylen cipher ffx ctx num sample j j HI HE HB HD HS HL HC HF) as (num' & E1 & SF & _).
  exists num'. split; [exact E1|]. split; [exact SF|].
  destruct (app_block_init ciph _ _ _ _ _ _ HI) as [AB AF]. rewrite AF in E1.
  unfold fmt_body in E1. cbv zeta in E1. rewrite select_unmarked, select_marked in E1 by auto.
  destruct SF as (FL & _).
  assert (Lm : length (marked sample num) = n_starred sample (length num)) by (unfold marked; now rewrite map_length).
  assert (LT : length (unmarked sample num ++ [0%N]) = S (n_kept sample (length num))).
  { rewrite <- select_unmarked by auto. rewrite app_length, select_length by (now rewrite kept_mask_length). rewrite mask_keeps by auto. cbn. lia. }
  assert (GB : forall i, i < length num -> (get num i < 256)%N).
  { intros i Hi. unfold bytes in HB. rewrite Forall_forall in HB. apply HB, nth_In, Hi. }
  destruct (fpe_init_some (unmarked sample num ++ [0%N]) 10) as [c HcI]; [lia|].
  unfold call_ffx in E1. rewrite AB in E1. cbn [obind] in E1. rewrite HcI in E1.
  change (2 ^ 28)%N with 268435456%N in HL. pose proof (n_starred_le sample (length num)) as SL.
  rewrite (ffx_value ffx _ c 10 (unmarked sample num ++ [0%N]) (marked sample num) j) in E1; auto.
  - cbn [obind] in E1. set (Y := map char_of _) in *.
    assert (TL : length num - length (filter (fun b : bool => b) (kept_mask sample (length num))) = n_starred sample (length num)).
    { rewrite <- (kept_mask_length sample (length num)) at 1. rewrite <- count_split. now apply mask_stars. }
    rewrite TL in E1. injection E1 as E1 E2.
    assert (LY : length Y = n_starred sample (length num)).
    { assert (length (skipn (n_starred sample (length num)) (Y ++ [0%N])) = 1) as Q by (now rewrite E2).
      rewrite skipn_length, app_length in Q. cbn in Q. lia. }
    rewrite <- E1. rewrite <- select_marked by (rewrite merge_length; [exact HS|now rewrite kept_mask_length]).
    rewrite merge_length by (now rewrite kept_mask_length).
    rewrite <- LY. rewrite firstn_app, Nat.sub_diag, firstn_all, firstn_O, app_nil_r.
    apply select_merge_starred; [now rewrite kept_mask_length|]. rewrite mask_stars; auto.
  - lia.
  - apply Forall_app. split; [|repeat constructor]. apply Forall_forall. intros x Hx. unfold unmarked in Hx. apply in_map_iff in Hx as (i & <- & Hi).
    apply filter_In in Hi as [Hi _]. apply in_seq in Hi. apply GB. lia.
  - intros H. now apply app_eq_nil in H.
  - intros v Hv. apply HC. lia.
  - change (2 ^ 30)%N with 1073741824%N. lia.
  - change (2 ^ 29)%N with 536870912%N. rewrite LT. unfold n_kept. lia.
  - now rewrite Lm, LT.
  - now rewrite Lm.
  - apply Forall_forall. intros x Hx. unfold marked in Hx. apply in_map_iff in Hx as (i & <- & Hi).
    apply filter_In in Hi as [Hi St]. apply in_seq in Hi. apply digit_numeral, HD; [lia|]. now apply starredb_spec.
Qed.

Lemma phone_value junk0 key keylen cipher ffx ctx phone sample after j :
  app_init junk0 key keylen cipher ffx = Ret ctx -> block_function (ciph (a_kind ctx) (a_key ctx)) ->
  app_number phone sample -> clog_sane clog 10 (length phone) ->
  ffx_fits ffx (n_starred sample (length phone)) (S (n_kept sample (length phone))) ->
  ffx_exact clog ffx 10 (n_starred sample (length phone)) -> length phone <= length after ->
  exists phone', encrypt_phone ciph clog ctx j phone sample after = Ret (mkres (phone' ++ skipn (length phone) after) [0%N]) /\
    same_format sample phone phone' /\
    marked sample phone' = map char_of (std_ffx ffx (ciph (a_kind ctx) (a_key ctx)) 10 (unmarked sample phone ++ [0%N]) (map digit_of (marked sample phone))).
Proof.
  intros HI HE (HB & HD & HS & HL) HC HF HX HA.
  assert (HS' : sample = [] \/ length phone <= length sample) by (destruct HS; [auto|right; lia]).
  destruct (fmt_value junk0 key keylen cipher ffx ctx phone sample j HI HE HB HD HS' HL HC HF HX) as (p' & E1 & F & V).
  exists p'. split; [|split; [exact F|exact V]].
  unfold encrypt_phone. rewrite aux_phone_body by auto. rewrite E1. reflexivity.
Qed.

Lemma idcard_value junk0 key keylen cipher ffx ctx body x sample after j :
  app_init junk0 key keylen cipher ffx = Ret ctx -> block_function (ciph (a_kind ctx) (a_key ctx)) ->
  x = [88%N] \/ (x = [] /\ body <> [] /\ last body 0%N <> 88%N) ->
  bytes body -> (forall i, i < length body -> starred sample i -> digit (get body i)) ->
  sample = [] \/ length body <= length sample -> (N.of_nat (length body) < 2 ^ 28)%N -> clog_sane clog 10 (length body) ->
  ffx_fits ffx (n_starred sample (length body)) (S (n_kept sample (length body))) ->
  ffx_exact clog ffx 10 (n_starred sample (length body)) -> length (body ++ x) <= length after ->
  exists body', encrypt_idcard ciph clog ctx j (body ++ x) sample after = Ret (mkres (body' ++ x ++ skipn (length (body ++ x)) after) [0%N]) /\
    same_format sample body body' /\
    marked sample body' = map char_of (std_ffx ffx (ciph (a_kind ctx) (a_key ctx)) 10 (unmarked sample body ++ [0%N]) (map digit_of (marked sample body))).
Proof.
  intros HI HE HX HB HD HS HL HC HF HXX HA.
  destruct (fmt_value junk0 key keylen cipher ffx ctx body sample j HI HE HB HD HS HL HC HF HXX) as (p' & E1 & F & V).
  exists p'. split; [|split; [exact F|exact V]].
  unfold encrypt_idcard. rewrite aux_idcard_body; auto.
  - rewrite E1. reflexivity.
  - destruct HX as [HX|(HX & NB & LB)]; auto.
Qed.

(** *** Chinese text *)
Lemma duo4_numerals cp : duo4 cp = map char_of (duo_numerals cp).
Proof.
  unfold duo4, duo_numerals, STR. cbv zeta. cbn [seq map rev app Nat.sub].
  change (12 ^ N.of_nat 3)%N with 1728%N. change (12 ^ N.of_nat 2)%N with 144%N. change (12 ^ N.of_nat 1)%N with 12%N. change (12 ^ N.of_nat 0)%N with 1%N.
  rewrite N.div_1_r. reflexivity.
Qed.
Lemma duos_numerals cps : duos cps = map char_of (text_numerals cps).
Proof. unfold duos, text_numerals. rewrite concat_map, map_map. f_equal. apply map_ext. apply duo4_numerals. Qed.
Lemma text_numerals_lt cps : Forall (fun d => (d < 12)%N) (text_numerals cps).
Proof.
  unfold text_numerals. induction cps as [|cp cps IH]; [constructor|]. cbn [map concat]. apply Forall_app. split; [|exact IH].
  unfold duo_numerals. apply Forall_rev. unfold STR. apply Forall_forall. intros x Hx. apply in_map_iff in Hx as (i & <- & _). now apply N.mod_lt.
Qed.
Lemma digit_char d : (d < 12)%N -> digit_of (char_of d) = d.
Proof. intros H. apply (proj1 (proj2 (digit_facts d H))). Qed.
Lemma digits_chars l : Forall (fun d => (d < 12)%N) l -> map digit_of (map char_of l) = l.
Proof. intros H. rewrite map_map. induction H as [|d l Hd _ IH]; cbn [map]; [reflexivity|]. now rewrite digit_char, IH. Qed.
Lemma select_cn_marked ms : forall text, length ms = length text -> select false (kmask ms) text = cn_marked ms text.
Proof.
  unfold cn_marked. induction ms as [|m ms IH]; intros [|c t] H; try discriminate; [reflexivity|]. injection H as H.
  unfold kmask in *. cbn [map select combine filter fst]. rewrite (IH t H). destruct m; reflexivity.
Qed.
Lemma select_cn_unmarked ms : forall text, length ms = length text -> select true (kmask ms) text = cn_unmarked ms text.
Proof.
  unfold cn_unmarked. induction ms as [|m ms IH]; intros [|c t] H; try discriminate; [reflexivity|]. injection H as H.
  unfold kmask in *. cbn [map select combine filter fst]. rewrite (IH t H). destruct m; reflexivity.
Qed.

Lemma cn_value junk0 key keylen cipher ffx ctx text ms sample after j ji jt :
  app_init junk0 key keylen cipher ffx = Ret ctx -> block_function (ciph (a_kind ctx) (a_key ctx)) ->
  cn_sample text ms sample -> Forall han text -> (N.of_nat (length text) < 2 ^ 26)%N ->
  clog_sane clog 12 (4 * length text) -> 1 <= n_stars ms ->
  ffx_fits ffx (4 * n_stars ms) (S (4 * n_keeps ms)) -> ffx_exact clog ffx 12 (4 * n_stars ms) ->
  length (utf8 text) <= length after ->
  exists text', encrypt_cn ciph clog ctx j ji jt (utf8 text) sample after = Ret (mkres (utf8 text' ++ skipn (length (utf8 text)) after) [0%N]) /\
    length text' = length text /\ Forall han text' /\
    cn_unmarked ms text' = cn_unmarked ms text /\
    map char_of (text_numerals (cn_marked ms text')) =
      map char_of (std_ffx ffx (ciph (a_kind ctx) (a_key ctx)) 12 (map char_of (text_numerals (cn_unmarked ms text)) ++ [0%N]) (text_numerals (cn_marked ms text))).
Proof.
  intros HI HE HS HT HL HC H1 HF HX HA.
  destruct (app_block_init ciph _ _ _ _ _ _ HI) as [AB AF].
  assert (LM : length ms = length text).
  { destruct HS as [[_ ->]|(_ & L & _)]; auto. now rewrite repeat_length. }
  set (mask := kmask ms).
  assert (LM' : length text = length mask) by (unfold mask; rewrite kmask_length; auto).
  destruct (kmask_keeps ms) as [KK KL]. fold mask in KK.
  pose proof (kmask_stars ms) as KS. fold mask in KS.
  set (T := duos (select true mask text) ++ [0%N]). set (s := duos (select false mask text)).
  assert (D0 : length s = 4 * n_stars ms) by (unfold s; rewrite duos_length, select_length by auto; fold (stars mask); lia).
  assert (D1 : length T = S (4 * n_keeps ms)).
  { unfold T. rewrite app_length, duos_length, select_length by auto. fold (keeps mask). cbn. lia. }
  assert (NS : numeral_string 12 s) by (apply duos_numeral; now apply select_map).
  destruct (fpe_init_some T 12) as [c HcI]; [lia|].
  change (2 ^ 26)%N with 67108864%N in HL.
  assert (BT : bytes T).
  { unfold T. apply Forall_app. split; [|repeat constructor]. eapply Forall_impl; [intros x Hx; apply (numeral_nonzero 12 x Hx)|]. apply duos_numeral. now apply select_map. }
  assert (NT : T <> []) by (unfold T; intros H; now apply app_eq_nil in H).
  assert (CS : clog_sane clog 12 (length s)) by (intros v Hv; apply HC; lia).
  assert (L30 : (N.of_nat (length s) < 2 ^ 30)%N) by (change (2 ^ 30)%N with 1073741824%N; lia).
  assert (L29 : (N.of_nat (length T) < 2 ^ 29)%N) by (change (2 ^ 29)%N with 536870912%N; rewrite D1; unfold n_keeps; lia).
  assert (HF' : ffx_fits ffx (length s) (length T)) by (now rewrite D0, D1).
  assert (HX' : ffx_exact clog ffx 12 (length s)) by (now rewrite D0).
  assert (HR : (2 <= 12 <= 36)%N) by lia.
  destruct (ffx_call clog ffx (ciph (a_kind ctx) (a_key ctx)) c 12 T s j j HE HR BT NT CS L30 L29 HF' NS HcI) as (o & E1 & Lo & No & _).
  pose proof (ffx_value ffx (ciph (a_kind ctx) (a_key ctx)) c 12 T s j HE HR BT NT CS L30 L29 HF' HX' NS HcI) as V.
  rewrite E1 in V. injection V as V. apply app_inj_tail in V as [V _].
  rewrite D0 in Lo. destruct (duos_onto (n_stars ms) o Lo No) as (cts & LC & HH & DC). 
  exists (merge mask text cts).
  assert (LT : length (merge mask text cts) = length text) by (now apply merge_length).
  assert (SM : select false mask (merge mask text cts) = cts) by (apply select_merge_starred; [exact LM'|fold (stars mask); lia]).
  assert (HT' : Forall han (merge mask text cts)).
  { apply Forall_forall. intros x Hx. apply In_nth with (d := 0%N) in Hx as (i & Hi & <-). rewrite LT in Hi.
    destruct (nth_error mask i) as [[]|] eqn:M.
    - change (han (get (merge mask text cts) i)). rewrite merge_kept by auto. rewrite Forall_forall in HT. apply HT, nth_In. auto.
    - apply (merge_starred han); auto. fold (stars mask). lia.
    - apply nth_error_None in M. lia. }
  split; [|split; [exact LT|split; [exact HT'|split]]].
  - unfold encrypt_cn. rewrite (aux_cn_body ciph _ _ _ _ _ _ ms) by auto. cbv zeta. fold mask. fold T. fold s.
    unfold call_ffx. rewrite AB. cbn [obind]. rewrite HcI, AF, E1. cbn [obind]. rewrite <- DC.
    assert (LU : length (utf8 text) = 3 * length mask) by (rewrite utf8_length; lia).
    pose proof (cn_join_spec mask text cts [] [] [] after) as J. cbn [app length] in J. rewrite J by (auto; lia). cbn [obind].
    rewrite <- LC. rewrite <- duos_length, skipn_app, Nat.sub_diag, skipn_all. cbn [app skipn]. now rewrite LU.
  - rewrite <- !select_cn_unmarked by (rewrite ?LT; exact LM). fold mask. now apply select_merge_kept.
  - rewrite <- !select_cn_marked by (rewrite ?LT; exact LM). rewrite <- select_cn_unmarked by exact LM. fold mask. rewrite SM.
    rewrite <- (duos_numerals (select true mask text)). fold T.
    rewrite <- duos_numerals, DC, V. do 2 f_equal. unfold s. rewrite duos_numerals. apply digits_chars, text_numerals_lt.
Qed.
End Values.

(** ** Characters that do not count, and terminators *)
Lemma pow_half radix n k : (1 <= radix)%N -> n <= 2 * k -> (radix ^ N.of_nat k <= 2 ^ 96)%N -> (radix ^ N.of_nat (ceil_div n 2) <= 2 ^ 96)%N.
Proof.
  intros Hr Hn H. eapply N.le_trans; [|exact H]. apply N.pow_le_mono_r; [lia|].
  assert (ceil_div n 2 <= k); [|lia]. unfold ceil_div. assert ((n + 2 - 1) / 2 < S k); [|lia]. apply Nat.div_lt_upper_bound; lia.
Qed.
Lemma length_marked sample num : length (marked sample num) = n_starred sample (length num).
Proof. unfold marked. now rewrite map_length. Qed.
Lemma length_unmarked sample num : sample = [] \/ length num <= length sample -> length (unmarked sample num) = n_kept sample (length num).
Proof. intros HS. rewrite <- select_unmarked by auto. rewrite select_length by (now rewrite kept_mask_length). now apply mask_keeps. Qed.
Lemma firstn_tweak k (l : list N) z : k <= length l -> firstn k (l ++ z) = firstn k l.
Proof. intros H. rewrite firstn_app. replace (k - length l) with 0 by lia. now rewrite firstn_O, app_nil_r. Qed.
Lemma std_ffx_eight ffx E radix T1 T2 X : ~ is_ff1 ffx -> firstn 8 T1 = firstn 8 T2 -> std_ffx ffx E radix T1 X = std_ffx ffx E radix T2 X.
Proof. intros NF H. unfold std_ffx. destruct (list_eq_dec _ _ _) as [EQ|_]; [exfalso; apply NF; exact EQ|]. now rewrite H. Qed.
Lemma exact_ff3 clog ffx radix n k : ~ is_ff1 ffx -> (1 <= radix)%N -> n <= 2 * k -> (radix ^ N.of_nat k <= 2 ^ 96)%N -> ffx_exact clog ffx radix n.
Proof. intros NF Hr Hn H. split; [intros F; contradiction|]. intros _. now apply (pow_half radix n k). Qed.
Lemma fits_ff3 ffx n t : ~ is_ff1 ffx -> 1 <= n -> 8 <= t -> ffx_fits ffx n t.
Proof. intros NF H1 H2. split; [intros F; contradiction|auto]. Qed.

Lemma phone_tweak_refuted_lemma : forall ciph clog junk0 key keylen cipher ffx ctx p1 p2 s1 s2 after j1 j2,
  app_init junk0 key keylen cipher ffx = Ret ctx -> block_function (ciph (a_kind ctx) (a_key ctx)) -> ~ is_ff1 ffx ->
  app_number p1 s1 -> app_number p2 s2 -> clog_sane clog 10 (length p1) -> clog_sane clog 10 (length p2) ->
  1 <= n_starred s1 (length p1) <= 56 -> 8 <= n_kept s1 (length p1) -> 8 <= n_kept s2 (length p2) ->
  length p1 <= length after -> length p2 <= length after ->
  marked s1 p1 = marked s2 p2 -> firstn 8 (unmarked s1 p1) = firstn 8 (unmarked s2 p2) ->
  exists r1 r2, encrypt_phone ciph clog ctx j1 p1 s1 after = Ret (mkres (r1 ++ skipn (length p1) after) [0%N]) /\
    encrypt_phone ciph clog ctx j2 p2 s2 after = Ret (mkres (r2 ++ skipn (length p2) after) [0%N]) /\
    same_format s1 p1 r1 /\ same_format s2 p2 r2 /\ marked s1 r1 = marked s2 r2.
Proof.
  intros ciph clog junk0 key keylen cipher ffx ctx p1 p2 s1 s2 after j1 j2 HI HE NF N1 N2 C1 C2 HM K1 K2 A1 A2 EM EK.
  assert (HM2 : n_starred s2 (length p2) = n_starred s1 (length p1)) by (rewrite <- !length_marked; now rewrite EM).
  assert (T28 : (10 ^ N.of_nat 28 <= 2 ^ 96)%N) by (vm_compute; discriminate).
  destruct (phone_value ciph clog junk0 key keylen cipher ffx ctx p1 s1 after j1 HI HE N1 C1) as (r1 & E1 & F1 & V1); auto.
  { apply fits_ff3; auto; lia. }
  { apply (exact_ff3 clog ffx 10 _ 28); auto; lia. }
  destruct (phone_value ciph clog junk0 key keylen cipher ffx ctx p2 s2 after j2 HI HE N2 C2) as (r2 & E2 & F2 & V2); auto.
  { apply fits_ff3; auto; lia. }
  { apply (exact_ff3 clog ffx 10 _ 28); auto; lia. }
  exists r1, r2. repeat (split; [assumption|]). rewrite V1, V2, EM. f_equal. apply std_ffx_eight; [exact NF|].
  destruct N1 as (_ & _ & S1 & _), N2 as (_ & _ & S2 & _).
  rewrite !firstn_tweak; [exact EK| |]; rewrite length_unmarked; auto; (destruct S1, S2; [auto|right; lia..]) || idtac.
  all: try (destruct S2 as [->|S2]; [auto|right; lia]). all: destruct S1 as [->|S1]; [auto|right; lia].
Qed.

Lemma idcard_tweak_refuted_lemma : forall ciph clog junk0 key keylen cipher ffx ctx b1 b2 x s after j1 j2,
  app_init junk0 key keylen cipher ffx = Ret ctx -> block_function (ciph (a_kind ctx) (a_key ctx)) -> ~ is_ff1 ffx ->
  x = [88%N] \/ (x = [] /\ b1 <> [] /\ b2 <> [] /\ last b1 0%N <> 88%N /\ last b2 0%N <> 88%N) ->
  bytes b1 -> bytes b2 -> length b2 = length b1 -> s = [] \/ length b1 <= length s -> (N.of_nat (length b1) < 2 ^ 28)%N ->
  (forall i, i < length b1 -> starred s i -> digit (get b1 i) /\ get b2 i = get b1 i) ->
  clog_sane clog 10 (length b1) -> 1 <= n_starred s (length b1) <= 56 -> 8 <= n_kept s (length b1) ->
  length (b1 ++ x) <= length after -> firstn 8 (unmarked s b1) = firstn 8 (unmarked s b2) ->
  exists r1 r2, encrypt_idcard ciph clog ctx j1 (b1 ++ x) s after = Ret (mkres (r1 ++ x ++ skipn (length (b1 ++ x)) after) [0%N]) /\
    encrypt_idcard ciph clog ctx j2 (b2 ++ x) s after = Ret (mkres (r2 ++ x ++ skipn (length (b2 ++ x)) after) [0%N]) /\
    same_format s b1 r1 /\ same_format s b2 r2 /\ (forall i, i < length b1 -> starred s i -> get r1 i = get r2 i).
Proof.
  intros ciph clog junk0 key keylen cipher ffx ctx b1 b2 x s after j1 j2 HI HE NF HX B1 B2 HL HS HN HD HC HM HK HA EK.
  assert (EM : marked s b1 = marked s b2).
  { unfold marked. rewrite HL. apply map_ext_in. intros i Hi. apply filter_In in Hi as [Hi St]. apply in_seq in Hi.
    symmetry. apply HD; [lia|now apply starredb_spec]. }
  assert (T28 : (10 ^ N.of_nat 28 <= 2 ^ 96)%N) by (vm_compute; discriminate).
  destruct (idcard_value ciph clog junk0 key keylen cipher ffx ctx b1 x s after j1 HI HE) as (r1 & E1 & F1 & V1); auto.
  { destruct HX as [HX|(X1 & X2 & X3 & X4 & X5)]; auto. }
  { intros i Hi St. now apply HD. }
  { apply fits_ff3; auto; lia. }
  { apply (exact_ff3 clog ffx 10 _ 28); auto; lia. }
  destruct (idcard_value ciph clog junk0 key keylen cipher ffx ctx b2 x s after j2 HI HE) as (r2 & E2 & F2 & V2); rewrite ?HL; auto.
  { destruct HX as [HX|(X1 & X2 & X3 & X4 & X5)]; auto. }
  { intros i Hi St. destruct (HD i Hi St) as [D ->]. exact D. }
  { apply fits_ff3; auto; lia. }
  { apply (exact_ff3 clog ffx 10 _ 28); auto; lia. }
  { rewrite app_length in *. lia. }
  exists r1, r2. repeat (split; [assumption|]).
  assert (EV : marked s r1 = marked s r2).
  { rewrite V1, V2, EM. f_equal. apply std_ffx_eight; [exact NF|]. rewrite !firstn_tweak; [exact EK| |]; rewrite length_unmarked; rewrite ?HL; auto; lia. }
  intros i Hi St. destruct F1 as (L1 & _), F2 as (L2 & _). unfold marked in EV. rewrite L1, L2, HL in EV.
  assert (In i (filter (starredb s) (seq 0 (length b1)))) as HIn by (apply filter_In; split; [apply in_seq; lia|now apply starredb_spec]).
  revert EV HIn. generalize (filter (starredb s) (seq 0 (length b1))). intros l. induction l as [|k l IH]; intros EV HIn; [contradiction|].
  injection EV as EV0 EV. destruct HIn as [->|HIn]; auto.
Qed.

Lemma duos_inj a : forall b, Forall han a -> Forall han b -> duos a = duos b -> a = b.
Proof.
  induction a as [|x a IH]; intros [|y b] Ha Hb H; auto.
  - apply (f_equal (@length N)) in H. rewrite !duos_length in H. discriminate.
  - apply (f_equal (@length N)) in H. rewrite !duos_length in H. discriminate.
  - apply Forall_cons_iff in Ha as [Hx Ha]. apply Forall_cons_iff in Hb as [Hy Hb].
    unfold duos in H. cbn [map concat] in H. fold (duos a) (duos b) in H.
    assert (duo4 x = duo4 y) as E4.
    { apply (f_equal (firstn 4)) in H. rewrite !firstn_app, !duo4_length, Nat.sub_diag, !firstn_O, !app_nil_r in H.
      rewrite <- (duo4_length x) in H at 1. rewrite <- (duo4_length y) in H at 1. now rewrite !firstn_all in H. }
    rewrite E4 in H. apply app_inv_head in H. rewrite (IH b) by auto. f_equal.
    rewrite <- (unduo_duo x), <- (unduo_duo y) by assumption. now rewrite E4.
Qed.
Lemma duos_firstn l : firstn 8 (duos l) = duos (firstn 2 l).
Proof.
  destruct l as [|x [|y l]]; unfold duos; cbn [map concat firstn].
  - reflexivity.
  - rewrite app_nil_r. reflexivity.
  - rewrite app_nil_r. reflexivity.
Qed.
Lemma cn_unmarked_length ms text : length ms = length text -> length (cn_unmarked ms text) = n_keeps ms.
Proof.
  intros L. rewrite <- select_cn_unmarked by exact L. rewrite select_length by (now rewrite kmask_length).
  destruct (kmask_keeps ms) as [K _]. exact K.
Qed.
Lemma cn_marked_length ms text : length ms = length text -> length (cn_marked ms text) = n_stars ms.
Proof.
  intros L. rewrite <- select_cn_marked by exact L. rewrite select_length by (now rewrite kmask_length). apply kmask_stars.
Qed.
Lemma cn_marked_han ms text : length ms = length text -> Forall han text -> Forall han (cn_marked ms text).
Proof. intros L H. rewrite <- select_cn_marked by exact L. now apply select_map. Qed.
Lemma cn_sample_length text ms sample : cn_sample text ms sample -> length ms = length text.
Proof. intros [[_ ->]|(_ & L & _)]; auto. now rewrite repeat_length. Qed.

Lemma cn_tweak_refuted_lemma : forall ciph clog junk0 key keylen cipher ffx ctx t1 t2 m1 m2 s1 s2 after j1 j2 ji1 ji2 jt1 jt2,
  app_init junk0 key keylen cipher ffx = Ret ctx -> block_function (ciph (a_kind ctx) (a_key ctx)) -> ~ is_ff1 ffx ->
  cn_sample t1 m1 s1 -> cn_sample t2 m2 s2 -> Forall han t1 -> Forall han t2 ->
  (N.of_nat (length t1) < 2 ^ 26)%N -> (N.of_nat (length t2) < 2 ^ 26)%N ->
  clog_sane clog 12 (4 * length t1) -> clog_sane clog 12 (4 * length t2) ->
  1 <= n_stars m1 <= 13 -> 2 <= n_keeps m1 -> 2 <= n_keeps m2 ->
  length (utf8 t1) <= length after -> length (utf8 t2) <= length after ->
  cn_marked m1 t1 = cn_marked m2 t2 -> firstn 2 (cn_unmarked m1 t1) = firstn 2 (cn_unmarked m2 t2) ->
  exists r1 r2, encrypt_cn ciph clog ctx j1 ji1 jt1 (utf8 t1) s1 after = Ret (mkres (utf8 r1 ++ skipn (length (utf8 t1)) after) [0%N]) /\
    encrypt_cn ciph clog ctx j2 ji2 jt2 (utf8 t2) s2 after = Ret (mkres (utf8 r2 ++ skipn (length (utf8 t2)) after) [0%N]) /\
    length r1 = length t1 /\ length r2 = length t2 /\
    cn_unmarked m1 r1 = cn_unmarked m1 t1 /\ cn_unmarked m2 r2 = cn_unmarked m2 t2 /\ cn_marked m1 r1 = cn_marked m2 r2.
Proof.
  intros ciph clog junk0 key keylen cipher ffx ctx t1 t2 m1 m2 s1 s2 after j1 j2 ji1 ji2 jt1 jt2 HI HE NF S1 S2 T1 T2 L1 L2 C1 C2 HM K1 K2 A1 A2 EM EK.
  pose proof (cn_sample_length _ _ _ S1) as LM1. pose proof (cn_sample_length _ _ _ S2) as LM2.
  assert (HM2 : n_stars m2 = n_stars m1) by (rewrite <- (cn_marked_length m1 t1), <- (cn_marked_length m2 t2) by assumption; now rewrite EM).
  assert (T26 : (12 ^ N.of_nat 26 <= 2 ^ 96)%N) by (vm_compute; discriminate).
  destruct (cn_value ciph clog junk0 key keylen cipher ffx ctx t1 m1 s1 after j1 ji1 jt1 HI HE S1 T1 L1 C1) as (r1 & E1 & R1 & H1 & U1 & V1); auto.
  { lia. }
  { apply fits_ff3; auto; lia. }
  { apply (exact_ff3 clog ffx 12 _ 26); auto; lia. }
  destruct (cn_value ciph clog junk0 key keylen cipher ffx ctx t2 m2 s2 after j2 ji2 jt2 HI HE S2 T2 L2 C2) as (r2 & E2 & R2 & H2 & U2 & V2); auto.
  { lia. }
  { apply fits_ff3; auto; lia. }
  { apply (exact_ff3 clog ffx 12 _ 26); auto; lia. }
  exists r1, r2. repeat (split; [assumption|]).
  apply duos_inj; [apply cn_marked_han; [congruence|exact H1]|apply cn_marked_han; [congruence|exact H2]|].
  rewrite !duos_numerals, V1, V2, EM. f_equal. apply std_ffx_eight; [exact NF|].
  rewrite <- !duos_numerals. rewrite !firstn_tweak; [now rewrite !duos_firstn, EK| |]; rewrite duos_length, cn_unmarked_length by assumption; lia.
Qed.

(** no byte of the output is zero, unless the caller's buffer held one *)
Lemma get_forall (P : N -> Prop) l : (forall i, i < length l -> P (get l i)) -> Forall P l.
Proof. intros H. apply Forall_forall. intros x Hx. apply In_nth with (d := 0%N) in Hx as (i & Hi & <-). now apply H. Qed.
Lemma same_format_nonzero sample num num' : Forall (fun c => c <> 0%N) num -> same_format sample num num' -> Forall (fun c => c <> 0%N) num'.
Proof.
  intros HZ (L & FS & FK). apply get_forall. intros i Hi. rewrite L in Hi. destruct (starred_dec sample i) as [St|St].
  - specialize (FS i Hi St). unfold digit in FS. lia.
  - rewrite FK by auto. rewrite Forall_forall in HZ. apply HZ, nth_In, Hi.
Qed.
Lemma skipn_forall (P : N -> Prop) l : Forall P l -> forall n, Forall P (skipn n l).
Proof. induction 1 as [|x l Hx Hl IH]; intros [|n]; cbn [skipn]; auto. Qed.
Lemma utf8_nonzero text : Forall (fun c => c <> 0%N) (utf8 text).
Proof.
  unfold utf8. induction text as [|cp t IH]; [constructor|]. cbn [map concat]. apply Forall_app. split; [|exact IH].
  unfold utf8_3. repeat constructor; generalize (cp / 4096)%N ((cp / 64) mod 64)%N (cp mod 64)%N; lia.
Qed.

Lemma app_terminator_refuted_lemma : forall ciph clog junk0 key keylen cipher ffx ctx after,
  app_init junk0 key keylen cipher ffx = Ret ctx -> block_function (ciph (a_kind ctx) (a_key ctx)) ->
  Forall (fun c => c <> 0%N) after ->
  (forall phone sample j, app_number phone sample -> Forall (fun c => c <> 0%N) phone -> clog_sane clog 10 (length phone) ->
     ffx_fits ffx (n_starred sample (length phone)) (S (n_kept sample (length phone))) -> length phone <= length after ->
     exists r, encrypt_phone ciph clog ctx j phone sample after = Ret r /\ length (r_after r) = length after /\ ~ In 0%N (r_after r)) /\
  (forall id sample j, app_number id sample -> Forall (fun c => c <> 0%N) id -> id <> [] -> last id 0%N <> 88%N -> clog_sane clog 10 (length id) ->
     ffx_fits ffx (n_starred sample (length id)) (S (n_kept sample (length id))) -> length id <= length after ->
     exists r, encrypt_idcard ciph clog ctx j id sample after = Ret r /\ length (r_after r) = length after /\ ~ In 0%N (r_after r)) /\
  (forall text ms sample j ji jt, cn_sample text ms sample -> Forall han text -> (N.of_nat (length text) < 2 ^ 26)%N ->
     clog_sane clog 12 (4 * length text) -> 1 <= n_stars ms -> ffx_fits ffx (4 * n_stars ms) (S (4 * n_keeps ms)) ->
     length (utf8 text) <= length after ->
     exists r, encrypt_cn ciph clog ctx j ji jt (utf8 text) sample after = Ret r /\ length (r_after r) = length after /\ ~ In 0%N (r_after r)).
Proof.
  intros ciph clog junk0 key keylen cipher ffx ctx after HI HE HZ.
  assert (NIn : forall l, Forall (fun c => c <> 0%N) l -> ~ In 0%N (l : list N)) by (intros l H; rewrite Forall_forall in H; intros G; exact (H 0%N G eq_refl)).
  split; [|split].
  - intros phone sample j HN PZ HC HF HA.
    destruct (phone_roundtrip ciph clog junk0 key keylen cipher ffx ctx phone sample after after j j HI HE HN HC HF HA HA) as (p & F & E & _).
    rewrite E. eexists. split; [reflexivity|]. cbn [r_after]. split; [rewrite app_length, skipn_length; destruct F as (-> & _); lia|].
    apply NIn, Forall_app. split; [exact (same_format_nonzero _ _ _ PZ F)|now apply skipn_forall].
  - intros id sample j (HB & HD & HS & HL) IZ NE NX HC HF HA.
    destruct (idcard_roundtrip ciph clog junk0 key keylen cipher ffx ctx id [] sample after after j j HI HE) as (p & F & E & _); auto.
    + destruct HS as [HS|HS]; [auto|right; rewrite HS; apply Nat.le_refl].
    + now rewrite app_nil_r.
    + now rewrite app_nil_r.
    + rewrite app_nil_r in E. rewrite E. eexists. split; [reflexivity|]. cbn [r_after app].
      split; [rewrite app_length, skipn_length; destruct F as (-> & _); lia|].
      apply NIn, Forall_app. split; [exact (same_format_nonzero _ _ _ IZ F)|now apply skipn_forall].
  - intros text ms sample j ji jt HS HT HL HC H1 HF HA.
    destruct (cn_roundtrip ciph clog junk0 key keylen cipher ffx ctx text ms sample after after j j ji jt ji jt HI HE HS HT HL HC H1 HF HA HA)
      as (t & LT & _ & _ & E & _).
    rewrite E. eexists. split; [reflexivity|]. cbn [r_after]. split; [rewrite app_length, skipn_length, !utf8_length, LT; rewrite utf8_length in HA; lia|].
    apply NIn, Forall_app. split; [apply utf8_nonzero|now apply skipn_forall].
Qed.
