(** * Encrypting numbers and texts with fpe_app permutes them *)
From Verif Require Import Base Word32 CbcSpec FpeModel FpeSpec FpeProofs AppModel AppSpec AppProofs CnProofs.
Local Open Scope nat_scope.
Local Opaque ff1_encrypt ff1_decrypt ff3_encrypt ff3_decrypt.

(** ** Decrypting first: the proofs of AppProofs.v and CnProofs.v with encryption and decryption exchanged *)
Section Calls.
Variable clog : N -> nat -> nat.
Lemma ffx_call_dec ffx E c radix T s junk junk' : block_function E -> (2 <= radix <= 36)%N -> bytes T -> T <> [] ->
  clog_sane clog radix (length s) -> (N.of_nat (length s) < 2 ^ 30)%N -> (N.of_nat (length T) < 2 ^ 29)%N ->
  ffx_fits ffx (length s) (length T) -> numeral_string radix s -> fpe_init T radix = Some c ->
  exists ct, choose_decrypt clog ffx E c junk s = Ret (ct ++ [0%N]) /\ length ct = length s /\ numeral_string radix ct /\
             choose_encrypt clog ffx E c junk' ct = Ret (s ++ [0%N]).
Proof.
  intros HE Hr HT NT HC Hs HTl (F1 & F3) HN HI. unfold choose_decrypt, choose_encrypt.
  destruct (streq_spec ffx s_ff1) as [->|NF].
  - assert (H2 : 2 <= length s) by (apply F1; reflexivity).
    assert (L : ff1_limits clog radix T (length s)) by (apply ff1_limits_intro; auto).
    assert (NB : ~ ff1_bad_tweak clog radix T (length s)) by (intros [B _]; auto).
    destruct (ff1_roundtrip_dec_lemma E clog radix T c s junk junk' HE L NB HN HI) as (ct & E1 & D1).
    destruct (ff1_format_lemma E clog radix T c s junk HE L NB HN HI) as (_ & ct' & E2 & L2 & N2).
    rewrite E1 in E2. injection E2 as E2. apply app_inj_tail in E2 as [<- _].
    exists ct. auto.
  - assert (HF : 1 <= length s /\ 8 <= length T) by (apply F3; intros H; apply NF; exact H).
    assert (L : ff3_limits clog radix T (length s)).
    { unfold ff3_limits. cbv zeta. split; [exact Hr|]. split; [lia|]. split; [lia|]. split; [exact Hs|].
      apply HC. unfold ceil_div. assert ((length s + 2 - 1) / 2 < length s + 1); [|lia]. apply Nat.div_lt_upper_bound; lia. }
    destruct (ff3_roundtrip_dec_lemma E clog radix T c s L HN HI) as (ct & E1 & L1 & N1 & D1).
    exists ct. destruct (streq ffx s_ff3); auto.
Qed.
End Calls.

Lemma utf8_3_inj a b : utf8_3 a = utf8_3 b -> a = b.
Proof.
  unfold utf8_3. intros E. injection E as E1 E2 E3.
  assert (D : forall x, x = (x / 4096 * 4096 + (x / 64) mod 64 * 64 + x mod 64)%N).
  { intros x. pose proof (N.div_mod x 64 ltac:(discriminate)) as Q1. pose proof (N.div_mod (x / 64) 64 ltac:(discriminate)) as Q2. rewrite N.div_div in Q2 by discriminate. change (64 * 64)%N with 4096%N in Q2. lia. }
  rewrite (D a), (D b). f_equal; [f_equal|]; lia.
Qed.
Lemma utf8_inj a : forall b, utf8 a = utf8 b -> a = b.
Proof.
  induction a as [|x a IH]; intros [|y b] E; [reflexivity|discriminate|discriminate|]. unfold utf8 in E. cbn [map concat] in E.
  assert (E3 : utf8_3 x = utf8_3 y /\ concat (map utf8_3 a) = concat (map utf8_3 b)) by (unfold utf8_3 in *; cbn [app] in E; split; congruence).
  destruct E3 as [E1 E2]. f_equal; [now apply utf8_3_inj|now apply IH].
Qed.

Section Perm.
Variable ciph : cipher_kind -> list N -> list N -> list N.
Variable clog : N -> nat -> nat.
Lemma fmt_roundtrip_dec junk0 key keylen cipher ffx ctx num sample j1 j2 :
  app_init junk0 key keylen cipher ffx = Ret ctx -> block_function (ciph (a_kind ctx) (a_key ctx)) ->
  bytes num -> (forall i, i < length num -> starred sample i -> digit (get num i)) ->
  sample = [] \/ length num <= length sample -> (N.of_nat (length num) < 2 ^ 28)%N ->
  clog_sane clog 10 (length num) ->
  ffx_fits ffx (n_starred sample (length num)) (S (n_kept sample (length num))) ->
  exists num', fmt_body ciph ctx j1 (choose_decrypt clog (a_ffx ctx)) sample num = Ret (num', [0%N]) /\
    same_format sample num num' /\
    fmt_body ciph ctx j2 (choose_encrypt clog (a_ffx ctx)) sample num' = Ret (num, [0%N]).
Proof.
  intros HI HE HB HD HS HL HC HF.
  destruct (app_block_init ciph _ _ _ _ _ _ HI) as [AB AF]. rewrite AF.
  set (mask := kept_mask sample (length num)).
  assert (LM : length num = length mask) by (unfold mask; now rewrite kept_mask_length).
  set (T := select true mask num ++ [0%N]). set (s := select false mask num).
  assert (Ls : length s = n_starred sample (length num)) by (unfold s; rewrite select_length by auto; unfold mask; now apply mask_stars).
  assert (LT : length T = S (n_kept sample (length num))).
  { unfold T. rewrite app_length, select_length by auto. unfold mask. rewrite mask_keeps by auto. cbn. lia. }
  assert (HN : numeral_string 10 s).
  { apply Forall_forall. intros x Hx. apply select_in in Hx as (i & Hi & M & ->). apply digit_numeral, HD; auto.
    unfold mask in M. rewrite mask_nth in M by auto. injection M as M. apply starredb_spec. now destruct (starredb sample i). }
  assert (HT : bytes T).
  { apply Forall_app. split; [|repeat constructor]. apply Forall_forall. intros x Hx. apply select_in in Hx as (i & Hi & _ & ->).
    unfold bytes in HB; rewrite Forall_forall in HB. apply HB, nth_In. auto. }
  pose proof (n_starred_le sample (length num)) as SL.
  destruct (fpe_init_some T 10) as [c HcI]; [lia|].
  change (2 ^ 28)%N with 268435456%N in HL.
  destruct (ffx_call_dec clog ffx (ciph (a_kind ctx) (a_key ctx)) c 10 T s j1 j2) as (ct & E1 & Lc & Nc & D1); auto.
  - lia.
  - unfold T. intros H. now apply app_eq_nil in H.
  - intros v Hv. apply HC. lia.
  - change (2 ^ 30)%N with 1073741824%N. lia.
  - change (2 ^ 29)%N with 536870912%N. rewrite LT. unfold n_kept. lia.
  - now rewrite Ls, LT.
  - assert (TL : length num - length (filter (fun b : bool => b) mask) = length s).
    { rewrite Ls. rewrite LM at 1. rewrite <- count_split. unfold mask. now apply mask_stars. }
    assert (LF : length (filter (Bool.eqb false) mask) = length s) by (rewrite count_split, <- LM; exact TL).
    exists (merge mask num ct). split; [|split].
    + unfold fmt_body. cbv zeta. fold mask. fold T. fold s. unfold call_ffx. rewrite AB. cbn [obind]. rewrite HcI. rewrite E1. cbn [obind].
      rewrite TL, <- Lc. rewrite firstn_app, skipn_app, Nat.sub_diag, firstn_all, skipn_all. cbn. now rewrite app_nil_r.
    + split; [now apply merge_length|]. split; intros i Hi Hst.
      * apply (merge_starred digit); auto; [congruence| |].
        -- apply Forall_forall. intros x Hx. apply digit_numeral. unfold numeral_string in Nc. rewrite Forall_forall in Nc. auto.
        -- unfold mask. rewrite mask_nth by auto. apply starredb_spec in Hst. now rewrite Hst.
      * apply merge_kept; auto. unfold mask. rewrite mask_nth by auto. destruct (starredb sample i) eqn:B; [apply starredb_spec in B; contradiction|reflexivity].
    + unfold fmt_body. cbv zeta. rewrite merge_length by auto. fold mask. rewrite select_merge_kept by auto. fold T.
      rewrite select_merge_starred by congruence. unfold call_ffx. rewrite AB. cbn [obind]. rewrite HcI. rewrite D1. cbn [obind].
      rewrite TL. rewrite merge_merge by auto. rewrite firstn_app, skipn_app, Nat.sub_diag, firstn_all, skipn_all. cbn.
      rewrite app_nil_r. unfold s. now rewrite merge_select by auto.
Qed.
Lemma phone_roundtrip_dec junk0 key keylen cipher ffx ctx phone sample after after' j1 j2 :
  app_init junk0 key keylen cipher ffx = Ret ctx -> block_function (ciph (a_kind ctx) (a_key ctx)) ->
  app_number phone sample -> clog_sane clog 10 (length phone) ->
  ffx_fits ffx (n_starred sample (length phone)) (S (n_kept sample (length phone))) ->
  length phone <= length after -> length phone <= length after' ->
  exists phone', same_format sample phone phone' /\
    decrypt_phone ciph clog ctx j1 phone sample after = Ret (mkres (phone' ++ skipn (length phone) after) [0%N]) /\
    encrypt_phone ciph clog ctx j2 phone' sample after' = Ret (mkres (phone ++ skipn (length phone) after') [0%N]).
Proof.
  intros HI HE (HB & HD & HS & HL) HC HF HA HA'.
  assert (HS' : sample = [] \/ length phone <= length sample) by (destruct HS; [auto|right; lia]).
  destruct (fmt_roundtrip_dec junk0 key keylen cipher ffx ctx phone sample j1 j2 HI HE HB HD HS' HL HC HF) as (p' & E1 & F & D1).
  exists p'. split; [exact F|]. destruct F as (FL & _).
  unfold decrypt_phone, encrypt_phone. rewrite !aux_phone_body; rewrite ?FL; auto. rewrite E1, D1. cbn. auto.
Qed.
Lemma idcard_roundtrip_dec junk0 key keylen cipher ffx ctx body x sample after after' j1 j2 :
  app_init junk0 key keylen cipher ffx = Ret ctx -> block_function (ciph (a_kind ctx) (a_key ctx)) ->
  x = [88%N] \/ (x = [] /\ body <> [] /\ last body 0%N <> 88%N) ->
  bytes body -> (forall i, i < length body -> starred sample i -> digit (get body i)) ->
  sample = [] \/ length body <= length sample -> (N.of_nat (length body) < 2 ^ 28)%N -> 
  clog_sane clog 10 (length body) ->
  ffx_fits ffx (n_starred sample (length body)) (S (n_kept sample (length body))) ->
  length (body ++ x) <= length after -> length (body ++ x) <= length after' ->
  exists body', same_format sample body body' /\
    decrypt_idcard ciph clog ctx j1 (body ++ x) sample after = Ret (mkres (body' ++ x ++ skipn (length (body ++ x)) after) [0%N]) /\
    encrypt_idcard ciph clog ctx j2 (body' ++ x) sample after' = Ret (mkres (body ++ x ++ skipn (length (body ++ x)) after') [0%N]).
Proof.
  intros HI HE HX HB HD HS HL HC HF HA HA'.
  destruct (fmt_roundtrip_dec junk0 key keylen cipher ffx ctx body sample j1 j2 HI HE HB HD HS HL HC HF) as (p' & E1 & F & D1).
  exists p'. split; [exact F|]. destruct F as (FL & FS & FK).
  unfold decrypt_idcard, encrypt_idcard.
  assert (LP : length (p' ++ x) = length (body ++ x)) by (rewrite !app_length; lia).
  rewrite !aux_idcard_body; rewrite ?FL, ?LP; auto.
  - rewrite E1, D1. cbn. auto.
  - destruct HX as [HX|(HX & NB & LB)]; auto. right.
    assert (LN : length body <> 0) by (destruct body; [congruence|discriminate]).
    split; auto. split; [|intros ->; cbn in FL; lia].
    assert (NP : p' <> []) by (intros ->; cbn in FL; lia).
    rewrite last_get in * by auto. rewrite FL.
    destruct (starred_dec sample (length body - 1)) as [S|S].
    + specialize (FS (length body - 1)). unfold digit in FS. intros Q. rewrite Q in FS. assert (48 <= 88 <= 57)%N by (apply FS; auto; lia). lia.
    + rewrite FK; auto; lia.
  - destruct HX as [HX|(HX & NB & LB)]; auto.
Qed.
Lemma cn_roundtrip_dec junk0 key keylen cipher ffx ctx text ms sample after after' j1 j2 ji1 jt1 ji2 jt2 :
  app_init junk0 key keylen cipher ffx = Ret ctx -> block_function (ciph (a_kind ctx) (a_key ctx)) ->
  cn_sample text ms sample -> Forall han text -> (N.of_nat (length text) < 2 ^ 26)%N ->
  clog_sane clog 12 (4 * length text) -> 1 <= n_stars ms ->
  ffx_fits ffx (4 * n_stars ms) (S (4 * n_keeps ms)) ->
  length (utf8 text) <= length after -> length (utf8 text) <= length after' ->
  exists text', length text' = length text /\ Forall han text' /\
    (forall i cp, nth_error ms i = Some (Keep cp) -> get text' i = get text i) /\
    decrypt_cn ciph clog ctx j1 ji1 jt1 (utf8 text) sample after = Ret (mkres (utf8 text' ++ skipn (length (utf8 text)) after) [0%N]) /\
    encrypt_cn ciph clog ctx j2 ji2 jt2 (utf8 text') sample after' = Ret (mkres (utf8 text ++ skipn (length (utf8 text)) after') [0%N]).
Proof.
  intros HI HE HS HT HL HC H1 HF HA HA'.
  destruct (app_block_init ciph _ _ _ _ _ _ HI) as [AB AF].
  assert (LM : length ms = length text).
  { destruct HS as [[_ ->]|(_ & L & _)]; auto. now rewrite repeat_length. }
  set (mask := kmask ms).
  assert (LM' : length text = length mask) by (unfold mask; rewrite kmask_length; auto).
  destruct (kmask_keeps ms) as [KK KL]. fold mask in KK.
  pose proof (kmask_stars ms) as KS. fold mask in KS.
  set (T := duos (select true mask text) ++ [0%N]). set (s := duos (select false mask text)).
  assert (D0 : length s = 4 * n_stars ms) by (unfold s; rewrite duos_length, select_length by auto; fold (stars mask); lia).
  assert (D1 : length T = S (4 * n_keeps ms)).
  { unfold T. rewrite app_length, duos_length, select_length by auto. fold (keeps mask). cbn. lia. }
  assert (NS : numeral_string 12 s) by (apply duos_numeral; now apply select_map).
  destruct (fpe_init_some T 12) as [c HcI]; [lia|].
  change (2 ^ 26)%N with 67108864%N in HL.
  destruct (ffx_call_dec clog ffx (ciph (a_kind ctx) (a_key ctx)) c 12 T s j1 j2) as (o & E1 & Lo & No & Dd); auto.
  - lia.
  - unfold T. apply Forall_app. split; [|repeat constructor]. eapply Forall_impl; [intros x Hx; apply (numeral_nonzero 12 x Hx)|]. apply duos_numeral. now apply select_map.
  - unfold T. intros H. now apply app_eq_nil in H.
  - intros v Hv. apply HC. lia.
  - change (2 ^ 30)%N with 1073741824%N. lia.
  - change (2 ^ 29)%N with 536870912%N. rewrite D1. unfold n_keeps. lia.
  - now rewrite D0, D1.
  - rewrite D0 in Lo. destruct (duos_onto (n_stars ms) o Lo No) as (cts & LC & HH & <-).
    exists (merge mask text cts).
    assert (LT : length (merge mask text cts) = length text) by (now apply merge_length).
    assert (HT' : Forall han (merge mask text cts)).
    { apply Forall_forall. intros x Hx. apply In_nth with (d := 0%N) in Hx as (i & Hi & <-). rewrite LT in Hi.
      destruct (nth_error mask i) as [[]|] eqn:M.
      - change (han (get (merge mask text cts) i)). rewrite merge_kept by auto. rewrite Forall_forall in HT. apply HT, nth_In. auto.
      - apply (merge_starred han); auto. fold (stars mask). lia.
      - apply nth_error_None in M. lia. }
    split; [exact LT|]. split; [exact HT'|]. split.
    { intros i cp Hi. apply merge_kept; auto. unfold mask, kmask. now rewrite nth_error_map, Hi. }
    assert (HS' : cn_sample (merge mask text cts) ms sample) by (unfold cn_sample in *; now rewrite LT).
    unfold decrypt_cn, encrypt_cn. rewrite !(aux_cn_body _ _ _ _ _ _ _ ms) by auto. cbv zeta. fold mask.
    rewrite select_merge_kept by auto. rewrite select_merge_starred by (auto; fold (stars mask); lia). fold T. fold s.
    unfold call_ffx. rewrite AB. cbn [obind]. rewrite HcI, AF, E1, Dd. cbn [obind].
    assert (LU : length (utf8 text) = 3 * length mask) by (rewrite utf8_length; lia).
    split.
    + pose proof (cn_join_spec mask text cts [] [] [] after) as J. cbn [app length] in J. rewrite J by (auto; lia). cbn [obind].
      rewrite <- LC. rewrite <- duos_length, skipn_app, Nat.sub_diag, skipn_all. cbn [app skipn]. now rewrite LU.
    + unfold s. pose proof (cn_join_spec mask (merge mask text cts) (select false mask text) [] [] [] after') as J. cbn [app length] in J.
      rewrite J; try lia.
      * cbn [obind]. rewrite merge_merge, merge_select by auto.
        replace (4 * n_stars ms) with (length (duos (select false mask text))) by exact D0.
        rewrite skipn_app, Nat.sub_diag, skipn_all. cbn [app skipn]. now rewrite LU.
      * now rewrite select_length by auto.
      * now apply select_map.
Qed.

(** ** Permutations *)
Lemma mkres_inj a b x y : Ret (mkres a b) = Ret (mkres x y) -> a = x.
Proof. intros E. injection E. auto. Qed.
Lemma same_format_sym sample a b : (forall i, i < length a -> starred sample i -> digit (get a i)) -> same_format sample a b -> same_format sample b a.
Proof. intros D (L & S & K). split; [auto|]. rewrite L. split; [exact D|]. intros i I U. symmetry. now apply K. Qed.
Lemma phone_permutes_lemma junk0 key keylen cipher ffx ctx sample n : app_init junk0 key keylen cipher ffx = Ret ctx -> block_function (ciph (a_kind ctx) (a_key ctx)) ->
  clog_sane clog 10 n -> ffx_fits ffx (n_starred sample n) (S (n_kept sample n)) ->
  (forall p1 p2 j1 j2 after1 after2 r, app_number p1 sample -> app_number p2 sample -> length p1 = n -> length p2 = n -> n <= length after1 -> n <= length after2 ->
    encrypt_phone ciph clog ctx j1 p1 sample after1 = Ret (mkres (r ++ skipn n after1) [0%N]) ->
    encrypt_phone ciph clog ctx j2 p2 sample after2 = Ret (mkres (r ++ skipn n after2) [0%N]) -> p1 = p2) /\
  (forall r j after, app_number r sample -> length r = n -> n <= length after ->
    exists p, app_number p sample /\ same_format sample p r /\ encrypt_phone ciph clog ctx j p sample after = Ret (mkres (r ++ skipn n after) [0%N])).
Proof.
  intros HI HE HC HF. split.
  - intros p1 p2 j1 j2 after1 after2 r N1 N2 L1 L2 A1 A2 E1 E2.
    destruct (phone_roundtrip ciph clog junk0 key keylen cipher ffx ctx p1 sample after1 after1 j1 [] HI HE N1) as (q1 & _ & F1 & D1); rewrite ?L1; auto.
    destruct (phone_roundtrip ciph clog junk0 key keylen cipher ffx ctx p2 sample after2 after1 j2 [] HI HE N2) as (q2 & _ & F2 & D2); rewrite ?L2; auto.
    rewrite E1, L1 in F1. rewrite E2, L2 in F2. apply mkres_inj, app_inv_tail in F1, F2. subst q1 q2. rewrite D1, L1, L2 in D2. apply mkres_inj, app_inv_tail in D2. exact D2.
  - intros r j after NR LR A. pose proof NR as (B & D & SS & LL).
    destruct (phone_roundtrip_dec junk0 key keylen cipher ffx ctx r sample after after [] j HI HE NR) as (p & F & _ & E); rewrite ?LR; auto.
    pose proof (same_format_sym sample r p D F) as F'. exists p. rewrite LR in E. split; [|split; [exact F'|exact E]].
    destruct F as (L & Sd & K). split; [|split; [|split]].
    + apply Forall_forall. intros x X. apply In_nth with (d := 0%N) in X as (i & I & <-). rewrite L in I. fold (get p i).
      destruct (starred_dec sample i) as [Q|Q]; [pose proof (Sd i I Q) as G; unfold digit in G; unfold byte; lia|].
      rewrite (K i I Q). unfold bytes in B. rewrite Forall_forall in B. apply B, nth_In. exact I.
    + rewrite L. exact Sd.
    + destruct SS; [auto|right; congruence].
    + now rewrite L.
Qed.
Definition id_number (body x sample : list N) : Prop :=
  (x = [88%N] \/ (x = [] /\ body <> [] /\ last body 0%N <> 88%N)) /\ bytes body /\ (forall i, i < length body -> starred sample i -> digit (get body i)) /\
  (sample = [] \/ length body <= length sample) /\ (N.of_nat (length body) < 2 ^ 28)%N.
Lemma idcard_permutes_lemma junk0 key keylen cipher ffx ctx sample n : app_init junk0 key keylen cipher ffx = Ret ctx -> block_function (ciph (a_kind ctx) (a_key ctx)) ->
  (forall m, S m = n \/ m = n -> clog_sane clog 10 m /\ ffx_fits ffx (n_starred sample m) (S (n_kept sample m))) ->
  (forall b1 x1 b2 x2 j1 j2 after1 after2 r, id_number b1 x1 sample -> id_number b2 x2 sample -> length (b1 ++ x1) = n -> length (b2 ++ x2) = n -> n <= length after1 -> n <= length after2 ->
    encrypt_idcard ciph clog ctx j1 (b1 ++ x1) sample after1 = Ret (mkres (r ++ skipn n after1) [0%N]) ->
    encrypt_idcard ciph clog ctx j2 (b2 ++ x2) sample after2 = Ret (mkres (r ++ skipn n after2) [0%N]) -> b1 ++ x1 = b2 ++ x2) /\
  (forall b x j after, id_number b x sample -> length (b ++ x) = n -> n <= length after ->
    exists b', id_number b' x sample /\ same_format sample b' b /\ encrypt_idcard ciph clog ctx j (b' ++ x) sample after = Ret (mkres (b ++ x ++ skipn n after) [0%N])).
Proof.
  intros HI HE HM.
  assert (HB : forall b x, id_number b x sample -> length (b ++ x) = n -> S (length b) = n \/ length b = n).
  { intros b x ([->|(-> & _)] & _) L; rewrite app_length in L; cbn [length] in L; lia. }
  split.
  - intros b1 x1 b2 x2 j1 j2 after1 after2 r N1 N2 L1 L2 A1 A2 E1 E2.
    pose proof (HM _ (HB _ _ N1 L1)) as [C1 F1]. pose proof (HM _ (HB _ _ N2 L2)) as [C2 F2]. destruct N1 as (X1 & B1 & D1 & S1 & M1). destruct N2 as (X2 & B2 & D2 & S2 & M2).
    destruct (idcard_roundtrip ciph clog junk0 key keylen cipher ffx ctx b1 x1 sample after1 after1 j1 [] HI HE X1 B1 D1 S1 M1 C1 F1) as (q1 & _ & G1 & H1); rewrite ?L1; auto.
    destruct (idcard_roundtrip ciph clog junk0 key keylen cipher ffx ctx b2 x2 sample after2 after1 j2 [] HI HE X2 B2 D2 S2 M2 C2 F2) as (q2 & _ & G2 & H2); rewrite ?L2; auto.
    rewrite E1, L1, app_assoc in G1. rewrite E2, L2, app_assoc in G2. apply mkres_inj, app_inv_tail in G1, G2. rewrite <- G1 in H1. rewrite <- G2 in H2.
    rewrite H1, L1, L2, !app_assoc in H2. apply mkres_inj, app_inv_tail in H2. exact H2.
  - intros b x j after NR LR A. pose proof (HM _ (HB _ _ NR LR)) as [C F]. destruct NR as (X & B & D & SS & M).
    destruct (idcard_roundtrip_dec junk0 key keylen cipher ffx ctx b x sample after after [] j HI HE X B D SS M C F) as (p & G & _ & E); rewrite ?LR; auto.
    pose proof (same_format_sym sample b p D G) as G'. exists p. rewrite LR in E. split; [|split; [exact G'|exact E]].
    destruct G as (L & Sd & K). split; [|split; [|split; [|split]]].
    + destruct X as [X|(X & NB & LB)]; auto. right. assert (LN : length b <> 0) by (destruct b; [congruence|discriminate]).
      assert (NP : p <> []) by (intros ->; cbn in L; lia). split; [exact X|]. split; [exact NP|].
      rewrite last_get in * by auto. rewrite L. destruct (starred_dec sample (length b - 1)) as [Q|Q].
      * specialize (Sd (length b - 1) ltac:(lia) Q). unfold digit in Sd. intros Z. rewrite Z in Sd. lia.
      * rewrite K; auto; lia.
    + apply Forall_forall. intros y Y. apply In_nth with (d := 0%N) in Y as (i & I & <-). rewrite L in I. fold (get p i).
      destruct (starred_dec sample i) as [Q|Q]; [pose proof (Sd i I Q) as Z; unfold digit in Z; unfold byte; lia|].
      rewrite (K i I Q). unfold bytes in B. rewrite Forall_forall in B. apply B, nth_In. exact I.
    + rewrite L. exact Sd.
    + now rewrite L.
    + now rewrite L.
Qed.
Lemma cn_permutes_lemma junk0 key keylen cipher ffx ctx ms sample n : app_init junk0 key keylen cipher ffx = Ret ctx -> block_function (ciph (a_kind ctx) (a_key ctx)) ->
  (N.of_nat n < 2 ^ 26)%N -> clog_sane clog 12 (4 * n) -> 1 <= n_stars ms -> ffx_fits ffx (4 * n_stars ms) (S (4 * n_keeps ms)) ->
  (forall t1 t2 j1 j2 ji1 jt1 ji2 jt2 after1 after2 r, cn_sample t1 ms sample -> cn_sample t2 ms sample -> Forall han t1 -> Forall han t2 -> length t1 = n -> length t2 = n ->
    3 * n <= length after1 -> 3 * n <= length after2 ->
    encrypt_cn ciph clog ctx j1 ji1 jt1 (utf8 t1) sample after1 = Ret (mkres (r ++ skipn (3 * n) after1) [0%N]) ->
    encrypt_cn ciph clog ctx j2 ji2 jt2 (utf8 t2) sample after2 = Ret (mkres (r ++ skipn (3 * n) after2) [0%N]) -> t1 = t2) /\
  (forall t j ji jt after, cn_sample t ms sample -> Forall han t -> length t = n -> 3 * n <= length after ->
    exists t', cn_sample t' ms sample /\ Forall han t' /\ length t' = n /\ (forall i cp, nth_error ms i = Some (Keep cp) -> get t' i = get t i) /\
      encrypt_cn ciph clog ctx j ji jt (utf8 t') sample after = Ret (mkres (utf8 t ++ skipn (3 * n) after) [0%N])).
Proof.
  intros HI HE HL HC H1 HF. split.
  - intros t1 t2 j1 j2 ji1 jt1 ji2 jt2 after1 after2 r S1 S2 T1 T2 L1 L2 A1 A2 E1 E2.
    destruct (cn_roundtrip ciph clog junk0 key keylen cipher ffx ctx t1 ms sample after1 after1 j1 [] ji1 jt1 [] [] HI HE S1 T1) as (q1 & Q1 & _ & _ & G1 & D1); rewrite ?utf8_length, ?L1; auto.
    destruct (cn_roundtrip ciph clog junk0 key keylen cipher ffx ctx t2 ms sample after2 after1 j2 [] ji2 jt2 [] [] HI HE S2 T2) as (q2 & Q2 & _ & _ & G2 & D2); rewrite ?utf8_length, ?L2; auto.
    rewrite E1, utf8_length, L1 in G1. rewrite E2, utf8_length, L2 in G2. apply mkres_inj, app_inv_tail in G1, G2. rewrite <- G1 in D1. rewrite <- G2 in D2.
    rewrite D1, !utf8_length, L1, L2 in D2. apply mkres_inj, app_inv_tail in D2. now apply utf8_inj.
  - intros t j ji jt after SS TT LT A.
    destruct (cn_roundtrip_dec junk0 key keylen cipher ffx ctx t ms sample after after [] j [] [] ji jt HI HE SS TT) as (p & L & P & K & _ & E); rewrite ?utf8_length, ?LT; auto.
    exists p. rewrite utf8_length, LT in E. split; [unfold cn_sample in *; now rewrite L|]. split; [exact P|]. split; [congruence|]. split; [exact K|exact E].
Qed.
End Perm.
