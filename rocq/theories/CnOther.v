(** * Chinese text with other characters at the kept positions (C58) *)
From Verif Require Import Base Word32 CbcSpec FpeModel FpeSpec FpeProofs AppModel AppSpec AppProofs CnProofs.
Local Open Scope nat_scope.

Definition three_byte (cp : N) : Prop := (0x800 <= cp < 0x10000)%N.
Definition hanb (cp : N) : bool := ((0x4E00 <=? cp) && (cp <=? 0x9EFF))%N.
Lemma hanb_spec cp : hanb cp = true <-> han cp.
Proof. unfold hanb, han. rewrite andb_true_iff, !N.leb_le. reflexivity. Qed.
(** the array tweak after the kept characters were written over its contents [t]: a character of U+4E00 .. U+9EFF writes its
    four digits and one '0' more, any other character writes nothing *)
Fixpoint tweak_cells (kept t : list N) : list N :=
  match kept with
  | [] => t
  | cp :: kept' => if hanb cp then duo4 cp ++ tweak_cells kept' (48%N :: skipn 5 t) else firstn 4 t ++ tweak_cells kept' (skipn 4 t)
  end.
Lemma tweak_cells_length kept : forall t, 4 * length kept + 1 <= length t -> length (tweak_cells kept t) = length t.
Proof.
  induction kept as [|cp kept IH]; intros t L; [reflexivity|]. cbn [tweak_cells length] in *. destruct (hanb cp); rewrite app_length.
  - rewrite IH by (cbn [length]; rewrite skipn_length; lia). cbn [length]. rewrite skipn_length, duo4_length. lia.
  - rewrite IH by (rewrite skipn_length; lia). rewrite firstn_length, skipn_length. lia.
Qed.
Lemma duo4_bytes cp : bytes (duo4 cp) /\ Forall (fun c => c <> 0%N) (duo4 cp).
Proof.
  assert (H : numeral_string 12 (duo4 cp)).
  { Local Transparent duo4. unfold duo4. cbv zeta. cbn [map]. unfold numeral_string. do 4 (apply Forall_cons; [apply digit_facts, mod12_lt|]). apply Forall_nil. }
  Local Opaque duo4. split; (eapply Forall_impl; [|exact H]); intros c Hc; apply (numeral_nonzero 12 c Hc).
Qed.
Lemma tweak_cells_bytes kept : forall t, bytes t -> bytes (tweak_cells kept t).
Proof.
  induction kept as [|cp kept IH]; intros t B; [exact B|]. cbn [tweak_cells]. destruct (hanb cp); apply bytes_app; split.
  - apply duo4_bytes.
  - apply IH. constructor; [reflexivity|]. now apply bytes_skipn.
  - now apply bytes_firstn.
  - apply IH. now apply bytes_skipn.
Qed.
Lemma tweak_cells_han kept : forall t, Forall han kept -> 4 * length kept <= length t -> exists r, tweak_cells kept t = duos kept ++ r.
Proof.
  induction kept as [|cp kept IH]; intros t H L; [exists t; reflexivity|]. apply Forall_cons_iff in H as [H1 H2]. cbn [tweak_cells length] in *.
  apply hanb_spec in H1. rewrite H1. destruct kept as [|cp' kept].
  - exists (48%N :: skipn 5 t). cbn [tweak_cells]. unfold duos. cbn [map concat]. now rewrite app_nil_r.
  - destruct (IH (48%N :: skipn 5 t) H2) as (r & E); [cbn [length] in *; rewrite skipn_length; lia|].
    exists r. rewrite E. unfold duos. cbn [map concat]. now rewrite <- !app_assoc.
Qed.

(** ** Reading a three-byte character *)
Lemma code3 cp : three_byte cp -> utf8CharToUint32 (utf8_3 cp) = cp.
Proof.
  Local Transparent utf8_3 utf8CharToUint32.
  intros [H1 H2]. unfold utf8CharToUint32, utf8_3.
  change (get [?a; ?b; ?c] 0) with a. change (get [?a; ?b; ?c] 1) with b. change (get [?a; ?b; ?c] 2) with c.
  rewrite !land_63, land_15.
  assert (Q : (cp / 4096 < 16)%N) by (apply N.div_lt_upper_bound; [discriminate|lia]).
  assert (M1 : ((224 + cp / 4096) mod 16 = cp / 4096)%N).
  { symmetry. apply (N.mod_unique _ _ 14); lia. }
  assert (M2 : forall q, (q < 64 -> (128 + q) mod 64 = q)%N).
  { intros q P. symmetry. apply (N.mod_unique _ _ 2); lia. }
  rewrite M1, !M2 by (apply N.mod_lt; discriminate).
  pose proof (N.mod_lt cp 64 ltac:(discriminate)) as R0. pose proof (N.mod_lt (cp / 64) 64 ltac:(discriminate)) as R1.
  change (N.shiftl (cp / 4096) 12) with (N.shiftl (cp / 4096) (6 + 6)). rewrite <- N.shiftl_shiftl, <- N.shiftl_lor.
  rewrite (Word32.lor_add_shift (cp / 4096)) by exact R1. rewrite Word32.lor_add_shift by exact R0.
  change (2 ^ 6)%N with 64%N. pose proof (N.div_mod cp 64 ltac:(discriminate)). pose proof (N.div_mod (cp / 64) 64 ltac:(discriminate)).
  assert (D : (cp / 64 / 64 = cp / 4096)%N) by (rewrite N.div_div by discriminate; reflexivity). rewrite D in *. lia.
  Local Opaque utf8_3 utf8CharToUint32.
Qed.
Lemma read3 cp : three_byte cp -> utf8Uint32ToInt (utf8CharToUint32 (utf8_3 cp)) = (Z.of_N cp - 0x4E00)%Z.
Proof.
  intros H. rewrite code3 by exact H. destruct H as [H1 H2]. Local Transparent utf8Uint32ToInt. unfold utf8Uint32ToInt, to_int. Local Opaque utf8Uint32ToInt.
  change (2 ^ 32)%N with 4294967296%N. change (2 ^ 31)%N with 2147483648%N.
  destruct (N.le_gt_cases 0x4E00 cp) as [G|G].
  - assert (E : ((cp + 4294967296 - 0x4E00) mod 4294967296 = cp - 0x4E00)%N) by (symmetry; apply (N.mod_unique _ _ 1); lia).
    rewrite E. destruct (N.ltb_spec (cp - 0x4E00) 2147483648); lia.
  - rewrite N.mod_small by lia. destruct (N.ltb_spec (cp + 4294967296 - 0x4E00) 2147483648); [lia|].
    change (2 ^ 32)%Z with 4294967296%Z. lia.
Qed.
Lemma write3 cp buf pos : three_byte cp -> utf8IntToCharDuodecimal (Z.of_N cp - 0x4E00) buf pos =
  if hanb cp then write_at buf pos (duo4 cp ++ [48%N]) else Some buf.
Proof.
  intros H. unfold utf8IntToCharDuodecimal. destruct (hanb cp) eqn:E.
  - apply hanb_spec in E. replace ((20735 <? Z.of_N cp - 19968)%Z || (Z.of_N cp - 19968 <? 0)%Z) with false.
    + cbv zeta. now rewrite han_digits.
    + symmetry. apply orb_false_iff. rewrite !Z.ltb_ge. unfold han in E. lia.
  - replace ((20735 <? Z.of_N cp - 19968)%Z || (Z.of_N cp - 19968 <? 0)%Z) with true; [reflexivity|].
    symmetry. apply orb_true_iff. rewrite !Z.ltb_lt. unfold hanb in E. rewrite andb_false_iff, !N.leb_gt in E. lia.
Qed.
Lemma han_three cp : han cp -> three_byte cp.
Proof. unfold han, three_byte. lia. Qed.

(** ** The loop that fills input and tweak *)
Lemma cn_split_other : forall mask text pre ipre irest tpre trest,
  length text = length mask -> Forall three_byte text -> Forall han (select false mask text) ->
  4 * stars mask + 1 <= length irest -> 4 * keeps mask + 1 <= length trest ->
  exists ir, length ir = length irest - 4 * stars mask /\
  cn_split (utf8 (pre ++ text)) (length pre) (map negb mask) (ipre ++ irest, length ipre, tpre ++ trest, length tpre) =
  Ret (ipre ++ duos (select false mask text) ++ ir, length ipre + 4 * stars mask,
       tpre ++ tweak_cells (select true mask text) trest, length tpre + 4 * keeps mask).
Proof.
  induction mask as [|m mask IH]; intros [|cp text] pre ipre irest tpre trest L H HH HI HT; try discriminate.
  - exists irest. unfold stars, keeps. cbn. rewrite !Nat.sub_0_r, !Nat.add_0_r. auto.
  - apply Forall_cons_iff in H as [Hc Ht]. cbn [map cn_split].
    assert (RD : read_at (utf8 (pre ++ cp :: text) ++ [0%N]) (3 * length pre) 3 = Some (utf8_3 cp)).
    { rewrite utf8_app. unfold utf8 at 2. cbn [map concat]. rewrite <- !app_assoc, <- utf8_length, <- (utf8_3_length cp). apply read_at_app. }
    rewrite RD. cbv zeta. rewrite read3 by auto. rewrite !write3 by auto. injection L as L.
    replace (pre ++ cp :: text) with ((pre ++ [cp]) ++ text) by (now rewrite <- app_assoc).
    replace (S (length pre)) with (length (pre ++ [cp])) by (rewrite app_length; cbn; lia).
    destruct m; cbn [negb].
    + assert (stars (true :: mask) = stars mask) as -> by reflexivity. assert (keeps (true :: mask) = S (keeps mask)) as Q by reflexivity. rewrite Q in *.
      cbn [select Bool.eqb] in HH |- *. cbn [tweak_cells]. destruct (hanb cp) eqn:HB.
      * rewrite write_at_app by (rewrite app_length, duo4_length; cbn [length]; lia). rewrite <- (app_assoc (duo4 cp) [48%N]). rewrite (app_assoc tpre (duo4 cp)).
        replace (length tpre + 4) with (length (tpre ++ duo4 cp)) by (rewrite app_length, duo4_length; lia).
        destruct (IH text (pre ++ [cp]) ipre irest (tpre ++ duo4 cp) ([48%N] ++ skipn 5 trest)) as (ir & L1 & R); auto.
        { rewrite app_length; cbn [length]; rewrite skipn_length. lia. }
        exists ir. split; [exact L1|].
        replace (length (duo4 cp ++ [48%N])) with 5 by (rewrite app_length, duo4_length; reflexivity).
        rewrite R. rewrite app_length, duo4_length, <- !app_assoc. cbn [app].
        replace (length tpre + 4 + 4 * keeps mask) with (length tpre + 4 * S (keeps mask)) by lia. reflexivity.
      * replace (tpre ++ trest) with ((tpre ++ firstn 4 trest) ++ skipn 4 trest) by (now rewrite <- app_assoc, firstn_skipn).
        assert (LF : length (firstn 4 trest) = 4) by (rewrite firstn_length; lia).
        replace (length tpre + 4) with (length (tpre ++ firstn 4 trest)) by (rewrite app_length; lia).
        destruct (IH text (pre ++ [cp]) ipre irest (tpre ++ firstn 4 trest) (skipn 4 trest)) as (ir & L1 & R); auto.
        { rewrite skipn_length. lia. }
        exists ir. split; [exact L1|]. rewrite R. rewrite app_length, LF, <- !app_assoc.
        replace (length tpre + 4 + 4 * keeps mask) with (length tpre + 4 * S (keeps mask)) by lia. reflexivity.
    + assert (keeps (false :: mask) = keeps mask) as -> by reflexivity. assert (stars (false :: mask) = S (stars mask)) as Q by reflexivity. rewrite Q in *.
      cbn [select Bool.eqb] in HH |- *. apply Forall_cons_iff in HH as [H1 H2]. apply hanb_spec in H1. rewrite H1.
      rewrite write_at_app by (rewrite app_length, duo4_length; cbn [length]; lia). rewrite <- (app_assoc (duo4 cp) [48%N]). rewrite (app_assoc ipre (duo4 cp)).
      replace (length ipre + 4) with (length (ipre ++ duo4 cp)) by (rewrite app_length, duo4_length; lia).
      destruct (IH text (pre ++ [cp]) (ipre ++ duo4 cp) ([48%N] ++ skipn 5 irest) tpre trest) as (ir & L1 & R); auto.
      { rewrite app_length; cbn [length]; rewrite skipn_length. lia. }
      exists ir. split; [rewrite L1, app_length; cbn [length]; rewrite skipn_length; lia|].
      replace (length (duo4 cp ++ [48%N])) with 5 by (rewrite app_length, duo4_length; reflexivity).
      rewrite R. unfold duos. cbn [map concat]. rewrite app_length, duo4_length, <- !app_assoc.
      replace (length ipre + 4 + 4 * stars mask) with (length ipre + 4 * S (stars mask)) by lia. reflexivity.
Qed.

(** ** The whole function *)
(** the uninitialised array tweak, of 4 n + 1 bytes *)
Definition raw_tweak (n : nat) (jt : list N) : list N := firstn (4 * n + 1) (jt ++ repeat 0%N (4 * n + 1)).
(** the tweak that is passed on *)
Definition other_tweak (kept jt : list N) : list N := set (tweak_cells kept (raw_tweak (length kept) jt)) (4 * length kept) 0%N.
Lemma raw_tweak_length n jt : length (raw_tweak n jt) = 4 * n + 1.
Proof. unfold raw_tweak. rewrite firstn_length, app_length, repeat_length. lia. Qed.
Lemma other_tweak_length kept jt : length (other_tweak kept jt) = 4 * length kept + 1.
Proof. unfold other_tweak. rewrite length_set, tweak_cells_length; rewrite raw_tweak_length; lia. Qed.
Lemma other_tweak_bytes kept jt : bytes jt -> bytes (other_tweak kept jt).
Proof.
  intros B. unfold other_tweak. apply bytes_set; [|reflexivity]. apply tweak_cells_bytes. unfold raw_tweak. apply bytes_firstn, bytes_app. split; [exact B|].
  now apply bytes_repeat.
Qed.
Section Cn.
Variable ciph : cipher_kind -> list N -> list N -> list N.
Variable clog : N -> nat -> nat.

Lemma aux_cn_other ctx junk ji jt block text ms sample after :
  cn_sample text ms sample -> Forall three_byte text -> Forall han (select false (kmask ms) text) -> 1 <= n_stars ms ->
  let mask := kmask ms in
  aux_cn ciph ctx junk ji jt block (utf8 text) sample after =
  obind (call_ffx ciph block ctx junk (other_tweak (select true mask text) jt) 12 (duos (select false mask text))) (fun o =>
  obind (cn_join (utf8 text) o 0 0 (map negb mask) after) (fun after' => Ret (mkres after' (skipn (4 * n_stars ms) o)))).
Proof.
  intros HS HT HH H1 mask.
  assert (LM : length ms = length text).
  { destruct HS as [[_ ->]|(_ & L & _)]; auto. now rewrite repeat_length. }
  destruct (kmask_keeps ms) as [KK KL]. fold mask in KK.
  pose proof (kmask_stars ms) as KS. fold mask in KS.
  assert (Hlen : length (utf8 text) / 3 = length text) by (rewrite utf8_length, Nat.mul_comm; apply Nat.div_mul; lia).
  unfold aux_cn. rewrite Hlen.
  set (tl := if streq sample [] then _ else _).
  assert (TL : tl = Z.of_nat (n_keeps ms)).
  { unfold tl. destruct HS as [[-> ->]|(-> & L & OK)].
    - cbn. unfold n_keeps, n_stars. rewrite repeat_length.
      assert (length (filter is_star (repeat Star (length text))) = length text) as ->; [|lia].
      generalize (length text). intros n. induction n; cbn; auto.
    - destruct (marks_units ms OK) as [_ M]. destruct (streq_spec (marks_string ms) []) as [E|_].
      + rewrite E in *. cbn in M. unfold n_keeps. lia.
      + rewrite M. unfold n_keeps. lia. }
  set (units := if streq sample [] then _ else _).
  assert (TU : units = map negb mask).
  { unfold units, mask. rewrite kmask_units. rewrite Nat2Z.id. destruct HS as [[-> ->]|(-> & L & OK)].
    - destruct (streq_spec (@nil N) []); [|congruence]. generalize (length text). intros n. induction n as [|n IH]; cbn; auto. now rewrite IH.
    - destruct (marks_units ms OK) as [M1 M]. destruct (streq_spec (marks_string ms) []) as [E|_]; auto.
      rewrite E in *. cbn in M. lia. }
  rewrite TL, TU. cbv zeta.
  replace ((Z.of_nat (length text) - Z.of_nat (n_keeps ms)) * 4 + 1)%Z with (Z.of_nat (4 * n_stars ms + 1)) by (unfold n_keeps; lia).
  replace ((Z.of_nat (length text) - Z.of_nat (n_keeps ms)) * 4)%Z with (Z.of_nat (4 * n_stars ms)) by (unfold n_keeps; lia).
  replace (Z.of_nat (n_keeps ms) * 4 + 1)%Z with (Z.of_nat (4 * n_keeps ms + 1)) by lia.
  replace (Z.of_nat (4 * n_keeps ms + 1) - 1)%Z with (Z.of_nat (4 * n_keeps ms)) by lia.
  rewrite !Nat2Z.id.
  match goal with |- (if ?b then _ else _) = _ => replace b with false end.
  2:{ symmetry. rewrite !orb_false_iff, !Z.leb_gt. lia. }
  set (input0 := firstn (4 * n_stars ms + 1) _). fold (raw_tweak (n_keeps ms) jt).
  assert (L0 : length input0 = 4 * n_stars ms + 1) by (unfold input0; rewrite firstn_length, app_length, repeat_length; lia).
  pose proof (raw_tweak_length (n_keeps ms) jt) as L1.
  assert (LM' : length text = length mask) by (unfold mask; rewrite kmask_length; auto).
  destruct (cn_split_other mask text [] [] input0 [] (raw_tweak (n_keeps ms) jt)) as (ir & LI & R); auto; try lia.
  cbn [app length] in R. rewrite R. cbn [obind].
  assert (D0 : length (duos (select false mask text)) = 4 * n_stars ms) by (rewrite duos_length, select_length by auto; fold (stars mask); lia).
  assert (D1 : length (select true mask text) = n_keeps ms) by (rewrite select_length by auto; exact KK).
  rewrite (last_set (duos (select false mask text) ++ ir) (4 * n_stars ms)) by (rewrite app_length; lia).
  replace (firstn (4 * n_stars ms) (duos (select false mask text) ++ ir)) with (duos (select false mask text))
    by (rewrite <- D0, firstn_app, Nat.sub_diag, firstn_all, firstn_O, app_nil_r; reflexivity).
  unfold other_tweak. rewrite D1.
  rewrite strz_app; [reflexivity|].
  eapply Forall_impl; [intros c; apply numeral_nonzero with (radix := 12%N)|]. now apply duos_numeral.
Qed.

Lemma cn_other_roundtrip junk0 key keylen cipher ffx ctx text ms sample after after' j1 j2 ji1 jt1 ji2 jt2 :
  app_init junk0 key keylen cipher ffx = Ret ctx -> block_function (ciph (a_kind ctx) (a_key ctx)) ->
  cn_sample text ms sample -> Forall three_byte text -> (forall i, nth_error ms i = Some Star -> han (get text i)) -> (N.of_nat (length text) < 2 ^ 26)%N ->
  clog_sane clog 12 (4 * length text) -> 1 <= n_stars ms ->
  ffx_fits ffx (4 * n_stars ms) (S (4 * n_keeps ms)) ->
  length (utf8 text) <= length after -> length (utf8 text) <= length after' ->
  bytes jt1 -> other_tweak (select true (kmask ms) text) jt1 = other_tweak (select true (kmask ms) text) jt2 ->
  exists text', length text' = length text /\ Forall three_byte text' /\
    (forall i, nth_error ms i = Some Star -> han (get text' i)) /\
    (forall i cp, nth_error ms i = Some (Keep cp) -> get text' i = get text i) /\
    encrypt_cn ciph clog ctx j1 ji1 jt1 (utf8 text) sample after = Ret (mkres (utf8 text' ++ skipn (length (utf8 text)) after) [0%N]) /\
    decrypt_cn ciph clog ctx j2 ji2 jt2 (utf8 text') sample after' = Ret (mkres (utf8 text ++ skipn (length (utf8 text)) after') [0%N]).
Proof.
  intros HI HE HS HT HST HL HC H1 HF HA HA' BJ JJ.
  destruct (app_block_init ciph _ _ _ _ _ _ HI) as [AB AF].
  assert (LM : length ms = length text).
  { destruct HS as [[_ ->]|(_ & L & _)]; auto. now rewrite repeat_length. }
  set (mask := kmask ms).
  assert (LM' : length text = length mask) by (unfold mask; rewrite kmask_length; auto).
  assert (HSel : forall t, (forall i, nth_error ms i = Some Star -> han (get t i)) -> Forall han (select false mask t)).
  { intros t Ht. apply Forall_forall. intros x X. apply select_in in X as (i & _ & M & ->). apply Ht.
    unfold mask, kmask in M. rewrite nth_error_map in M. destruct (nth_error ms i) as [[|cp]|]; try discriminate. reflexivity. }
  destruct (kmask_keeps ms) as [KK KL]. fold mask in KK.
  pose proof (kmask_stars ms) as KS. fold mask in KS.
  set (T := other_tweak (select true mask text) jt1). set (s := duos (select false mask text)).
  assert (D0 : length s = 4 * n_stars ms) by (unfold s; rewrite duos_length, select_length by auto; fold (stars mask); lia).
  assert (D1 : length T = S (4 * n_keeps ms)).
  { unfold T. rewrite other_tweak_length, select_length by auto. fold (keeps mask). lia. }
  assert (NS : numeral_string 12 s) by (apply duos_numeral; auto).
  destruct (fpe_init_some T 12) as [c HcI]; [lia|].
  change (2 ^ 26)%N with 67108864%N in HL.
  destruct (ffx_call clog ffx (ciph (a_kind ctx) (a_key ctx)) c 12 T s j1 j2) as (o & E1 & Lo & No & Dd); auto.
  - lia.
  - unfold T. now apply other_tweak_bytes.
  - intros H. rewrite H in D1. discriminate.
  - intros v Hv. apply HC. lia.
  - change (2 ^ 30)%N with 1073741824%N. lia.
  - change (2 ^ 29)%N with 536870912%N. rewrite D1. unfold n_keeps. lia.
  - now rewrite D0, D1.
  - rewrite D0 in Lo. destruct (duos_onto (n_stars ms) o Lo No) as (cts & LC & HH & <-).
    exists (merge mask text cts).
    assert (LT : length (merge mask text cts) = length text) by (now apply merge_length).
    assert (HST' : forall i, nth_error ms i = Some Star -> han (get (merge mask text cts) i)).
    { intros i Hi. apply (merge_starred han); auto.
      - fold (stars mask). lia.
      - unfold mask, kmask. now rewrite nth_error_map, Hi. }
    assert (HK : forall i cp, nth_error ms i = Some (Keep cp) -> get (merge mask text cts) i = get text i).
    { intros i cp Hi. apply merge_kept; auto. unfold mask, kmask. now rewrite nth_error_map, Hi. }
    assert (HT' : Forall three_byte (merge mask text cts)).
    { apply Forall_forall. intros x Hx. apply In_nth with (d := 0%N) in Hx as (i & Hi & <-). rewrite LT in Hi.
      destruct (nth_error ms i) as [[|cp]|] eqn:M.
      - apply han_three. now apply HST'.
      - change (three_byte (get (merge mask text cts) i)). rewrite (HK i cp M). rewrite Forall_forall in HT. apply HT, nth_In. auto.
      - apply nth_error_None in M. lia. }
    split; [exact LT|]. split; [exact HT'|]. split; [exact HST'|]. split; [exact HK|].
    assert (HS' : cn_sample (merge mask text cts) ms sample) by (unfold cn_sample in *; now rewrite LT).
    unfold encrypt_cn, decrypt_cn. rewrite (aux_cn_other _ _ _ _ _ text ms) by (auto; apply HSel; auto).
    rewrite (aux_cn_other _ _ _ _ _ (merge mask text cts) ms) by (auto; apply HSel; auto). cbv zeta. fold mask.
    rewrite select_merge_kept by auto. rewrite select_merge_starred by (auto; fold (stars mask); lia).
    fold mask in JJ. rewrite <- JJ. fold T. fold s.
    unfold call_ffx. rewrite AB. cbn [obind]. rewrite HcI, AF, E1, Dd. cbn [obind].
    assert (LU : length (utf8 text) = 3 * length mask) by (rewrite utf8_length; lia).
    split.
    + pose proof (cn_join_spec mask text cts [] [] [] after) as J. cbn [app length] in J. rewrite J by (auto; lia). cbn [obind].
      rewrite <- LC. rewrite <- duos_length, skipn_app, Nat.sub_diag, skipn_all. cbn [app skipn]. now rewrite LU.
    + unfold s. pose proof (cn_join_spec mask (merge mask text cts) (select false mask text) [] [] [] after') as J. cbn [app length] in J.
      rewrite J; try lia.
      * cbn [obind]. rewrite merge_merge, merge_select by auto.
        replace (4 * n_stars ms) with (length (duos (select false mask text))) by exact D0.
        rewrite skipn_app, Nat.sub_diag, skipn_all. cbn [app skipn]. now rewrite LU.
      * now rewrite select_length by auto.
      * auto.
Qed.
End Cn.

(** ** Which bytes of the array matter *)
Lemma get_cons_S (a : N) l q : get (a :: l) (S q) = get l q. Proof. reflexivity. Qed.
Lemma get_skipn_add k (l : list N) q : get (skipn k l) q = get l (k + q).
Proof. unfold get. revert l. induction k as [|k IH]; intros [|a l]; cbn; auto. now destruct q. Qed.
Lemma get_firstn_small k (l : list N) q : q < k -> get (firstn k l) q = get l q.
Proof. intros H. unfold get. revert k l H. induction q as [|q IH]; intros [|k] [|a l] H; try lia; cbn; auto. apply IH. lia. Qed.
Lemma get_app_l (a b : list N) q : q < length a -> get (a ++ b) q = get a q.
Proof. intros H. unfold get. now apply app_nth1. Qed.
Lemma get_app_r (a b : list N) q : length a <= q -> get (a ++ b) q = get b (q - length a).
Proof. intros H. unfold get. now apply app_nth2. Qed.
(** the first cell of kept character i holds the '0' written after its predecessor *)
Definition after_han (kept : list N) (q : nat) : bool := (q mod 4 =? 0) && (0 <? q / 4) && hanb (get kept (q / 4 - 1)).
Lemma step4 q : 4 <= q -> q / 4 = S ((q - 4) / 4) /\ q mod 4 = (q - 4) mod 4.
Proof.
  intros H. replace q with ((q - 4) + 1 * 4) at 1 3 by lia. rewrite Nat.div_add, Nat.mod_add by lia. lia.
Qed.
Lemma tweak_cells_get kept : forall t q, q < 4 * length kept -> 4 * length kept + 1 <= length t ->
  get (tweak_cells kept t) q = if hanb (get kept (q / 4)) then get (duo4 (get kept (q / 4))) (q mod 4)
                               else if after_han kept q then 48%N else get t q.
Proof.
  induction kept as [|cp kept IH]; intros t q Q L; [cbn in Q; lia|]. cbn [length] in Q, L. cbn [tweak_cells].
  destruct (Nat.lt_ge_cases q 4) as [S4|S4].
  - assert (E0 : q / 4 = 0) by (apply Nat.div_small; lia). assert (E1 : q mod 4 = q) by (apply Nat.mod_small; lia).
    unfold after_han. rewrite E0, E1. change (get (cp :: kept) 0) with cp. destruct (hanb cp).
    + rewrite get_app_l by (rewrite duo4_length; lia). reflexivity.
    + rewrite get_app_l by (rewrite firstn_length; lia). rewrite get_firstn_small by lia. cbn [Nat.ltb Nat.leb andb]. now rewrite andb_false_r.
  - destruct (step4 q S4) as [E0 E1]. unfold after_han. rewrite E0. rewrite !get_cons_S. replace (S ((q - 4) / 4) - 1) with ((q - 4) / 4) by lia.
    assert (R : forall X : list N, length X = 4 -> forall Y, get (X ++ Y) q = get Y (q - 4)) by (intros X LX Y; rewrite get_app_r by lia; now rewrite LX).
    destruct (hanb cp) eqn:HB.
    + rewrite R by apply duo4_length. rewrite IH by (cbn [length]; rewrite ?skipn_length; lia). rewrite E1.
      destruct (hanb (get kept ((q - 4) / 4))); [reflexivity|]. unfold after_han.
      destruct ((q - 4) mod 4 =? 0) eqn:M; cbn [andb].
      * apply Nat.eqb_eq in M. destruct (Nat.ltb_spec 0 ((q - 4) / 4)) as [P|P]; cbn [andb].
        -- destruct (Nat.ltb_spec 0 (S ((q - 4) / 4))); [|lia]. cbn [andb].
           replace (get (cp :: kept) ((q - 4) / 4)) with (get kept ((q - 4) / 4 - 1)) by (destruct ((q - 4) / 4) as [|k]; [lia|]; cbn; now rewrite Nat.sub_0_r).
           destruct (hanb (get kept ((q - 4) / 4 - 1))); [reflexivity|]. assert (5 <= q) by (destruct (Nat.eq_dec q 4) as [->|]; [cbn in P; lia|lia]).
           replace (q - 4) with (S (q - 5)) by lia. rewrite get_cons_S, get_skipn_add. f_equal. lia.
        -- assert (q = 4) by (pose proof (Nat.div_mod (q - 4) 4 ltac:(lia)); lia). subst q. cbn. rewrite HB. reflexivity.
      * destruct (Nat.eq_dec q 4) as [->|]; [discriminate|]. replace (q - 4) with (S (q - 5)) by lia. rewrite get_cons_S, get_skipn_add. f_equal. lia.
    + rewrite R by (rewrite firstn_length; lia). rewrite IH by (rewrite ?skipn_length; lia). rewrite E1.
      destruct (hanb (get kept ((q - 4) / 4))); [reflexivity|]. unfold after_han. rewrite get_skipn_add. replace (4 + (q - 4)) with q by lia.
      destruct ((q - 4) mod 4 =? 0); cbn [andb]; [|reflexivity].
      destruct (Nat.ltb_spec 0 (S ((q - 4) / 4))); [|lia]. cbn [andb].
      destruct ((q - 4) / 4) as [|k]; cbn [Nat.ltb Nat.leb andb].
      * change (get (cp :: kept) 0) with cp. now rewrite HB.
      * rewrite get_cons_S. now replace (S k - 1) with k by lia.
Qed.
Lemma raw_tweak_get n jt q : q < 4 * n + 1 -> get (raw_tweak n jt) q = get jt q.
Proof.
  intros H. unfold raw_tweak. rewrite get_firstn_small by lia. destruct (Nat.lt_ge_cases q (length jt)) as [L|L].
  - now apply get_app_l.
  - rewrite get_app_r by lia. unfold get. rewrite (nth_overflow jt) by lia.
    destruct (nth_in_or_default (q - length jt) (repeat 0%N (4 * n + 1)) 0%N) as [I|E]; [now apply repeat_spec in I|exact E].
Qed.
(** byte q of the array is left as it was *)
Definition untouched (kept : list N) (q : nat) : Prop :=
  q < 4 * length kept /\ ~ han (get kept (q / 4)) /\ ~ (q mod 4 = 0 /\ 0 < q / 4 /\ han (get kept (q / 4 - 1))).
Lemma other_tweak_get kept jt q : q < 4 * length kept ->
  get (other_tweak kept jt) q = if hanb (get kept (q / 4)) then get (duo4 (get kept (q / 4))) (q mod 4) else if after_han kept q then 48%N else get jt q.
Proof.
  intros Q. unfold other_tweak. unfold get at 1. rewrite nth_set. destruct (Nat.eqb_spec q (4 * length kept)); [lia|]. cbn [andb].
  change (nth q ?l 0%N) with (get l q). rewrite tweak_cells_get by (rewrite ?raw_tweak_length; lia).
  rewrite raw_tweak_get by lia. reflexivity.
Qed.
Lemma untouched_iff kept q : q < 4 * length kept -> (untouched kept q <-> hanb (get kept (q / 4)) = false /\ after_han kept q = false).
Proof.
  intros Q. unfold untouched, after_han. rewrite <- !hanb_spec, !andb_false_iff, Nat.eqb_neq, Nat.ltb_ge, <- !not_true_iff_false.
  destruct (hanb (get kept (q / 4 - 1))); split.
  - intros (_ & A & B). split; [exact A|]. destruct (Nat.eq_dec (q mod 4) 0); [|auto]. left. right. destruct (Nat.le_gt_cases (q / 4) 0); [auto|].
    exfalso. apply B. auto.
  - intros [A B]. split; [exact Q|]. split; [exact A|]. intros (C & D & _). destruct B as [[B|B]|B]; [auto|lia|auto].
  - intros (_ & A & B). split; [exact A|]. right. discriminate.
  - intros [A B]. split; [exact Q|]. split; [exact A|]. intros (C & D & F). discriminate.
Qed.
Lemma other_tweak_iff kept jt1 jt2 : other_tweak kept jt1 = other_tweak kept jt2 <-> forall q, untouched kept q -> get jt1 q = get jt2 q.
Proof.
  split.
  - intros E q U. pose proof (proj1 U) as Q. apply untouched_iff in U as [U1 U2]; [|exact Q].
    apply (f_equal (fun l => get l q)) in E. cbv beta in E. rewrite !other_tweak_get, U1, U2 in E by exact Q. exact E.
  - intros H. apply (nth_ext _ _ 0%N 0%N); [now rewrite !other_tweak_length|]. intros q Q. rewrite other_tweak_length in Q.
    destruct (Nat.lt_ge_cases q (4 * length kept)) as [L|L].
    + change (nth q ?l 0%N) with (get l q). rewrite !other_tweak_get by exact L.
      destruct (hanb (get kept (q / 4))) eqn:E1; [reflexivity|]. destruct (after_han kept q) eqn:E2; [reflexivity|].
      apply H. apply untouched_iff; auto.
    + assert (q = 4 * length kept) by lia. subst q. unfold other_tweak. rewrite !nth_set, Nat.eqb_refl.
      rewrite !tweak_cells_length by (rewrite raw_tweak_length; lia). rewrite !raw_tweak_length.
      destruct (Nat.ltb_spec (4 * length kept) (4 * length kept + 1)); [reflexivity|lia].
Qed.

(** the characters at the kept positions *)
Fixpoint kept_chars (ms : list mark) (text : list N) : list N :=
  match ms, text with
  | Keep _ :: ms', cp :: text' => cp :: kept_chars ms' text'
  | Star :: ms', _ :: text' => kept_chars ms' text'
  | _, _ => []
  end.
Lemma kept_chars_select ms : forall text, select true (kmask ms) text = kept_chars ms text.
Proof. induction ms as [|[|cp] ms IH]; intros [|c text]; cbn; auto. now rewrite IH. Qed.
