(** * Proofs about src/fpe_app *)
From Verif Require Import Base CbcSpec FpeModel FpeSpec FpeProofs AppModel AppSpec.
Local Open Scope nat_scope.
Local Opaque ff1_encrypt ff1_decrypt ff3_encrypt ff3_decrypt.

Lemma streq_spec a b : reflect (a = b) (streq a b).
Proof. unfold streq. destruct (list_eq_dec N.eq_dec a b); constructor; auto. Qed.

Lemma ceil_div_le a b : 0 < b -> ceil_div a b <= a.
Proof. intros H. unfold ceil_div. destruct a; [apply Nat.eq_le_incl, Nat.div_small; lia|]. apply Nat.div_le_upper_bound; nia. Qed.

Lemma ff1_limits_intro clog radix T n : (2 <= radix <= 36)%N -> bytes T -> 2 <= n -> (N.of_nat n < 2 ^ 30)%N ->
  clog_sane clog radix n -> (N.of_nat (length T) < 2 ^ 29)%N -> ff1_limits clog radix T n.
Proof.
  intros Hr HT H2 H30 HC HL. unfold ff1_limits. cbv zeta. change (2 ^ 31)%N with 2147483648%N. change (2 ^ 30)%N with 1073741824%N in *. change (2 ^ 29)%N with 536870912%N in *.
  assert (V : n - n / 2 <= n) by lia. destruct (HC _ V) as [C1 C2].
  assert (ceil_div (clog radix (n - n / 2)) 8 <= n).
  { unfold ceil_div. assert ((clog radix (n - n / 2) + 8 - 1) / 8 < n + 1); [|lia]. apply Nat.div_lt_upper_bound; lia. }
  split; [exact Hr|]. split; [exact HT|]. split; [exact H2|]. split; [exact H30|]. split; [exact C1|]. lia.
Qed.

Section Calls.
Variable clog : N -> nat -> nat.
Lemma ffx_call ffx E c radix T s junk junk' : block_function E -> (2 <= radix <= 36)%N -> bytes T -> T <> [] ->
  clog_sane clog radix (length s) -> (N.of_nat (length s) < 2 ^ 30)%N -> (N.of_nat (length T) < 2 ^ 29)%N ->
  ffx_fits ffx (length s) (length T) -> numeral_string radix s -> fpe_init T radix = Some c ->
  exists ct, choose_encrypt clog ffx E c junk s = Ret (ct ++ [0%N]) /\ length ct = length s /\ numeral_string radix ct /\
             choose_decrypt clog ffx E c junk' ct = Ret (s ++ [0%N]).
Proof.
  intros HE Hr HT NT HC Hs HTl (F1 & F3) HN HI. unfold choose_encrypt, choose_decrypt.
  destruct (streq_spec ffx s_ff1) as [->|NF].
  - assert (H2 : 2 <= length s) by (apply F1; reflexivity).
    assert (L : ff1_limits clog radix T (length s)) by (apply ff1_limits_intro; auto).
    assert (NB : ~ ff1_bad_tweak clog radix T (length s)) by (intros [B _]; auto).
    destruct (ff1_roundtrip_lemma E clog radix T c s junk junk' HE L NB HN HI) as (ct & E1 & D1).
    destruct (ff1_format_lemma E clog radix T c s junk HE L NB HN HI) as ((ct' & E2 & L2 & N2) & _).
    rewrite E1 in E2. injection E2 as E2. apply app_inj_tail in E2 as [<- _].
    exists ct. auto.
  - assert (HF : 1 <= length s /\ 8 <= length T) by (apply F3; intros H; apply NF; exact H).
    assert (L : ff3_limits clog radix T (length s)).
    { unfold ff3_limits. cbv zeta. split; [exact Hr|]. split; [lia|]. split; [lia|]. split; [exact Hs|].
      apply HC. unfold ceil_div. assert ((length s + 2 - 1) / 2 < length s + 1); [|lia]. apply Nat.div_lt_upper_bound; lia. }
    destruct (ff3_roundtrip_lemma E clog radix T c s L HN HI) as (ct & E1 & L1 & N1 & D1).
    exists ct. destruct (streq ffx s_ff3); auto.
Qed.
End Calls.

Lemma fpe_init_some T radix : (2 <= radix <= 36)%N -> exists c, fpe_init T radix = Some c.
Proof.
  intros H. unfold fpe_init. replace ((radix <? 2)%N || (36 <? radix)%N) with false; [eauto|].
  symmetry. apply orb_false_iff. rewrite !N.ltb_ge. lia.
Qed.

(** the block function a context stands for *)
Lemma app_block_init ciph junk key keylen cipher ffx ctx : app_init junk key keylen cipher ffx = Ret ctx ->
  app_block ciph ctx = Ret (ciph (a_kind ctx) (a_key ctx)) /\ a_ffx ctx = ffx.
Proof.
  unfold app_init. destruct (read_at key 0 _); [|discriminate]. intros H. injection H as <-.
  unfold app_block. cbn [a_cipher a_kind a_key a_ffx]. split; [|reflexivity]. unfold call_kind.
  destruct (streq cipher s_sm4); [reflexivity|]. destruct (streq cipher s_wbsm4); [reflexivity|].
  destruct (streq cipher s_aes); [reflexivity|]. destruct (streq cipher s_wbaes); reflexivity.
Qed.

(** ** Selecting and merging *)
Lemma select_length b mask : forall s, length s = length mask ->
  length (select b mask s) = length (filter (Bool.eqb b) mask).
Proof.
  induction mask as [|m mask IH]; intros [|x s] H; try discriminate; cbn in *; auto.
  replace (Bool.eqb b m) with (Bool.eqb m b) by (destruct m, b; reflexivity).
  destruct (Bool.eqb m b); cbn [length]; rewrite IH; auto.
Qed.
Lemma select_in b mask : forall s x, In x (select b mask s) -> exists i, i < length s /\ nth_error mask i = Some b /\ x = get s i.
Proof.
  induction mask as [|m mask IH]; intros [|y s] x H; cbn in H; try contradiction.
  destruct (Bool.eqb_spec m b) as [->|].
  - destruct H as [<-|H]; [exists 0; cbn; repeat split; lia|].
    apply IH in H as (i & L & M & E). exists (S i). cbn. repeat split; auto; lia.
  - apply IH in H as (i & L & M & E). exists (S i). cbn. repeat split; auto; lia.
Qed.
Lemma merge_length mask : forall s ans, length s = length mask -> length (merge mask s ans) = length s.
Proof. induction mask as [|m mask IH]; intros [|x s] ans H; try discriminate; cbn in *; auto. destruct m; cbn; rewrite IH; auto. Qed.
Lemma merge_kept mask : forall s ans i, length s = length mask -> nth_error mask i = Some true -> get (merge mask s ans) i = get s i.
Proof.
  induction mask as [|m mask IH]; intros [|x s] ans [|i] H M; try discriminate; cbn in *.
  - injection M as ->. reflexivity.
  - destruct m; cbn; apply IH; auto.
Qed.
Lemma merge_starred (P : N -> Prop) mask : forall s ans i, length s = length mask ->
  length ans = length (filter (Bool.eqb false) mask) -> Forall P ans ->
  nth_error mask i = Some false -> P (get (merge mask s ans) i).
Proof.
  induction mask as [|m mask IH]; intros [|x s] ans [|i] H HL HP M; try discriminate; cbn in *.
  - injection M as ->. cbn in *. destruct ans as [|a ans]; [discriminate|]. inversion HP; subst. auto.
  - destruct m; cbn in *.
    + apply IH; auto.
    + destruct ans as [|a ans]; [discriminate|]. inversion HP; subst. cbn. apply IH; auto.
Qed.
Lemma select_merge_kept mask : forall s ans, length s = length mask ->
  select true mask (merge mask s ans) = select true mask s.
Proof.
  induction mask as [|m mask IH]; intros [|x s] ans H; try discriminate; cbn in *; auto.
  destruct m; cbn; rewrite IH; auto.
Qed.
Lemma select_merge_starred mask : forall s ans, length s = length mask ->
  length ans = length (filter (Bool.eqb false) mask) -> select false mask (merge mask s ans) = ans.
Proof.
  induction mask as [|m mask IH]; intros [|x s] ans H HL; try discriminate; cbn in *.
  - destruct ans; [reflexivity|discriminate].
  - destruct m; cbn in *.
    + apply IH; auto.
    + destruct ans as [|a ans]; [discriminate|]. cbn. rewrite IH; auto.
Qed.
Lemma merge_merge mask : forall s ans ans', length s = length mask -> merge mask (merge mask s ans) ans' = merge mask s ans'.
Proof.
  induction mask as [|m mask IH]; intros [|x s] ans ans' H; try discriminate; cbn in *; auto.
  destruct m; cbn; rewrite IH; auto.
Qed.
Lemma merge_select mask : forall s, length s = length mask -> merge mask s (select false mask s) = s.
Proof.
  induction mask as [|m mask IH]; intros [|x s] H; try discriminate; cbn in *; auto.
  destruct m; cbn; rewrite IH; auto.
Qed.
Lemma count_split (mask : list bool) : length (filter (Bool.eqb false) mask) = length mask - length (filter (fun b => b) mask).
Proof. 
  assert (length (filter (Bool.eqb false) mask) + length (filter (fun b => b) mask) = length mask); [|lia].
  induction mask as [|m mask IH]; cbn; auto. destruct m; cbn; lia. 
Qed.

(** ** The mask and the specification's vocabulary *)
Lemma kept_mask_length sample n : length (kept_mask sample n) = n.
Proof. unfold kept_mask. now rewrite map_length, seq_length. Qed.
Lemma kept_starredb sample n i : sample = [] \/ n <= length sample -> i < n -> kept sample i = negb (starredb sample i).
Proof.
  intros HS Hi. unfold kept, starredb. destruct (streq_spec sample []) as [->|NE]; [reflexivity|].
  destruct HS as [->|HS]; [congruence|]. cbn [negb andb]. destruct sample as [|a l]; [congruence|].
  unfold get. rewrite app_nth1 by lia. reflexivity.
Qed.
Lemma starredb_spec sample i : starredb sample i = true <-> starred sample i.
Proof. unfold starredb, starred. destruct sample as [|a l]; [tauto|]. rewrite N.eqb_eq. split; [auto|]. intros [H|H]; [discriminate|auto]. Qed.
Lemma mask_nth sample n i : sample = [] \/ n <= length sample -> i < n ->
  nth_error (kept_mask sample n) i = Some (negb (starredb sample i)).
Proof.
  intros HS Hi. unfold kept_mask. rewrite nth_error_map, (nth_error_nth' _ 0) by (now rewrite seq_length).
  rewrite seq_nth by auto. cbn. f_equal. now apply kept_starredb with (n := n).
Qed.
Lemma mask_stars sample n : sample = [] \/ n <= length sample ->
  length (filter (Bool.eqb false) (kept_mask sample n)) = n_starred sample n.
Proof.
  intros HS. unfold n_starred, kept_mask.
  assert (forall l, (forall i, In i l -> i < n) ->
    length (filter (Bool.eqb false) (map (kept sample) l)) = length (filter (starredb sample) l)) as G; [|apply G; intros i Hi; apply in_seq in Hi; lia].
  induction l as [|i l IH]; intros H; cbn; auto.
  rewrite (kept_starredb sample n i HS) by (apply H; now left).
  destruct (starredb sample i); cbn; rewrite IH; auto; intros j Hj; apply H; now right.
Qed.
Lemma n_starred_le sample n : n_starred sample n <= n.
Proof. unfold n_starred. rewrite <- (seq_length n 0) at 2. generalize (seq 0 n). intros l. induction l as [|i l IH]; cbn; auto. destruct (starredb sample i); cbn; lia. Qed.
Lemma mask_keeps sample n : sample = [] \/ n <= length sample ->
  length (filter (Bool.eqb true) (kept_mask sample n)) = n_kept sample n.
Proof.
  intros HS. unfold n_kept. rewrite <- mask_stars, count_split, kept_mask_length by auto.
  pose proof (kept_mask_length sample n) as H. 
  replace (filter (Bool.eqb true) (kept_mask sample n)) with (filter (fun b : bool => b) (kept_mask sample n))
    by (apply filter_ext; intros []; reflexivity).
  assert (length (filter (fun b : bool => b) (kept_mask sample n)) <= n); [|lia].
  rewrite <- H at 2. generalize (kept_mask sample n). intros l. induction l as [|m l IH]; cbn; auto. destruct m; cbn; lia.
Qed.

Lemma digit_numeral c : digit c <-> In c (alphabet 10).
Proof.
  unfold digit. change (alphabet 10) with [48; 49; 50; 51; 52; 53; 54; 55; 56; 57]%N. cbn [In]. split; [lia|]. intros H. repeat destruct H as [<-|H]; try lia; contradiction.
Qed.

Lemma write_at_0 after v : length v <= length after -> write_at after 0 v = Some (v ++ skipn (length v) after).
Proof. intros H. unfold write_at. cbn [plus firstn app]. now destruct (Nat.leb_spec (length v) (length after)); [|lia]. Qed.

(** ** Phone numbers *)
Section Numbers.
Variable ciph : cipher_kind -> list N -> list N -> list N.
Variable clog : N -> nat -> nat.


(** one run of the common part: [num] is the part the mask covers *)
Definition fmt_body (ctx : app_ctx) (junk : list N) (block : fpe_fun) (sample num : list N) : outcome (list N * list N) :=
  let len := length num in
  let mask := kept_mask sample len in
  let tweak_len := length (filter (fun b => b) mask) in
  obind (call_ffx ciph block ctx junk (select true mask num ++ [0%N]) 10 (select false mask num)) (fun o =>
  Ret (merge mask num (firstn (len - tweak_len) o), skipn (len - tweak_len) o)).

Lemma fmt_roundtrip junk0 key keylen cipher ffx ctx num sample j1 j2 :
  app_init junk0 key keylen cipher ffx = Ret ctx -> block_function (ciph (a_kind ctx) (a_key ctx)) ->
  bytes num -> (forall i, i < length num -> starred sample i -> digit (get num i)) ->
  sample = [] \/ length num <= length sample -> (N.of_nat (length num) < 2 ^ 28)%N ->
  clog_sane clog 10 (length num) ->
  ffx_fits ffx (n_starred sample (length num)) (S (n_kept sample (length num))) ->
  exists num', fmt_body ctx j1 (choose_encrypt clog (a_ffx ctx)) sample num = Ret (num', [0%N]) /\
    same_format sample num num' /\
    fmt_body ctx j2 (choose_decrypt clog (a_ffx ctx)) sample num' = Ret (num, [0%N]).
Proof.
  intros HI HE HB HD HS HL HC HF.
  destruct (app_block_init ciph _ _ _ _ _ _ HI) as [AB AF]. rewrite AF.
  set (mask := kept_mask sample (length num)).
  assert (LM : length num = length mask) by (unfold mask; now rewrite kept_mask_length).
  set (T := select true mask num ++ [0%N]). set (s := select false mask num).
  assert (Ls : length s = n_starred sample (length num)) by (unfold s; rewrite select_length by auto; unfold mask; now apply mask_stars).
  assert (LT : length T = S (n_kept sample (length num))).
  { unfold T. rewrite app_length, select_length by auto. unfold mask. rewrite mask_keeps by auto. cbn. lia. }
  assert (HN : numeral_string 10 s).
  { apply Forall_forall. intros x Hx. apply select_in in Hx as (i & Hi & M & ->). apply digit_numeral, HD; auto.
    unfold mask in M. rewrite mask_nth in M by auto. injection M as M. apply starredb_spec. now destruct (starredb sample i). }
  assert (HT : bytes T).
  { apply Forall_app. split; [|repeat constructor]. apply Forall_forall. intros x Hx. apply select_in in Hx as (i & Hi & _ & ->).
    unfold bytes in HB; rewrite Forall_forall in HB. apply HB, nth_In. auto. }
  pose proof (n_starred_le sample (length num)) as SL.
  destruct (fpe_init_some T 10) as [c HcI]; [lia|].
  change (2 ^ 28)%N with 268435456%N in HL.
  destruct (ffx_call clog ffx (ciph (a_kind ctx) (a_key ctx)) c 10 T s j1 j2) as (ct & E1 & Lc & Nc & D1); auto.
  - lia.
  - unfold T. intros H. now apply app_eq_nil in H.
  - intros v Hv. apply HC. lia.
  - change (2 ^ 30)%N with 1073741824%N. lia.
  - change (2 ^ 29)%N with 536870912%N. rewrite LT. unfold n_kept. lia.
  - now rewrite Ls, LT.
  - assert (TL : length num - length (filter (fun b : bool => b) mask) = length s).
    { rewrite Ls. rewrite LM at 1. rewrite <- count_split. unfold mask. now apply mask_stars. }
    assert (LF : length (filter (Bool.eqb false) mask) = length s) by (rewrite count_split, <- LM; exact TL).
    exists (merge mask num ct). split; [|split].
    + unfold fmt_body. cbv zeta. fold mask. fold T. fold s. unfold call_ffx. rewrite AB. cbn [obind]. rewrite HcI. rewrite E1. cbn [obind].
      rewrite TL, <- Lc. rewrite firstn_app, skipn_app, Nat.sub_diag, firstn_all, skipn_all. cbn. now rewrite app_nil_r.
    + split; [now apply merge_length|]. split; intros i Hi Hst.
      * apply (merge_starred digit); auto; [congruence| |].
        -- apply Forall_forall. intros x Hx. apply digit_numeral. unfold numeral_string in Nc. rewrite Forall_forall in Nc. auto.
        -- unfold mask. rewrite mask_nth by auto. apply starredb_spec in Hst. now rewrite Hst.
      * apply merge_kept; auto. unfold mask. rewrite mask_nth by auto. destruct (starredb sample i) eqn:B; [apply starredb_spec in B; contradiction|reflexivity].
    + unfold fmt_body. cbv zeta. rewrite merge_length by auto. fold mask. rewrite select_merge_kept by auto. fold T.
      rewrite select_merge_starred by congruence. unfold call_ffx. rewrite AB. cbn [obind]. rewrite HcI. rewrite D1. cbn [obind].
      rewrite TL. rewrite merge_merge by auto. rewrite firstn_app, skipn_app, Nat.sub_diag, firstn_all, skipn_all. cbn.
      rewrite app_nil_r. unfold s. now rewrite merge_select by auto.
Qed.

Lemma aux_phone_body ctx junk block phone sample after : sample = [] \/ length phone <= length sample ->
  length phone <= length after ->
  aux_phone ciph ctx junk block phone sample after =
  obind (fmt_body ctx junk block sample phone) (fun r => Ret (mkres (fst r ++ skipn (length phone) after) (snd r))).
Proof.
  intros HS HA. unfold aux_phone, fmt_body. cbv zeta. replace (sample_ok sample (length phone)) with true.
  2:{ symmetry. unfold sample_ok. destruct HS as [->|HS]; [reflexivity|]. apply orb_true_iff. right. apply Nat.leb_le. lia. }
  cbn [negb]. destruct (call_ffx ciph block ctx junk _ 10 _) as [o| |]; cbn [obind]; auto.
  assert (ML : length phone = length (kept_mask sample (length phone))) by (now rewrite kept_mask_length).
  rewrite write_at_0 by (rewrite merge_length by auto; auto). rewrite merge_length by auto. reflexivity.
Qed.

Lemma phone_roundtrip junk0 key keylen cipher ffx ctx phone sample after after' j1 j2 :
  app_init junk0 key keylen cipher ffx = Ret ctx -> block_function (ciph (a_kind ctx) (a_key ctx)) ->
  app_number phone sample -> clog_sane clog 10 (length phone) ->
  ffx_fits ffx (n_starred sample (length phone)) (S (n_kept sample (length phone))) ->
  length phone <= length after -> length phone <= length after' ->
  exists phone', same_format sample phone phone' /\
    encrypt_phone ciph clog ctx j1 phone sample after = Ret (mkres (phone' ++ skipn (length phone) after) [0%N]) /\
    decrypt_phone ciph clog ctx j2 phone' sample after' = Ret (mkres (phone ++ skipn (length phone) after') [0%N]).
Proof.
  intros HI HE (HB & HD & HS & HL) HC HF HA HA'.
  assert (HS' : sample = [] \/ length phone <= length sample) by (destruct HS; [auto|right; lia]).
  destruct (fmt_roundtrip junk0 key keylen cipher ffx ctx phone sample j1 j2 HI HE HB HD HS' HL HC HF) as (p' & E1 & F & D1).
  exists p'. split; [exact F|]. destruct F as (FL & _).
  unfold encrypt_phone, decrypt_phone. rewrite !aux_phone_body; rewrite ?FL; auto. rewrite E1, D1. cbn. auto.
Qed.

(** ** ID numbers *)
Lemma aux_idcard_body ctx junk block body x sample after :
  let id := body ++ x in
  (x = [88%N] \/ x = [] /\ last body 0%N <> 88%N /\ body <> []) ->
  sample = [] \/ length body <= length sample -> length id <= length after ->
  aux_idcard ciph ctx junk block id sample after =
  obind (fmt_body ctx junk block sample body) (fun r => Ret (mkres (fst r ++ x ++ skipn (length id) after) (snd r))).
Proof.
  intros id HX HS HA. unfold aux_idcard. cbv zeta.
  assert (LI : length id = length body + length x) by apply app_length.
  assert (N0 : length id =? 0 = false).
  { apply Nat.eqb_neq. rewrite LI. destruct HX as [->|(-> & _ & NB)]; cbn [length]; [lia|]. destruct body; [congruence|]. cbn [length]. lia. }
  rewrite N0. apply Nat.eqb_neq in N0.
  assert (LEN : (if (get id (length id - 1) =? 88)%N then length id - 1 else length id) = length body).
  { destruct HX as [->|(-> & HB & NB)].
    - cbn [length] in LI. replace (length id - 1) with (length body) by lia. unfold id, get. rewrite app_nth2, Nat.sub_diag by lia. cbn. reflexivity.
    - unfold id in *. rewrite app_nil_r in *. unfold get. 
      replace (nth (length body - 1) body 0%N) with (last body 0%N).
      2:{ clear -NB. induction body as [|a l IH]; [congruence|]. destruct l as [|b l]; [reflexivity|].
          change (last (a :: b :: l) 0%N) with (last (b :: l) 0%N). rewrite IH by discriminate. cbn. now rewrite Nat.sub_0_r. }
      apply N.eqb_neq in HB. now rewrite HB. }
  rewrite LEN. replace (sample_ok sample (length body)) with true.
  2:{ symmetry. unfold sample_ok. destruct HS as [->|HS]; [reflexivity|]. apply orb_true_iff. right. apply Nat.leb_le. lia. }
  cbn [negb]. unfold fmt_body. cbv zeta.
  assert (SEL : forall b mask, length mask = length body -> select b mask id = select b mask body).
  { intros b. unfold id. clear. intros mask. revert body. induction mask as [|m mask IH]; intros [|a l] H; try discriminate; cbn; auto.
    injection H as H. rewrite IH by auto. reflexivity. }
  assert (MER : forall ans mask, length mask = length body -> merge mask id ans = merge mask body ans).
  { unfold id. clear. intros ans mask. revert body ans. induction mask as [|m mask IH]; intros [|a l] ans H; try discriminate; cbn; auto.
    injection H as H. rewrite !IH by auto. reflexivity. }
  assert (ML : length (kept_mask sample (length body)) = length body) by apply kept_mask_length.
  rewrite !SEL by auto. destruct (call_ffx ciph block ctx junk _ 10 _) as [o| |]; cbn [obind]; auto.
  rewrite MER by auto. set (mr := merge _ body _).
  assert (LR : length mr = length body) by (apply merge_length; auto).
  rewrite write_at_0 by lia. rewrite LR.
  destruct HX as [->|(-> & HB & NB)].
  - cbn [length] in LI. replace (get (id ++ [0%N]) (length body)) with 88%N.
    2:{ unfold id, get. rewrite <- app_assoc, app_nth2, Nat.sub_diag by lia. reflexivity. }
    cbn [N.eqb Pos.eqb]. rewrite N.eqb_refl. unfold write_at. rewrite app_length, skipn_length. cbn [length].
    replace (length body + 1 <=? length mr + (length after - length body)) with true by (symmetry; apply Nat.leb_le; lia).
    do 2 f_equal. rewrite firstn_app, LR, Nat.sub_diag, firstn_O, app_nil_r. rewrite <- LR at 1. rewrite firstn_all.
    cbn [fst]. f_equal. cbn [app]. f_equal. rewrite skipn_app. rewrite skipn_all2 by lia. cbn [app].
    rewrite LR. replace (length body + 1 - length body) with 1 by lia. 
    rewrite <- (firstn_skipn (length body) after) at 1. replace (length id) with (1 + length body) by lia.
    clear. set (k := length body). clearbody k. revert after; induction k as [|k IH]; intros [|a l]; cbn; auto. 
    apply IH.
  - unfold id in *. rewrite app_nil_r in *. unfold get. rewrite app_nth2, Nat.sub_diag by lia. cbn [nth]. 
    change (0 =? 88)%N with false. cbn iota. cbn [fst snd app]. reflexivity.
Qed.

Lemma last_get (l : list N) : l <> [] -> last l 0%N = get l (length l - 1).
Proof.
  induction l as [|a l IH]; [congruence|]. destruct l as [|b l]; [reflexivity|]. intros _.
  change (last (a :: b :: l) 0%N) with (last (b :: l) 0%N). rewrite IH by discriminate. cbn. now rewrite Nat.sub_0_r.
Qed.
Lemma starred_dec sample i : starred sample i \/ ~ starred sample i.
Proof. destruct (starredb sample i) eqn:B; [left; now apply starredb_spec|right]. intros H. apply starredb_spec in H. congruence. Qed.

Lemma idcard_roundtrip junk0 key keylen cipher ffx ctx body x sample after after' j1 j2 :
  app_init junk0 key keylen cipher ffx = Ret ctx -> block_function (ciph (a_kind ctx) (a_key ctx)) ->
  x = [88%N] \/ (x = [] /\ body <> [] /\ last body 0%N <> 88%N) ->
  bytes body -> (forall i, i < length body -> starred sample i -> digit (get body i)) ->
  sample = [] \/ length body <= length sample -> (N.of_nat (length body) < 2 ^ 28)%N -> 
  clog_sane clog 10 (length body) ->
  ffx_fits ffx (n_starred sample (length body)) (S (n_kept sample (length body))) ->
  length (body ++ x) <= length after -> length (body ++ x) <= length after' ->
  exists body', same_format sample body body' /\
    encrypt_idcard ciph clog ctx j1 (body ++ x) sample after = Ret (mkres (body' ++ x ++ skipn (length (body ++ x)) after) [0%N]) /\
    decrypt_idcard ciph clog ctx j2 (body' ++ x) sample after' = Ret (mkres (body ++ x ++ skipn (length (body ++ x)) after') [0%N]).
Proof.
  intros HI HE HX HB HD HS HL HC HF HA HA'.
  destruct (fmt_roundtrip junk0 key keylen cipher ffx ctx body sample j1 j2 HI HE HB HD HS HL HC HF) as (p' & E1 & F & D1).
  exists p'. split; [exact F|]. destruct F as (FL & FS & FK).
  unfold encrypt_idcard, decrypt_idcard.
  assert (LP : length (p' ++ x) = length (body ++ x)) by (rewrite !app_length; lia).
  rewrite !aux_idcard_body; rewrite ?FL, ?LP; auto.
  - rewrite E1, D1. cbn. auto.
  - destruct HX as [HX|(HX & NB & LB)]; auto. right.
    assert (LN : length body <> 0) by (destruct body; [congruence|discriminate]).
    split; auto. split; [|intros ->; cbn in FL; lia].
    assert (NP : p' <> []) by (intros ->; cbn in FL; lia).
    rewrite last_get in * by auto. rewrite FL.
    destruct (starred_dec sample (length body - 1)) as [S|S].
    + specialize (FS (length body - 1)). unfold digit in FS. intros Q. rewrite Q in FS. assert (48 <= 88 <= 57)%N by (apply FS; auto; lia). lia.
    + rewrite FK; auto; lia.
  - destruct HX as [HX|(HX & NB & LB)]; auto.
Qed.

(** FF3, which needs eight bytes of tweak, with fewer than seven kept positions *)
Lemma fmt_short_tweak junk0 key keylen cipher ffx ctx num sample j :
  app_init junk0 key keylen cipher ffx = Ret ctx -> ~ is_ff1 ffx -> sample = [] \/ length num <= length sample ->
  1 <= n_starred sample (length num) -> n_kept sample (length num) < 7 ->
  fmt_body ctx j (choose_encrypt clog (a_ffx ctx)) sample num = Undef.
Proof.
  intros HI NF HS H1 H7. destruct (app_block_init ciph _ _ _ _ _ _ HI) as [AB AF]. rewrite AF.
  unfold fmt_body. cbv zeta. unfold call_ffx. rewrite AB. cbn [obind].
  assert (LM : length num = length (kept_mask sample (length num))) by (now rewrite kept_mask_length).
  set (T := select true _ num ++ [0%N]). set (s := select false _ num).
  assert (Ls : length s = n_starred sample (length num)) by (unfold s; rewrite select_length by auto; now apply mask_stars).
  assert (LT : length T = S (n_kept sample (length num))).
  { unfold T. rewrite app_length, select_length by auto. rewrite mask_keeps by auto. cbn. lia. }
  destruct (fpe_init_some T 10) as [c HcI]; [lia|]. rewrite HcI.
  assert (U : ff3_encrypt (ciph (a_kind ctx) (a_key ctx)) clog c s = Undef).
  { apply (ff3_short_tweak _ clog 10 T c s); auto; [lia|]. intros Q. rewrite Q in Ls. cbn in Ls. lia. }
  unfold choose_encrypt. destruct (streq_spec ffx s_ff1) as [->|_]; [exfalso; apply NF; reflexivity|].
  destruct (streq ffx s_ff3); rewrite U; reflexivity.
Qed.
Lemma phone_short_tweak junk0 key keylen cipher ffx ctx phone sample after j :
  app_init junk0 key keylen cipher ffx = Ret ctx -> ~ is_ff1 ffx -> sample = [] \/ length phone <= length sample ->
  1 <= n_starred sample (length phone) -> n_kept sample (length phone) < 7 -> length phone <= length after ->
  encrypt_phone ciph clog ctx j phone sample after = Undef.
Proof.
  intros HI NF HS H1 H7 HA. unfold encrypt_phone. rewrite aux_phone_body by auto.
  now rewrite (fmt_short_tweak junk0 key keylen cipher ffx) by auto.
Qed.
Lemma idcard_short_tweak junk0 key keylen cipher ffx ctx body x sample after j :
  app_init junk0 key keylen cipher ffx = Ret ctx -> ~ is_ff1 ffx -> 
  x = [88%N] \/ (x = [] /\ body <> [] /\ last body 0%N <> 88%N) -> sample = [] \/ length body <= length sample ->
  1 <= n_starred sample (length body) -> n_kept sample (length body) < 7 -> length (body ++ x) <= length after ->
  encrypt_idcard ciph clog ctx j (body ++ x) sample after = Undef.
Proof.
  intros HI NF HX HS H1 H7 HA. unfold encrypt_idcard. rewrite aux_idcard_body; auto.
  - now rewrite (fmt_short_tweak junk0 key keylen cipher ffx) by auto.
  - destruct HX as [HX|(HX & NB & LB)]; auto.
Qed.
End Numbers.

Local Open Scope nat_scope.


Lemma app_init_key_lemma : forall junk key keylen cipher ffx, length junk = 16 -> 16 <= keylen -> 16 <= length key ->
  exists ctx, app_init junk key keylen cipher ffx = Ret ctx /\ a_key ctx = firstn 16 key /\ a_ffx ctx = ffx /\
    (cipher <> s_sm4 -> cipher <> s_wbsm4 -> cipher <> s_wbaes -> a_kind ctx = Aes) /\
    (cipher = s_sm4 -> a_kind ctx = Sm4) /\ (cipher = s_wbsm4 -> a_kind ctx = Wbsm4) /\ (cipher = s_wbaes -> a_kind ctx = Wbaes).
Proof.
  intros junk key keylen cipher ffx HJ Hk HL. unfold app_init. destruct (Nat.leb_spec 16 keylen); [|lia].
  unfold read_at. destruct (Nat.leb_spec (0 + 16) (length key)); [|lia]. eexists. split; [reflexivity|]. cbn [a_key a_ffx a_kind].
  rewrite (skipn_all2 junk) by lia. rewrite app_nil_r.
  split; [reflexivity|]. split; [reflexivity|].
  repeat split.
  - intros A B C. destruct (streq_spec cipher s_sm4); [congruence|]. destruct (streq_spec cipher s_wbsm4); [congruence|].
    destruct (streq_spec cipher s_aes); [reflexivity|]. destruct (streq_spec cipher s_wbaes); [congruence|reflexivity].
  - intros ->. reflexivity.
  - intros ->. reflexivity.
  - intros ->. reflexivity.
Qed.

Lemma app_init_short_key_refuted_lemma : forall key keylen cipher ffx, keylen < 16 -> keylen <= length key ->
  exists junk1 junk2 c1 c2, length junk1 = 16 /\ length junk2 = 16 /\
    app_init junk1 key keylen cipher ffx = Ret c1 /\ app_init junk2 key keylen cipher ffx = Ret c2 /\ a_key c1 <> a_key c2.
Proof.
  intros key keylen cipher ffx Hk HL. exists (repeat 0%N 16), (repeat 1%N 16). unfold app_init.
  destruct (Nat.leb_spec 16 keylen); [lia|]. unfold read_at. destruct (Nat.leb_spec (0 + keylen) (length key)); [|lia].
  eexists _, _. split; [reflexivity|]. split; [reflexivity|]. split; [reflexivity|]. split; [reflexivity|]. cbn [a_key]. intros Q.
  apply app_inv_head in Q. apply (f_equal (@length N)) in Q as QL.
  assert (S1 : exists r, skipn keylen (repeat 0%N 16) = 0%N :: r) by (exists (repeat 0%N (15 - keylen)); clear -Hk; do 16 (destruct keylen as [|keylen]; [reflexivity|]); lia).
  assert (S2 : exists r, skipn keylen (repeat 1%N 16) = 1%N :: r) by (exists (repeat 1%N (15 - keylen)); clear -Hk; do 16 (destruct keylen as [|keylen]; [reflexivity|]); lia).
  destruct S1 as [r1 S1], S2 as [r2 S2]. rewrite S1, S2 in Q. discriminate.
Qed.
