(** * Proofs about the MySQL function *)
From Verif Require Import Base CbcSpec FpeModel FpeSpec FpeProofs Sm4Model Sm4Spec Sm4Proofs AppModel AppSpec AppProofs CnProofs UdfModel.
Local Open Scope nat_scope.

Lemma udf_ciph_block k key : bytes key -> block_function (udf_ciph k key).
Proof. intros HK b Hb. unfold udf_ciph. apply (sm4_encrypt_decrypt_lemma key b HK Hb). Qed.
Lemma udf_key_bytes : bytes udf_key.
Proof. unfold udf_key. repeat constructor. Qed.
Lemma udf_ctx jk : length jk = 16 -> app_init jk udf_key 16 s_sm4 s_ff1 = Ret (mkapp s_sm4 s_ff1 Sm4 udf_key).
Proof. intros H. unfold app_init. cbn [Nat.leb]. rewrite (skipn_all2 jk) by lia. reflexivity. Qed.

(** an argument as MySQL passes it, if terminated *)
Lemma strz_terminated s rest : ~ In 0%N s -> strz (s ++ 0%N :: rest) = Some s.
Proof. intros H. apply strz_app. apply Forall_forall. intros x Hx ->. auto. Qed.

(** what MySQL passes for a string, when a terminator happens to follow it *)
Definition passes (a : udf_arg) (s : list N) : Prop :=
  (exists rest, u_mem a = Some (s ++ 0%N :: rest)) /\ ~ In 0%N s /\ u_len a = length s.
(** the optional third argument; without it every position is encrypted *)
Definition passes_sample (o : option udf_arg) (s : list N) : Prop :=
  match o with None => s = [] | Some a => passes a s /\ s <> [] end.

Lemma passes_cstring a s : passes a s -> cstring a = Ret s.
Proof. intros ((rest & E) & NZ & _). unfold cstring. rewrite E. now rewrite strz_terminated. Qed.
Lemma passes_read a s : passes a s -> exists m, u_mem a = Some m /\ read_at m 0 (u_len a) = Some s.
Proof.
  intros ((rest & E) & NZ & L). exists (s ++ 0%N :: rest). split; [exact E|]. rewrite L. 
  pose proof (read_at_app [] s (0%N :: rest)) as R. exact R.
Qed.
Lemma passes_sample_str o s : passes_sample o s -> match o with None => Ret [] | Some a => cstring a end = Ret s.
Proof. destruct o as [a|]; cbn; [intros [H _]; now apply passes_cstring|now intros ->]. Qed.

Lemma marks_length ms : Forall mark_ok ms -> length (marks_string ms) + 2 * n_stars ms = 3 * length ms.
Proof.
  induction 1 as [|m ms H _ IH]; [reflexivity|]. unfold marks_string, n_stars in *. cbn [map concat]. rewrite app_length.
  destruct m as [|cp]; cbn [mark_string is_star filter length]; [|rewrite utf8_3_length]; lia.
Qed.

Section U.
Variable clog : N -> nat -> nat.
Variable jk jq ji jt : list N.
Variable errcap rescap : nat.
Let fpe8 := udf_fpe8 udf_ciph clog jk jq ji jt errcap rescap.
Let fpe5 := udf_fpe5 udf_ciph clog jk jq ji jt errcap rescap.
Let run := udf_run udf_ciph clog jk jq ji jt errcap rescap.
Let ctx := mkapp s_sm4 s_ff1 Sm4 udf_key.

Lemma fpe8_run ptr plain mode sample p m s : passes plain p -> passes mode m -> passes_sample sample s ->
  m = ascii_address \/ s = [] \/ length s = length p -> fpe8 ptr plain mode sample = run ptr plain mode sample.
Proof.
  intros HP HM HS HC. unfold fpe8, udf_fpe8. destruct sample as [a|]; [|reflexivity].
  destruct (Nat.eqb_spec (u_len plain) (u_len a)) as [_|NE]; [reflexivity|].
  rewrite (passes_cstring _ _ HM). cbn [obind]. destruct HS as [(_ & _ & LA) NN].
  destruct HP as (_ & _ & LP). destruct HC as [->|[->|HC]]; [reflexivity|congruence|congruence].
Qed.

Lemma run_setup ptr plain p mode m sample s : length jk = 16 -> passes plain p -> passes mode m -> passes_sample sample s ->
  length p < length ptr ->
  exists rest, length (p ++ 0%N :: rest) = length ptr /\ run ptr plain mode sample =
  let finish o := obind o (fun r =>
      match read_at (r_after r) 0 (u_len plain) with
      | None => Undef
      | Some v => if rescap <? length v then Undef else Ret (Value v (r_stray r))
      end) in
  if streq m ascii_phone then
      if negb (u_len plain =? 11) then refuse errcap 32
      else finish (encrypt_phone udf_ciph clog ctx jq p s (p ++ 0%N :: rest))
    else if streq m ascii_idcard then
      if negb (u_len plain =? 18) then refuse errcap 34
      else finish (encrypt_idcard udf_ciph clog ctx jq p s (p ++ 0%N :: rest))
    else if streq m ascii_name || streq m ascii_address then
      finish (encrypt_cn udf_ciph clog ctx jq ji jt p s (p ++ 0%N :: rest))
    else refuse errcap 50.
Proof.
  intros HJ HP HM HS HL. exists (skipn (S (length p)) ptr).
  split; [rewrite app_length; cbn [length]; rewrite skipn_length; lia|].
  unfold run, udf_run. destruct (passes_read _ _ HP) as (mem & -> & R). rewrite R.
  assert (WL : length (p ++ [0%N]) <= length ptr) by (rewrite app_length; cbn [length]; lia).
  rewrite (write_at_0 ptr (p ++ [0%N]) WL).
  rewrite udf_ctx by auto. cbn [obind]. rewrite (passes_cstring _ _ HM). cbn [obind].
  replace ((p ++ [0%N]) ++ skipn (length (p ++ [0%N])) ptr) with (p ++ 0%N :: skipn (S (length p)) ptr).
  2:{ rewrite app_length. cbn [length]. rewrite Nat.add_1_r. rewrite <- app_assoc. reflexivity. }
  rewrite (passes_cstring _ _ HP), (passes_sample_str _ _ HS). cbn [obind]. reflexivity.
Qed.

Lemma finish_value (after : list N) (v rest stray : list N) n : length v = n -> n <= rescap ->
  match read_at (v ++ rest) 0 n with
  | None => Undef
  | Some w => if rescap <? length w then Undef else Ret (Value w stray)
  end = Ret (Value v stray).
Proof.
  intros L H. pose proof (read_at_app [] v rest) as R. cbn [app length] in R. rewrite <- L. rewrite R.
  destruct (Nat.ltb_spec rescap (length v)); [lia|reflexivity].
Qed.

Lemma udf_phone_ok ptr plain p mode sample s : length jk = 16 ->
  passes plain p -> passes mode ascii_phone -> passes_sample sample s -> s = [] \/ length s = 11 ->
  app_number p s -> length p = 11 -> 2 <= n_starred s 11 -> clog_sane clog 10 11 -> 11 < length ptr -> 11 <= rescap ->
  exists v, same_format s p v /\ fpe8 ptr plain mode sample = Ret (Value v [0%N]) /\ fpe5 ptr plain mode sample = Ret (Value v [0%N]) /\
    forall j after, 11 <= length after -> decrypt_phone udf_ciph clog ctx j v s after = Ret (mkres (p ++ skipn 11 after) [0%N]).
Proof.
  intros HJ HP HM HS HC HN HL H2 HG HT HR.
  rewrite (fpe8_run ptr plain mode sample p ascii_phone s) by (auto; rewrite HL; tauto).
  change (fpe5 ptr plain mode sample) with (run ptr plain mode sample).
  destruct (run_setup ptr plain p mode ascii_phone sample s HJ HP HM HS) as (rest & LR & ->); [lia|].
  cbv zeta. change (streq ascii_phone ascii_phone) with true. cbn iota.
  assert (u_len plain = 11) as -> by (destruct HP as (_ & _ & ->); exact HL). cbn [Nat.eqb negb].
  assert (FF : ffx_fits s_ff1 (n_starred s (length p)) (S (n_kept s (length p)))).
  { rewrite HL. split; [auto|]. intros H. exfalso. apply H. reflexivity. }
  assert (HB : block_function (udf_ciph (a_kind ctx) (a_key ctx))) by (apply udf_ciph_block, udf_key_bytes).
  rewrite <- HL in HG. pose proof (udf_ctx jk HJ) as HI.
  destruct (phone_roundtrip udf_ciph clog jk udf_key 16 s_sm4 s_ff1 ctx p s (p ++ 0%N :: rest) (p ++ 0%N :: rest) jq jq HI HB HN HG FF) as (v & F & E & _); [lia|lia|].
  exists v. split; [exact F|]. rewrite E. cbn [obind r_after r_stray]. destruct F as (FL & F').
  rewrite finish_value by (auto; lia). split; [reflexivity|]. split; [reflexivity|].
  intros j after HA.
  destruct (phone_roundtrip udf_ciph clog jk udf_key 16 s_sm4 s_ff1 ctx p s (p ++ 0%N :: rest) after jq j HI HB HN HG FF) as (v' & _ & E' & D); [lia|lia|].
  rewrite E in E'. injection E' as E'. apply app_inv_tail in E' as <-. rewrite HL in D. exact D.
Qed.

Lemma udf_idcard_ok ptr plain body x mode sample s : length jk = 16 ->
  passes plain (body ++ x) -> passes mode ascii_idcard -> passes_sample sample s -> s = [] \/ length s = 18 ->
  x = [88%N] \/ (x = [] /\ last body 0%N <> 88%N) -> length (body ++ x) = 18 ->
  bytes body -> (forall i, i < length body -> starred s i -> digit (get body i)) -> 
  2 <= n_starred s (length body) -> clog_sane clog 10 18 -> 18 < length ptr -> 18 <= rescap ->
  exists v, same_format s body v /\ fpe8 ptr plain mode sample = Ret (Value (v ++ x) [0%N]) /\
    fpe5 ptr plain mode sample = Ret (Value (v ++ x) [0%N]) /\
    forall j after, 18 <= length after -> decrypt_idcard udf_ciph clog ctx j (v ++ x) s after = Ret (mkres (body ++ x ++ skipn 18 after) [0%N]).
Proof.
  intros HJ HP HM HS HC HX HL HB HD H2 HG HT HR.
  rewrite (fpe8_run ptr plain mode sample (body ++ x) ascii_idcard s) by (auto; rewrite HL; tauto).
  change (fpe5 ptr plain mode sample) with (run ptr plain mode sample).
  destruct (run_setup ptr plain (body ++ x) mode ascii_idcard sample s HJ HP HM HS) as (rest & LR & ->); [lia|].
  cbv zeta. change (streq ascii_idcard ascii_phone) with false. change (streq ascii_idcard ascii_idcard) with true. cbn iota.
  assert (u_len plain = 18) as -> by (destruct HP as (_ & _ & ->); exact HL). cbn [Nat.eqb negb].
  assert (FF : ffx_fits s_ff1 (n_starred s (length body)) (S (n_kept s (length body)))).
  { split; [auto|]. intros H. exfalso. apply H. reflexivity. }
  assert (HB' : block_function (udf_ciph (a_kind ctx) (a_key ctx))) by (apply udf_ciph_block, udf_key_bytes).
  assert (LB : length body <= 18 /\ (x = [] -> length body = 18)).
  { rewrite app_length in HL. split; [lia|]. intros ->. cbn in HL. lia. }
  assert (HX' : x = [88%N] \/ (x = [] /\ body <> [] /\ last body 0%N <> 88%N)).
  { destruct HX as [HX|[HX NX]]; [auto|]. right. split; [auto|]. split; [|auto]. intros Q. rewrite Q in LB. destruct LB as [_ LB]. specialize (LB HX). discriminate LB. }
  assert (HG' : clog_sane clog 10 (length body)) by (intros q Hq; apply HG; lia).
  assert (HS' : s = [] \/ length body <= length s) by (destruct HC as [HC|HC]; [auto|right; lia]).
  assert (H28 : (N.of_nat (length body) < 2 ^ 28)%N) by (change (2 ^ 28)%N with 268435456%N; lia).
  pose proof (udf_ctx jk HJ) as HI.
  destruct (idcard_roundtrip udf_ciph clog jk udf_key 16 s_sm4 s_ff1 ctx body x s ((body ++ x) ++ 0%N :: rest) ((body ++ x) ++ 0%N :: rest) jq jq
     HI HB' HX' HB HD HS' H28 HG' FF) as (v & F & E & _); [lia|lia|].
  exists v. split; [exact F|]. rewrite E. cbn [obind r_after r_stray]. destruct F as (FL & F'). rewrite app_assoc.
  assert (LV : length (v ++ x) = 18) by (rewrite app_length in *; lia).
  rewrite finish_value by (auto; lia). split; [reflexivity|]. split; [reflexivity|].
  intros j after HA.
  destruct (idcard_roundtrip udf_ciph clog jk udf_key 16 s_sm4 s_ff1 ctx body x s ((body ++ x) ++ 0%N :: rest) after jq j
     HI HB' HX' HB HD HS' H28 HG' FF) as (v' & _ & E' & D); [lia|lia|].
  rewrite E in E'. injection E' as E'. apply app_inv_tail in E' as <-. rewrite HL in D. exact D.
Qed.

Lemma han_bytes cp : han cp -> ~ In 0%N (utf8_3 cp).
Proof. unfold han, utf8_3. intros H Q. cbn [In] in Q. lia. Qed.

Lemma udf_address_ok ptr plain text ms mode sample s : length jk = 16 ->
  passes plain (utf8 text) -> passes mode ascii_address -> passes_sample sample s -> cn_sample text ms s ->
  Forall han text -> 1 <= n_stars ms -> length (utf8 text) <= rescap -> (N.of_nat rescap < 2 ^ 27)%N -> 
  clog_sane clog 12 (4 * length text) -> length (utf8 text) < length ptr ->
  exists text', length text' = length text /\ Forall han text' /\
    (forall i cp, nth_error ms i = Some (Keep cp) -> get text' i = get text i) /\
    fpe8 ptr plain mode sample = Ret (Value (utf8 text') [0%N]) /\ fpe5 ptr plain mode sample = Ret (Value (utf8 text') [0%N]) /\
    forall j ji' jt' after, length (utf8 text) <= length after ->
      decrypt_cn udf_ciph clog ctx j ji' jt' (utf8 text') s after = Ret (mkres (utf8 text ++ skipn (length (utf8 text)) after) [0%N]).
Proof.
  intros HJ HP HM HS HC HH H1 HR H27 HG HT.
  rewrite (fpe8_run ptr plain mode sample (utf8 text) ascii_address s) by auto.
  change (fpe5 ptr plain mode sample) with (run ptr plain mode sample).
  destruct (run_setup ptr plain (utf8 text) mode ascii_address sample s HJ HP HM HS) as (rest & LR & ->); [lia|].
  cbv zeta. change (streq ascii_address ascii_phone) with false. change (streq ascii_address ascii_idcard) with false.
  change (streq ascii_address ascii_name || streq ascii_address ascii_address) with true. cbn iota.
  assert (u_len plain = length (utf8 text)) as -> by (destruct HP as (_ & _ & ->); reflexivity).
  assert (FF : ffx_fits s_ff1 (4 * n_stars ms) (S (4 * n_keeps ms))).
  { split; [intros _; lia|]. intros H. exfalso. apply H. reflexivity. }
  assert (HB' : block_function (udf_ciph (a_kind ctx) (a_key ctx))) by (apply udf_ciph_block, udf_key_bytes).
  assert (H26 : (N.of_nat (length text) < 2 ^ 26)%N).
  { rewrite utf8_length in HR. change (2 ^ 27)%N with 134217728%N in H27. change (2 ^ 26)%N with 67108864%N. lia. }
  pose proof (udf_ctx jk HJ) as HI.
  destruct (cn_roundtrip udf_ciph clog jk udf_key 16 s_sm4 s_ff1 ctx text ms s (utf8 text ++ 0%N :: rest) (utf8 text ++ 0%N :: rest) jq jq ji jt ji jt
     HI HB' HC HH H26 HG H1 FF) as (t & T1 & T2 & T3 & E & _); [lia|lia|].
  exists t. split; [exact T1|]. split; [exact T2|]. split; [exact T3|]. rewrite E. cbn [obind r_after r_stray].
  rewrite finish_value by (auto; rewrite !utf8_length; lia). split; [reflexivity|]. split; [reflexivity|].
  intros j ji' jt' after HA.
  destruct (cn_roundtrip udf_ciph clog jk udf_key 16 s_sm4 s_ff1 ctx text ms s (utf8 text ++ 0%N :: rest) after jq j ji jt ji' jt'
     HI HB' HC HH H26 HG H1 FF) as (t' & T1' & T2' & T3' & E' & D); [lia|lia|].
  rewrite E in E'. injection E' as E'. apply app_inv_tail in E'. rewrite E'. exact D.
Qed.

Lemma udf_refusal ptr plain p mode m sample s : length jk = 16 -> passes plain p -> passes mode m -> passes_sample sample s ->
  length p < length ptr -> s = [] \/ length s = length p \/ m = ascii_address ->
  (m = ascii_phone /\ length p <> 11) \/ (m = ascii_idcard /\ length p <> 18) \/
  (m <> ascii_phone /\ m <> ascii_idcard /\ m <> ascii_name /\ m <> ascii_address) ->
  (51 <= errcap -> fpe8 ptr plain mode sample = Ret Null /\ fpe5 ptr plain mode sample = Ret Null) /\
  (errcap < 33 -> fpe8 ptr plain mode sample = Undef /\ fpe5 ptr plain mode sample = Undef).
Proof.
  intros HJ HP HM HS HT HC HB.
  rewrite (fpe8_run ptr plain mode sample p m s) by (auto; tauto).
  change (fpe5 ptr plain mode sample) with (run ptr plain mode sample).
  destruct (run_setup ptr plain p mode m sample s HJ HP HM HS) as (rest & LR & ->); [lia|]. cbv zeta.
  destruct HP as (_ & _ & ->).
  assert (exists n, 32 <= n <= 50 /\ (if streq m ascii_phone then
      if negb (length p =? 11) then refuse errcap 32
      else obind (encrypt_phone udf_ciph clog ctx jq p s (p ++ 0%N :: rest)) (fun r => match read_at (r_after r) 0 (length p) with
      | None => Undef | Some v => if rescap <? length v then Undef else Ret (Value v (r_stray r)) end)
    else if streq m ascii_idcard then
      if negb (length p =? 18) then refuse errcap 34
      else obind (encrypt_idcard udf_ciph clog ctx jq p s (p ++ 0%N :: rest)) (fun r => match read_at (r_after r) 0 (length p) with
      | None => Undef | Some v => if rescap <? length v then Undef else Ret (Value v (r_stray r)) end)
    else if streq m ascii_name || streq m ascii_address then
      obind (encrypt_cn udf_ciph clog ctx jq ji jt p s (p ++ 0%N :: rest)) (fun r => match read_at (r_after r) 0 (length p) with
      | None => Undef | Some v => if rescap <? length v then Undef else Ret (Value v (r_stray r)) end)
    else refuse errcap 50) = refuse errcap n) as (n & Hn & ->).
  { destruct HB as [(-> & N)|[(-> & N)|(N1 & N2 & N3 & N4)]].
    - exists 32. split; [lia|]. change (streq ascii_phone ascii_phone) with true. cbn iota. apply Nat.eqb_neq in N. now rewrite N.
    - exists 34. split; [lia|]. change (streq ascii_idcard ascii_phone) with false. change (streq ascii_idcard ascii_idcard) with true. cbn iota. apply Nat.eqb_neq in N. now rewrite N.
    - exists 50. split; [lia|]. destruct (streq_spec m ascii_phone); [congruence|]. destruct (streq_spec m ascii_idcard); [congruence|].
      destruct (streq_spec m ascii_name); [congruence|]. destruct (streq_spec m ascii_address); [congruence|]. reflexivity. }
  unfold refuse. split; intros H; destruct (Nat.ltb_spec errcap (n + 1)); try lia; auto.
Qed.

(** mysql8: a sample of another length *)
Lemma udf8_sample_length ptr plain p mode m a s : passes plain p -> passes mode m -> passes a s ->
  length s <> length p -> m <> ascii_address ->
  (52 + length p + length s < 200 -> 200 <= errcap -> fpe8 ptr plain mode (Some a) = Ret Null) /\
  (200 <= 52 + length p + length s -> fpe8 ptr plain mode (Some a) = Undef).
Proof.
  intros HP HM HA NE NM. unfold fpe8, udf_fpe8.
  assert (u_len plain =? u_len a = false) as ->.
  { apply Nat.eqb_neq. destruct HP as (_ & _ & ->), HA as (_ & _ & ->). congruence. }
  rewrite (passes_cstring _ _ HM). cbn [obind]. destruct (streq_spec m ascii_address); [congruence|].
  rewrite (passes_cstring _ _ HP), (passes_cstring _ _ HA). cbn [obind]. cbv zeta. unfold refuse.
  split; intros H.
  - intros HE. destruct (Nat.ltb_spec 200 (52 + length p + length s + 1)); [lia|].
    destruct (Nat.ltb_spec errcap (52 + length p + length s + 1)); [lia|reflexivity].
  - destruct (Nat.ltb_spec 200 (52 + length p + length s + 1)); [reflexivity|lia].
Qed.


(** no terminator where the value ends: the number read is longer than the buffers *)
Lemma udf_unterminated ptr plain mode m p : u_len plain = 11 -> passes mode ascii_phone -> length ptr = 12 ->
  u_mem plain = Some m -> strz m = Some p -> 12 < length p -> forall r, run ptr plain mode None <> Ret r.
Proof.
  intros HL HM HT HU HZ HP r. unfold run, udf_run. rewrite HU, HL.
  destruct (read_at m 0 11) as [p0|] eqn:R0; [|discriminate].
  assert (LP0 : length p0 = 11).
  { unfold read_at in R0. destruct (Nat.leb_spec (0 + 11) (length m)); [|discriminate]. assert (R1 : firstn 11 (skipn 0 m) = p0) by congruence. rewrite <- R1, firstn_length, skipn_length. lia. }
  destruct (write_at ptr 0 (p0 ++ [0%N])) as [ptr1|] eqn:W; [|discriminate].
  assert (LP1 : length ptr1 = 12).
  { unfold write_at in W. destruct (0 + length (p0 ++ [0%N]) <=? length ptr); [|discriminate]. injection W as <-.
    cbn [plus firstn app]. rewrite !app_length, skipn_length, ?app_length. cbn [length]. lia. }
  destruct (app_init jk udf_key 16 s_sm4 s_ff1) as [c| |]; cbn [obind]; try discriminate.
  rewrite (passes_cstring _ _ HM). cbn [obind]. change (streq ascii_phone ascii_phone) with true. cbn [Nat.eqb negb].
  unfold cstring. rewrite HU, HZ. cbn [obind]. unfold encrypt_phone, aux_phone. cbv zeta. unfold sample_ok. 
  change (streq [] []) with true. cbn [orb negb].
  destruct (call_ffx udf_ciph _ c jq _ 10 _) as [o| |]; cbn [obind]; try discriminate.
  unfold write_at. rewrite merge_length by (now rewrite kept_mask_length).
  destruct (Nat.leb_spec (0 + length p) (length ptr1)); [lia|]. discriminate.
Qed.

(** mysql5: a short sample is read past its end *)
Lemma udf5_short_sample ptr plain p mode a s : length jk = 16 -> passes plain p -> passes mode ascii_phone -> passes a s ->
  s <> [] -> length p = 11 -> length s < 10 -> 11 < length ptr -> fpe5 ptr plain mode (Some a) = Undef.
Proof.
  intros HJ HP HM HA NS HL LS HT. change (fpe5 ptr plain mode (Some a)) with (run ptr plain mode (Some a)).
  destruct (run_setup ptr plain p mode ascii_phone (Some a) s HJ HP HM) as (rest & LR & ->); [split; auto|lia|]. cbv zeta.
  change (streq ascii_phone ascii_phone) with true. cbn iota. destruct HP as (_ & _ & ->). rewrite HL. cbn [Nat.eqb negb].
  unfold encrypt_phone, aux_phone. cbv zeta. unfold sample_ok. destruct (streq_spec s []) as [Q|_]; [contradiction|]. cbn [orb].
  destruct (Nat.leb_spec (length p) (S (length s))); [lia|]. reflexivity.
Qed.
End U.

Local Open Scope nat_scope.
Lemma udf_init_accepts_lemma : forall types n,
  udf_init types n <> None <-> ((length types = 2 \/ length types = 3) /\ forall i, i < length types -> nth i types false = true).
Proof.
  intros types n. unfold udf_init. cbv zeta.
  destruct types as [|a [|b [|c [|d l]]]]; cbn [length Nat.ltb Nat.leb orb Nat.eqb andb nth].
  - split; [congruence|]. intros [[H|H] _]; discriminate.
  - split; [congruence|]. intros [[H|H] _]; discriminate.
  - split.
    + destruct a, b; cbn; try congruence. intros _. split; [auto|]. intros [|[|i]] H; auto; lia.
    + intros [_ H]. pose proof (H 0 ltac:(lia)) as H0. pose proof (H 1 ltac:(lia)) as H1. cbn in H0, H1. subst. cbn. congruence.
  - split.
    + destruct a, b, c; cbn; try congruence. intros _. split; [auto|]. intros [|[|[|i]]] H; auto; lia.
    + intros [_ H]. pose proof (H 0 ltac:(lia)) as H0. pose proof (H 1 ltac:(lia)) as H1. pose proof (H 2 ltac:(lia)) as H2. cbn in H0, H1, H2. subst. cbn. congruence.
  - split; [congruence|]. intros [[H|H] _]; discriminate.
Qed.

Lemma udf8_name_sample_refuted_lemma : forall clog jk jq ji jt errcap rescap ptr plain text ms mode a,
  passes plain (utf8 text) -> passes mode ascii_name -> passes a (marks_string ms) ->
  length ms = length text -> Forall mark_ok ms -> 1 <= n_stars ms -> length text <= 24 -> 200 <= errcap ->
  udf_fpe8 udf_ciph clog jk jq ji jt errcap rescap ptr plain mode (Some a) = Ret Null.
Proof.
  intros clog jk jq ji jt errcap rescap ptr plain text ms mode a HP HM HA HL HK H1 H24 HE.
  pose proof (marks_length ms HK) as ML. pose proof (utf8_length text) as UL.
  apply (udf8_sample_length clog jk jq ji jt errcap rescap ptr plain (utf8 text) mode ascii_name a (marks_string ms)); auto; try lia.
  discriminate.
Qed.

Lemma udf_unterminated_refuted_lemma : forall clog jk jq ji jt errcap rescap ptr plain mode m p,
  u_len plain = 11 -> passes mode ascii_phone -> length ptr = 12 ->
  u_mem plain = Some m -> strz m = Some p -> 12 < length p ->
  forall r, udf_fpe8 udf_ciph clog jk jq ji jt errcap rescap ptr plain mode None <> Ret r /\
            udf_fpe5 udf_ciph clog jk jq ji jt errcap rescap ptr plain mode None <> Ret r.
Proof.
  intros clog jk jq ji jt errcap rescap ptr plain mode m p H1 H2 H3 H4 H5 H6 r.
  split; exact (udf_unterminated clog jk jq ji jt errcap rescap ptr plain mode m p H1 H2 H3 H4 H5 H6 r).
Qed.
