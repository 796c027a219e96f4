From Verif Require Import Base CbcModel CbcSpec CbcProofs GcmModel GcmSpec GcmProofs FileModel FailSpec.
Local Open Scope nat_scope.

Lemma firstn_exact (a b : list N) n : length a = n -> firstn n (a ++ b) = a.
Proof. intros <-. rewrite firstn_app, Nat.sub_diag, firstn_all, firstn_O. apply app_nil_r. Qed.
Lemma chunks_blocks m : bytes m -> length m mod 16 = 0 -> Forall block16 (chunks 16 m).
Proof.
  intros B A. pose proof (chunks_Forall_length 16 m ltac:(lia) A) as F1. pose proof (bytes_chunks 16 m ltac:(lia) B) as F2.
  rewrite Forall_forall in *. intros x Hx. split; auto.
Qed.
(** ** CBC encryption *)
Lemma enc_until_lengths blk : partial_block blk -> forall ps v cs f, Forall block16 ps -> block16 v -> cbc_enc_until blk v ps = (cs, f) ->
  Forall (fun c => length c = 16) cs.
Proof.
  intros HB. induction ps as [|p ps IH]; cbn; intros v cs f HP HV; [intros [= <- <-]; constructor|].
  inversion HP as [|? ? Hp HP']; subst. pose proof (block16_xorl _ _ Hp HV) as HX.
  destruct (blk (xorl p v)) as [c|] eqn:EB; [|intros [= <- <-]; constructor].
  destruct (cbc_enc_until blk c ps) as [cs' f'] eqn:EU. intros [= <- <-]. pose proof (HB _ _ HX EB) as HC. constructor; [apply HC|eapply IH; eauto].
Qed.

Lemma enc_loop_until blk ivec afin : partial_block blk -> forall m, length m mod 16 = 0 ->
  forall fuel pre o1 o2 ivp v, bytes m -> length m < fuel -> afin = pre ++ m ->
  length o1 = length pre -> length m <= length o2 ->
  (forall o2', iv_read ivec (o1 ++ o2') ivp = Some v) -> block16 v ->
  forall cs f, cbc_enc_until blk v (chunks 16 m) = (cs, f) ->
  let w := concat cs ++ match f with Some x => x | None => [] end in
  enc_loop blk ivec afin fuel (o1 ++ o2) (length pre) ivp (length m)
  = Some (match f with Some _ => false | None => true end, o1 ++ w ++ skipn (length w) o2).
Proof.
  intros HB m Hm. by_blocks m.
  - intros [|f] pre o1 o2 ivp v _ Hf; [cbn in Hf; lia|]. cbn. intros _ _ _ _ _ cs f' [= <- <-]. reflexivity.
  - clear m Hm. intros b m Lb Lm IH [|f] pre o1 o2 ivp v Hbm Hf Ha Ho Ho2 Hiv Hv cs fl; [lia|].
    apply bytes_app in Hbm as [Hb Hm]. rewrite chunks_app by (auto; lia). cbn [cbc_enc_until].
    rewrite app_length in *. cbn [enc_loop].
    destruct (Nat.leb_spec 16 (length b + length m)); [|lia].
    replace (read_at afin (length pre) 16) with (Some b)
      by (rewrite Ha; symmetry; apply read_at_mid; auto). cbn [bind].
    rewrite Hiv. cbn [bind].
    assert (Hx : block16 (xorl b v)) by (apply block16_xorl; auto; now split).
    assert (E2 : o2 = firstn 16 o2 ++ skipn 16 o2) by (symmetry; apply firstn_skipn).
    assert (L16 : length (firstn 16 o2) = 16) by (rewrite firstn_length; lia).
    assert (W1 : write_at (o1 ++ o2) (length pre) (xorl b v) = Some (o1 ++ xorl b v ++ skipn 16 o2)).
    { rewrite E2 at 1. apply write_at_mid; [auto|destruct Hx; lia]. }
    rewrite W1. cbn [bind].
    destruct (blk (xorl b v)) as [c|] eqn:EB.
    + pose proof (HB _ _ Hx EB) as Hc.
      rewrite write_at_mid by (auto; destruct Hx, Hc; lia). cbn [bind].
      replace (length b + length m - 16) with (length m) by lia.
      destruct (cbc_enc_until blk c (chunks 16 m)) as [cs' f'] eqn:EU. intros [= <- <-].
      rewrite (app_assoc o1).
      replace (length pre + 16) with (length (pre ++ b)) by (rewrite app_length; lia).
      rewrite (IH f (pre ++ b) (o1 ++ c) (skipn 16 o2) (Some (length pre)) c) with (cs := cs') (f := f'); auto.
      * f_equal. f_equal. cbn [concat]. rewrite <- !app_assoc. f_equal. f_equal. f_equal. f_equal.
        rewrite skipn_skipn_add. f_equal. rewrite !app_length. destruct Hc. lia.
      * lia.
      * now rewrite <- app_assoc.
      * rewrite !app_length. destruct Hc; lia.
      * rewrite skipn_length. lia.
      * intros o2'. cbn [iv_read]. rewrite <- app_assoc. apply read_at_mid; auto. now destruct Hc.
    + intros [= <- <-]. cbn [concat app]. destruct Hx as [Lx _]. rewrite Lx. reflexivity.
Qed.

Lemma cbc_encrypt_failure_lemma : forall blk m out cap iv, partial_block blk -> bytes m -> block16 iv ->
  (N.of_nat (length (lib_padded m)) <= int_max)%N -> length (lib_padded m) <= cap -> length out = cap ->
  let '(cs, f) := cbc_enc_until blk iv (chunks 16 (lib_padded m)) in
  let written := concat cs ++ match f with Some x => x | None => [] end in
  cbc128_encrypt false blk m out cap iv =
  Some {| cr_ret := match f with Some _ => false | None => true end;
          cr_out := written ++ skipn (length written) out;
          cr_use := Some (N.of_nat (length (lib_padded m))); cr_iv := iv |}.
Proof.
  intros blk m out cap iv HB Bm Hiv Hmax Hcap Hout.
  destruct (cbc_enc_until blk iv (chunks 16 (lib_padded m))) as [cs f] eqn:EU. cbv zeta. unfold cbc128_encrypt.
  rewrite length_lib_padded in Hmax, Hcap. rewrite merge_lib_padded by auto. cbn [bind]. rewrite length_lib_padded.
  destruct (Nat.ltb_spec cap (merge_length (length m))); [lia|].
  pose proof (enc_loop_until blk iv (lib_padded m) HB (lib_padded m)) as HL. rewrite length_lib_padded in HL.
  specialize (HL (proj1 (merge_length_spec _)) (S (merge_length (length m))) [] [] out None iv). cbn [app length] in HL.
  rewrite HL with (cs := cs) (f := f); auto.
  - now apply bytes_lib_padded.
  - lia.
  - intros o2'. cbn [iv_read]. destruct Hiv as [L _]. rewrite <- L. apply read_at_all.
Qed.

(** what a failing call leaves in the output buffer gives away the plaintext block *)
Lemma until_fail_position blk : forall ps v cs x, cbc_enc_until blk v ps = (cs, Some x) ->
  length cs < length ps /\ x = xorl (nth (length cs) ps []) (last cs v) /\ blk x = None.
Proof.
  induction ps as [|p ps IH]; cbn; intros v cs x; [discriminate|].
  destruct (blk (xorl p v)) as [c|] eqn:EB.
  - destruct (cbc_enc_until blk c ps) as [cs' f'] eqn:EU. intros [= <- ->]. destruct (IH _ _ _ EU) as (L & EX & EN).
    cbn [length nth]. split; [lia|]. split; [|exact EN]. rewrite EX. f_equal. symmetry. apply last_cons_block.
  - intros [= <- <-]. cbn. split; [lia|]. split; auto.
Qed.
Lemma until_ok blk : forall ps v cs, cbc_enc_until blk v ps = (cs, None) -> length cs = length ps.
Proof.
  induction ps as [|p ps IH]; cbn; intros v cs; [intros [= <-]; auto|].
  destruct (blk (xorl p v)) as [c|]; [|discriminate]. destruct (cbc_enc_until blk c ps) as [cs' f'] eqn:EU. intros [= <- ->].
  cbn. f_equal. eapply IH; eauto.
Qed.
Lemma last_In {A} (l : list A) d : l <> [] -> In (last l d) l.
Proof. intros H. destruct (exists_last H) as (l' & x & ->). rewrite last_last. apply in_or_app. right. now left. Qed.

Lemma cbc_failure_reveals_lemma : forall blk m out cap iv r, partial_block blk -> bytes m -> block16 iv ->
  (N.of_nat (length (lib_padded m)) <= int_max)%N -> length (lib_padded m) <= cap -> length out = cap ->
  cbc128_encrypt false blk m out cap iv = Some r -> cr_ret r = false ->
  exists k, k < length (chunks 16 (lib_padded m)) /\
    let previous := if k =? 0 then iv else firstn 16 (skipn (16 * (k - 1)) (cr_out r)) in
    xorl (firstn 16 (skipn (16 * k) (cr_out r))) previous = nth k (chunks 16 (lib_padded m)) [].
Proof.
  intros blk m out cap iv r HB Bm Hiv Hmax Hcap Hout HR HF.
  pose proof (cbc_encrypt_failure_lemma blk m out cap iv HB Bm Hiv Hmax Hcap Hout) as HS.
  destruct (cbc_enc_until blk iv (chunks 16 (lib_padded m))) as [cs f] eqn:EU. cbv zeta in HS. rewrite HS in HR.
  injection HR as HR. subst r. cbn [cr_ret cr_out] in *. destruct f as [x|]; [|discriminate].
  destruct (until_fail_position _ _ _ _ _ EU) as (LT & EX & _). 
  assert (AL : length (lib_padded m) mod 16 = 0) by (rewrite length_lib_padded; apply merge_length_spec).
  assert (FB : Forall block16 (chunks 16 (lib_padded m))) by (apply chunks_blocks; auto; now apply bytes_lib_padded).
  pose proof (enc_until_lengths _ HB _ _ _ _ FB Hiv EU) as FL.
  exists (length cs). split; [exact LT|]. cbv zeta.
  pose proof (chunks_Forall_length 16 (lib_padded m) ltac:(lia) AL) as FC.
  set (p := nth (length cs) (chunks 16 (lib_padded m)) []) in *.
  assert (Lp : length p = 16). { rewrite Forall_forall in FC. apply FC. unfold p. apply nth_In. exact LT. }
  assert (LC : length (concat cs) = 16 * length cs).
  { clear - FL. induction FL as [|c cs Lc _ IH]; cbn; [auto|]. rewrite app_length, IH, Lc. lia. }
  assert (Lv : length (last cs iv) = 16).
  { destruct cs as [|c0 cs0]; [apply Hiv|]. rewrite Forall_forall in FL. apply FL. apply last_In. discriminate. }
  assert (Lx : length x = 16) by (rewrite EX, length_xorl; lia).
  assert (R1 : firstn 16 (skipn (16 * length cs) ((concat cs ++ x) ++ skipn (length (concat cs ++ x)) out)) = x).
  { rewrite <- !app_assoc, skipn_app, <- LC, skipn_all, Nat.sub_diag. cbn [skipn app].
    apply firstn_exact, Lx. }
  rewrite R1.
  assert (R2 : (if length cs =? 0 then iv else firstn 16 (skipn (16 * (length cs - 1)) ((concat cs ++ x) ++ skipn (length (concat cs ++ x)) out)))
               = last cs iv).
  { destruct (Nat.eqb_spec (length cs) 0) as [E0|N0]; [destruct cs; [auto|discriminate]|].
    assert (NE : cs <> []) by (intros ->; apply N0; reflexivity). destruct (exists_last NE) as (l & c & EC).
    assert (Lc : length c = 16). { rewrite Forall_forall in FL. apply FL. rewrite EC. apply in_or_app. right. now left. }
    assert (LL : length (concat l) = 16 * (length cs - 1)).
    { rewrite EC, concat_app, !app_length in LC. cbn [concat length] in LC. rewrite app_length in LC. cbn [length] in LC.
      rewrite EC, app_length. cbn [length]. lia. }
    rewrite <- LL. rewrite EC at 1 3. rewrite last_last, concat_app. cbn [concat]. rewrite app_nil_r, <- !app_assoc.
    rewrite skipn_app, skipn_all, Nat.sub_diag. cbn [skipn app].
    apply firstn_exact, Lc. }
  rewrite R2, EX. apply xorl_cancel_r. lia.
Qed.

(** ** CBC decryption *)
Lemma dec_until_facts blk : partial_block blk -> forall cs v ps w ok, Forall block16 cs -> length v = 16 ->
  cbc_dec_until blk v cs = (ps, w, ok) ->
  length (concat ps) = 16 * length ps /\ length ps <= length cs /\ (ok = true -> length ps = length cs) /\
  (ok = false -> length ps < length cs) /\ length w = 16.
Proof.
  intros HB. induction cs as [|c cs IH]; cbn [cbc_dec_until]; intros v ps w ok FC Lv.
  - intros [= <- <- <-]. cbn. repeat split; auto; discriminate.
  - inversion FC as [|? ? Hc FC']; subst. pose proof (proj1 Hc) as Lc. destruct (blk c) as [d|] eqn:EB.
    + destruct (cbc_dec_until blk c cs) as [[ps' w'] ok'] eqn:EU. intros [= <- <- <-].
      destruct (IH _ _ _ _ FC' Lc EU) as (H1 & H2 & H3 & H4 & H5). cbn [concat length]. rewrite app_length, length_xorl, H1, Lv.
      pose proof (HB _ _ Hc EB) as [Ld _]. rewrite Ld. cbn [Nat.min]. repeat split; lia.
    + intros [= <- <- <-]. cbn. repeat split; auto; try lia; discriminate.
Qed.
Lemma dec_until_app blk : forall a v b,
  cbc_dec_until blk v (a ++ b) =
  let '(ps, w, ok) := cbc_dec_until blk v a in
  if ok then let '(ps', w', ok') := cbc_dec_until blk w b in (ps ++ ps', w', ok') else (ps, w, ok).
Proof.
  induction a as [|c a IH]; intros v b; cbn [cbc_dec_until app].
  - destruct (cbc_dec_until blk v b) as [[? ?] ?]. reflexivity.
  - destruct (blk c) as [d|]; [|reflexivity]. rewrite IH. destruct (cbc_dec_until blk c a) as [[ps w] ok].
    destruct ok; [|reflexivity]. destruct (cbc_dec_until blk w b) as [[? ?] ?]. reflexivity.
Qed.

Lemma dec_loop_sep_until blk inp tail_len post : partial_block blk -> tail_len < 16 ->
  forall m, length m mod 16 = 0 -> forall fuel pre o1 o2 v,
  bytes m -> length m < fuel -> inp = pre ++ m ++ post -> length o1 = length pre -> length m <= length o2 -> length v = 16 ->
  forall ps w ok, cbc_dec_until blk v (chunks 16 m) = (ps, w, ok) ->
  exists off len, dec_loop_sep blk inp fuel (o1 ++ o2) v (length pre) (length m + tail_len)
  = Some (ok, o1 ++ concat ps ++ skipn (length (concat ps)) o2, w, off, len) /\
  (ok = true -> off = length pre + length m /\ len = tail_len).
Proof.
  intros HB Ht m Hm. by_blocks m.
  - intros [|f] pre o1 o2 v _ Hf; [cbn in Hf; lia|]. intros _ _ _ _ ps w ok. cbn [chunks chunk_fuel length cbc_dec_until].
    intros [= <- <- <-]. cbn [dec_loop_sep length Nat.add]. destruct (Nat.leb_spec 16 tail_len); [lia|]. cbn [concat length app skipn].
    do 2 eexists. split; [reflexivity|]. intros _. split; [lia|reflexivity].
  - clear m Hm. intros b m Lb Lm IH [|f] pre o1 o2 v Hbm Hf Ha Ho Ho2 Hv ps w ok; [lia|].
    apply bytes_app in Hbm as [Bb Bm].
    rewrite chunks_app by (auto; lia). cbn [cbc_dec_until]. rewrite app_length in *. cbn [dec_loop_sep].
    destruct (Nat.leb_spec 16 (length b + length m + tail_len)); [|lia].
    assert (Ha' : inp = pre ++ b ++ (m ++ post)) by (rewrite Ha, <- app_assoc; reflexivity).
    replace (read_at inp (length pre) 16) with (Some b)
      by (rewrite Ha'; symmetry; apply read_at_mid; auto). cbn [bind].
    destruct (blk b) as [d|] eqn:EB; [|intros [= <- <- <-]; cbn [concat length app skipn]; do 2 eexists; split; [reflexivity|discriminate]].
    pose proof (HB _ _ (conj Lb Bb) EB) as Hd.
    assert (E2 : o2 = firstn 16 o2 ++ skipn 16 o2) by (symmetry; apply firstn_skipn).
    assert (L16 : length (firstn 16 o2) = 16) by (rewrite firstn_length; lia).
    assert (W1 : write_at (o1 ++ o2) (length pre) d = Some (o1 ++ d ++ skipn 16 o2)).
    { rewrite E2 at 1. apply write_at_mid; [auto|destruct Hd; lia]. }
    rewrite W1. cbn [bind]. rewrite read_at_mid by (auto; now destruct Hd). cbn [bind].
    assert (Lx : length (xorl d v) = 16) by (rewrite length_xorl; destruct Hd; lia).
    rewrite write_at_mid by (auto; destruct Hd; lia). cbn [bind].
    replace (length b + length m + tail_len - 16) with (length m + tail_len) by lia.
    destruct (cbc_dec_until blk b (chunks 16 m)) as [[ps' w'] ok'] eqn:EU. intros [= <- <- <-].
    rewrite (app_assoc o1). replace (length pre + 16) with (length (pre ++ b)) by (rewrite app_length; lia).
    destruct (IH f (pre ++ b) (o1 ++ xorl d v) (skipn 16 o2) b) with (ps := ps') (w := w') (ok := ok') as (off & len & EQ & HO); auto.
    + lia.
    + rewrite Ha', <- !app_assoc. reflexivity.
    + rewrite !app_length. lia.
    + rewrite skipn_length. lia.
    + rewrite EQ. exists off, len. split.
      * cbn [concat]. rewrite skipn_skipn_add, <- !app_assoc, app_length, Lx. reflexivity.
      * intros O. destruct (HO O) as [-> ->]. rewrite app_length. lia.
Qed.

Lemma dec_loop_inplace_until blk tail_len : partial_block blk -> tail_len < 16 ->
  forall m, length m mod 16 = 0 -> forall fuel pre post v,
  bytes m -> length m < fuel -> length v = 16 ->
  forall ps w ok, cbc_dec_until blk v (chunks 16 m) = (ps, w, ok) ->
  exists off len, dec_loop_inplace blk fuel (pre ++ m ++ post) v (length pre) (length m + tail_len)
  = Some (ok, pre ++ concat ps ++ skipn (length (concat ps)) m ++ post, w, off, len) /\
  (ok = true -> off = length pre + length m /\ len = tail_len).
Proof.
  intros HB Ht m Hm. by_blocks m.
  - intros [|f] pre post v _ Hf; [cbn in Hf; lia|]. intros _ ps w ok. cbn [chunks chunk_fuel length cbc_dec_until].
    intros [= <- <- <-]. cbn [dec_loop_inplace length Nat.add]. destruct (Nat.leb_spec 16 tail_len); [lia|].
    cbn [concat length app skipn]. do 2 eexists. split; [reflexivity|]. intros _. split; [lia|reflexivity].
  - clear m Hm. intros b m Lb Lm IH [|f] pre post v Hbm Hf Lv ps w ok; [lia|].
    apply bytes_app in Hbm as [Bb Bm].
    rewrite chunks_app by (auto; lia). cbn [cbc_dec_until]. rewrite app_length in *. cbn [dec_loop_inplace].
    destruct (Nat.leb_spec 16 (length b + length m + tail_len)); [|lia].
    rewrite <- app_assoc. rewrite read_at_mid by auto. cbn [bind].
    destruct (blk b) as [d|] eqn:EB.
    2:{ intros [= <- <- <-]. cbn [concat length app skipn]. do 2 eexists. split; [rewrite <- app_assoc; reflexivity|discriminate]. }
    pose proof (HB _ _ (conj Lb Bb) EB) as Hd.
    destruct (cbc_dec_until blk b (chunks 16 m)) as [[ps' w'] ok'] eqn:EU. intros [= <- <- <-].
    destruct (split8 b Lb) as [b1 [b2 [Eb [Lb1 Lb2]]]].
    destruct (split8 d (proj1 Hd)) as [d1 [d2 [Ed [Ld1 Ld2]]]].
    destruct (split8 v Lv) as [v1 [v2 [Ev [Lv1 Lv2]]]].
    assert (R1 : read_at d (8 * 0) 8 = Some d1) by (rewrite Ed; apply (read_at_mid [] d1 d2); auto).
    assert (R2 : read_at v (8 * 0) 8 = Some v1) by (rewrite Ev; apply (read_at_mid [] v1 v2); auto).
    assert (W1 : write_at v (8 * 0) b1 = Some (b1 ++ v2)).
    { rewrite Ev. apply (write_at_mid [] v1 v2); cbn; lia. }
    assert (S1 : dec_word_inplace d (length pre) 0 (pre ++ b ++ m ++ post, v)
                 = Some (pre ++ xorl d1 v1 ++ b2 ++ m ++ post, b1 ++ v2)).
    { unfold dec_word_inplace.
      replace (pre ++ b ++ m ++ post) with (pre ++ b1 ++ (b2 ++ m ++ post))
        by (rewrite Eb, <- app_assoc; auto).
      rewrite read_at_mid by lia. cbn [bind]. rewrite R1, R2. cbn [bind].
      rewrite write_at_mid by (rewrite ?length_xorl; lia). cbn [bind].
      rewrite W1. reflexivity. }
    assert (R3 : read_at d (8 * 1) 8 = Some d2).
    { rewrite Ed. apply read_at_end; auto. }
    assert (R4 : read_at (b1 ++ v2) (8 * 1) 8 = Some v2).
    { apply read_at_end; auto. }
    assert (W2 : write_at (b1 ++ v2) (8 * 1) b2 = Some b).
    { rewrite write_at_end by lia. now rewrite Eb. }
    assert (S2 : dec_word_inplace d (length pre) 1 (pre ++ xorl d1 v1 ++ b2 ++ m ++ post, b1 ++ v2)
                 = Some ((pre ++ xorl d1 v1) ++ xorl d2 v2 ++ m ++ post, b)).
    { unfold dec_word_inplace.
      replace (pre ++ xorl d1 v1 ++ b2 ++ m ++ post) with ((pre ++ xorl d1 v1) ++ b2 ++ (m ++ post))
        by (now rewrite <- app_assoc).
      rewrite read_at_mid by (rewrite ?app_length, ?length_xorl; lia). cbn [bind].
      rewrite R3, R4. cbn [bind].
      rewrite write_at_mid by (rewrite ?app_length, ?length_xorl; lia). cbn [bind].
      rewrite W2. reflexivity. }
    rewrite S1. cbn [bind]. rewrite S2. cbn [bind].
    assert (EX : xorl d v = xorl d1 v1 ++ xorl d2 v2).
    { rewrite Ed, Ev at 1. apply xorl_app. lia. }
    assert (Lx : length (xorl d v) = 16) by (rewrite length_xorl; destruct Hd; lia).
    replace (length b + length m + tail_len - 16) with (length m + tail_len) by lia.
    replace ((pre ++ xorl d1 v1) ++ xorl d2 v2 ++ m ++ post)
      with ((pre ++ xorl d v) ++ m ++ post) by (rewrite EX, <- !app_assoc; auto).
    replace (length pre + 16) with (length (pre ++ xorl d v)) by (rewrite app_length; lia).
    destruct (IH f (pre ++ xorl d v) post b Bm ltac:(lia) Lb ps' w' ok' EU) as (off & len & EQ & HO).
    rewrite EQ. exists off, len. split.
    + cbn [concat]. rewrite app_length, Lx, skipn_app, Lb. rewrite (skipn_all2 b) by lia. cbn [app].
      replace (16 + length (concat ps') - 16) with (length (concat ps')) by lia. rewrite <- !app_assoc. reflexivity.
    + intros O. destruct (HO O) as [-> ->]. rewrite app_length. lia.
Qed.

Lemma chunks_app_mod {A} (b : list A) : forall a, length a mod 16 = 0 -> chunks 16 (a ++ b) = chunks 16 a ++ chunks 16 b.
Proof.
  intros a Ha. pattern a. apply (aligned_ind 16); [lia| | |assumption]; [reflexivity|].
  intros x l Lx Ll IH. rewrite <- app_assoc. rewrite (chunks_app 16 x (l ++ b)), (chunks_app 16 x l), IH by (auto; lia). reflexivity.
Qed.

Lemma cbc_decrypt_failure_lemma : forall blk c post out cap iv, partial_block blk -> bytes (c ++ post) -> block16 iv ->
  (N.of_nat (length c) <= int_max)%N -> length c <= cap -> length out = cap -> 16 * nblk (length c) <= length (c ++ post) ->
  let '(ps, w, ok) := cbc_dec_until blk iv (chunks 16 (firstn (16 * nblk (length c)) (c ++ post))) in
  let written := firstn (length c) (concat ps) in
  cbc128_decrypt blk (c ++ post) (length c) out cap iv =
    Some {| cr_ret := ok; cr_out := written ++ skipn (length written) out; cr_use := None;
            cr_iv := if length ps <? length c / 16 then iv else w |} /\
  cbc128_decrypt_inplace blk (c ++ post) (length c) cap iv =
    Some {| cr_ret := ok; cr_out := written ++ skipn (length written) (c ++ post); cr_use := None; cr_iv := w |}.
Proof.
  intros blk c post out cap iv HB BI [Liv _] Hmax Hcap Hout Hlong.
  set (inp := c ++ post) in *. set (n := length c) in *.
  set (k := n / 16 * 16). set (t := n mod 16).
  assert (Ek : n = k + t) by (unfold k, t; lia).
  assert (Lin : n <= length inp) by (unfold inp, n; rewrite app_length; lia).
  set (m := firstn k inp).
  assert (Lm : length m = k) by (unfold m; rewrite firstn_length; lia).
  assert (SK : skipn k m = []) by (apply skipn_all2; lia).
  assert (Am : length m mod 16 = 0) by (rewrite Lm; unfold k; apply Nat.mod_mul; lia).
  assert (EI : inp = m ++ skipn k inp) by (symmetry; apply firstn_skipn).
  assert (Bm : bytes m) by (apply bytes_firstn; exact BI).
  pose proof (chunks_blocks m Bm Am) as FC.
  assert (CC : length (chunks 16 m) = n / 16).
  { rewrite chunks_count. unfold nblk. rewrite Lm. unfold k. lia. }
  destruct (cbc_dec_until blk iv (chunks 16 m)) as [[qs v] o] eqn:EM.
  destruct (dec_until_facts blk HB _ _ _ _ _ FC Liv EM) as (F1 & F2 & F3 & F4 & F5).
  destruct (dec_loop_sep_until blk inp t (skipn k inp) HB ltac:(unfold t; lia) m Am (S n) [] [] out iv) with (ps := qs) (w := v) (ok := o)
    as (off & len & EQ & HO); auto; try lia.
  destruct (dec_loop_inplace_until blk t HB ltac:(unfold t; lia) m Am (S n) [] (skipn k inp) iv) with (ps := qs) (w := v) (ok := o)
    as (off' & len' & EQ' & HO'); auto; try lia.
  cbn [app length Nat.add] in EQ, EQ', HO, HO'. rewrite <- EI in EQ'. rewrite Lm in EQ, EQ', HO, HO'. rewrite <- Ek in EQ, EQ'.
  assert (ET : firstn (16 * nblk n) inp = m ++ (if t =? 0 then [] else firstn 16 (skipn k inp))).
  { destruct (Nat.eqb_spec t 0) as [T0|T0].
    - rewrite app_nil_r. unfold m. f_equal. unfold nblk. unfold k, t in *. lia.
    - replace (16 * nblk n) with (k + 16) by (unfold nblk, k, t in *; lia). rewrite EI at 1. rewrite firstn_app, Lm.
      rewrite firstn_all2 by lia. f_equal. f_equal. lia. }
  rewrite ET, chunks_app_mod, dec_until_app, EM by auto.
  unfold cbc128_decrypt, cbc128_decrypt_inplace, dec_run_sep, dec_run_inplace. destruct (Nat.ltb_spec cap n); [lia|].
  destruct (N.ltb_spec int_max (N.of_nat n)); [lia|]. rewrite EQ, EQ'. cbn [bind].
  destruct o.
  - specialize (F3 eq_refl). destruct (HO eq_refl) as [-> ->]. destruct (HO' eq_refl) as [-> ->]. clear HO HO' F4.
    assert (LQ : length (concat qs) = k) by (rewrite F1, F3, CC; unfold k; lia). rewrite LQ.
    destruct (Nat.eqb_spec t 0) as [T0|T0].
    + cbn [chunks chunk_fuel length cbc_dec_until]. rewrite app_nil_r. cbv zeta. unfold dec_tail. rewrite T0. cbn [Nat.eqb bind].
      rewrite (firstn_all2 (concat qs)) by lia. rewrite LQ.
      destruct (Nat.ltb_spec (length qs) (n / 16)); [lia|].
      split; [reflexivity|]. f_equal. f_equal. f_equal. rewrite SK. reflexivity.
    + assert (HR : k + 16 <= length inp) by (unfold nblk, k, t in *; lia).
      assert (LT : length (firstn 16 (skipn k inp)) = 16) by (rewrite firstn_length, skipn_length; lia).
      set (a := firstn 16 (skipn k inp)) in *.
      assert (Ba : block16 a) by (split; [exact LT|apply bytes_firstn, bytes_skipn; exact BI]).
      assert (EC : chunks 16 a = [a]) by (rewrite <- (app_nil_r a) at 1; rewrite chunks_app by lia; reflexivity).
      rewrite EC. cbn [cbc_dec_until]. unfold dec_tail. destruct (Nat.eqb_spec t 0); [lia|].
      assert (RA : read_at inp k 16 = Some a).
      { unfold read_at. destruct (Nat.leb_spec (k + 16) (length inp)); [reflexivity|lia]. }
      assert (RB : read_at (concat qs ++ skipn k m ++ skipn k inp) k 16 = Some a).
      { rewrite SK. cbn [app]. rewrite <- (firstn_skipn 16 (skipn k inp)). apply read_at_mid; auto. }
      rewrite RA, RB. cbn [bind].
      destruct (blk a) as [d|] eqn:EB.
      * pose proof (HB _ _ Ba EB) as [Ld _]. assert (Lx : length (xorl d v) = 16) by (rewrite length_xorl; lia).
        assert (Lf : length (firstn t (xorl d v)) = t) by (rewrite firstn_length; unfold t; lia).
        assert (W : forall o, n <= length o -> write_at (concat qs ++ skipn k o) k (firstn t (xorl d v)) = Some (concat qs ++ firstn t (xorl d v) ++ skipn n o)).
        { intros oo Loo. rewrite <- (firstn_skipn t (skipn k oo)). rewrite skipn_skipn_add, <- Ek. apply write_at_mid; [auto|].
          rewrite Lf, firstn_length, skipn_length. lia. }
        rewrite W by lia. rewrite SK. cbn [app]. rewrite W by lia. cbn [bind]. cbv zeta.
        rewrite concat_app. cbn [concat]. rewrite app_nil_r.
        assert (EW : firstn n (concat qs ++ xorl d v) = concat qs ++ firstn t (xorl d v)).
        { rewrite firstn_app, LQ. rewrite firstn_all2 by lia. f_equal. f_equal. lia. }
        rewrite EW, !app_length, Lf, LQ, <- Ek, <- !app_assoc. destruct (Nat.ltb_spec (length qs + length [xorl d v]) (n / 16)); [lia|].
        split; reflexivity.
      * cbn [bind]. cbv zeta. rewrite app_nil_r. rewrite (firstn_all2 (concat qs)) by lia. rewrite LQ.
        destruct (Nat.ltb_spec (length qs) (n / 16)); [lia|]. split; [reflexivity|].
        f_equal. f_equal. f_equal. rewrite SK. reflexivity.
  - specialize (F4 eq_refl). cbv zeta. rewrite (firstn_all2 (concat qs)) by (unfold k in *; lia).
    destruct (Nat.ltb_spec (length qs) (n / 16)); [|lia]. split; [reflexivity|].
    f_equal. f_equal. f_equal. rewrite EI at 2. rewrite skipn_app, Lm.
    replace (length (concat qs) - k) with 0 by (unfold k in *; lia). reflexivity.
Qed.

(** ** GCM *)
Lemma gcm_mult_any HH HL x : block16 (gcm_mult HH HL x).
Proof.
  unfold gcm_mult. cbv zeta. destruct (fold_left _ _ _) as [zh zl]. split; [reflexivity|].
  assert (P : forall n, bytes (put_u32_be n)).
  { intros n. unfold put_u32_be. repeat (apply Forall_cons; [unfold byte; apply N.mod_lt; discriminate|]). apply Forall_nil. }
  apply bytes_app; split; [apply P|]. apply bytes_app; split; [apply P|]. apply bytes_app; split; apply P.
Qed.
Lemma crypt_loop_until blk HH HL d : forall cs y buf out, block16 y -> block16 buf ->
  let '(os, ok) := gctr_until blk (inc32 y) cs in
  exists buf', block16 buf' /\
    crypt_loop blk HH HL d cs y buf out = (ok, inc32_n (length os + (if ok then 0 else 1)) y, buf', out ++ concat os).
Proof.
  induction cs as [|p cs IH]; intros y buf out Hy Hb; cbn [gctr_until crypt_loop].
  - exists buf. split; auto. cbn. now rewrite app_nil_r.
  - rewrite ctr_incr_spec by auto. pose proof (inc32_block y Hy) as Hy'. destruct (blk (inc32 y)) as [e|].
    + match goal with |- context[crypt_loop blk HH HL d cs (inc32 y) ?B ?O] => specialize (IH (inc32 y) B O Hy' (gcm_mult_any _ _ _)) end.
      destruct (gctr_until blk (inc32 (inc32 y)) cs) as [os ok]. destruct IH as (b' & Hb' & ->). exists b'. split; auto.
      cbn [length Nat.add inc32_n concat]. rewrite <- app_assoc, (xorl_comm (firstn _ _) p). reflexivity.
    + exists buf. split; auto. cbn. now rewrite app_nil_r.
Qed.
Lemma gcm_crypt_until blk d c inp outlen h : ctx_ok h c -> (N.of_nat (length inp) <= int_max)%N -> length inp <= outlen ->
  let '(os, ok) := gctr_until blk (inc32 (g_y c)) (chunks 16 inp) in
  exists c', gcm_crypt d blk c inp outlen = (ok, c', concat os) /\ ctx_ok h c' /\
    g_len c' = w64 (g_len c + N.of_nat (length inp)) /\ g_y c' = inc32_n (length os + (if ok then 0 else 1)) (g_y c) /\
    g_base c' = g_base c /\ g_add_len c' = g_add_len c.
Proof.
  intros (HK & Hy & Hb) Hmax Ho.
  pose proof (crypt_loop_until blk (g_HH c) (g_HL c) d (chunks 16 inp) (g_y c) (g_buf c) [] Hy Hb) as HL.
  destruct (gctr_until blk (inc32 (g_y c)) (chunks 16 inp)) as [os ok]. destruct HL as (b' & Hb' & EQ).
  unfold gcm_crypt. destruct (Nat.ltb_spec outlen (length inp)); [lia|]. rewrite c_int_small by auto.
  assert (EL : Z.to_nat (Z.of_N (N.of_nat (length inp))) = length inp) by lia. rewrite EL, firstn_all, EQ.
  eexists. split; [reflexivity|]. split; [split; [exact HK|split; [apply inc32_n_block; auto|exact Hb']]|].
  cbn [g_len g_y g_base g_add_len]. repeat split. unfold w64. rewrite <- N2Z.inj_add. change (2 ^ 64)%Z with (Z.of_N (2 ^ 64)%N).
  rewrite <- N2Z.inj_mod. lia.
Qed.

Lemma inc32_after k : forall y, inc32 (inc32_n k y) = inc32_n (S k) y.
Proof. induction k as [|k IH]; intros y; cbn [inc32_n]; [reflexivity|]. rewrite IH. reflexivity. Qed.
Lemma gcm_failure_lemma : forall E blk d c inp outlen, block_function E -> reachable (lift E) c -> bytes inp ->
  (N.of_nat (length inp) <= int_max)%N -> length inp <= outlen ->
  let '(os, ok) := gctr_until blk (inc32 (g_y c)) (chunks 16 inp) in
  exists c', gcm_crypt d blk c inp outlen = (ok, c', concat os) /\
    (ok = false -> forall taglen, taglen <= 16 ->
       (exists t, gcm_finish c' taglen = Some t) /\
       exists c'', gcm_crypt d (lift E) c' inp outlen = (true, c'', gctr E (inc32_n (length os + 2) (g_y c)) inp) /\
         g_len c'' = w64 (g_len c + 2 * N.of_nat (length inp))).
Proof.
  intros E blk d c inp outlen HE HR Bi Hmax Ho. pose proof (reachable_ctx_ok E c HE HR) as HC.
  pose proof (gcm_crypt_until blk d c inp outlen _ HC Hmax Ho) as HL.
  destruct (gctr_until blk (inc32 (g_y c)) (chunks 16 inp)) as [os ok]. destruct HL as (c' & EQ & HC' & EL & EY & _).
  exists c'. split; [exact EQ|]. intros -> taglen Ht. split.
  - unfold gcm_finish. destruct (Nat.ltb_spec 16 taglen); [lia|]. destruct (_ && _); eauto.
  - rewrite (gcm_crypt_spec E (hash_key E)) by auto. 
    assert (EI : inc32 (g_y c') = inc32_n (length os + 2) (g_y c)).
    { rewrite EY, inc32_after. f_equal. lia. }
    rewrite EI. eexists. split; [reflexivity|].
    cbn [g_len]. rewrite EL. unfold w64. rewrite N.add_mod_idemp_l by discriminate. f_equal. lia.
Qed.

(** ** files *)
Lemma slice_down d c p : p <> [] -> (N.of_nat (length p) <= int_max)%N ->
  snd (gcm_slice d blk_down c p) = repeat 0%N (length p).
Proof.
  intros Hp Hm. unfold gcm_slice, gcm_crypt. destruct (Nat.ltb_spec (length p) (length p)); [lia|]. rewrite c_int_small by auto.
  replace (Z.to_nat (Z.of_N (N.of_nat (length p)))) with (length p) by lia. rewrite firstn_all.
  rewrite chunks_eq by (auto; lia). cbn [crypt_loop blk_down]. cbn [snd length app]. now rewrite Nat.sub_0_r.
Qed.
Lemma slices_down d : forall ps c, Forall (fun p => p <> [] /\ length p <= 128) ps ->
  snd (slices_run (gcm_slice d blk_down) c ps) = repeat 0%N (length (concat ps)).
Proof.
  induction ps as [|p ps IH]; intros c HF; [reflexivity|]. inversion HF as [|? ? [Hp Hl] HF']; subst. cbn [slices_run concat].
  pose proof (slice_down d c p Hp ltac:(unfold int_max; lia)) as ES. destruct (gcm_slice d blk_down c p) as [c1 o]. cbn [snd] in ES.
  specialize (IH c1 HF'). destruct (slices_run (gcm_slice d blk_down) c1 ps) as [c2 o2]. cbn [snd] in *.
  rewrite ES, IH, app_length, repeat_app. reflexivity.
Qed.
Lemma chunks_ok (l : list N) : Forall (fun p => p <> [] /\ length p <= 128) (chunks file_slice l).
Proof.
  unfold file_slice. remember (length l) as n eqn:En. revert l En. induction n as [n IH] using lt_wf_ind. intros l ->.
  destruct l as [|x l]; [constructor|]. rewrite chunks_eq by (auto; lia || discriminate). constructor.
  - split; [cbn; discriminate|]. rewrite firstn_length. lia.
  - eapply IH; [|reflexivity]. rewrite skipn_length. cbn. lia.
Qed.
Lemma gcm_finish_16 c : exists r, gcm_finish c 16 = Some r.
Proof. unfold gcm_finish. cbn [Nat.ltb Nat.leb]. destruct (_ && _); eauto. Qed.
Lemma gcmfile_down_lemma : forall wr fs c inf outf junk data,
  fs inf = Some data -> inf <> outf -> inf <> tmp_path outf -> wr outf = true -> wr (tmp_path outf) = true ->
  (exists c1 fs1 tag, gcmfile_encrypt blk_down wr fs c inf outf junk = Some (true, c1, fs1) /\
     fs1 outf = Some (tag ++ (N_to_le 4 (N.of_nat (length data) mod 2 ^ 32) ++ junk) ++ repeat 0%N (length data))) /\
  (forall tag len, length tag = 16 -> length len = 8 ->
     (exists body, data = tag ++ len ++ body /\ (N.of_nat (length body) <= int_max)%N /\
        c_int (le_to_N (firstn 4 len)) = Z.of_nat (length body)) ->
     exists c1 fs1, gcmfile_decrypt blk_down wr fs c inf outf = Some (true, c1, fs1) /\
       fs1 outf = Some (repeat 0%N (length data - 24))).
Proof.
  intros wr fs c inf outf junk data HF N1 N2 W1 W2. split.
  - unfold gcmfile_encrypt, file_encrypt. rewrite HF, W1, W2. cbn [negb].
    assert (ED : upd (upd fs (tmp_path outf) (Some [])) outf (Some []) inf = Some data).
    { unfold upd. destruct (path_dec inf outf); [contradiction|]. destruct (path_dec inf (tmp_path outf)); [contradiction|]. exact HF. }
    rewrite ED. pose proof (slices_down Enc (chunks file_slice data) (f_gcm c) (chunks_ok data)) as ES.
    destruct (slices_run (gcm_slice Enc blk_down) (f_gcm c) (chunks file_slice data)) as [c1 ct]. cbn [snd] in ES.
    rewrite concat_chunks in ES by (unfold file_slice; lia).
    destruct (gcm_finish_16 c1) as [[c2 tag] ET]. change file_tag_len with 16. rewrite ET. cbn [bind].
    exists (mkgf c2 tag), (upd (upd (upd (upd (upd fs (tmp_path outf) (Some [])) outf (Some [])) (tmp_path outf) (Some ct)) outf
      (Some (tag ++ (N_to_le 4 (N.of_nat (length data) mod 2 ^ 32) ++ junk) ++ ct))) (tmp_path outf) None), tag.
    split; [reflexivity|]. unfold upd at 1. destruct (path_dec outf (tmp_path outf)) as [EQ|_].
    { exfalso. unfold tmp_path in EQ. apply (f_equal (@length N)) in EQ. rewrite app_length in EQ. cbn in EQ. lia. }
    unfold upd at 1. destruct (path_dec outf outf); [|contradiction]. rewrite ES. reflexivity.
  - intros tag len Lt Ll (body & ED & Hm & HS). unfold gcmfile_decrypt, file_decrypt. rewrite HF.
    assert (LD : length data = 24 + length body) by (rewrite ED, !app_length; lia).
    destruct (Nat.eqb_spec (length data) 0); [lia|]. change file_tag_len with 16 in *.
    assert (ER : skipn 16 data = len ++ body).
    { rewrite ED, skipn_app, Lt, Nat.sub_diag, (skipn_all2 tag) by lia. reflexivity. }
    rewrite ER. destruct (Nat.eqb_spec (length (len ++ body)) 0) as [E0|_]; [rewrite app_length in E0; lia|].
    change size_len with 8. rewrite (firstn_exact len body 8 Ll). rewrite W1. cbn [negb].
    destruct (path_dec inf outf); [contradiction|].
    destruct (gcm_finish_16 (f_gcm c)) as [[c2 t] ET]. rewrite ET. cbn [bind].
    assert (EB : skipn 8 (len ++ body) = body) by (rewrite skipn_app, Ll, Nat.sub_diag, (skipn_all2 len) by lia; reflexivity).
    rewrite EB. destruct (N.ltb_spec int_max (N.of_nat (length body))); [lia|].
    pose proof (slices_down Dec (chunks file_slice body) c2 (chunks_ok body)) as ES.
    destruct (slices_run (gcm_slice Dec blk_down) c2 (chunks file_slice body)) as [c3 o]. cbn [snd] in ES.
    rewrite concat_chunks in ES by (unfold file_slice; lia). cbn [bind].
    rewrite firstn_app, Ll. replace (4 - 8) with 0 by lia. rewrite firstn_O, app_nil_r, HS, Z.eqb_refl.
    do 2 eexists. split; [reflexivity|]. unfold upd. destruct (path_dec outf outf); [|contradiction].
    rewrite ES, LD. f_equal. f_equal. lia.
Qed.
