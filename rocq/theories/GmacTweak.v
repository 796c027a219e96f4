(** * What the tweak contributes to an FF3-GMAC tag *)
From Verif Require Import Base CbcModel CbcSpec CbcProofs GcmModel GcmSpec GfProofs GcmProofs GfField GfGhash FpeModel FpeSpec FpeCore FpeProofs.
Local Open Scope nat_scope.
#[local] Opaque gf_mul.

Lemma fold_tag {S : Type} (step : S -> nat -> S) (part : S -> nat -> list N) l : forall s, exists z, forall m,
  length m = 16 -> (forall s i, length (part s i) = 16) ->
  snd (fold_left (fun s i => (step (fst s) i, xorl (snd s) (part (fst s) i))) l (s, m)) = xorl m z /\ length z = 16.
Proof.
  induction l as [|i l IH]; intros s.
  - exists (repeat 0%N 16). intros m L _. split; [cbn [fold_left snd]; symmetry; apply xorl_zeros_r; lia|apply repeat_length].
  - destruct (IH (step s i)) as (z & H). exists (xorl (part s i) z). intros m L P. cbn [fold_left fst snd].
    destruct (H (xorl m (part s i))) as [-> Lz]; [rewrite length_xorl, L, P; reflexivity|exact P|].
    split; [apply xorl_assoc|rewrite length_xorl, Lz, P; reflexivity].
Qed.
(** the tag is what the first sixteen bytes of the tweak contribute, plus something that depends on its first eight only *)
Lemma gmac_tag_split E radix X T8 : exists z, length z = 16 /\ forall T, firstn 8 T = T8 ->
  FF3_GMAC_tag E radix T X = xorl (block_mul (firstn 16 T) (E (repeat 0%N 16))) z.
Proof.
  set (u := ceil_div (length X) 2).
  destruct (fold_tag (FF3_enc_step E radix T8 (length X)) (fun s i => block_mul (std_S3 E radix T8 i (snd s)) (E (repeat 0%N 16))) [0;1;2;3;4;5;6;7]
    (firstn u X, skipn u X)) as (z & H).
  exists z. assert (P : forall a b, length (block_mul a b) = 16) by (intros; apply block_mul_block).
  split; [destruct (H (repeat 0%N 16)) as [_ L]; [apply repeat_length|intros; apply P|exact L]|].
  intros T ET. unfold FF3_GMAC_tag. cbv zeta. rewrite ET. apply (H (block_mul (firstn 16 T) (E (repeat 0%N 16)))); [apply P|intros; apply P].
Qed.
Lemma xorl_out a b z : length a = 16 -> length b = 16 -> length z = 16 -> xorl (xorl a z) (xorl b z) = xorl a b.
Proof. intros. rewrite (xorl_comm b z), <- xorl_assoc, (xorl_cancel_r a z) by lia. reflexivity. Qed.
Lemma ret_pair {A B : Type} (a a' : A) (b b' : B) : Ret (a, b) = Ret (a', b') -> a = a' /\ b = b'.
Proof. intros H. injection H as -> ->. auto. Qed.
Section Two.
  Variable E : list N -> list N.
  Variable clog : N -> nat -> nat.
  Variables (radix : N) (T T' : list N) (c c' : fpe_ctx).
  Hypothesis HE : block_function E.
  Hypothesis BT : bytes T.
  Hypothesis BT' : bytes T'.
  Hypothesis L : 16 <= length T.
  Hypothesis L' : 16 <= length T'.
  Hypothesis SAME : firstn 8 T = firstn 8 T'.
  Hypothesis IT : fpe_init T radix = Some c.
  Hypothesis IT' : fpe_init T' radix = Some c'.
  Definition fit3 (s : list N) : Prop := numeral_string radix s /\ 1 <= length s /\ (N.of_nat (length s) < 2 ^ 30)%N /\
    (radix ^ N.of_nat (ceil_div (length s) 2) <= 2 ^ 96)%N /\ ceil_log radix (ceil_div (length s) 2) <= clog radix (ceil_div (length s) 2).
  Lemma fit3_limits s U : (2 <= radix <= 36)%N -> 16 <= length U -> fit3 s -> ff3_limits clog radix U (length s).
  Proof. intros R LU (_ & A & B & _ & C). unfold ff3_limits. cbv zeta. split; [exact R|]. split; [lia|]. auto. Qed.
  Lemma run s U cU : (2 <= radix <= 36)%N -> bytes U -> 16 <= length U -> fpe_init U radix = Some cU -> fit3 s ->
    ff3_gmac_encrypt E clog cU s = Ret (map char_of (FF3_Encrypt E radix (firstn 8 U) (map digit_of s)) ++ [0%N], FF3_GMAC_tag E radix U (map digit_of s)).
  Proof.
    intros R B LU I F. pose proof (fit3_limits s U R LU F) as FL. destruct F as (N & _ & _ & Q & _).
    destruct (ff3_gmac_tag_value_lemma E clog radix U cU s HE B FL LU Q N I) as (ct & G).
    destruct (ff3_gmac_roundtrip_lemma E clog radix U cU s FL LU N I) as (ct' & tag & G' & F' & _).
    destruct (ff3_conforms_lemma E clog radix U cU s FL Q N I) as [F'' _]. rewrite F'' in F'. injection F' as F'.
    rewrite G in G'. injection G' as G' _. rewrite G, G', <- F'. reflexivity.
  Qed.
  Lemma forgery s s2 out tag out' tag' out2 tag2 : (2 <= radix <= 36)%N -> fit3 s -> fit3 s2 ->
    ff3_gmac_encrypt E clog c s = Ret (out, tag) -> ff3_gmac_encrypt E clog c' s = Ret (out', tag') -> ff3_gmac_encrypt E clog c s2 = Ret (out2, tag2) ->
    out' = out /\ ff3_gmac_encrypt E clog c' s2 = Ret (out2, xorl tag2 (xorl tag tag')).
  Proof.
    intros R F F2 H H' H2. rewrite (run s T c) in H by auto. rewrite (run s T' c') in H' by auto. rewrite (run s2 T c) in H2 by auto. rewrite (run s2 T' c') by auto.
    apply ret_pair in H as [<- <-]. apply ret_pair in H' as [<- <-]. apply ret_pair in H2 as [<- <-]. rewrite SAME. split; [reflexivity|]. f_equal. f_equal.
    destruct (gmac_tag_split E radix (map digit_of s) (firstn 8 T')) as (z & Lz & Z). rewrite !Z by auto.
    destruct (gmac_tag_split E radix (map digit_of s2) (firstn 8 T')) as (z2 & Lz2 & Z2). rewrite !Z2 by auto.
    assert (P : forall a b, length (block_mul a b) = 16) by (intros; apply block_mul_block). rewrite xorl_out by auto.
    rewrite (xorl_comm (block_mul (firstn 16 T) _) z2), xorl_assoc, xorl_cancel_l by (rewrite !P; lia). apply xorl_comm.
  Qed.
  Lemma key_found s out tag out' tag' H : (2 <= radix <= 36)%N -> fit3 s -> firstn 16 T <> firstn 16 T' -> block16 H ->
    ff3_gmac_encrypt E clog c s = Ret (out, tag) -> ff3_gmac_encrypt E clog c' s = Ret (out', tag') ->
    block_mul (xorl (firstn 16 T) (firstn 16 T')) H = xorl tag tag' <-> H = E (repeat 0%N 16).
  Proof.
    intros R F D BH G G'. rewrite (run s T c) in G by auto. rewrite (run s T' c') in G' by auto. apply ret_pair in G as [<- <-]. apply ret_pair in G' as [<- <-].
    destruct (gmac_tag_split E radix (map digit_of s) (firstn 8 T)) as (z & Lz & Z). rewrite !Z by auto.
    assert (P : forall a b, length (block_mul a b) = 16) by (intros; apply block_mul_block). rewrite xorl_out by auto.
    assert (B1 : block16 (firstn 16 T)) by (split; [rewrite firstn_length; lia|now apply bytes_firstn]).
    assert (B2 : block16 (firstn 16 T')) by (split; [rewrite firstn_length; lia|now apply bytes_firstn]).
    assert (HZ : block16 (E (repeat 0%N 16))) by (apply HE, block16_zeros).
    assert (X : xorl (block_mul (firstn 16 T) (E (repeat 0%N 16))) (block_mul (firstn 16 T') (E (repeat 0%N 16))) =
                block_mul (xorl (firstn 16 T) (firstn 16 T')) (E (repeat 0%N 16))).
    { unfold block_mul. rewrite <- N_to_be_lxor, <- mul_lxor_l. rewrite be_to_N_xorl by (apply B2 || apply B1 || (destruct B1, B2; lia)). reflexivity. }
    rewrite X. split; [|intros ->; reflexivity]. intros Q. apply (f_equal be_to_N) in Q. rewrite !block_mul_N in Q by assumption.
    assert (BX : blk128 (be_to_N (xorl (firstn 16 T) (firstn 16 T')))).
    { rewrite be_to_N_xorl by (apply B2 || apply B1 || (destruct B1, B2; lia)). apply lxor_blk; now apply block16_N. }
    rewrite (mul_comm _ (be_to_N H)), (mul_comm _ (be_to_N (E _))) in Q by (assumption || now apply block16_N).
    apply mul_inj_l in Q; try assumption; try (now apply block16_N).
    - destruct BH as [LH BH], HZ as [LZ BZ]. apply be_to_N_inj; [congruence|assumption|assumption|exact Q].
    - intros NZ. rewrite be_to_N_xorl in NZ by (apply B2 || apply B1 || (destruct B1, B2; lia)). apply N.lxor_eq in NZ. apply D.
      destruct B1, B2. apply be_to_N_inj; [congruence|assumption|assumption|exact NZ].
  Qed.
End Two.
