From Verif Require Import Base Word32 CbcModel CbcSpec Sm4Model Sm4Spec Sm4Proofs.
Local Open Scope nat_scope.

(** ** the key schedule is injective *)
Lemma lxor_eq_l a b x y : x = y -> N.lxor a x = N.lxor b y -> a = b.
Proof. intros -> H. apply (f_equal (fun z => N.lxor z y)) in H. rewrite !N.lxor_assoc, !N.lxor_nilpotent, !N.lxor_0_r in H. exact H. Qed.
Section Inj.
Variable F : N -> N.
Fixpoint expand_with (s : state) (cks : list N) : list N :=
  match cks with [] => [] | ck :: cks' => let s' := round F s ck in snd s' :: expand_with s' cks' end.
Lemma expand_with_inj s s' a b c d r : expand_with s (a :: b :: c :: d :: r) = expand_with s' (a :: b :: c :: d :: r) -> s = s'.
Proof.
  destruct s as [[[x0 x1] x2] x3], s' as [[[z0 z1] z2] z3]. cbn [expand_with round snd].
  set (y0 := N.lxor x0 _). set (y0' := N.lxor z0 _). set (y1 := N.lxor x1 _). set (y1' := N.lxor z1 _).
  set (y2 := N.lxor x2 _). set (y2' := N.lxor z2 _). set (y3 := N.lxor x3 _). set (y3' := N.lxor z3 _).
  intros H. injection H as H0 H1 H2 H3 _.
  assert (E3 : x3 = z3). { unfold y3, y3' in H3. eapply lxor_eq_l; [|exact H3]. now rewrite H0, H1, H2. }
  assert (E2 : x2 = z2). { unfold y2, y2' in H2. eapply lxor_eq_l; [|exact H2]. now rewrite H0, H1, E3. }
  assert (E1 : x1 = z1). { unfold y1, y1' in H1. eapply lxor_eq_l; [|exact H1]. now rewrite H0, E2, E3. }
  assert (E0 : x0 = z0). { unfold y0, y0' in H0. eapply lxor_eq_l; [|exact H0]. now rewrite E1, E2, E3. }
  now subst.
Qed.
End Inj.
Lemma expand_eq : forall cks s, expand s cks = expand_with T' s cks.
Proof. induction cks as [|ck cks IH]; intros s; cbn [expand expand_with]; [reflexivity|]. now rewrite IH. Qed.
Lemma st_xor_inj a b c : st_xor a c = st_xor b c -> a = b.
Proof.
  destruct a as [[[a0 a1] a2] a3], b as [[[b0 b1] b2] b3], c as [[[c0 c1] c2] c3]. cbn [st_xor]. intros H. injection H as H0 H1 H2 H3.
  apply lxor_eq_l in H0, H1, H2, H3; auto. now subst.
Qed.
Lemma round_keys_inj k1 k2 : block16 k1 -> block16 k2 -> round_keys k1 = round_keys k2 -> k1 = k2.
Proof.
  intros B1 B2. unfold round_keys. rewrite !expand_eq. remember (map std_CK (seq 0 32)) as cks eqn:EC.
  destruct cks as [|a [|b [|c [|d r]]]]; try (apply (f_equal (@length N)) in EC; rewrite map_length, seq_length in EC; discriminate).
  intros H. apply expand_with_inj, st_xor_inj in H. rewrite <- (st_to_of k1 B1), <- (st_to_of k2 B2). now rewrite H.
Qed.
Lemma normal_block k : bytes k -> block16 (normal_key k).
Proof.
  intros B. unfold normal_key. split; [rewrite app_length, repeat_length, firstn_length; lia|].
  apply bytes_app. split; [now apply bytes_firstn|]. apply bytes_repeat. unfold byte. lia.
Qed.
Lemma sm4_same_context_lemma : forall rk1 rk2 k1 k2, length rk1 = 32 -> length rk2 = 32 -> bytes k1 -> bytes k2 ->
  (sm4_init_key rk1 k1 = sm4_init_key rk2 k2 <-> normal_key k1 = normal_key k2).
Proof.
  intros rk1 rk2 k1 k2 L1 L2 B1 B2. rewrite !sm4_init_key_rk by auto. rewrite <- !normal_key_eq. split; [|now intros ->].
  apply round_keys_inj; now apply normal_block.
Qed.
Lemma last_normal k : length k < 16 -> last (normal_key k) 0%N = N.of_nat (16 - length k).
Proof.
  intros H. unfold normal_key. destruct (16 - length k) as [|n] eqn:E; [lia|]. rewrite <- (Nat.add_1_r n) at 2.
  rewrite repeat_app, app_assoc. apply last_last.
Qed.
Lemma normal_short k : length k <= 16 -> normal_key k = k ++ repeat (N.of_nat (16 - length k)) (16 - length k).
Proof. intros H. unfold normal_key. now rewrite firstn_all2. Qed.
Lemma normal_long k : 16 <= length k -> normal_key k = firstn 16 k.
Proof. intros H. unfold normal_key. replace (16 - length k) with 0 by lia. apply app_nil_r. Qed.
Lemma key_collision_lemma : forall k1 k2, length k1 <= length k2 ->
  (normal_key k1 = normal_key k2 <->
   k1 = k2 \/ 16 <= length k2 /\ firstn 16 k2 = firstn 16 k1 ++ repeat (N.of_nat (16 - length k1)) (16 - length k1)).
Proof.
  intros k1 k2 HL. destruct (Nat.le_gt_cases 16 (length k2)) as [H2|H2].
  - rewrite (normal_long k2 H2). unfold normal_key. split; [intros ->; auto|]. intros [->|[_ ->]]; [|reflexivity].
    replace (16 - length k2) with 0 by lia. apply app_nil_r.
  - split; [|intros [->|[? _]]; [reflexivity|lia]]. intros H. left.
    assert (EL : length k1 = length k2).
    { pose proof (last_normal k1 ltac:(lia)) as A. rewrite H, last_normal in A by lia. lia. }
    rewrite !normal_short, EL in H by lia. apply app_inv_tail in H. exact H.
Qed.
Lemma get_app_l (a b : list N) i : i < length a -> get (a ++ b) i = get a i.
Proof. intros H. unfold get. now apply app_nth1. Qed.
Lemma zeros_value k i : i < 16 -> get (key_padding_zeros k) i = get k i.
Proof.
  intros H. unfold key_padding_zeros. destruct (Nat.ltb_spec 16 (length k)).
  - unfold get. rewrite <- (firstn_skipn 16 k) at 2. rewrite app_nth1 by (rewrite firstn_length; lia). reflexivity.
  - destruct (Nat.lt_ge_cases i (length k)); [now apply get_app_l|]. destruct (Nat.ltb_spec (length k) 16); [|lia].
    unfold get. rewrite app_nth2, (nth_overflow k) by lia. apply nth_repeat.
Qed.
Lemma zeros_length k : length (key_padding_zeros k) = 16.
Proof.
  unfold key_padding_zeros. destruct (Nat.ltb_spec 16 (length k)); [rewrite firstn_length; lia|]. rewrite app_length.
  destruct (Nat.ltb_spec (length k) 16); rewrite ?repeat_length; cbn [length]; lia.
Qed.
Lemma zeros_collision_lemma : forall k1 k2,
  length (key_padding_zeros k1) = 16 /\ (forall i, i < 16 -> get (key_padding_zeros k1) i = get k1 i) /\
  (key_padding_zeros k1 = key_padding_zeros k2 <-> forall i, i < 16 -> get k1 i = get k2 i).
Proof.
  intros k1 k2. split; [apply zeros_length|]. split; [intros; now apply zeros_value|]. split.
  - intros H i Hi. rewrite <- (zeros_value k1 i Hi), <- (zeros_value k2 i Hi). now rewrite H.
  - intros H. apply (nth_ext _ _ 0%N 0%N); [now rewrite !zeros_length|]. rewrite zeros_length. intros i Hi.
    change (get (key_padding_zeros k1) i = get (key_padding_zeros k2) i). rewrite !zeros_value by auto. now apply H.
Qed.
Lemma sm4_short_keys_collide_lemma : forall k, bytes k -> length k < 16 ->
  bytes (normal_key k) /\ length (normal_key k) = 16 /\ normal_key k <> k /\
  sm4_init_key sm4_context_init k = sm4_init_key sm4_context_init (normal_key k).
Proof.
  intros k B L. pose proof (normal_block k B) as [LN BN]. split; [exact BN|]. split; [exact LN|]. split; [intros H; rewrite H in LN; lia|].
  rewrite !sm4_init_key_rk by (auto; reflexivity). f_equal. rewrite <- !normal_key_eq. rewrite (normal_long (normal_key k)) by lia.
  symmetry. apply firstn_all2. lia.
Qed.
