(** * Proofs about white-box SM4: placement of the rounds, and encryption *)
From Verif Require Import GfProofs Base Word32 CbcSpec GcmModel Sm4Model Sm4Spec Sm4Proofs FpeModel MatModel MatSpec MatProofs GaussProofs ComProofs Wbsm4Model Wbsm4Proofs.
From Coq Require Import ZArith Btauto Sorting.Permutation.
Local Open Scope nat_scope.
Local Opaque MatMulVec MatMulNum MatMulMat genaffinepair affinemix affinecom4 genaffinepairs wRandomShuffleU8.

(** ** Placements
    [da]: one entry per real round (0) or group of four dummy rounds (not 0) *)
Definition spread (da : list N) : list N := flat_map (fun d => if (d =? 0)%N then [d] else repeat 1%N 4) da.
Fixpoint zeros (da : list N) : nat := match da with [] => 0 | d :: t => (if (d =? 0)%N then 1 else 0) + zeros t end.
(** no two groups of dummy rounds next to each other; [fl]: a group comes just before *)
Fixpoint apart (fl : bool) (da : list N) : bool :=
  match da with
  | [] => true
  | d :: t => if (d =? 0)%N then apart false t else negb fl && apart true t
  end.
Lemma zeros_app a b : zeros (a ++ b) = zeros a + zeros b.
Proof. induction a as [|x a IH]; [reflexivity|]. cbn [app zeros]. lia. Qed.
Lemma zeros_perm a b : Permutation a b -> zeros a = zeros b.
Proof. induction 1; cbn [zeros]; lia. Qed.
Lemma zeros_repeat0 k : zeros (repeat 0%N k) = k.
Proof. induction k; cbn [repeat zeros]; [reflexivity|]. rewrite N.eqb_refl. lia. Qed.
Lemma zeros_repeat1 k : zeros (repeat 1%N k) = 0.
Proof. induction k; cbn [repeat zeros]; [reflexivity|]. exact IHk. Qed.
Lemma length_spread da : length (spread da) + 3 * zeros da = 4 * length da.
Proof.
  induction da as [|d t IH]; [reflexivity|]. unfold spread in *. cbn [flat_map zeros length]. rewrite app_length.
  match goal with |- context [length (flat_map ?f t)] => set (X := length (flat_map f t)) in * end.
  destruct (d =? 0)%N; cbn [length repeat]; lia.
Qed.
Definition placement (rs : list N) (d : nat) : list N := wRandomShuffleU8 rs (repeat 0%N 32 ++ repeat 1%N d).
Lemma placement_perm rs d : Permutation (placement rs d) (repeat 0%N 32 ++ repeat 1%N d).
Proof. apply wRandomShuffleU8_perm. Qed.
Lemma zeros_placement rs d : zeros (placement rs d) = 32.
Proof. rewrite (zeros_perm _ _ (placement_perm rs d)), zeros_app, zeros_repeat0, zeros_repeat1. reflexivity. Qed.
Lemma length_placement rs d : length (placement rs d) = 32 + d.
Proof. rewrite (Permutation_length (placement_perm rs d)), app_length, !repeat_length. reflexivity. Qed.
Lemma length_spread_placement rs d : length (spread (placement rs d)) = 32 + 4 * d.
Proof. pose proof (length_spread (placement rs d)). rewrite zeros_placement, length_placement in H. lia. Qed.
Lemma last_placement rs d : length rs = 32 + d -> last (placement rs d) 0%N = 0%N.
Proof.
  intros L. unfold placement. change (repeat 0%N 32) with (0%N :: repeat 0%N 31). rewrite <- app_comm_cons. apply wRandomShuffleU8_last.
  cbn [length]. rewrite app_length, !repeat_length. lia.
Qed.
Lemma apart_zeros da fl : zeros da = length da -> apart fl da = true.
Proof.
  revert fl. induction da as [|d t IH]; intros fl Z; [reflexivity|]. cbn [zeros length apart] in *.
  assert (B : zeros t <= length t) by (clear; induction t as [|x t IH]; cbn [zeros length]; [lia|destruct (x =? 0)%N; lia]).
  destruct (d =? 0)%N; [apply IH; lia|lia].
Qed.
Lemma apart_one da fl : zeros da + 1 = length da -> (fl = true -> hd 0%N da = 0%N) -> apart fl da = true.
Proof.
  revert fl. induction da as [|d t IH]; intros fl Z H; [reflexivity|]. cbn [zeros length apart hd] in *.
  destruct (N.eqb_spec d 0) as [E|E].
  - apply IH; [lia|discriminate].
  - destruct fl; [exfalso; auto|]. cbn [negb andb]. apply apart_zeros. lia.
Qed.
(** there are at most one more groups than real rounds *)
Lemma apart_count da fl : apart fl da = true -> length da <= 2 * zeros da + (if fl then 0 else 1).
Proof.
  revert fl. induction da as [|d t IH]; intros fl H; [cbn; lia|]. cbn [zeros length apart] in *.
  destruct (d =? 0)%N.
  - apply IH in H. destruct fl; lia.
  - destruct fl; [discriminate|]. apply IH in H. lia.
Qed.
Lemma apart_count_last da fl : da <> [] -> last da 0%N = 0%N -> apart fl da = true -> length da <= 2 * zeros da - (if fl then 1 else 0).
Proof.
  revert fl. induction da as [|d t IH]; intros fl NE LA H; [congruence|]. destruct t as [|e t].
  - cbn in LA. subst d. cbn [zeros length]. rewrite N.eqb_refl. destruct fl; lia.
  - assert (LA' : last (e :: t) 0%N = 0%N) by exact LA. assert (NE' : e :: t <> []) by discriminate. clear LA NE. set (u := e :: t) in *. clearbody u. cbn [zeros length apart] in *.
    destruct (d =? 0)%N.
    + specialize (IH false NE' LA' H). cbv iota in IH. destruct fl; lia.
    + destruct fl; [discriminate|]. specialize (IH true NE' LA' H). cbv iota in IH. assert (length u <> 0) by (destruct u; [congruence|discriminate]). lia.
Qed.

(** ** The generation loop *)
Definition dummy_at (mem0 mem : loc -> N) (i : nat) : Prop :=
  forall j x, mem (LTable i j x) = 0%N /\ mem (LCC i j x) = at_byte j x /\ mem (LDD i j x) = mem0 (LDD i j x) /\
    forall k, mem (LMM i k j x) = mem0 (LMM i k j x).
Section Loop.
Variables (R : list wround) (rk : list N) (rnd : nat -> N).
(** the entries of the rounds from [i] on, the first real one of which is real round [n] *)
Fixpoint layout (mem0 mem : loc -> N) (i n : nat) (da : list N) : Prop :=
  match da with
  | [] => True
  | d :: t => if (d =? 0)%N then (exists r, nth_error R n = Some r /\ real_at mem rnd i r (get rk n)) /\ layout mem0 mem (S i) (S n) t
              else (forall k, k < 4 -> dummy_at mem0 mem (i + k)) /\ layout mem0 mem (i + 4) n t
  end.
Definition round_of (l : loc) : option nat :=
  match l with LMM i _ _ _ | LCC i _ _ | LDD i _ _ | LTable i _ _ => Some i | _ => None end.
(** equal on the entries of the rounds [P] holds for *)
Definition same (P : nat -> Prop) (m m' : loc -> N) : Prop := forall l, (match round_of l with Some i => P i | None => False end) -> m' l = m l.
Lemma layout_same mem0 mem mem' da : forall i n, layout mem0 mem i n da -> same (fun k => i <= k) mem mem' -> layout mem0 mem' i n da.
Proof.
  induction da as [|d t IH]; intros i n H S; [exact I|]. cbn [layout] in *. destruct (d =? 0)%N.
  - destruct H as [(r & E & pos & HR) H]. split.
    + exists r. split; [exact E|]. exists pos. intros j x. rewrite !(S (LCC i j x)), !(S (LDD i j x)), !(S (LTable i j x)) by (cbn; lia).
      destruct (HR j x) as (H1 & H2). split; [|exact H2]. intros k. rewrite S by (cbn; lia). apply H1.
    + apply IH; [exact H|]. intros l Hl. apply S. destruct (round_of l); [lia|exact Hl].
  - destruct H as [HD H]. split.
    + intros k K j x. rewrite !(S (LTable (i + k) j x)), !(S (LCC (i + k) j x)), !(S (LDD (i + k) j x)) by (cbn; lia). destruct (HD k K j x) as (D1 & D2 & D3 & D4).
      repeat (split; [assumption|]). intros k'. rewrite S by (cbn; lia). apply D4.
    + apply IH; [exact H|]. intros l Hl. apply S. destruct (round_of l); [lia|exact Hl].
Qed.
Lemma layout_same0 mem0 mem0' mem da : forall i n, layout mem0 mem i n da -> same (fun k => i <= k) mem0 mem0' -> layout mem0' mem i n da.
Proof.
  induction da as [|d t IH]; intros i n H S; [exact I|]. cbn [layout] in *. destruct (d =? 0)%N.
  - destruct H as [H1 H]. split; [exact H1|].
    apply IH; [exact H|]. intros l Hl. apply S. destruct (round_of l); [lia|exact Hl].
  - destruct H as [HD H]. split.
    + intros k K j x. rewrite (S (LDD (i + k) j x)) by (cbn; lia). destruct (HD k K j x) as (D1 & D2 & D3 & D4).
      repeat (split; [assumption|]). intros k'. rewrite S by (cbn; lia). apply D4.
    + apply IH; [exact H|]. intros l Hl. apply S. destruct (round_of l); [lia|exact Hl].
Qed.
Lemma real_round_at r k pos i mem : real_at (real_round r k rnd pos i mem) rnd i r k.
Proof. exists pos. intros j x. cbn [real_round]. rewrite Nat.eqb_refl. auto. Qed.
Lemma real_round_same r k pos i mem : same (fun i' => i' <> i) mem (real_round r k rnd pos i mem).
Proof. intros [a b c d|a c d|a c d|a c d|a c d|a c d] H; cbn in *; try contradiction; apply Nat.eqb_neq in H; now rewrite H. Qed.
Lemma dummy_round_same i mem : same (fun i' => i' <> i) mem (dummy_round i mem).
Proof. intros [a b c d|a c d|a c d|a c d|a c d|a c d] H; cbn in *; try contradiction; auto; apply Nat.eqb_neq in H; now rewrite H. Qed.
Lemma dummy_round_at i mem : dummy_at mem (dummy_round i mem) i.
Proof. intros j x. cbn [dummy_round]. rewrite Nat.eqb_refl. auto. Qed.

Lemma gen_loop : forall da mem (fl : bool) n pos i, length R = 32 -> n + zeros da = 32 -> apart fl da = true ->
  exists mem' fl' p' pos',
    ofold (gen_step R rk rnd) (combine (seq i (length (spread da))) (spread da)) (mem, fl, Z.of_nat (n + (if fl then 4 else 0)), pos)
    = Ret (mem', fl', p', pos') /\ layout mem mem' i n da /\ same (fun k => k < i) mem mem'.
Proof.
  induction da as [|d t IH]; intros mem fl n pos i LR Z A.
  - exists mem, fl, (Z.of_nat (n + (if fl then 4 else 0))), pos. split; [reflexivity|]. split; [exact I|]. intros l _. reflexivity.
  - cbn [spread flat_map zeros apart layout] in *. fold (spread t). destruct (N.eqb_spec d 0) as [->|D].
    + cbn [app length seq combine ofold]. unfold gen_step at 1. rewrite N.eqb_refl. cbv zeta.
      assert (E : (if fl then Z.of_nat (n + (if fl then 4 else 0)) - 4 else Z.of_nat (n + (if fl then 4 else 0)))%Z = Z.of_nat n) by (destruct fl; lia).
      rewrite E. destruct (Z.ltb_spec (Z.of_nat n) 0) as [Q|_]; [lia|]. rewrite Nat2Z.id.
      destruct (nth_error R n) as [r|] eqn:ER; [|apply nth_error_None in ER; lia]. rewrite obind_ret.
      replace (Z.of_nat n + 1)%Z with (Z.of_nat (S n + (if false then 4 else 0))) by lia.
      destruct (IH (real_round r (get rk n) rnd pos i mem) false (S n) (pos + 9) (S i) LR ltac:(lia) A) as (m' & f' & p' & q & EQ & LL & SS).
      exists m', f', p', q. split; [exact EQ|]. split; [split|].
      * exists r. split; [reflexivity|]. destruct (real_round_at r (get rk n) pos i mem) as (pos0 & H). exists pos0. intros j x.
        rewrite !SS by (cbn; lia). destruct (H j x) as (H1 & H2). split; [|exact H2]. intros k. rewrite SS by (cbn; lia). apply H1.
      * apply (layout_same0 (real_round r (get rk n) rnd pos i mem)); [exact LL|]. intros l Hl. symmetry. apply real_round_same. destruct (round_of l); [lia|exact Hl].
      * intros l Hl. rewrite SS by (destruct (round_of l); [lia|exact Hl]). apply real_round_same. destruct (round_of l); [lia|exact Hl].
    + apply andb_prop in A as [F A]. destruct fl; [discriminate|]. 
      cbn [app length seq combine ofold repeat]. unfold gen_step at 1 2 3 4. change (1 =? 0)%N with false. cbv iota.
      repeat (rewrite obind_ret; cbv iota).
      replace (Z.of_nat (n + 0) + 1 + 1 + 1 + 1)%Z with (Z.of_nat (n + (if true then 4 else 0))) by lia.
      set (m4 := dummy_round (S (S (S i))) _).
      destruct (IH m4 true n pos (S (S (S (S i)))) LR ltac:(lia) A) as (m' & f' & p' & q & EQ & LL & SS).
      assert (S4 : same (fun k => k < i \/ i + 4 <= k) mem m4).
      { intros l Hl. unfold m4. rewrite !dummy_round_same by (destruct (round_of l); [lia|exact Hl]). reflexivity. }
      assert (D4 : forall k, k < 4 -> dummy_at mem m4 (i + k)).
      { intros k K j x. unfold m4. cbn [dummy_round].
        destruct k as [|[|[|[|]]]]; [| | | |lia];
          repeat match goal with |- context [?a =? ?b] => destruct (Nat.eqb_spec a b); try lia end; auto. }
      exists m', f', p', q. split; [exact EQ|]. replace (i + 4) with (S (S (S (S i)))) by lia. split; [split|].
      * intros k K j x. rewrite !(SS (LTable (i + k) j x)), !(SS (LCC (i + k) j x)), !(SS (LDD (i + k) j x)) by (cbn; lia). destruct (D4 k K j x) as (E1 & E2 & E3 & E4).
        repeat (split; [assumption|]). intros k'. rewrite SS by (cbn; lia). apply E4.
      * apply (layout_same0 m4); [exact LL|]. intros l Hl. symmetry. apply S4. destruct (round_of l); [lia|exact Hl].
      * intros l Hl. rewrite SS by (destruct (round_of l); [lia|exact Hl]). apply S4. destruct (round_of l); [lia|exact Hl].
Qed.
(** two groups next to each other: the index has gone too far *)
Lemma gen_loop_far : forall da mem (fl : bool) n (p : Z) pos i, length R = 32 -> n + zeros da = 32 -> da <> [] -> last da 0%N = 0%N ->
  (Z.of_nat n + 4 <= (if fl then p - 4 else p))%Z ->
  ofold (gen_step R rk rnd) (combine (seq i (length (spread da))) (spread da)) (mem, fl, p, pos) = Undef.
Proof.
  induction da as [|d t IH]; intros mem fl n p pos i LR Z NE LA G; [congruence|].
  assert (LT : t <> [] -> last t 0%N = 0%N) by (intros Ht; destruct t; [congruence|exact LA]).
  cbn [spread flat_map zeros] in *. fold (spread t). destruct (N.eqb_spec d 0) as [->|D].
  - cbn [app length seq combine ofold]. unfold gen_step at 1. rewrite N.eqb_refl. cbv zeta.
    set (p' := (if fl then p - 4 else p)%Z) in *. destruct (Z.ltb_spec p' 0) as [Q|_]; [reflexivity|].
    destruct (nth_error R (Z.to_nat p')) as [r|] eqn:ER; [|reflexivity]. rewrite obind_ret.
    assert (LP : Z.to_nat p' < 32) by (rewrite <- LR; apply nth_error_Some; congruence).
    destruct t as [|e t]; [cbn in Z; lia|]. apply (IH _ false (S n)); auto; try lia; try discriminate; try (apply LT; discriminate).
  - cbn [app length seq combine ofold repeat]. unfold gen_step at 1 2 3 4. change (1 =? 0)%N with false. cbv iota.
    repeat (rewrite obind_ret; cbv iota).
    destruct t as [|e t]; [cbn in LA; congruence|]. apply (IH _ true n); auto; try lia; try discriminate; try (apply LT; discriminate); destruct fl; lia.
Qed.
Lemma gen_loop_undef : forall da mem (fl : bool) n pos i, length R = 32 -> n + zeros da = 32 -> last da 0%N = 0%N -> apart fl da = false ->
  ofold (gen_step R rk rnd) (combine (seq i (length (spread da))) (spread da)) (mem, fl, Z.of_nat (n + (if fl then 4 else 0)), pos) = Undef.
Proof.
  induction da as [|d t IH]; intros mem fl n pos i LR Z LA A; [discriminate|].
  assert (LT : t <> [] -> last t 0%N = 0%N) by (intros Ht; destruct t; [congruence|exact LA]).
  cbn [spread flat_map zeros apart] in *. fold (spread t). destruct (N.eqb_spec d 0) as [->|D].
  - cbn [app length seq combine ofold]. unfold gen_step at 1. rewrite N.eqb_refl. cbv zeta.
    assert (E : (if fl then Z.of_nat (n + (if fl then 4 else 0)) - 4 else Z.of_nat (n + (if fl then 4 else 0)))%Z = Z.of_nat n) by (destruct fl; lia).
    rewrite E. destruct (Z.ltb_spec (Z.of_nat n) 0) as [Q|_]; [lia|]. rewrite Nat2Z.id.
    destruct (nth_error R n) as [r|] eqn:ER; [|reflexivity]. rewrite obind_ret.
    replace (Z.of_nat n + 1)%Z with (Z.of_nat (S n + (if false then 4 else 0))) by lia.
    destruct t as [|e t]; [discriminate|]. apply IH; auto; try lia; try (apply LT; discriminate).
  - cbn [app length seq combine ofold repeat]. unfold gen_step at 1 2 3 4. change (1 =? 0)%N with false. cbv iota.
    repeat (rewrite obind_ret; cbv iota). destruct t as [|e t]; [cbn in LA; congruence|]. destruct fl.
    + apply (gen_loop_far _ _ true n); auto; try lia; try discriminate; try (apply LT; discriminate).
    + replace (Z.of_nat (n + 0) + 1 + 1 + 1 + 1)%Z with (Z.of_nat (n + (if true then 4 else 0))) by lia.
      cbn [negb andb] in A. apply IH; auto; try lia; try (apply LT; discriminate).
Qed.
End Loop.

(** ** Words *)
Lemma skipn_cons_get (l : list N) n : n < length l -> skipn n l = get l n :: skipn (S n) l.
Proof.
  revert n. induction l as [|x l IH]; intros [|n] L; cbn [length] in L; try lia; [reflexivity|].
  change (skipn n l = get l n :: skipn (S n) l). apply IH. lia.
Qed.
Lemma expand_word cks : forall s, st_word s -> Forall word (expand s cks).
Proof.
  induction cks as [|ck cks IH]; intros s H; [constructor|]. cbn [expand]. cbv zeta. 
  assert (W : st_word (round T' s ck)) by (apply round_word; [|exact H]; intros; apply T'_word).
  constructor; [|now apply IH]. destruct s as [[[x0 x1] x2] x3]. apply W.
Qed.
Lemma round_keys_word k : block16 k -> Forall word (round_keys k).
Proof.
  intros H. apply expand_word. pose proof (st_of_word k H) as W. destruct (st_of k) as [[[x0 x1] x2] x3].
  destruct W as (W0 & W1 & W2 & W3). cbn [st_xor std_FK]. repeat split; apply word_lxor; auto; reflexivity.
Qed.
Lemma normal_key_block key : bytes key -> block16 (normal_key key).
Proof.
  intros B. unfold normal_key. split.
  - rewrite app_length, firstn_length, repeat_length. lia.
  - apply bytes_app. split; [now apply bytes_firstn|]. apply Forall_forall. intros x X. apply repeat_spec in X. subst x. unfold byte. lia.
Qed.
(** the round keys wbsm4_gen.c:124-129 puts into sm4_key *)
Definition wb_keys (em : Z) (key : list N) : list N := if (em =? 0)%Z then rev (round_keys (normal_key key)) else round_keys (normal_key key).
Lemma wb_keys_init em key : bytes key -> sm4_init_key_mode (if (em =? 0)%Z then 0 else 1) sm4_context_init key = wb_keys em key.
Proof. intros B. rewrite init_key_mode_spec by (auto; reflexivity). cbv zeta. rewrite <- normal_key_eq. unfold wb_keys. destruct (em =? 0)%Z; reflexivity. Qed.
Lemma length_wb_keys em key : length (wb_keys em key) = 32.
Proof. unfold wb_keys. destruct (em =? 0)%Z; rewrite ?rev_length; apply length_round_keys. Qed.
Lemma wb_keys_word em key : bytes key -> Forall word (wb_keys em key).
Proof.
  intros B. pose proof (round_keys_word _ (normal_key_block key B)) as H. unfold wb_keys. destruct (em =? 0)%Z; [|exact H].
  rewrite Forall_forall in *. intros x X. apply H. now apply in_rev.
Qed.

(** ** Encryption *)
(** what the entries that a dummy round leaves as they were contribute *)
Definition dd0 (mem : loc -> N) (i : nat) : N := sum4 (fun j => mem (LDD i j 0%N)).
Lemma byte_at_0 k : byte_at 0 k = 0%N.
Proof. rewrite byte_at_arith. rewrite N.div_0_l by (apply N.pow_nonzero; discriminate). reflexivity. Qed.
Lemma dummy_round_spec mem0 mem i x0 x1 x2 x3 : dummy_at mem0 mem i -> word x0 ->
  wb_round mem (x0, x1, x2, x3) i = (x1, x2, x3, N.lxor x0 (dd0 mem0 i)).
Proof.
  intros D W. unfold wb_round. set (y := N.lxor (N.lxor _ _) _). clearbody y.
  rewrite (lookup_ext (fun j x => mem (LTable i j x)) (fun _ _ => 0%N)) by (intros; apply D).
  change (lookup (fun _ _ => 0%N) y) with 0%N.
  rewrite (lookup_ext (fun j x => mem (LCC i j x)) at_byte) by (intros; apply D).
  rewrite (lookup_ext (fun j x => mem (LDD i j x)) (fun j x => mem0 (LDD i j x))) by (intros; apply D).
  rewrite !lookup_sum. rewrite split_word by exact W. unfold dd0, sum4. rewrite !byte_at_0. reflexivity.
Qed.
Definition dd4 (mem : loc -> N) (i : nat) : state := (dd0 mem i, dd0 mem (i + 1), dd0 mem (i + 2), dd0 mem (i + 3)).
Lemma dummy_group_spec mem0 mem i X : (forall k, k < 4 -> dummy_at mem0 mem (i + k)) -> st_word X ->
  fold_left (wb_round mem) (seq i 4) X = st_xor X (dd4 mem0 i).
Proof.
  intros D. destruct X as [[[x0 x1] x2] x3]. intros (W0 & W1 & W2 & W3). cbn [seq fold_left].
  rewrite (dummy_round_spec mem0) by (auto; specialize (D 0 ltac:(lia)); now rewrite Nat.add_0_r in D).
  rewrite (dummy_round_spec mem0) by (auto; specialize (D 1 ltac:(lia)); now rewrite Nat.add_1_r in D).
  rewrite (dummy_round_spec mem0) by (auto; specialize (D 2 ltac:(lia)); now replace (i + 2) with (S (S i)) in D by lia).
  rewrite (dummy_round_spec mem0) by (auto; specialize (D 3 ltac:(lia)); now replace (i + 3) with (S (S (S i))) in D by lia).
  unfold dd4, st_xor. replace (i + 1) with (S i) by lia. replace (i + 2) with (S (S i)) by lia. replace (i + 3) with (S (S (S i))) by lia. reflexivity.
Qed.
(** the groups of dummy rounds change nothing *)
Fixpoint quiet (mem : loc -> N) (i : nat) (da : list N) : Prop :=
  match da with
  | [] => True
  | d :: t => if (d =? 0)%N then quiet mem (S i) t else dd4 mem i = (0, 0, 0, 0)%N /\ quiet mem (i + 4) t
  end.
Lemma enc_word P n X : inv_pairs 32 36 P -> n <= 32 -> st_word (enc P n X).
Proof.
  intros [_ HP] L. destruct X as [[[x0 x1] x2] x3]. cbn [enc st_word].
  repeat split; apply (vector_affineU 32); auto; apply HP; lia.
Qed.
Lemma enc_inj P n X Y : inv_pairs 32 36 P -> n <= 32 -> st_word X -> st_word Y -> enc P n X = enc P n Y -> X = Y.
Proof.
  intros [_ HP] L. destruct X as [[[x0 x1] x2] x3]. destruct Y as [[[y0 y1] y2] y3].
  intros (A0 & A1 & A2 & A3) (B0 & B1 & B2 & B3) E. unfold enc in E. injection E as E0 E1 E2 E3.
  assert (Q : forall k x y, k < 36 -> word x -> word y -> affineU 32 (pair_fst P k) x = affineU 32 (pair_fst P k) y -> x = y).
  { intros k x y K Wx Wy Exy. destruct (HP k K) as (_ & _ & H). destruct (H x Wx) as [_ <-], (H y Wy) as [_ <-]. now rewrite Exy. }
  apply Q in E0, E1, E2, E3; auto; try lia. congruence.
Qed.
Section Enc.
Variables (P : list (aff * aff)) (R : list wround) (rk : list N) (rnd : nat -> N) (mem0 mem : loc -> N).
Hypothesis HP : inv_pairs 32 36 P.
Hypothesis HR : forall n r, nth_error R n = Some r -> round_ok P n r.
Hypothesis Hrk : Forall word rk.
Lemma enc_fold : forall da i n X, layout R rk rnd mem0 mem i n da -> quiet mem0 i da -> n + zeros da <= 32 -> length rk = 32 -> st_word X ->
  fold_left (wb_round mem) (seq i (length (spread da))) (enc P n X) =
  enc P (n + zeros da) (rounds T (firstn (zeros da) (skipn n rk)) X).
Proof.
  induction da as [|d t IH]; intros i n X LL QQ B L W.
  - cbn. now rewrite Nat.add_0_r.
  - cbn [layout quiet zeros spread flat_map] in *. fold (spread t). destruct (d =? 0)%N.
    + destruct LL as [(r & ER & RA) LL]. cbn [app length seq fold_left]. 
      assert (Wk : word (get rk n)) by (apply (Forall_nth _ rk); auto; lia).
      rewrite (real_round_spec mem rnd i r (get rk n) P n) by (auto; lia). rewrite Nat.add_1_r. rewrite IH; auto; try lia.
      * replace (S n + zeros t) with (n + (1 + zeros t)) by lia. f_equal. cbn [plus].
        rewrite (skipn_cons_get rk n) by lia. cbn [firstn]. reflexivity.
      * apply round_word; auto using T_word.
    + destruct LL as [HD LL]. destruct QQ as [Q4 QQ]. 
      assert (LE : length (repeat 1%N 4 ++ spread t) = 4 + length (spread t)) by reflexivity. rewrite LE.
      rewrite seq_app, fold_left_app. rewrite (dummy_group_spec mem0) by (auto; apply enc_word; auto; lia). rewrite Q4.
      replace (st_xor (enc P n X) (0, 0, 0, 0)%N) with (enc P n X)
        by (destruct (enc P n X) as [[[x0 x1] x2] x3]; cbn [st_xor]; now rewrite !N.lxor_0_r).
      cbn [plus]. apply IH; auto. 
Qed.
End Enc.
(** ** Generation *)
Definition external_at (P : list (aff * aff)) (rnd : nat -> N) (mem : loc -> N) : Prop :=
  exists pos, forall i j x, i < 4 -> mem (LSE i j x) = affine_entry (pair_fst P i) rnd pos j x /\
    mem (LFE i j x) = affine_entry (pair_snd P (35 - i)) rnd pos j x.
Definition generated (P : list (aff * aff)) (R : list wround) (rnd : nat -> N) (rk da : list N) (ctx ctx' : wctx) : Prop :=
  w_rounds ctx' = w_rounds ctx /\ w_encmode ctx' = w_encmode ctx /\ w_alloc ctx' = w_alloc ctx /\
  inv_pairs 32 36 P /\ (forall n r, nth_error R n = Some r -> round_ok P n r) /\
  layout R rk rnd (w_mem ctx) (w_mem ctx') 0 0 da /\ external_at P rnd (w_mem ctx').
Lemma external_same P rnd pos mem : same (fun _ => True) mem (external P rnd pos mem).
Proof. intros [a b c d|a c d|a c d|a c d|a c d|a c d] H; cbn in *; try contradiction; reflexivity. Qed.
Lemma external_external P rnd pos mem : external_at P rnd (external P rnd pos mem).
Proof. exists pos. intros i j x I. cbn [external]. apply Nat.ltb_lt in I. rewrite I. auto. Qed.
Lemma dummies d : (32 + 4 * d - 32) / 4 = d.
Proof. replace (32 + 4 * d - 32) with (d * 4) by lia. now apply Nat.div_mul. Qed.
Lemma dummy_array_eq rs d : wbsm4_gen_dummyround_array rs 32 d = spread (placement rs d).
Proof. reflexivity. Qed.
Lemma gen_table_ok rnd rs ctx key d : bytes key -> w_rounds ctx = 32 + 4 * d -> apart false (placement rs d) = true ->
  exists P R ctx', wbsm4_gen_table rnd rs ctx key = Ret ctx' /\ generated P R rnd (wb_keys (w_encmode ctx) key) (placement rs d) ctx ctx'.
Proof.
  intros B W A. unfold wbsm4_gen_table. cbv zeta. rewrite wb_keys_init by exact B. rewrite W, dummies, dummy_array_eq.
  destruct (genaffinepairs_inv 32 36 rnd size32 0) as (P & pos & EP & HP). rewrite EP, obind_ret. cbv iota beta.
  destruct (gen_rounds_ok P rnd 32 0 pos) as (R & pos' & ER & LR & HR). rewrite ER, obind_ret. cbv iota beta.
  destruct (gen_loop R (wb_keys (w_encmode ctx) key) rnd (placement rs d) (w_mem ctx) false 0 pos' 0 LR (zeros_placement rs d) A)
    as (mem' & fl & p & pos'' & EL & LL & _).
  rewrite length_spread_placement in EL. change (Z.of_nat (0 + 0)) with 0%Z in EL. rewrite EL, obind_ret. cbv iota beta.
  exists P, R. eexists. split; [reflexivity|]. unfold generated. cbn [w_rounds w_encmode w_alloc w_mem]. rewrite W. split; [reflexivity|]. split; [reflexivity|]. split; [reflexivity|].
  split; [exact HP|]. split.
  - intros n r E. assert (n < 32) by (rewrite <- LR; apply nth_error_Some; rewrite E; discriminate). destruct (HR n ltac:(lia)) as (r' & E' & H'). rewrite E in E'. injection E' as E'. rewrite E'. exact H'.
  - split; [|apply external_external]. apply (layout_same _ _ _ _ mem'); [exact LL|]. intros l Hl. apply external_same. destruct (round_of l); auto.
Qed.
Lemma gen_table_undef rnd rs ctx key d : bytes key -> w_rounds ctx = 32 + 4 * d -> length rs = 32 + d -> apart false (placement rs d) = false ->
  wbsm4_gen_table rnd rs ctx key = Undef.
Proof.
  intros B W L A. unfold wbsm4_gen_table. cbv zeta. rewrite wb_keys_init by exact B. rewrite W, dummies, dummy_array_eq.
  destruct (genaffinepairs_inv 32 36 rnd size32 0) as (P & pos & EP & HP). rewrite EP, obind_ret. cbv iota beta.
  destruct (gen_rounds_ok P rnd 32 0 pos) as (R & pos' & ER & LR & HR). rewrite ER, obind_ret. cbv iota beta.
  pose proof (gen_loop_undef R (wb_keys (w_encmode ctx) key) rnd (placement rs d) (w_mem ctx) false 0 pos' 0 LR (zeros_placement rs d) (last_placement rs d L) A) as EL.
  rewrite length_spread_placement in EL. change (Z.of_nat (0 + 0)) with 0%Z in EL. rewrite EL. reflexivity.
Qed.

(** ** A generated context *)
Lemma GET32_be b i : bytes b -> GET32 b i = be_to_N [get b i; get b (i + 1); get b (i + 2); get b (i + 3)].
Proof. intros B. unfold GET32. rewrite be4_lxor by now apply bytes_get. now rewrite !N.shiftl_mul_pow2. Qed.
Definition wb_state (mem : loc -> N) (n : nat) (b : list N) : state :=
  fold_left (wb_round mem) (seq 0 n) (lookup (fun j x => mem (LSE 0 j x)) (GET32 b 0), lookup (fun j x => mem (LSE 1 j x)) (GET32 b 4),
    lookup (fun j x => mem (LSE 2 j x)) (GET32 b 8), lookup (fun j x => mem (LSE 3 j x)) (GET32 b 12)).
Lemma encrypt_state P rnd ctx b X : inv_pairs 32 36 P -> external_at P rnd (w_mem ctx) -> w_rounds ctx <= w_alloc ctx -> st_word X ->
  wb_state (w_mem ctx) (w_rounds ctx) b = enc P 32 X -> wbsm4_encrypt ctx b = Ret (st_to (swap X)).
Proof.
  intros [_ HP] (pos & EX) AL W E. unfold wbsm4_encrypt. cbv zeta. fold (wb_state (w_mem ctx) (w_rounds ctx) b).
  destruct (Nat.ltb_spec (w_alloc ctx) (w_rounds ctx)); [lia|]. rewrite E. destruct X as [[[x0 x1] x2] x3]. destruct W as (W0 & W1 & W2 & W3).
  cbn [enc plus].
  assert (F : forall i k x, i < 4 -> k = 35 - i -> word x -> lookup (fun j y => w_mem ctx (LFE i j y)) (affineU 32 (pair_fst P k) x) = x).
  { intros i k x I -> Wx. rewrite (lookup_ext _ (affine_entry (pair_snd P (35 - i)) rnd pos)) by (intros; now apply EX).
    destruct (HP (35 - i) ltac:(lia)) as (A1 & A2 & AH). rewrite lookup_affine; [apply AH; exact Wx|exact A2|]. apply (vector_affineU 32); auto. }
  rewrite (F 0), (F 1), (F 2), (F 3) by (auto; lia). unfold swap, st_to, word_bytes. now rewrite !put_u32_be_spec.
Qed.
Lemma start_state P rnd mem n b : inv_pairs 32 36 P -> external_at P rnd mem -> block16 b ->
  wb_state mem n b = fold_left (wb_round mem) (seq 0 n) (enc P 0 (st_of b)).
Proof.
  intros [_ HP] (pos & EX) [L B]. unfold wb_state. f_equal. rewrite !GET32_be by exact B.
  assert (F : forall i x, i < 4 -> word x -> lookup (fun j y => mem (LSE i j y)) x = affineU 32 (pair_fst P i) x).
  { intros i x I Wx. rewrite (lookup_ext _ (affine_entry (pair_fst P i) rnd pos)) by (intros; now apply EX). apply lookup_affine; auto. apply HP. lia. }
  pose proof (st_of_word b (conj L B)) as W. 
  do 16 (destruct b as [|? b]; [discriminate|]). destruct b; [|discriminate]. clear L B.
  unfold st_of in *. match goal with |- context [chunks 4 ?l] => change (chunks 4 l) with [[n0; n1; n2; n3]; [n4; n5; n6; n7]; [n8; n9; n10; n11]; [n12; n13; n14; n15]] in * end.
  destruct W as (W0 & W1 & W2 & W3). cbn [enc plus]. rewrite !F by (auto; lia). reflexivity.
Qed.
Lemma spread_length da : length (spread da) = 4 * length da - 3 * zeros da.
Proof. pose proof (length_spread da). lia. Qed.
(** the white-box cipher is SM4 *)
Lemma encrypt_generated P R rnd em key d da ctx ctx' b : generated P R rnd (wb_keys em key) da ctx ctx' -> bytes key -> block16 b ->
  zeros da = 32 -> length da = 32 + d -> w_rounds ctx = 32 + 4 * d -> w_rounds ctx <= w_alloc ctx -> quiet (w_mem ctx) 0 da ->
  wbsm4_encrypt ctx' b = Ret (st_to (swap (rounds T (wb_keys em key) (st_of b)))).
Proof.
  intros (G1 & G2 & G3 & HP & HR & LL & EX) BK Bb Z LD W AL Q.
  apply (encrypt_state P rnd); auto; [rewrite G1, G3; exact AL|apply rounds_word; auto using T_word, st_of_word|].
  rewrite (start_state P rnd) by auto. rewrite G1, W. pose proof (enc_fold P R (wb_keys em key) rnd (w_mem ctx) (w_mem ctx') HP HR (wb_keys_word em key BK) da 0 0 (st_of b) LL Q
    ltac:(lia) (length_wb_keys em key) (st_of_word b Bb)) as E.
  rewrite spread_length, LD, Z in E. replace (4 * (32 + d) - 3 * 32) with (32 + 4 * d) in E by lia. rewrite E. cbn [plus skipn].
  rewrite firstn_all2 by (rewrite length_wb_keys; lia). reflexivity.
Qed.

(** ** Memory contents that change the result *)
Lemma layout_app R rk rnd mem0 mem a b : forall i n, layout R rk rnd mem0 mem i n (a ++ b) ->
  layout R rk rnd mem0 mem i n a /\ layout R rk rnd mem0 mem (i + length (spread a)) (n + zeros a) b.
Proof.
  induction a as [|d a IH]; intros i n H.
  - split; [exact I|]. cbn [spread flat_map length zeros]. now rewrite !Nat.add_0_r.
  - cbn [app layout] in *. assert (LS : length (spread (d :: a)) = (if (d =? 0)%N then 1 else 4) + length (spread a)).
    { unfold spread. cbn [flat_map]. rewrite app_length. now destruct (d =? 0)%N. }
    rewrite LS. cbn [zeros]. destruct (d =? 0)%N; destruct H as [H1 H]; apply IH in H as [H2 H3].
    + split; [auto|]. now replace (i + (1 + length (spread a))) with (S i + length (spread a)) by lia; replace (n + (1 + zeros a)) with (S n + zeros a) by lia.
    + split; [auto|]. now replace (i + (4 + length (spread a))) with (i + 4 + length (spread a)) by lia.
Qed.
Lemma spread_app a b : spread (a ++ b) = spread a ++ spread b.
Proof. apply flat_map_app. Qed.
Definition dec (P : list (aff * aff)) (p : nat) (X : state) : state :=
  let '(X0, X1, X2, X3) := X in
  (affineU 32 (pair_snd P p) X0, affineU 32 (pair_snd P (p + 1)) X1, affineU 32 (pair_snd P (p + 2)) X2, affineU 32 (pair_snd P (p + 3)) X3).
Lemma enc_dec P p X : inv_pairs 32 36 P -> p <= 32 -> st_word X -> enc P p (dec P p X) = X /\ st_word (dec P p X).
Proof.
  intros [_ HP] L. destruct X as [[[x0 x1] x2] x3]. intros (A0 & A1 & A2 & A3). cbn [dec enc st_word]. split.
  - repeat f_equal; apply HP; auto; lia.
  - repeat split; apply (vector_affineU 32); auto; apply HP; lia.
Qed.
Lemma rounds_inj F ks X Y : rounds F ks X = rounds F ks Y -> X = Y.
Proof. intros E. rewrite <- (rounds_undo F ks X), <- (rounds_undo F ks Y). now rewrite E. Qed.
Lemma swap_inj X Y : swap X = swap Y -> X = Y.
Proof. intros E. rewrite <- (swap_swap X), <- (swap_swap Y). now rewrite E. Qed.
Lemma st_to_inj X Y : st_word X -> st_word Y -> st_to X = st_to Y -> X = Y.
Proof. intros A B E. rewrite <- (st_of_to X A), <- (st_of_to Y B). now rewrite E. Qed.
Lemma lxor_same_0 x z : N.lxor x z = x -> z = 0%N.
Proof. intros E. apply (f_equal (N.lxor x)) in E. rewrite <- N.lxor_assoc, N.lxor_nilpotent, N.lxor_0_l in E. exact E. Qed.
Lemma st_xor_same X Z : st_xor X Z = X -> Z = (0, 0, 0, 0)%N.
Proof.
  destruct X as [[[x0 x1] x2] x3], Z as [[[z0 z1] z2] z3]. cbn [st_xor]. intros E. injection E as E0 E1 E2 E3.
  apply lxor_same_0 in E0, E1, E2, E3. congruence.
Qed.
Lemma st_xor_word X Z : st_word X -> st_word Z -> st_word (st_xor X Z).
Proof.
  destruct X as [[[x0 x1] x2] x3], Z as [[[z0 z1] z2] z3]. cbn [st_xor st_word]. intros (A0 & A1 & A2 & A3) (B0 & B1 & B2 & B3).
  repeat split; now apply word_lxor.
Qed.
Lemma dd4_word mem i : (forall l, word (mem l)) -> st_word (dd4 mem i).
Proof. intros H. cbn [dd4 st_word]. unfold dd0, sum4. repeat split; repeat apply word_lxor; apply H. Qed.
Lemma firstn_skipn_rounds (rk : list N) a b X : length rk = a + b ->
  rounds T (firstn b (skipn a rk)) (rounds T (firstn a rk) X) = rounds T rk X.
Proof. intros L. rewrite <- rounds_app. f_equal. rewrite (firstn_all2 (skipn a rk)) by (rewrite skipn_length; lia). apply firstn_skipn. Qed.
Lemma encrypt_noisy P R rnd em key d pre e post ctx ctx' b : generated P R rnd (wb_keys em key) (pre ++ e :: post) ctx ctx' -> bytes key -> block16 b ->
  e <> 0%N -> zeros (pre ++ e :: post) = 32 -> length (pre ++ e :: post) = 32 + d -> w_rounds ctx = 32 + 4 * d -> w_rounds ctx <= w_alloc ctx ->
  (forall l, word (w_mem ctx l)) -> quiet (w_mem ctx) 0 pre -> quiet (w_mem ctx) (length (spread pre) + 4) post ->
  (exists c, wbsm4_encrypt ctx' b = Ret c) /\
  (wbsm4_encrypt ctx' b = Ret (st_to (swap (rounds T (wb_keys em key) (st_of b)))) <-> dd4 (w_mem ctx) (length (spread pre)) = (0, 0, 0, 0)%N).
Proof.
  intros (G1 & G2 & G3 & HP & HR & LL & EX) BK Bb NE Z LD W AL WM Q1 Q2.
  pose proof (st_of_word b Bb) as Wb. pose proof (wb_keys_word em key BK) as WK. pose proof (length_wb_keys em key) as LK. set (rk := wb_keys em key) in *. clearbody rk.
  apply layout_app in LL as [L1 L2]. rewrite !Nat.add_0_l in L2. cbn [layout] in L2. apply N.eqb_neq in NE. rewrite NE in L2. destruct L2 as [HD L2].
  rewrite zeros_app in Z. cbn [zeros] in Z. rewrite NE in Z.
  assert (LS : length (spread (pre ++ e :: post)) = 32 + 4 * d) by (rewrite spread_length, LD, zeros_app; cbn [zeros]; rewrite NE; lia).
  set (g := length (spread pre)) in *. set (n := zeros pre) in *.
  set (X1 := rounds T (firstn n rk) (st_of b)). assert (W1 : st_word X1) by (apply rounds_word; auto using T_word).
  set (S1 := st_xor (enc P n X1) (dd4 (w_mem ctx) g)).
  assert (WS : st_word S1) by (apply st_xor_word; [apply enc_word; auto; lia|now apply dd4_word]).
  destruct (enc_dec P n S1 HP ltac:(lia) WS) as [ED WD]. set (Y := dec P n S1) in *.
  assert (EN : wb_state (w_mem ctx') (w_rounds ctx') b = enc P 32 (rounds T (firstn (zeros post) (skipn n rk)) Y)).
  { rewrite (start_state P rnd) by auto. rewrite G1, W, <- LS, spread_app, app_length. fold g. 
    assert (LE : length (spread (e :: post)) = 4 + length (spread post)) by (unfold spread; cbn [flat_map]; rewrite NE; reflexivity). rewrite LE.
    rewrite seq_app, fold_left_app. unfold g. rewrite (enc_fold P R rk rnd (w_mem ctx) (w_mem ctx')) by (auto; lia). fold g n. cbn [skipn]. rewrite !Nat.add_0_l. fold X1.
    rewrite seq_app, fold_left_app. rewrite (dummy_group_spec (w_mem ctx)) by (auto; apply enc_word; auto; lia). fold S1.
    rewrite <- ED. rewrite (enc_fold P R rk rnd (w_mem ctx) (w_mem ctx')) by (auto; lia).
    replace (n + zeros post) with 32 by lia. reflexivity. }
  assert (EE : wbsm4_encrypt ctx' b = Ret (st_to (swap (rounds T (firstn (zeros post) (skipn n rk)) Y)))).
  { apply (encrypt_state P rnd); auto; [rewrite G1, G3; exact AL|]. apply rounds_word; auto using T_word. }
  split; [now eexists; exact EE|]. rewrite EE. rewrite <- (firstn_skipn_rounds rk n (zeros post)) by lia. fold X1. split.
  - intros E. injection E as E. apply st_to_inj in E; [|apply swap_word, rounds_word; auto using T_word|apply swap_word, rounds_word; auto using T_word].
    apply swap_inj, rounds_inj in E. rewrite E in ED. apply (st_xor_same (enc P n X1)). symmetry. exact ED.
  - intros E0. f_equal. f_equal. f_equal. f_equal. apply (enc_inj P n); auto; [lia|]. rewrite ED. unfold S1. rewrite E0.
    destruct (enc P n X1) as [[[x0 x1] x2] x3]. cbn [st_xor]. now rewrite !N.lxor_0_r.
Qed.

(** ** Placements: existence *)
Lemma first_dummy da : zeros da < length da -> exists k e post, da = repeat 0%N k ++ e :: post /\ e <> 0%N.
Proof.
  induction da as [|d t IH]; intros H; [cbn in H; lia|]. cbn [zeros length] in H. destruct (N.eqb_spec d 0) as [->|D].
  - destruct (IH ltac:(lia)) as (k & e & post & -> & E). exists (S k), e, post. auto.
  - exists 0, d, t. auto.
Qed.
Lemma spread_zeros k : spread (repeat 0%N k) = repeat 0%N k.
Proof. induction k; [reflexivity|]. cbn [repeat spread flat_map]. rewrite N.eqb_refl. cbn [app]. f_equal. exact IHk. Qed.
Lemma quiet_zeros mem k : forall i, quiet mem i (repeat 0%N k).
Proof. induction k; intros i; cbn [repeat quiet]; auto. rewrite N.eqb_refl. auto. Qed.
Lemma all_zeros da : zeros da = length da -> da = repeat 0%N (length da).
Proof.
  induction da as [|d t IH]; intros H; [reflexivity|]. cbn [zeros length repeat] in *.
  assert (B : zeros t <= length t) by (clear; induction t as [|x t IH]; cbn [zeros length]; [lia|destruct (x =? 0)%N; lia]).
  destruct (N.eqb_spec d 0) as [->|D]; [|lia]. f_equal. apply IH. lia.
Qed.
Lemma quiet_far mem da : forall i, (forall k, i <= k -> dd0 mem k = 0%N) -> quiet mem i da.
Proof.
  induction da as [|d t IH]; intros i H; [exact I|]. cbn [quiet]. destruct (d =? 0)%N; [apply IH; intros; apply H; lia|].
  split; [|apply IH; intros; apply H; lia]. unfold dd4. rewrite !H by lia. reflexivity.
Qed.
Lemma quiet_bound mem da : forall i, (forall k, i <= k < i + length (spread da) -> dd0 mem k = 0%N) -> quiet mem i da.
Proof.
  induction da as [|d t IH]; intros i H; [exact I|]. cbn [quiet].
  assert (LS : length (spread (d :: t)) = (if (d =? 0)%N then 1 else 4) + length (spread t)) by (unfold spread; cbn [flat_map]; rewrite app_length; now destruct (d =? 0)%N).
  rewrite LS in H. destruct (d =? 0)%N; [apply IH; intros; apply H; lia|].
  split; [|apply IH; intros; apply H; lia]. unfold dd4. rewrite !H by lia. reflexivity.
Qed.
(** drawing zeros only moves the first entry to the end *)
Lemma set_last {A} (l : list A) x v : set (l ++ [x]) (length l) v = l ++ [v].
Proof. induction l; cbn [app length set]; [reflexivity|]. now rewrite IHl. Qed.
Lemma shuffle_loop_zeros : forall k z l, (forall i, get z i = 0%N) -> k <= length l -> 0 < k ->
  shuffle_loop k z l = firstn (k - 1) (tl l) ++ [get l 0] ++ skipn k l.
Proof.
  induction k as [|k IH]; intros z l Z L K; [lia|]. cbn [shuffle_loop]. cbv zeta. rewrite Z, N.mod_0_l by lia. change (N.to_nat 0) with 0.
  destruct l as [|a l]; [cbn in L; lia|]. cbn [length] in L. destruct k as [|k].
  - cbn. reflexivity.
  - change (get (a :: l) (S k)) with (get l k). change (get (a :: l) 0) with a.
    change (set (set (a :: l) (S k) a) 0 (get l k)) with (get l k :: set l k a).
    rewrite IH; [|exact Z|cbn [length]; rewrite length_set; lia|lia].
    cbn [tl]. change (get (get l k :: set l k a) 0) with (get l k). cbn [Nat.sub]. rewrite Nat.sub_0_r.
    change (skipn (S k) (get l k :: set l k a)) with (skipn k (set l k a)). change (skipn (S (S k)) (a :: l)) with (skipn (S k) l).
    assert (SP : l = firstn k l ++ get l k :: skipn (S k) l) by (rewrite <- skipn_cons_get by lia; symmetry; apply firstn_skipn).
    set (u := firstn k l) in *. assert (LU : length u = k) by (unfold u; apply firstn_length_le; lia).
    set (x := get l k) in *. set (v := skipn (S k) l) in *. clearbody u x v. subst l.
    assert (ES : set (u ++ x :: v) k a = u ++ a :: v).
    { rewrite <- LU. clear. induction u; cbn [app length set]; [reflexivity|]. now rewrite IHu. }
    rewrite ES. rewrite !firstn_app, !skipn_app, !LU, !Nat.sub_diag. replace (S k - k) with 1 by lia. 
    rewrite !(firstn_all2 u) by lia. rewrite !(skipn_all2 u) by lia.
    cbn [firstn skipn app]. rewrite app_nil_r, <- app_assoc. reflexivity.
Qed.
Lemma get_repeat0 n i : get (repeat 0%N n) i = 0%N.
Proof. unfold get. revert i. induction n; intros [|i]; cbn; auto. Qed.
Local Transparent wRandomShuffleU8.
Lemma shuffle_eq rs l : wRandomShuffleU8 rs l = shuffle_loop (length l) (firstn (length l) rs ++ repeat 0%N 10) l.
Proof. reflexivity. Qed.
Local Opaque wRandomShuffleU8.
Lemma placement_zeros d : placement (repeat 0%N (32 + d)) d = repeat 0%N 31 ++ repeat 1%N d ++ [0%N].
Proof.
  unfold placement. rewrite shuffle_eq. rewrite app_length, !repeat_length. rewrite firstn_all2 by (rewrite repeat_length; lia).
  rewrite <- repeat_app. rewrite shuffle_loop_zeros; [|apply get_repeat0|rewrite app_length, !repeat_length; lia|lia].
  replace (32 + d - 1) with (31 + d) by lia. change (repeat 0%N 32) with (0%N :: repeat 0%N 31). rewrite <- app_comm_cons. cbn [tl].
  rewrite firstn_all2 by (rewrite app_length, !repeat_length; lia).
  rewrite skipn_all2 by (cbn [length]; rewrite app_length, !repeat_length; lia).
  rewrite <- app_assoc. reflexivity.
Qed.
Lemma apart_zeros_app k fl t : 0 < k -> apart fl (repeat 0%N k ++ t) = apart false t.
Proof.
  revert fl. induction k as [|k IH]; intros fl K; [lia|]. cbn [repeat app apart]. rewrite N.eqb_refl. destruct k; [reflexivity|]. apply IH. lia.
Qed.
Lemma placement_zeros_apart d : 2 <= d -> apart false (placement (repeat 0%N (32 + d)) d) = false.
Proof.
  intros D. rewrite placement_zeros. rewrite apart_zeros_app by lia. destruct d as [|[|d]]; [lia|lia|]. reflexivity.
Qed.

(** ** Entries are words *)
Lemma mask_word rnd pos j : word (mask rnd pos j).
Proof. unfold mask. destruct (j <? 3); repeat apply word_lxor; apply word_draw. Qed.
Lemma affine_entry_word A rnd pos j x : affine 32 A -> word (affine_entry A rnd pos j x).
Proof.
  intros HA. unfold affine_entry. apply word_lxor; [now apply (vector_affineU 32)|]. apply word_lxor; [|apply mask_word].
  destruct (j <? 3); [reflexivity|apply HA].
Qed.
Lemma table_entry_word r rk rnd pos j x : affine 32 (r_Q r) -> word (table_entry r rk rnd pos j x).
Proof.
  intros HQ. unfold table_entry. cbv zeta. apply word_lxor.
  - match goal with |- context [MatMulNum 32 ?A ?y] => rewrite (MatMulNum_eq 32 A y) end. apply (vector_mulv 32); auto. apply matrix_mulm; auto using matrix_L. apply HQ.
  - apply word_lxor; [|apply mask_word]. destruct (j <? 3); [reflexivity|apply HQ].
Qed.
Lemma round_affine P n r : inv_pairs 32 36 P -> n < 32 -> round_ok P n r ->
  affine 32 (r_Q r) /\ affine 32 (r_C r) /\ affine 32 (r_D r) /\ forall k, k < 3 -> affine 32 (r_M r k).
Proof.
  intros [_ HP] L (HE & (Q_inv & t & HQ & Wt & C1 & D1) & HM). pose proof HQ as (AQ & AQI & _). split; [exact AQ|].
  assert (AP4 : affine 32 (pair_fst P (n + 4))) by (apply HP; lia).
  split; [rewrite C1; apply affine_add_vec; auto; apply affine_affinemix; auto; apply HP; lia|].
  split; [rewrite D1; apply affine_add_vec; [apply affine_affinemix; auto|apply vector_lxor; [apply AP4|exact Wt]]|].
  intros k K. rewrite HM. apply affine_affinemix; auto; [now apply affine_com|apply HP; lia].
Qed.
Lemma layout_words P R rk rnd mem0 mem : inv_pairs 32 36 P -> (forall n r, nth_error R n = Some r -> round_ok P n r) -> (forall l, word (mem0 l)) ->
  forall da i n, layout R rk rnd mem0 mem i n da -> n + zeros da <= 32 -> forall q j x, i <= q < i + length (spread da) ->
  (forall k, k < 3 -> word (mem (LMM q k j x))) /\ word (mem (LCC q j x)) /\ word (mem (LDD q j x)) /\ word (mem (LTable q j x)).
Proof.
  intros HP HR W. induction da as [|d t IH]; intros i n LL Z q j x I; [cbn in I; lia|].
  assert (LS : length (spread (d :: t)) = (if (d =? 0)%N then 1 else 4) + length (spread t)) by (unfold spread; cbn [flat_map]; rewrite app_length; now destruct (d =? 0)%N).
  rewrite LS in I. cbn [layout zeros] in *. destruct (d =? 0)%N.
  - destruct LL as [(r & ER & pos & HA) LL]. destruct (Nat.eq_dec q i) as [->|NE]; [|apply (IH (S i) (S n)); auto; lia].
    destruct (round_affine P n r HP ltac:(lia) (HR n r ER)) as (A1 & A2 & A3 & A4). destruct (HA j x) as (H1 & H2 & H3 & H4).
    rewrite H2, H3, H4. split; [intros k K; rewrite H1|]; auto using affine_entry_word, table_entry_word.
  - destruct LL as [HD LL]. destruct (Nat.lt_ge_cases q (i + 4)) as [Q|Q]; [|apply (IH (i + 4) n); auto; lia].
    destruct (HD (q - i) ltac:(lia) j x) as (H1 & H2 & H3 & H4). replace (i + (q - i)) with q in * by lia. rewrite H1, H2, H3.
    split; [intros k _; now rewrite H4|]. split; [apply word_at_byte|]. split; [apply W|reflexivity].
Qed.
