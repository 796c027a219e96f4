(** * What SM3 contexts and digests tell, for the properties C107 and C108 *)
From Verif Require Import Base Word32 Sm3Model Sm3Spec Sm3Proofs.
From Coq Require FinFun.
Local Open Scope nat_scope.
#[local] Opaque CF block1 sm3_prog block_data_order.

(** as [inv] in Sm3Proofs, with a counter that need not be the length of what was hashed *)
Definition invc (c : sm3_ctx) (m : list N) (L : N) : Prop := exists full tail,
  m = full ++ tail /\ bytes m /\ length full mod 64 = 0 /\ length tail < 64 /\
  x_h c = hb IV full /\ x_num c = length tail /\ length (x_data c) = 64 /\ bytes (x_data c) /\
  firstn (length tail) (x_data c) = tail /\
  (x_Nl c < 2 ^ 32)%N /\ (x_Nh c * 2 ^ 32 + x_Nl c = (8 * L) mod 2 ^ 64)%N.
Lemma inv_invc c m : inv c m -> invc c m (N.of_nat (length m)).
Proof. exact (fun H => H). Qed.
Lemma update_invc c m L data : invc c m L -> bytes data -> invc (sm3_update c data) (m ++ data) (L + N.of_nat (length data)).
Proof.
  intros (full & tail & Em & Bm & Lf & Lt & Eh & En & Ld & Bd & Ef & HNl & HN) BD.
  unfold sm3_update. destruct (N.eqb_spec (N.of_nat (length data)) 0) as [Z|NZ].
  { assert (data = []) by (destruct data; [reflexivity|cbn [length] in Z; lia]). subst data. rewrite app_nil_r, N.add_0_r. exists full, tail. auto 12. }
  pose proof (count_step (x_Nl c) (x_Nh c) L (N.of_nat (length data)) HNl HN) as [C1 C2].
  cbv zeta in C1, C2.
  set (l := w32 (x_Nl c + _)) in *. set (Nh2 := w32 (_ + w32 (N.shiftr _ 29))) in *. clearbody l Nh2.
  assert (Bmd : bytes (m ++ data)) by (apply bytes_app; auto).
  subst m. apply bytes_app in Bm as [Bf Bt].
  (* the part common to both paths *)
  assert (REST : forall f p d, bytes f -> length f mod 64 = 0 -> length p = 64 -> bytes p -> bytes d ->
    (full ++ tail) ++ data = f ++ d ->
    invc (let k := length d / 64 in
         let h' := if 0 <? k then block_data_order (hb IV f) (firstn (k * 64) d) else hb IV f in
         let d' := if 0 <? k then skipn (k * 64) d else d in
         if length d' =? 0 then mksm3 h' l Nh2 p 0 else mksm3 h' l Nh2 (put p 0 d') (length d')) ((full ++ tail) ++ data) (L + N.of_nat (length data))).
  { intros f p d Bff Lff Lp Bp Bdd E. cbv zeta. set (k := length d / 64).
    pose proof (Nat.div_mod (length d) 64 ltac:(lia)) as DM. fold k in DM.
    pose proof (Nat.mod_upper_bound (length d) 64 ltac:(lia)) as MB.
    assert (Lk : length (firstn (k * 64) d) = k * 64) by (rewrite firstn_length; lia).
    assert (Ek : (if 0 <? k then block_data_order (hb IV f) (firstn (k * 64) d) else hb IV f) = hb IV (f ++ firstn (k * 64) d)).
    { destruct (Nat.ltb_spec 0 k).
      - apply bdo_eq; auto using bytes_firstn. rewrite Lk. apply Nat.mod_mul. lia.
      - replace k with 0 by lia. cbn [Nat.mul firstn]. now rewrite app_nil_r. }
    assert (Ed : (if 0 <? k then skipn (k * 64) d else d) = skipn (k * 64) d).
    { destruct (Nat.ltb_spec 0 k); auto. replace k with 0 by lia. reflexivity. }
    rewrite Ek, Ed. set (d' := skipn (k * 64) d).
    assert (Ld' : length d' < 64) by (unfold d'; rewrite skipn_length; lia).
    assert (Bd' : bytes d') by (unfold d'; now apply bytes_skipn).
    assert (Lfull : length (f ++ firstn (k * 64) d) mod 64 = 0).
    { rewrite app_length, Lk. apply mod64_add; auto. apply Nat.mod_mul; lia. }
    assert (EE : (full ++ tail) ++ data = (f ++ firstn (k * 64) d) ++ d').
    { rewrite E, <- app_assoc. unfold d'. now rewrite firstn_skipn. }
    exists (f ++ firstn (k * 64) d), d'. split; [exact EE|]. split; [exact Bmd|]. split; [exact Lfull|]. split; [exact Ld'|].
    destruct (Nat.eqb_spec (length d') 0) as [Z|Z].
    - assert (Zd : d' = []) by (destruct d'; [reflexivity|discriminate]). rewrite Zd. cbn [x_h x_num x_data x_Nl x_Nh length firstn]. auto 12.
    - cbn [x_h x_num x_data x_Nl x_Nh]. split; [reflexivity|]. split; [reflexivity|].
      split; [rewrite length_put; lia|]. split; [now apply bytes_put|].
      split; [|auto]. exact (firstn_put p 0 d' ltac:(lia)). }
  rewrite Eh, En. destruct (Nat.eqb_spec (length tail) 0) as [Z|Z]; cbn [negb].
  - apply REST; auto. assert (Zt : tail = []) by (destruct tail; [reflexivity|discriminate]). rewrite Zt, app_nil_r. reflexivity.
  - destruct (Nat.leb_spec 64 (length data)) as [G|G]; [|destruct (Nat.leb_spec 64 (length data + length tail)) as [G'|G']]; cbn [orb].
    1,2: (assert (EP : put (x_data c) (length tail) (firstn (64 - length tail) data) = tail ++ firstn (64 - length tail) data) by
      (pose proof (firstn_put (x_data c) (length tail) (firstn (64 - length tail) data) ltac:(lia)) as FP;
       rewrite Ef in FP; rewrite firstn_all2 in FP; [exact FP|rewrite length_put; rewrite ?firstn_length; lia]);
      rewrite EP;
      assert (LP : length (tail ++ firstn (64 - length tail) data) = 64) by (rewrite app_length, firstn_length; lia);
      assert (BP : bytes (tail ++ firstn (64 - length tail) data)) by (apply bytes_app; split; auto using bytes_firstn);
      rewrite bdo_eq by (auto; rewrite LP; reflexivity);
      apply REST; auto using bytes_skipn, repeat_length;
      [ apply bytes_app; auto
      | rewrite app_length; apply mod64_add; auto; rewrite LP; reflexivity
      | apply bytes_repeat; reflexivity
      | rewrite <- !app_assoc; do 2 f_equal; symmetry; apply firstn_skipn ]).
    (* everything fits in the buffer *)
    exists full, (tail ++ data). split; [now rewrite app_assoc|]. split; [exact Bmd|]. split; [exact Lf|].
    split; [rewrite app_length; lia|]. cbn [x_h x_num x_data x_Nl x_Nh]. split; [reflexivity|]. split; [now rewrite app_length|].
    split; [rewrite length_put; lia|]. split; [now apply bytes_put|].
    split; [|auto]. rewrite app_length. rewrite firstn_put by lia. now rewrite Ef.
Qed.

Lemma final_invc c m L : invc c m L -> x_h (fst (sm3_final c)) = hb IV (m ++ [0x80%N] ++ repeat 0%N (pad_zeros (length m)) ++ N_to_be 8 (8 * L)).
Proof.
  intros (full & tail & Em & Bm & Lf & Lt & Eh & En & Ld & Bd & Ef & HNl & HN).
  pose proof (length_field _ _ _ HNl HN) as LF.
  unfold sm3_final. rewrite LF, Eh, En. set (cnt := N_to_be 8 _).
  assert (Lc : length cnt = 8) by apply length_N_to_be. assert (Bc : bytes cnt) by apply bytes_N_to_be.
  subst m. clearbody cnt. apply bytes_app in Bm as [Bf Bt].
  assert (P1L : length (put (x_data c) (length tail) [128%N]) = 64) by (rewrite length_put; cbn [length]; lia).
  assert (P1F : firstn (length tail + 1) (put (x_data c) (length tail) [128%N]) = tail ++ [128%N])
    by (pose proof (firstn_put (x_data c) (length tail) [128%N] ltac:(lia)) as X; rewrite Ef in X; exact X).
  set (p := put (x_data c) (length tail) [128%N]) in *. clearbody p.
  change (64 - 8) with 56. destruct (Nat.ltb_spec 56 (length tail + 1)) as [G|G]; cbn [fst x_h].
  - (* two blocks *)
    rewrite (put_end p) by (rewrite repeat_length; lia). rewrite P1F.
    set (b1 := (tail ++ [128%N]) ++ repeat 0%N (64 - (length tail + 1))).
    assert (Lb1 : length b1 = 64) by (unfold b1; rewrite !app_length, repeat_length; cbn [length]; lia).
    assert (Bb1 : bytes b1) by (unfold b1; repeat (apply bytes_app; split); auto; [repeat constructor|now apply bytes_repeat]).
    assert (E2 : put (put b1 0 (repeat 0%N (56 - 0))) 56 cnt = repeat 0%N 56 ++ cnt).
    { rewrite put_end by (rewrite length_put by (rewrite repeat_length; lia); lia). reflexivity. }
    rewrite E2. rewrite bdo_eq by (auto; rewrite Lb1; reflexivity).
    rewrite bdo_eq; [|apply bytes_app; auto|apply bytes_app; split; [now apply bytes_repeat|exact Bc]
      |rewrite app_length; apply mod64_add; [exact Lf|rewrite Lb1; reflexivity]
      |rewrite app_length, repeat_length, Lc; reflexivity].
    f_equal.
    rewrite (pad_big (length full) (length tail)) by (auto using app_length; lia).
    replace (119 - length tail) with (64 - (length tail + 1) + 56) by lia. rewrite repeat_app. unfold b1.
    now rewrite <- !app_assoc.
  - (* one block *)
    assert (E2 : put (put p (length tail + 1) (repeat 0%N (56 - (length tail + 1)))) 56 cnt
      = (tail ++ [128%N]) ++ repeat 0%N (55 - length tail) ++ cnt).
    { rewrite put_end by (rewrite length_put by (rewrite repeat_length; lia); lia).
      pose proof (firstn_put p (length tail + 1) (repeat 0%N (56 - (length tail + 1))) ltac:(lia)) as X.
      rewrite repeat_length in X. replace (length tail + 1 + (56 - (length tail + 1))) with 56 in X by lia.
      rewrite X, P1F. rewrite <- !app_assoc. do 4 f_equal. lia. }
    rewrite E2. rewrite bdo_eq; auto.
    + f_equal.
      rewrite (pad_small (length full) (length tail)) by (auto using app_length; lia). now rewrite <- !app_assoc.
    + repeat (apply bytes_app; split); auto; [repeat constructor|now apply bytes_repeat].
    + rewrite !app_length, repeat_length, Lc. cbn [length]. replace (length tail + 1 + (55 - length tail + 8)) with 64 by lia. reflexivity.
Qed.

(** ** registers and digests *)
Definition digest_of (h : list N) : list N := concat (map (N_to_be 4) h).
Definition registers_of (d : list N) : list N := map be_to_N (chunks 4 d).
Lemma registers_digest h : words h -> registers_of (digest_of h) = h.
Proof.
  unfold registers_of, digest_of. induction 1 as [|x h W Ws IH]; [reflexivity|]. cbn [map concat].
  rewrite chunks_app by (lia || apply length_N_to_be). cbn [map]. rewrite IH. f_equal. apply be_to_N_to_be. exact W.
Qed.
Lemma final_digest c : snd (sm3_final c) = digest_of (x_h (fst (sm3_final c))).
Proof.
  unfold sm3_final, digest_of. cbv zeta. destruct (if 64 - 8 <? x_num c + 1 then _ else _) as [[h1 p1] n2]. cbn [fst snd x_h]. apply concat_l2c.
Qed.
Lemma final_rest c : x_Nl (fst (sm3_final c)) = x_Nl c /\ x_Nh (fst (sm3_final c)) = x_Nh c /\ x_data (fst (sm3_final c)) = repeat 0%N 64 /\ x_num (fst (sm3_final c)) = 0.
Proof. unfold sm3_final. cbv zeta. destruct (if 64 - 8 <? x_num c + 1 then _ else _) as [[h1 p1] n2]. cbn [fst snd x_h x_Nl x_Nh x_data x_num]. auto. Qed.
Lemma padded_ok m : bytes m -> bytes (padded m) /\ length (padded m) mod 64 = 0.
Proof.
  intro B. split; [unfold padded; repeat (apply bytes_app; split); auto; [repeat constructor|now apply bytes_repeat|apply bytes_N_to_be]|].
  unfold padded. rewrite !app_length, repeat_length, length_N_to_be. cbn [length]. unfold pad_zeros.
  pose proof (Nat.div_mod (length m) 64 ltac:(lia)) as D. pose proof (Nat.mod_upper_bound (length m) 64 ltac:(lia)) as U.
  set (r := length m mod 64) in *. set (k := length m / 64) in *. clearbody r k. destruct (Nat.lt_ge_cases r 56) as [G|G].
  - replace (119 - r) with (55 - r + 1 * 64) by lia. rewrite Nat.mod_add, (Nat.mod_small (55 - r)) by lia.
    replace (length m + (1 + (55 - r + 8))) with ((k + 1) * 64) by lia. apply Nat.mod_mul. lia.
  - rewrite (Nat.mod_small (119 - r)) by lia.
    replace (length m + (1 + (119 - r + 8))) with ((k + 2) * 64) by lia. apply Nat.mod_mul. lia.
Qed.
Lemma sm3_hb m : bytes m -> sm3 m = digest_of (hb IV (padded m)).
Proof. intro B. rewrite sm3_conforms_lemma by exact B. reflexivity. Qed.
Lemma sm3_registers m : bytes m -> registers_of (sm3 m) = hb IV (padded m).
Proof. intro B. rewrite sm3_hb by exact B. apply registers_digest. destruct (padded_ok m B). now apply hb_ok. Qed.

(** ** appending to a message known by digest and length only *)
(** the context a stranger fills in: registers from the digest, the bit count of the padded message *)
Definition resumed (d : list N) (n : N) : sm3_ctx := mksm3 (registers_of d) ((8 * n) mod 2 ^ 32) ((8 * n) / 2 ^ 32 mod 2 ^ 32) (repeat 0%N 64) 0.
(** the padding of a message of [n] bytes *)
Definition padding_of (n : nat) : list N := [0x80%N] ++ repeat 0%N (pad_zeros n) ++ N_to_be 8 (8 * N.of_nat n).
Lemma padded_eq m : padded m = m ++ padding_of (length m).
Proof. reflexivity. Qed.
Lemma count_split n : (n / 2 ^ 32 mod 2 ^ 32 * 2 ^ 32 + n mod 2 ^ 32 = n mod 2 ^ 64)%N.
Proof. change (2 ^ 64)%N with (2 ^ 32 * 2 ^ 32)%N. rewrite N.mod_mul_r by discriminate. lia. Qed.
Lemma resumed_invc d x L : bytes x -> length x mod 64 = 0 -> registers_of d = hb IV x -> invc (resumed d L) x L.
Proof.
  intros B LX R. exists x, []. cbn [resumed x_h x_num x_data x_Nl x_Nh length firstn].
  split; [now rewrite app_nil_r|]. split; [exact B|]. split; [exact LX|]. split; [lia|]. split; [exact R|]. split; [reflexivity|].
  split; [apply repeat_length|]. split; [now apply bytes_repeat|]. split; [reflexivity|]. split; [apply N.mod_lt; discriminate|]. apply count_split.
Qed.
Lemma update_final_invc c x L s : invc c x L -> bytes s -> snd (sm3_final (sm3_update c s)) =
  digest_of (hb IV ((x ++ s) ++ [0x80%N] ++ repeat 0%N (pad_zeros (length (x ++ s))) ++ N_to_be 8 (8 * (L + N.of_nat (length s))))).
Proof. intros I B. rewrite final_digest. f_equal. apply final_invc. now apply update_invc. Qed.
Lemma sm3_extension_lemma : forall m s, bytes m -> bytes s ->
  sm3 (m ++ padding_of (length m) ++ s) = snd (sm3_final (sm3_update (resumed (sm3 m) (N.of_nat (length m + length (padding_of (length m))))) s)).
Proof.
  intros m s B BS. destruct (padded_ok m B) as [BP LP].
  rewrite (update_final_invc _ (padded m) (N.of_nat (length m + length (padding_of (length m))))) by (exact BS || (apply resumed_invc; [exact BP|exact LP|now apply sm3_registers])).
  rewrite sm3_hb by (rewrite padded_eq in BP; apply bytes_app in BP as [_ BP]; apply bytes_app; split; [exact B|apply bytes_app; auto]).
  rewrite (padded_eq m). rewrite app_assoc. unfold padded. do 6 f_equal. rewrite !app_length. lia.
Qed.
Lemma sm3_extension_same_lemma : forall m1 m2 s, bytes m1 -> bytes m2 -> bytes s -> length m1 = length m2 -> sm3 m1 = sm3 m2 ->
  sm3 (m1 ++ padding_of (length m1) ++ s) = sm3 (m2 ++ padding_of (length m2) ++ s).
Proof. intros m1 m2 s B1 B2 BS L E. rewrite !sm3_extension_lemma by assumption. now rewrite L, E. Qed.

(** ** a context after SM3_Final *)
Lemma sm3_inv ps : Forall bytes ps -> inv (fold_left sm3_update ps sm3_init) (concat ps).
Proof. intro B. exact (updates_inv ps B sm3_init [] inv_init). Qed.
Lemma sm3_again_lemma : forall m s, bytes m -> bytes s ->
  snd (sm3_final (sm3_update (fst (sm3_final (sm3_update sm3_init m))) s)) =
  digest_of (fold_left CF (chunks 64 (m ++ padding_of (length m) ++ s ++ [0x80%N] ++ repeat 0%N (pad_zeros (length s)) ++ N_to_be 8 (8 * N.of_nat (length m + length s)))) IV).
Proof.
  intros m s B BS. destruct (padded_ok m B) as [BP LP]. pose proof (update_inv sm3_init [] m inv_init B) as I. cbn [app] in I.
  pose proof (final_invc _ _ _ (inv_invc _ _ I)) as FH. destruct (final_rest (sm3_update sm3_init m)) as (R1 & R2 & R3 & R4).
  assert (X : invc (fst (sm3_final (sm3_update sm3_init m))) (padded m) (N.of_nat (length m))).
  { destruct I as (full & tail & _ & _ & _ & _ & _ & _ & _ & _ & _ & HNl & HN). exists (padded m), []. rewrite FH, R1, R2, R3, R4. cbn [length firstn].
    split; [now rewrite app_nil_r|]. split; [exact BP|]. split; [exact LP|]. split; [lia|]. split; [reflexivity|]. split; [reflexivity|].
    split; [apply repeat_length|]. split; [now apply bytes_repeat|]. split; [reflexivity|]. split; [exact HNl|exact HN]. }
  rewrite (update_final_invc _ _ _ s X BS). unfold hb. do 3 f_equal. rewrite padded_eq, <- !app_assoc. do 5 f_equal; [|f_equal; lia].
  f_equal. rewrite app_assoc, <- padded_eq, app_length. unfold pad_zeros. rewrite (Nat.add_mod (length (padded m))), LP by lia. cbn [Nat.add]. now rewrite Nat.mod_mod by lia.
Qed.

(** ** equal digests *)
Lemma snoc_cases {A} (l : list A) : l = [] \/ exists a x, l = a ++ [x].
Proof. induction l using rev_ind; [now left|right; eauto]. Qed.
Lemma list_N_dec (a b : list N) : {a = b} + {a <> b}.
Proof. apply list_eq_dec, N.eq_dec. Qed.
Lemma fold_collision (f : list N -> list N -> list N) h : forall a b, length a = length b -> a <> b -> fold_left f a h = fold_left f b h ->
  exists p x q p' y q', a = p ++ x :: q /\ b = p' ++ y :: q' /\
    (fold_left f p h, x) <> (fold_left f p' h, y) /\ f (fold_left f p h) x = f (fold_left f p' h) y.
Proof.
  induction a as [|x a IH] using rev_ind; intros b L NE E.
  - destruct b; [congruence|discriminate].
  - destruct (snoc_cases b) as [-> | (b' & y & ->)]; [rewrite app_length in L; cbn in L; lia|].
    rewrite !fold_left_app in E. cbn [fold_left] in E. rewrite !app_length in L. cbn [length] in L.
    destruct (list_N_dec x y) as [<- | NX]; [destruct (list_N_dec (fold_left f a h) (fold_left f b' h)) as [EF|NF]|].
    + destruct (IH b') as (p & u & q & p' & v & q' & -> & -> & N1 & N2); [lia|congruence|exact EF|].
      exists p, u, (q ++ [x]), p', v, (q' ++ [x]). now rewrite <- !app_assoc.
    + exists a, x, [], b', x, []. repeat split; auto. congruence.
    + exists a, x, [], b', y, []. repeat split; auto. congruence.
Qed.
Definition block_at (m : list N) (i : nat) : list N := firstn 64 (skipn (64 * i) (padded m)).
Definition chain_at (m : list N) (i : nat) : list N := fold_left CF (chunks 64 (firstn (64 * i) (padded m))) IV.
Lemma chunks_split (l : list N) p x q : length l mod 64 = 0 -> chunks 64 l = p ++ x :: q ->
  length x = 64 /\ 64 * S (length p) <= length l /\ p = chunks 64 (firstn (64 * length p) l) /\ x = firstn 64 (skipn (64 * length p) l).
Proof.
  intros L E. pose proof (chunks_Forall_length 64 l ltac:(lia) L) as F. pose proof (concat_chunks 64 l ltac:(lia)) as C. rewrite E in F, C.
  apply Forall_app in F as [FP FX]. apply Forall_cons_iff in FX as [LX FQ].
  assert (LC : forall k, Forall (fun c : list N => length c = 64) k -> length (concat k) = 64 * length k).
  { induction k as [|c k IHk]; intro Fk; [reflexivity|]. apply Forall_cons_iff in Fk as [H1 H2]. cbn [concat length]. rewrite app_length, IHk by exact H2. lia. }
  rewrite concat_app in C. cbn [concat] in C. pose proof (LC p FP) as LP. split; [exact LX|]. rewrite <- C. split; [rewrite !app_length; lia|].
  rewrite <- LP, firstn_app, Nat.sub_diag, firstn_all, firstn_O, app_nil_r, skipn_app, skipn_all, Nat.sub_diag, skipn_O. cbn [app].
  split; [|rewrite firstn_app, LX, Nat.sub_diag, firstn_O, app_nil_r, <- LX; symmetry; apply firstn_all].
  clear -FP. induction FP as [|c p LCc FP IH]; [reflexivity|]. cbn [concat]. rewrite chunks_app by (lia || exact LCc). now rewrite <- IH.
Qed.
Lemma digest_inj h k : words h -> words k -> digest_of h = digest_of k -> h = k.
Proof. intros H K E. rewrite <- (registers_digest h H), <- (registers_digest k K). now rewrite E. Qed.
Lemma chunks64_last (l : list N) : length l mod 64 = 0 -> l <> [] -> exists p x, chunks 64 l = p ++ [x] /\ skipn 56 x = skipn (length l - 8) l.
Proof.
  intros L NE. destruct (snoc_cases (chunks 64 l)) as [Z | (p & x & E)].
  - apply (f_equal (@concat N)) in Z. rewrite concat_chunks in Z by lia. cbn in Z. congruence.
  - exists p, x. split; [exact E|]. pose proof (concat_chunks 64 l ltac:(lia)) as C. rewrite E, concat_app in C. cbn [concat] in C. rewrite app_nil_r in C.
    destruct (chunks_split l p x [] L E) as (LX & _). rewrite <- C, skipn_app, app_length, LX. rewrite (skipn_all2 (n := length (concat p) + 64 - 8)) by lia.
    cbn [app]. replace (length (concat p) + 64 - 8 - length (concat p)) with 56 by lia. reflexivity.
Qed.
Lemma padded_length_field m : skipn (length (padded m) - 8) (padded m) = N_to_be 8 (8 * N.of_nat (length m)).
Proof.
  unfold padded. rewrite !app_assoc. rewrite (app_length _ (N_to_be 8 _)), length_N_to_be, Nat.add_sub. rewrite skipn_app, skipn_all, Nat.sub_diag. reflexivity.
Qed.
Lemma padded_nonempty m : padded m <> [].
Proof. intro H. apply (f_equal (@length N)) in H. unfold padded in H. rewrite !app_length in H. cbn [length] in H. lia. Qed.
Lemma sm3_collision_lemma : forall m1 m2, bytes m1 -> bytes m2 -> (N.of_nat (length m1) < 2 ^ 61)%N -> (N.of_nat (length m2) < 2 ^ 61)%N ->
  m1 <> m2 -> sm3 m1 = sm3 m2 ->
  exists i j, 64 * S i <= length (padded m1) /\ 64 * S j <= length (padded m2) /\
    (chain_at m1 i, block_at m1 i) <> (chain_at m2 j, block_at m2 j) /\
    CF (chain_at m1 i) (block_at m1 i) = CF (chain_at m2 j) (block_at m2 j).
Proof.
  intros m1 m2 B1 B2 S1 S2 NE E. rewrite !sm3_hb in E by assumption. destruct (padded_ok m1 B1) as [BP1 LP1]. destruct (padded_ok m2 B2) as [BP2 LP2].
  apply digest_inj in E; [|now apply hb_ok|now apply hb_ok]. unfold hb in E.
  assert (X : exists p x q p' y q', chunks 64 (padded m1) = p ++ x :: q /\ chunks 64 (padded m2) = p' ++ y :: q' /\
    (fold_left CF p IV, x) <> (fold_left CF p' IV, y) /\ CF (fold_left CF p IV) x = CF (fold_left CF p' IV) y).
  { destruct (Nat.eq_dec (length m1) (length m2)) as [LE|LN].
    - assert (LPE : length (padded m1) = length (padded m2)) by (unfold padded; rewrite !app_length, !repeat_length, !length_N_to_be, LE; reflexivity).
      apply fold_collision; [| |exact E].
      + apply Nat.mul_cancel_l with (p := 64); [lia|]. assert (LC : forall l : list N, length l mod 64 = 0 -> 64 * length (chunks 64 l) = length l).
        { intros l L. rewrite <- (concat_chunks 64 l) at 2 by lia. generalize (chunks_Forall_length 64 l ltac:(lia) L). generalize (chunks 64 l). clear.
          induction l as [|c l IH]; intro F; [reflexivity|]. apply Forall_cons_iff in F as [H1 H2]. cbn [concat length]. rewrite app_length, <- IH by exact H2. lia. }
        now rewrite !LC.
      + intro EC. apply (f_equal (@concat N)) in EC. rewrite !concat_chunks in EC by lia. apply NE.
        apply (f_equal (firstn (length m1))) in EC. unfold padded in EC. rewrite firstn_app, firstn_all, Nat.sub_diag, firstn_O, app_nil_r in EC.
        rewrite LE, firstn_app, firstn_all, Nat.sub_diag, firstn_O, app_nil_r in EC. exact EC.
    - destruct (chunks64_last (padded m1) LP1 (padded_nonempty m1)) as (p & x & C1 & K1). destruct (chunks64_last (padded m2) LP2 (padded_nonempty m2)) as (p' & y & C2 & K2).
      exists p, x, [], p', y, []. split; [exact C1|]. split; [exact C2|]. rewrite C1, C2, !fold_left_app in E. cbn [fold_left] in E. split; [|exact E].
      intro Q. apply (f_equal snd) in Q. cbn [snd] in Q. apply LN. rewrite Q, K2 in K1. rewrite !padded_length_field in K1. apply (f_equal be_to_N) in K1.
      rewrite !be_to_N_to_be in K1 by (change (256 ^ N.of_nat 8)%N with (8 * 2 ^ 61)%N; apply N.mul_lt_mono_pos_l; [reflexivity|assumption]). lia. }
  destruct X as (p & x & q & p' & y & q' & C1 & C2 & N1 & N2).
  destruct (chunks_split _ _ _ _ LP1 C1) as (_ & G1 & P1 & X1). destruct (chunks_split _ _ _ _ LP2 C2) as (_ & G2 & P2 & X2).
  exists (length p), (length p'). split; [exact G1|]. split; [exact G2|]. unfold chain_at, block_at. rewrite <- P1, <- P2, <- X1, <- X2. split; [exact N1|exact N2].
Qed.
Lemma sm3_again_refuted_lemma : ~ (forall m s, bytes m -> bytes s -> snd (sm3_final (sm3_update (fst (sm3_final (sm3_update sm3_init m))) s)) = sm3 s) /\
  ~ (forall m s, bytes m -> bytes s -> snd (sm3_final (sm3_update (fst (sm3_final (sm3_update sm3_init m))) s)) = sm3 (m ++ s)) /\
  ~ (forall m s, bytes m -> bytes s -> snd (sm3_final (sm3_update (fst (sm3_final (sm3_update sm3_init m))) s)) = sm3 (padded m ++ s)).
Proof.
  assert (B : bytes [97]%N) by (repeat constructor). split; [|split]; intro H; specialize (H [97]%N [97]%N B B); apply (f_equal (fun l => get l 0)) in H; vm_compute in H; discriminate H.
Qed.

(** ** collisions exist *)
Fixpoint strings (v : list N) (n : nat) : list (list N) :=
  match n with O => [[]] | S n' => flat_map (fun b => map (cons b) (strings v n')) v end.
Lemma length_strings v n : length (strings v n) = length v ^ n.
Proof.
  induction n as [|n IH]; [reflexivity|]. cbn [strings Nat.pow]. rewrite <- IH. generalize (strings v n). intro s. clear.
  induction v as [|b v IH]; [reflexivity|]. cbn [flat_map length]. rewrite app_length, map_length, IH. reflexivity.
Qed.
Lemma in_strings v n : forall s, In s (strings v n) <-> length s = n /\ Forall (fun b => In b v) s.
Proof.
  induction n as [|n IH]; intro s; cbn [strings].
  - split; [intros [<- | []]; split; [reflexivity|constructor]|]. intros [L _]. destruct s; [now left|discriminate].
  - rewrite in_flat_map. split.
    + intros (b & Hb & Hs). apply in_map_iff in Hs as (t & <- & Ht). apply IH in Ht as [L F]. split; [cbn [length]; now rewrite L|now constructor].
    + intros [L F]. destruct s as [|b t]; [discriminate|]. apply Forall_cons_iff in F as [Hb F]. exists b. split; [exact Hb|]. apply in_map, IH. split; [now injection L|exact F].
Qed.
Lemma NoDup_strings v n : NoDup v -> NoDup (strings v n).
Proof.
  intro D. induction n as [|n IH]; [cbn; constructor; [intros []|constructor]|]. cbn [strings]. generalize dependent (strings v n). intros s IH.
  induction D as [|b v NI D IHv]; [constructor|]. cbn [flat_map]. assert (DS : NoDup (map (cons b) s)).
  { apply FinFun.Injective_map_NoDup; [|exact IH]. intros x y E. now injection E. }
  revert DS IHv. generalize (map (cons b) s) (fun t => proj1 (in_map_iff (cons b) s t)). intros ms HM DS IHv.
  induction DS as [|t ms NT DS IHm]; [exact IHv|]. cbn [app]. constructor; [|apply IHm; intros t' Ht'; apply HM; now right].
  rewrite in_app_iff. intros [H|H]; [contradiction|]. destruct (HM t (or_introl eq_refl)) as (u & E & _). apply in_flat_map in H as (b' & Hb' & H').
  apply in_map_iff in H' as (u' & E' & _). rewrite <- E in E'. injection E' as -> _. contradiction.
Qed.
Lemma collide {A} (f : A -> list N) l : NoDup l -> NoDup (map f l) \/ exists x y, In x l /\ In y l /\ x <> y /\ f x = f y.
Proof.
  induction 1 as [|a l NI D IH]; [left; constructor|]. destruct IH as [IH | (x & y & X & Y & N1 & E)]; [|right; exists x, y; repeat split; auto; now right].
  destruct (in_dec list_N_dec (f a) (map f l)) as [I|I]; [|left; now constructor]. right. apply in_map_iff in I as (y & E & Y). exists a, y.
  split; [now left|]. split; [now right|]. split; [intros ->; contradiction|now symmetry].
Qed.
Definition all_bytes : list N := map N.of_nat (seq 0 256).
Lemma in_all_bytes b : In b all_bytes <-> byte b.
Proof.
  unfold all_bytes, byte. rewrite in_map_iff. split.
  - intros (k & <- & K). apply in_seq in K. lia.
  - intro B. exists (N.to_nat b). split; [apply N2Nat.id|]. apply in_seq. lia.
Qed.
Lemma length_sm3 m : bytes m -> length (sm3 m) = 32.
Proof. exact (sm3_digest_length_lemma m). Qed.
Lemma bytes_sm3 m : bytes m -> bytes (sm3 m).
Proof.
  intro B. rewrite sm3_hb by exact B. unfold digest_of. generalize (hb IV (padded m)). intro h. induction h as [|x h IH]; [constructor|]. cbn [map concat]. apply bytes_app. split; [apply bytes_N_to_be|exact IH].
Qed.
#[local] Opaque sm3 strings.
Lemma pigeon {A} (f : A -> list N) l v k n : NoDup l -> length l = v ^ n -> k < n -> 1 < v -> (exists w, length w = v /\ forall x, In x l -> In (f x) (strings w k)) -> exists x y, In x l /\ In y l /\ x <> y /\ f x = f y.
Proof.
  intros D L K V (w & W & I). destruct (collide f l D) as [ND|X]; [|exact X]. exfalso. apply (Nat.lt_irrefl (v ^ n)).
  eapply Nat.le_lt_trans; [|apply Nat.pow_lt_mono_r; [exact V|exact K]]. rewrite <- L, <- (map_length f). rewrite <- W, <- length_strings. apply NoDup_incl_length; [exact ND|].
  intros y Y. apply in_map_iff in Y as (x & <- & X). now apply I.
Qed.
Lemma sm3_collisions_exist_lemma : forall n, 32 < n -> exists m1 m2, bytes m1 /\ bytes m2 /\ length m1 = n /\ length m2 = n /\ m1 <> m2 /\ sm3 m1 = sm3 m2.
Proof.
  intros n H. assert (LA : length all_bytes = 256) by reflexivity. assert (DA : NoDup all_bytes).
  { apply FinFun.Injective_map_NoDup; [intros a b; apply Nat2N.inj|apply seq_NoDup]. }
  assert (OK : forall m k, In m (strings all_bytes k) <-> length m = k /\ bytes m).
  { intros m k. rewrite in_strings. split; intros [L F]; (split; [exact L|]); (eapply Forall_impl; [|exact F]); intros b Hb; now apply in_all_bytes. }
  assert (IN : forall x, In x (strings all_bytes n) -> In (sm3 x) (strings all_bytes 32)).
  { intros x X. apply OK in X as [_ B]. apply OK. split; [now apply length_sm3|now apply bytes_sm3]. }
  destruct (pigeon sm3 (strings all_bytes n) (length all_bytes) 32 n) as (m1 & m2 & I1 & I2 & NE & E).
  - now apply NoDup_strings.
  - apply length_strings.
  - exact H.
  - rewrite LA. apply Nat.ltb_lt. reflexivity.
  - exists all_bytes. split; [reflexivity|exact IN].
  - apply OK in I1 as [L1 B1]. apply OK in I2 as [L2 B2]. exists m1, m2. auto 8.
Qed.
