(** * Programs that keep to the rules never leave defined behaviour *)
From Verif Require Import Base CbcModel GcmModel FpeModel Sm4Model ParModel LifeModel LifeSpec LifeProofs LifeTotal LifeTree LifeGen LifeOps.
Local Open Scope nat_scope.
Local Opaque sm4_object.

(** ** Stretches of the heap *)
Definition seg (lo n : nat) (X : list block) : list block := firstn n (skipn lo X).
Lemma nth_error_firstn {A} (l : list A) n i : nth_error (firstn n l) i = if i <? n then nth_error l i else None.
Proof.
  revert l i. induction n as [|n IH]; intros l i; [now destruct i|].
  destruct l as [|x l]; [destruct i; cbn [firstn nth_error]; now destruct (_ <? _)|]. destruct i as [|i]; [reflexivity|].
  cbn [firstn nth_error]. rewrite IH. reflexivity.
Qed.
Lemma nth_error_seg X lo n i : nth_error (seg lo n X) i = if i <? n then nth_error X (lo + i) else None.
Proof.
  unfold seg. rewrite nth_error_firstn. destruct (i <? n); [|reflexivity].
  revert X. induction lo as [|lo IH]; intros X; [reflexivity|]. destruct X as [|x X]; [now destruct i|]. apply IH.
Qed.
Lemma list_ext {A} (l l' : list A) : (forall i, nth_error l i = nth_error l' i) -> l = l'.
Proof.
  revert l'. induction l as [|x l IH]; intros [|y l'] H; try reflexivity; try (specialize (H 0); discriminate).
  pose proof (H 0) as H0. injection H0 as ->. f_equal. apply IH. intros i. exact (H (S i)).
Qed.
Lemma seg_ext X X' lo n : (forall a, lo <= a < lo + n -> nth_error X' a = nth_error X a) -> seg lo n X' = seg lo n X.
Proof.
  intros H. apply list_ext. intros i. rewrite !nth_error_seg. destruct (Nat.ltb_spec i n); [|reflexivity]. apply H. lia.
Qed.
Lemma seg_end B L : seg (length B) (length L) (B ++ L) = L.
Proof. unfold seg. rewrite skipn_app, skipn_all, Nat.sub_diag. cbn [skipn app]. apply firstn_all. Qed.
Lemma seg_split lo n X : lo + n <= length X -> exists Bx Z, X = Bx ++ (seg lo n X ++ Z) /\ length Bx = lo.
Proof.
  intros H. exists (firstn lo X), (skipn n (skipn lo X)). split; [|rewrite firstn_length; lia].
  unfold seg. rewrite firstn_skipn, firstn_skipn. reflexivity.
Qed.
Lemma seg_look lo n X i : i < n -> nth_error X (lo + i) = nth_error (seg lo n X) i.
Proof. intros H. rewrite nth_error_seg. apply Nat.ltb_lt in H. now rewrite H. Qed.

(** ** The invariant *)
Definition is_key (env : list handle) (p : cell) : Prop := exists x, In x env /\ cipher (h_kind x) = true /\ h_ptr x = p /\ is_null p = false.
Definition is_gcm (env : list handle) (b : block) : Prop :=
  exists cs key f, b = mkblk true cs /\ length cs = gcm_cells /\ nth_error cs gcm_key_at = Some key /\ nth_error cs gcm_block_at = Some (Code f) /\ is_key env key.
Definition shape (env : list handle) (k : kind) (released : bool) (lo : nat) (L : list block) : Prop :=
  match k, released with
  | KCtx n, _ => exists cs, L = [mkblk true cs] /\ length cs = n
  | KWb d, false => exists Bx ev, length Bx = lo /\ intact (32 + 4 * d) Bx ev L
  | KWb _, true => exists cs L', L = mkblk true cs :: L'
  | KGcm, false | KWbgcm, false => exists b, L = [b] /\ is_gcm env b
  | KFile, false => exists cs b, L = [mkblk true cs; b] /\ nth_error cs 0 = Some (Ptr (S lo)) /\ is_gcm env b
  | KFpe, false => exists c0 c1 c2 c4 ct, L = [mkblk true [c0; c1; c2; Ptr (S lo); c4]; mkblk true ct]
  | KMac, false => exists c0 c1 c2 c4 ct, L = [mkblk true [Ptr (S lo)]; mkblk true [c0; c1; c2; Ptr (S (S lo)); c4]; mkblk true ct]
  | _, true => True
  end.
Definition placed (env : list handle) (X : list block) (x : handle) : Prop :=
  match h_ptr x with
  | Ptr lo => lo + span (h_kind x) <= length X /\ shape env (h_kind x) (h_released x) lo (seg lo (span (h_kind x)) X)
  | p => is_null p = true
  end.
Definition before (x y : handle) : Prop :=
  match h_ptr x, h_ptr y with Ptr a, Ptr b => a + span (h_kind x) <= b | _, _ => True end.
Definition inv (st : state) : Prop :=
  (forall i x, nth_error (fst st) i = Some x -> placed (fst st) (m_blocks (snd st)) x) /\
  (forall i j x y, i < j -> nth_error (fst st) i = Some x -> nth_error (fst st) j = Some y -> before x y).

Lemma is_gcm_mono env env' b : (forall p, is_key env p -> is_key env' p) -> is_gcm env b -> is_gcm env' b.
Proof. intros H (cs & key & f & A & B & C & D & E). exists cs, key, f. auto 8. Qed.
Lemma shape_mono env env' k rel lo L : (forall p, is_key env p -> is_key env' p) -> shape env k rel lo L -> shape env' k rel lo L.
Proof.
  intros H. unfold shape. destruct k, rel; auto.
  - intros (b & E & G). exists b. split; auto. now apply (is_gcm_mono env).
  - intros (cs & b & E & E' & G). exists cs, b. split; auto. split; auto. now apply (is_gcm_mono env).
  - intros (b & E & G). exists b. split; auto. now apply (is_gcm_mono env).
Qed.
Lemma is_key_app env h p : is_key env p -> is_key (env ++ [h]) p.
Proof. intros (x & I & C). exists x. split; [apply in_or_app; now left|exact C]. Qed.
Lemma is_key_set env i x y p : nth_error env i = Some x -> h_kind y = h_kind x -> h_ptr y = h_ptr x -> is_key env p -> is_key (set env i y) p.
Proof.
  intros E K P (z & I & C & Q & N). apply In_nth_error in I as (j & Ej).
  assert (Li : i < length env) by (apply nth_error_Some; congruence).
  destruct (Nat.eq_dec j i) as [J|J].
  - subst j. assert (z = x) by congruence. subst z. exists y. split; [|rewrite K, P; auto].
    apply (nth_error_In _ i). now rewrite nth_error_set_lt, Nat.eqb_refl.
  - exists z. split; [|auto]. apply (nth_error_In _ j). rewrite nth_error_set_lt by auto. destruct (Nat.eqb_spec j i); [congruence|exact Ej].
Qed.
(** more blocks at the end disturb nothing *)
Lemma placed_app env X D x : placed env X x -> placed env (X ++ D) x.
Proof.
  unfold placed. destruct (h_ptr x) as [|lo| |]; auto. intros (A & B). split; [rewrite app_length; lia|].
  rewrite (seg_ext X (X ++ D)); [exact B|]. intros a Ha. apply look_old. lia.
Qed.
Lemma placed_mono env env' X x : (forall p, is_key env p -> is_key env' p) -> placed env X x -> placed env' X x.
Proof. intros H. unfold placed. destruct (h_ptr x); auto. intros (A & B). split; auto. now apply (shape_mono env). Qed.
Lemma inv_more env X D k k' : inv (env, mkmem X k) -> inv (env, mkmem (X ++ D) k').
Proof. intros (A & B). split; cbn [fst snd m_blocks] in *; [|exact B]. intros i x E. apply placed_app. eapply A, E. Qed.
(** a new object *)
Lemma inv_add env X L k k' kd p : inv (env, mkmem X k) ->
  (p = Ptr (length X) /\ length L = span kd /\ shape (env ++ [mkh kd p false]) kd false (length X) L \/ is_null p = true) ->
  inv (env ++ [mkh kd p false], mkmem (X ++ L) k').
Proof.
  intros (A & B) H. cbn [fst snd m_blocks] in *. split; cbn [fst snd m_blocks].
  - intros i x E. destruct (Nat.lt_ge_cases i (length env)) as [Hi|Hi].
    + rewrite look_old in E by auto. apply (placed_mono env); [intros q; apply is_key_app|]. apply placed_app. eapply A, E.
    + rewrite nth_error_app2 in E by auto. destruct (i - length env) as [|n]; [|now destruct n]. injection E as <-.
      unfold placed. cbn [h_ptr h_kind h_released]. destruct H as [(-> & LL & S)|H]; [|destruct p; auto; discriminate].
      rewrite <- LL. split; [rewrite app_length; lia|]. rewrite seg_end. exact S.
  - intros i j x y Hij Ei Ej. destruct (Nat.lt_ge_cases j (length env)) as [Hj|Hj].
    + rewrite look_old in Ei, Ej by lia. exact (B _ _ _ _ Hij Ei Ej).
    + assert (Hi : i < length env).
      { assert (j < length (env ++ [mkh kd p false])) by (apply nth_error_Some; congruence). rewrite app_length in H0. cbn in H0. lia. }
      rewrite look_old in Ei by auto. rewrite nth_error_app2 in Ej by auto. destruct (j - length env) as [|n]; [|now destruct n]. injection Ej as <-.
      unfold before. cbn [h_ptr]. specialize (A _ _ Ei). unfold placed in A. destruct (h_ptr x); auto.
      destruct H as [(-> & _)|H]; [apply A|]. destruct p; auto. discriminate.
Qed.
(** a change within one object *)
Lemma inv_change env X X' k k' i x y lo : inv (env, mkmem X k) -> nth_error env i = Some x -> h_ptr x = Ptr lo ->
  h_kind y = h_kind x -> h_ptr y = Ptr lo -> length X <= length X' ->
  (forall a, a < length X -> ~ lo <= a < lo + span (h_kind x) -> nth_error X' a = nth_error X a) ->
  shape (set env i y) (h_kind y) (h_released y) lo (seg lo (span (h_kind y)) X') -> inv (set env i y, mkmem X' k').
Proof.
  intros (A & B) E P K P' LX F S. cbn [fst snd m_blocks] in *. assert (Li : i < length env) by (apply nth_error_Some; congruence).
  assert (LO : lo + span (h_kind x) <= length X). { specialize (A _ _ E). unfold placed in A. rewrite P in A. apply A. }
  split; cbn [fst snd m_blocks].
  - intros j z Ez. rewrite nth_error_set_lt in Ez by auto. destruct (Nat.eqb_spec j i) as [J|J].
    + injection Ez as <-. unfold placed. rewrite P'. split; [rewrite K; lia|exact S].
    + apply (placed_mono env); [intros q; apply (is_key_set env i x y q); auto; congruence|].
      pose proof (A _ _ Ez) as Az. unfold placed in *. destruct (h_ptr z) as [|lz| |] eqn:Pz; auto. destruct Az as (A1 & A2). split; [lia|].
      rewrite (seg_ext X X'); [exact A2|]. intros a Ha. apply F; [lia|].
      destruct (Nat.lt_ge_cases i j) as [Hij|Hij].
      * pose proof (B _ _ _ _ Hij E Ez) as Bf. unfold before in Bf. rewrite P, Pz in Bf. lia.
      * assert (Hji : j < i) by lia. pose proof (B _ _ _ _ Hji Ez E) as Bf. unfold before in Bf. rewrite P, Pz in Bf. lia.
  - assert (G : forall j z, nth_error (set env i y) j = Some z -> exists z', nth_error env j = Some z' /\ h_kind z = h_kind z' /\ h_ptr z = h_ptr z').
    { intros j z Ez. rewrite nth_error_set_lt in Ez by auto. destruct (Nat.eqb_spec j i) as [J|J]; [|exists z; auto].
      injection Ez as <-. subst j. exists x. rewrite K, P', P. auto. }
    intros j j' z z' Hj Ez Ez'. destruct (G _ _ Ez) as (w & Ew & Kw & Pw). destruct (G _ _ Ez') as (w' & Ew' & Kw' & Pw').
    pose proof (B _ _ _ _ Hj Ew Ew') as Bf. unfold before in *. rewrite Kw, Pw, Pw'. exact Bf.
Qed.
(** a key is live *)
Lemma key_live env X k p : inv (env, mkmem X k) -> is_key env p -> exists cs, cells_at (mkmem X k) p = Some cs.
Proof.
  intros (A & _) (x & I & C & P & N). apply In_nth_error in I as (i & E). specialize (A _ _ E). cbn [fst snd m_blocks] in A. unfold placed in A. rewrite P in A.
  destruct p as [n|lo| |]; try (cbn in *; discriminate).
  - cbn [is_null] in *. congruence.
  - destruct A as (LO & S). assert (G : exists cs, nth_error X (lo + 0) = Some (mkblk true cs)).
    { destruct x as [[n|d| | | | |] q rel]; cbn [h_kind h_released cipher] in *; try discriminate.
      - rewrite (seg_look lo (span (KCtx n))) by (cbn [span]; lia). destruct S as (cs & -> & _). exists cs. reflexivity.
      - rewrite (seg_look lo (span (KWb d))) by (cbn [span]; lia). destruct rel.
        + destruct S as (cs & L' & ->). exists cs. reflexivity.
        + destruct S as (Bx & ev & _ & (_ & T & _)). destruct (proj1 T) as (cs & Ec & _). exists cs. exact Ec. }
    destruct G as (cs & G). exists cs. unfold cells_at. cbn [m_blocks]. rewrite Nat.add_0_r in G. now rewrite G.
Qed.
Lemma get_h_some env h x : get_h env h = Some x -> nth_error env h = Some x /\ h_released x = false /\ is_null (h_ptr x) = false.
Proof.
  unfold get_h. destruct (nth_error env h) as [y|] eqn:E; [|discriminate]. destruct (h_released y) eqn:R, (is_null (h_ptr y)) eqn:N; cbn [orb]; try discriminate.
  intros K. injection K as <-. auto.
Qed.
Lemma get_key_some env h p : get_key env h = Some p -> is_key env p.
Proof.
  unfold get_key. destruct (get_h env h) as [x|] eqn:E; [|discriminate]. apply get_h_some in E as (E & R & N). destruct (cipher (h_kind x)) eqn:C; [|discriminate].
  intros K. injection K as <-. exists x. split; [eapply nth_error_In, E|auto].
Qed.
Lemma placed_ptr env X x : placed env X x -> is_null (h_ptr x) = false -> exists lo, h_ptr x = Ptr lo.
Proof. unfold placed. destruct (h_ptr x); intros H N; try congruence. now exists a. Qed.

(** ** One call *)
Definition occ (env : list handle) : nat := total (map occupies env).
Lemma total_app l l' : total (l ++ l') = total l + total l'.
Proof. unfold total. induction l as [|x l IH]; cbn [app fold_right]; lia. Qed.
Lemma occ_app env x : occ (env ++ [x]) = occ env + occupies x.
Proof. unfold occ. rewrite map_app, total_app. unfold total. cbn [map fold_right]. lia. Qed.
Lemma occ_set env i x y : nth_error env i = Some x -> occ (set env i y) + occupies x = occ env + occupies y.
Proof.
  unfold occ, total. revert i. induction env as [|z env IH]; intros [|i] E; cbn [nth_error] in E; try discriminate.
  - injection E as ->. cbn [set map fold_right]. lia.
  - specialize (IH _ E). cbn [set map fold_right]. lia.
Qed.
Lemma lives_filter D n l : filter b_live D = l -> length l = n -> lives D = n.
Proof. intros E L. unfold lives. now rewrite E. Qed.
Lemma lives_all L : all_live L -> lives L = length L.
Proof. intros H. unfold lives. now rewrite filter_all_live. Qed.
Lemma set_same {A} (l : list A) i x : nth_error l i = Some x -> set l i x = l.
Proof. revert i. induction l as [|y l IH]; intros [|i] E; cbn [nth_error set] in *; try reflexivity; try discriminate; [congruence|]. now rewrite IH. Qed.

Section Safe.
Variables (al : nat -> answer) (blk : nat -> mem -> cell -> list N -> outcome (option (list N)))
          (tab : nat -> nat -> nat -> nat -> N) (dummy : nat -> bool).
Hypothesis rich : plenty al.
Hypothesis works : forall f m key b, cells_at m key <> None -> exists r, blk f m key b = Ret (Some r).

Definition fine (c : call) (st : state) : Prop :=
  make al blk tab dummy c st = Abort \/
  exists st', make al blk tab dummy c st = Ret st' /\ inv st' /\
    lives (m_blocks (snd st')) + occ (fst st) = lives (m_blocks (snd st)) + occ (fst st') + leaves c /\
    (forall j, subject c <> Some j -> untouched j st st').

Lemma untouched_more env X k D st' j : inv (env, mkmem X k) -> m_blocks (snd st') = X ++ D -> untouched j (env, mkmem X k) st'.
Proof.
  intros (A & _) E x lo a Ex P Ha. rewrite E. cbn [fst snd m_blocks] in *. specialize (A _ _ Ex). unfold placed in A. rewrite P in A. apply look_old. lia.
Qed.
(** the two simple patterns *)
Lemma fine_create c kd f env X k p L k' : inv (env, mkmem X k) -> make al blk tab dummy c (env, mkmem X k) = create kd f (env, mkmem X k) ->
  f (mkmem X k) = Ret (p, mkmem (X ++ L) k') ->
  (p = Ptr (length X) /\ length L = span kd /\ shape (env ++ [mkh kd p false]) kd false (length X) L \/ is_null p = true) ->
  lives L = occupies (mkh kd p false) -> leaves c = 0 -> fine c (env, mkmem X k).
Proof.
  intros I M E S O Z. right. rewrite M. unfold create. cbn [fst snd]. rewrite E. cbn [obind fst snd]. eexists. split; [reflexivity|].
  split; [now apply (inv_add env X L k)|]. cbn [fst snd m_blocks]. rewrite lives_app, occ_app, O, Z. split; [lia|].
  intros j _. eapply untouched_more; [exact I|reflexivity].
Qed.
Lemma fine_use {A} c (f : M A) env X k x L k' : inv (env, mkmem X k) -> make al blk tab dummy c (env, mkmem X k) = use f (env, mkmem X k) ->
  f (mkmem X k) = Ret (x, mkmem (X ++ L) k') -> lives L = leaves c -> fine c (env, mkmem X k).
Proof.
  intros I M E O. right. rewrite M. unfold use. cbn [fst snd]. rewrite E. cbn [obind fst snd]. eexists. split; [reflexivity|].
  split; [now apply (inv_more env X L k)|]. cbn [fst snd m_blocks]. rewrite lives_app, O. split; [lia|].
  intros j _. eapply untouched_more; [exact I|reflexivity].
Qed.
(** changing one object, and adding blocks *)
Lemma fine_any c env X k i x lo y X' k' : inv (env, mkmem X k) ->
  nth_error env i = Some x -> h_ptr x = Ptr lo -> h_kind y = h_kind x -> h_ptr y = Ptr lo ->
  make al blk tab dummy c (env, mkmem X k) = Ret (set env i y, mkmem X' k') -> length X <= length X' ->
  (forall a, a < length X -> ~ lo <= a < lo + span (h_kind x) -> nth_error X' a = nth_error X a) ->
  shape (set env i y) (h_kind y) (h_released y) lo (seg lo (span (h_kind y)) X') ->
  lives X' + occupies x = lives X + occupies y + leaves c -> subject c = Some i -> fine c (env, mkmem X k).
Proof.
  intros I E P K P' M LX F S O U. right. rewrite M. eexists. split; [reflexivity|].
  split; [exact (inv_change env X X' k k' i x y lo I E P K P' LX F S)|]. cbn [fst snd m_blocks].
  pose proof (occ_set env i x y E) as OS. split; [lia|].
  intros j Hj z lz a Ez Pz Ha. cbn [fst snd m_blocks] in *. destruct I as (A & B). cbn [fst snd m_blocks] in *.
  pose proof (A _ _ Ez) as Az. unfold placed in Az. rewrite Pz in Az. apply F; [lia|].
  destruct (Nat.lt_trichotomy i j) as [Hij|[Hij|Hij]].
  - pose proof (B _ _ _ _ Hij E Ez) as Bf. unfold before in Bf. rewrite P, Pz in Bf. lia.
  - congruence.
  - pose proof (B _ _ _ _ Hij Ez E) as Bf. unfold before in Bf. rewrite P, Pz in Bf. lia.
Qed.
Lemma fine_one c env X k i x lo b' cs y D k' : inv (env, mkmem X k) ->
  nth_error env i = Some x -> h_ptr x = Ptr lo -> h_kind y = h_kind x -> h_ptr y = Ptr lo ->
  span (h_kind x) = 1 -> nth_error X lo = Some (mkblk true cs) -> shape (set env i y) (h_kind y) (h_released y) lo [b'] ->
  make al blk tab dummy c (env, mkmem X k) = Ret (set env i y, mkmem (set X lo b' ++ D) k') ->
  lives D + occupies x + (if b_live b' then 1 else 0) = occupies y + leaves c + 1 -> subject c = Some i -> fine c (env, mkmem X k).
Proof.
  intros I E P K P' SP EX S M O U. assert (Lo : lo < length X) by (apply nth_error_Some; congruence).
  apply (fine_any c env X k i x lo y (set X lo b' ++ D) k'); auto.
  - rewrite app_length, length_set. lia.
  - intros a La Ha. rewrite look_old by (rewrite length_set; lia). rewrite nth_error_set_lt by auto. destruct (Nat.eqb_spec a lo); [|reflexivity]. lia.
  - rewrite K, SP. replace (seg lo 1 (set X lo b' ++ D)) with [b']; [rewrite <- K; apply S|]. symmetry. apply list_ext. intros j. rewrite nth_error_seg.
    destruct j as [|j]; cbn [Nat.ltb Nat.leb nth_error]; [|now destruct j]. rewrite Nat.add_0_r, look_old by (rewrite length_set; lia).
    now rewrite nth_error_set_lt, Nat.eqb_refl.
  - rewrite lives_app. pose proof (lives_set X lo _ b' EX) as Q. cbn [b_live] in Q. lia.
Qed.
Lemma object env X k i x : inv (env, mkmem X k) -> nth_error env i = Some x -> is_null (h_ptr x) = false ->
  exists lo, h_ptr x = Ptr lo /\ lo + span (h_kind x) <= length X /\ shape env (h_kind x) (h_released x) lo (seg lo (span (h_kind x)) X).
Proof.
  intros (A & _) E N. specialize (A _ _ E). cbn [fst snd m_blocks] in A. destruct (placed_ptr _ _ _ A N) as (lo & P). exists lo. split; [exact P|].
  unfold placed in A. rewrite P in A. exact A.
Qed.
Lemma use_ret {A} (f : M A) env m x m' : f m = Ret (x, m') -> use f (env, m) = Ret (env, m').
Proof. intros E. unfold use. cbn [fst snd]. now rewrite E. Qed.
Lemma release_ret (f : M unit) env i x m m' : f m = Ret (tt, m') -> release i x f (env, m) = Ret (set env i (mkh (h_kind x) (h_ptr x) true), m').
Proof. intros E. unfold release. cbn [fst snd]. now rewrite E. Qed.
Lemma look_seg1 X lo b : seg lo 1 X = [b] -> nth_error X lo = Some b.
Proof. intros E. rewrite <- (Nat.add_0_r lo), (seg_look lo 1) by lia. now rewrite E. Qed.
Lemma ask_key env X k f p b : inv (env, mkmem X k) -> is_key env p -> forall D k', exists h, blk f (mkmem (X ++ D) k') p b = Ret (Some h).
Proof.
  intros I K D k'. apply works. apply (inv_more env X D k k') in I. destruct (key_live _ _ _ _ I K) as (cs & C). congruence.
Qed.

Lemma fine_context n env X k : inv (env, mkmem X k) -> fine (Context n) (env, mkmem X k).
Proof.
  intros I. destruct (context_init_eq al rich n X k) as (k' & E).
  eapply (fine_create (Context n)); [exact I|reflexivity|exact E| |reflexivity|reflexivity].
  left. repeat split. exists (repeat (Num 0) n). split; [reflexivity|apply repeat_length].
Qed.
Lemma fine_se e env X k : inv (env, mkmem X k) -> fine (SeContext e) (env, mkmem X k).
Proof.
  intros I. destruct (context_init_eq al rich se_cells X k) as (k' & E).
  assert (E' : life_se_init al e (mkmem X k) = Ret (Ptr (length X), mkmem (X ++ [mkblk true (set (repeat (Num 0) se_cells) 0 (Num e))]) k')).
  { unfold life_se_init. run ltac:(exact E). cbn [is_null]. run ltac:(eapply store_eq; [at_end|rewrite repeat_length; unfold se_cells; lia]). reflexivity. }
  eapply (fine_create (SeContext e)); [exact I|reflexivity|exact E'| |reflexivity|reflexivity].
  left. repeat split. exists (set (repeat (Num 0) se_cells) 0 (Num e)). split; [reflexivity|rewrite length_set; apply repeat_length].
Qed.
Lemma fine_wb e d env X k : inv (env, mkmem X k) -> fine (WbContext e d) (env, mkmem X k).
Proof.
  intros I. destruct (wbsm4_init_eq al e d X k rich) as (L & k' & E & LL & AL & T & C0 & C1 & _).
  eapply (fine_create (WbContext e d)); [exact I|reflexivity|exact E| | |reflexivity].
  - left. split; [reflexivity|]. split; [exact LL|]. exists X, (Num e). split; [reflexivity|]. rewrite LL in T. split; [exact LL|]. split; [exact T|]. split; [exact AL|exact C1].
  - rewrite lives_all by exact AL. exact LL.
Qed.
Lemma fine_sm4key h e key env X k : inv (env, mkmem X k) -> fine (Sm4Key h e key) (env, mkmem X k).
Proof.
  intros I. destruct (get_h env h) as [x|] eqn:G; [|left; cbn [make fst]; now rewrite G].
  assert (D : (exists p r, x = mkh (KCtx 32) p r) \/ make al blk tab dummy (Sm4Key h e key) (env, mkmem X k) = Abort).
  { cbn [make fst]. rewrite G. destruct x as [[n|d| | | | |] p r]; auto. do 33 (destruct n as [|n]; auto). left. eauto. }
  destruct D as [(p & r & ->)|D]; [|left; exact D]. pose proof G as G0. apply get_h_some in G as (G & R & N). cbn [h_released h_ptr] in R, N. subst r.
  destruct (object _ _ _ _ _ I G N) as (lo & P & LO & S). cbn [h_kind h_ptr h_released] in *. subst p. destruct S as (cs & S & Lc). apply look_seg1 in S.
  destruct (sm4_key_eq al rich e lo cs key X k S Lc) as (k' & E).
  eapply (fine_one _ env X k h _ lo (mkblk true (sm4_object e key)) cs (mkh (KCtx 32) (Ptr lo) false) [mkblk false (map Num (key_padding_pkcs7 key))]);
    [exact I|exact G|reflexivity|reflexivity|reflexivity|reflexivity|exact S| | |reflexivity|reflexivity].
  - exists (sm4_object e key). split; [reflexivity|]. apply length_sm4_object.
  - rewrite (set_same env h _ G). cbn [make fst]. rewrite G0. exact (use_ret _ _ _ _ _ E).
Qed.
Lemma se_gen_total lo key maps cs e X k : nth_error X lo = Some (mkblk true cs) -> nth_error cs 0 = Some e -> length cs = S (length maps) -> exists k',
  life_se_gen al (Ptr lo) key maps (mkmem X k) =
  Ret (tt, mkmem (set X lo (mkblk true (e :: map Num maps)) ++ [mkblk true (sm4_object (mode_of e) key); mkblk false (map Num (key_padding_pkcs7 key))]) k').
Proof.
  intros E C L. assert (Lo : lo < length X) by (apply nth_error_Some; congruence).
  destruct (context_init_eq al rich 32 X k) as (k1 & E1).
  destruct (sm4_key_eq al rich (mode_of e) (length X) (repeat (Num 0) 32) key (X ++ [mkblk true (repeat (Num 0) 32)]) k1 (look_new X _) (repeat_length _ _)) as (k2 & E2).
  rewrite set_new, <- app_assoc in E2. cbn [app] in E2. exists k2. unfold life_se_gen, life_sm4_init. run ltac:(exact E1).
  run ltac:(eapply load_eq; [rewrite look_old by exact Lo; exact E|exact C]).
  change (match e with Num 0 => 0%N | _ => 1%N end) with (mode_of e). run ltac:(exact E2).
  rewrite (write_eq lo 1 (map Num maps) cs); [|rewrite look_old by exact Lo; exact E|rewrite map_length; lia].
  rewrite set_old by exact Lo. rewrite map_length, skipn_all2 by lia. rewrite app_nil_r. destruct cs as [|c cs]; [discriminate|].
  injection C as ->. reflexivity.
Qed.
Lemma fine_segen h key maps env X k : inv (env, mkmem X k) -> fine (SeGen h key maps) (env, mkmem X k).
Proof.
  intros I. destruct (get_h env h) as [x|] eqn:G; [|left; cbn [make fst]; now rewrite G].
  destruct x as [[n|d| | | | |] p r]; try (left; cbn [make fst]; rewrite G; reflexivity).
  destruct ((n =? se_cells) && (length maps =? se_cells - 1)) eqn:T; [|left; cbn [make fst]; rewrite G, T; reflexivity].
  pose proof G as G0. apply andb_prop in T as T'. destruct T' as [T1 T2]. apply Nat.eqb_eq in T1, T2.
  apply get_h_some in G as (G & R & N). cbn [h_released h_ptr] in R, N. subst r.
  destruct (object _ _ _ _ _ I G N) as (lo & P & LO & S). cbn [h_kind h_ptr h_released] in *. subst p. destruct S as (cs & S & Lc). apply look_seg1 in S.
  assert (SP : 0 < se_cells) by (unfold se_cells; lia).
  destruct (nth_error cs 0) as [e|] eqn:C; [|apply nth_error_None in C; lia].
  destruct (se_gen_total lo key maps cs e X k S C ltac:(lia)) as (k' & E).
  eapply (fine_one _ env X k h _ lo _ cs (mkh (KCtx n) (Ptr lo) false));
    [exact I|exact G|reflexivity|reflexivity|reflexivity|reflexivity|exact S| | | |reflexivity].
  2:{ rewrite (set_same env h _ G). cbn [make fst]. rewrite G0, T. exact (use_ret _ _ _ _ _ E). }
  - exists (e :: map Num maps). split; [reflexivity|]. cbn [length]. rewrite map_length. lia.
  - reflexivity.
Qed.
Lemma set_env_same env h x (y : handle) : nth_error env h = Some x -> y = x -> set env h y = env.
Proof. intros E ->. now apply set_same. Qed.
Lemma lives_pair A B C : lives (A ++ (B ++ C)) = lives A + lives B + lives C.
Proof. rewrite !lives_app. lia. Qed.
Lemma fine_wbgen h key env X k : inv (env, mkmem X k) -> fine (WbGen h key) (env, mkmem X k).
Proof.
  intros I. destruct (get_h env h) as [x|] eqn:G; [|left; cbn [make fst]; now rewrite G].
  destruct x as [[n|d| | | | |] p r]; try (left; cbn [make fst]; rewrite G; reflexivity).
  pose proof G as G0. apply get_h_some in G as (G & R & N). cbn [h_released h_ptr] in R, N. subst r.
  destruct (object _ _ _ _ _ I G N) as (lo & P & LO & S). cbn [h_kind h_ptr h_released] in *. subst p.
  destruct (seg_split lo (span (KWb d)) X LO) as (Bx & Z & EX & LB). destruct S as (By & ev & LBy & IT).
  set (L := seg lo (span (KWb d)) X) in *. assert (IT' : intact (32 + 4 * d) Bx ev L) by (unfold intact in *; congruence).
  destruct (wbsm4_gen_total al tab dummy d key Bx Z L k ev rich IT') as (L' & D & k' & E & I' & F).
  rewrite <- EX, LB in E. pose proof (proj1 IT') as LL. pose proof (proj1 I') as LL'.
  assert (LX : length X = lo + (length L + length Z)) by (rewrite EX, !app_length; lia).
  eapply (fine_any _ env X k h _ lo (mkh (KWb d) (Ptr lo) false) (Bx ++ (L' ++ (Z ++ D))) k'); [exact I|exact G|reflexivity|reflexivity|reflexivity| | | | | |reflexivity].
  - rewrite (set_same env h _ G). cbn [make fst]. rewrite G0. exact (use_ret _ _ _ _ _ E).
  - rewrite !app_length. lia.
  - cbn [h_kind]. change (span (KWb d)) with (5 + 31 * (32 + 4 * d)). intros a La Ha. rewrite EX. destruct (Nat.lt_ge_cases a lo) as [Q|Q].
    + rewrite !look_old by lia. reflexivity.
    + rewrite (nth_error_app2 Bx (L' ++ Z ++ D)), (nth_error_app2 Bx (L ++ Z)), (nth_error_app2 L'), (nth_error_app2 L) by lia.
      rewrite LL, LL'. rewrite look_old; [reflexivity|]. lia.
  - cbn [h_kind h_released shape]. exists Bx, ev. split; [exact LB|]. rewrite <- LB. change (span (KWb d)) with (5 + 31 * (32 + 4 * d)). rewrite <- LL'.
    replace (seg (length Bx) (length L') (Bx ++ L' ++ Z ++ D)) with L'; [exact I'|]. symmetry. rewrite app_assoc.
    rewrite (seg_ext (Bx ++ L')); [apply seg_end|]. intros a Ha. apply look_old. rewrite app_length. lia.
  - cbn [leaves]. rewrite EX. rewrite !lives_app. rewrite (lives_all L), (lives_all L') by (apply IT' || apply I').
    rewrite (lives_filter D 1 _ F eq_refl). rewrite LL, LL'. lia.
Qed.

Lemma is_gcm_object env key f h : is_key env key -> is_gcm env (mkblk true (gcm_object key f h)).
Proof.
  intros K. exists (gcm_object key f h), key, f. destruct (length_init_tables h) as [L1 L2].
  assert (Q : forall j, j < 2 -> nth_error (gcm_object key f h) (82 + j) = nth_error [key; Code f] j).
  { intros j Hj. unfold gcm_object. rewrite nth_error_app2 by (cbn; lia). rewrite nth_error_app2 by (rewrite map_length, L2; cbn; lia).
    rewrite nth_error_app2 by (rewrite !map_length, L1, L2; cbn; lia). rewrite nth_error_app2 by (rewrite !map_length, L1, L2, repeat_length; cbn; lia).
    rewrite !map_length, L1, L2, repeat_length. f_equal. cbn. lia. }
  split; [reflexivity|]. split; [|split; [exact (Q 0 ltac:(lia))|split; [exact (Q 1 ltac:(lia))|exact K]]].
  unfold gcm_object, gcm_cells. rewrite !app_length, !map_length, L1, L2, repeat_length. reflexivity.
Qed.
Lemma fine_gcm h f env X k : inv (env, mkmem X k) -> fine (Gcm h f) (env, mkmem X k).
Proof.
  intros I. destruct (get_key env h) as [p|] eqn:G; [|left; cbn [make fst]; now rewrite G]. pose proof (get_key_some _ _ _ G) as K.
  destruct (ask_key env X k f p (repeat 0%N 16) I K [mkblk true (gcm_blank p f)] (S k)) as (hh & A).
  destruct (gcm_init_eq al rich blk p f X k (Some hh) A) as (k' & E). cbn beta iota in E.
  eapply (fine_create (Gcm h f)); [exact I|cbn [make fst]; rewrite G; reflexivity|exact E| |reflexivity|reflexivity].
  left. repeat split. exists (mkblk true (gcm_object p f hh)). split; [reflexivity|]. apply is_gcm_object. now apply is_key_app.
Qed.
Lemma fine_wbgcm h f env X k : inv (env, mkmem X k) -> fine (WbGcm h f) (env, mkmem X k).
Proof.
  intros I. destruct (get_key env h) as [p|] eqn:G; [|left; cbn [make fst]; now rewrite G]. pose proof (get_key_some _ _ _ G) as K.
  destruct (ask_key env X k f p (repeat 0%N 16) I K [mkblk true (gcm_blank p f)] (S k)) as (hh & A).
  destruct (wbgcm_init_eq al rich blk p f X k (Some hh) A) as (k' & E). cbn beta iota in E.
  eapply (fine_create (WbGcm h f)); [exact I|cbn [make fst]; rewrite G; reflexivity|exact E| |reflexivity|reflexivity].
  left. repeat split. exists (mkblk true (gcm_object p f hh)). split; [reflexivity|]. apply is_gcm_object. now apply is_key_app.
Qed.
Lemma fine_gcmfile h f env X k : inv (env, mkmem X k) -> fine (GcmFile h f) (env, mkmem X k).
Proof.
  intros I. destruct (get_key env h) as [p|] eqn:G; [|left; cbn [make fst]; now rewrite G]. pose proof (get_key_some _ _ _ G) as K.
  destruct (ask_key env X k f p (repeat 0%N 16) I K [mkblk true (gcmfile_object Junk); mkblk true (gcm_blank p f)] (S (S k))) as (hh & A).
  assert (A' : blk f (at_call p f (X ++ [mkblk true (gcmfile_object Junk)]) (S k)) p (repeat 0%N 16) = Ret (Some hh)).
  { unfold at_call. rewrite <- app_assoc. exact A. }
  destruct (gcmfile_init_eq al rich blk p f X k (Some hh) A') as (k' & E). cbn beta iota in E.
  eapply (fine_create (GcmFile h f)); [exact I|cbn [make fst]; rewrite G; reflexivity|exact E| |reflexivity|reflexivity].
  left. repeat split. eexists _, _. split; [reflexivity|]. split; [reflexivity|]. apply is_gcm_object. now apply is_key_app.
Qed.
Lemma gcm_block_total env X k lo bl b : inv (env, mkmem X k) -> nth_error X lo = Some bl -> is_gcm env bl ->
  exists r, life_gcm_block blk (Ptr lo) b (mkmem X k) = Ret (r, mkmem X k).
Proof.
  intros I E (cs & key & f & -> & Lc & C1 & C2 & K). destruct (ask_key env X k f key b I K [] k) as (hh & A). rewrite app_nil_r in A.
  eexists. unfold life_gcm_block. run ltac:(eapply load_eq; [exact E|exact C2]). run ltac:(eapply load_eq; [exact E|exact C1]).
  rewrite A. reflexivity.
Qed.
Lemma fine_gcmuse h b env X k : inv (env, mkmem X k) -> fine (GcmUse h b) (env, mkmem X k).
Proof.
  intros I. destruct (get_h env h) as [x|] eqn:G; [|left; cbn [make fst]; now rewrite G].
  destruct x as [[n|d| | | | |] p r]; try (left; cbn [make fst]; rewrite G; reflexivity);
    pose proof G as G0; apply get_h_some in G as (G & R & N); cbn [h_released h_ptr] in R, N; subst r;
    destruct (object _ _ _ _ _ I G N) as (lo & P & LO & S); cbn [h_kind h_ptr h_released] in *; subst p.
  - destruct S as (bl & S & Q). apply look_seg1 in S. destruct (gcm_block_total env X k lo bl b I S Q) as (r & E). rewrite <- (app_nil_r X) in E at 2.
    eapply (fine_use (GcmUse h b)); [exact I|cbn [make fst]; rewrite G0; reflexivity|exact E|reflexivity].
  - destruct S as (cs & bl & S & C & Q).
    assert (E0 : nth_error X lo = Some (mkblk true cs)) by (rewrite <- (Nat.add_0_r lo), (seg_look lo (span KFile)) by (cbn; lia); rewrite S; reflexivity).
    assert (E1 : nth_error X (Datatypes.S lo) = Some bl) by (rewrite <- (Nat.add_1_r lo), (seg_look lo (span KFile)) by (cbn; lia); rewrite S; reflexivity).
    destruct (gcm_block_total env X k (Datatypes.S lo) bl b I E1 Q) as (r & E).
    assert (E' : life_gcmfile_block blk (Ptr lo) b (mkmem X k) = Ret (r, mkmem (X ++ []) k)).
    { unfold life_gcmfile_block. run ltac:(eapply load_eq; [exact E0|exact C]). rewrite app_nil_r. exact E. }
    eapply (fine_use (GcmUse h b)); [exact I|cbn [make fst]; rewrite G0; reflexivity|exact E'|reflexivity].
  - destruct S as (bl & S & Q). apply look_seg1 in S. destruct (gcm_block_total env X k lo bl b I S Q) as (r & E). rewrite <- (app_nil_r X) in E at 2.
    eapply (fine_use (GcmUse h b)); [exact I|cbn [make fst]; rewrite G0; reflexivity|exact E|reflexivity].
Qed.
Lemma fine_fpe h tweak radix f env X k : inv (env, mkmem X k) -> fine (Fpe h tweak radix f) (env, mkmem X k).
Proof.
  intros I. destruct (get_key env h) as [p|] eqn:G; [|left; cbn [make fst]; now rewrite G].
  destruct (fpe_init_eq al rich tweak radix p f X k) as (k' & E). destruct (good_radix radix).
  - eapply (fine_create (Fpe h tweak radix f)); [exact I|cbn [make fst]; rewrite G; reflexivity|exact E| |reflexivity|reflexivity].
    left. repeat split. unfold fpe_object. do 5 eexists. reflexivity.
  - eapply (fine_create (Fpe h tweak radix f)); [exact I|cbn [make fst]; rewrite G; reflexivity|exact E|right; reflexivity|reflexivity|reflexivity].
Qed.
Lemma fine_mac h tweak radix f env X k : inv (env, mkmem X k) -> fine (Mac h tweak radix f) (env, mkmem X k).
Proof.
  intros I. destruct (get_key env h) as [p|] eqn:G; [|left; cbn [make fst]; now rewrite G].
  destruct (mac_init_eq al rich tweak radix p f X k) as (k' & E). destruct (good_radix radix).
  - eapply (fine_create (Mac h tweak radix f)); [exact I|cbn [make fst]; rewrite G; reflexivity|exact E| |reflexivity|reflexivity].
    left. repeat split. unfold fpe_object. do 5 eexists. reflexivity.
  - eapply (fine_create (Mac h tweak radix f)); [exact I|cbn [make fst]; rewrite G; reflexivity|exact E|right; reflexivity|reflexivity|reflexivity].
Qed.
Lemma fine_scratch sizes env X k : inv (env, mkmem X k) -> fine (Scratch sizes) (env, mkmem X k).
Proof.
  intros I. destruct (scratch_eq al rich sizes X k) as (D & k' & E & F).
  eapply (fine_use (Scratch sizes)); [exact I|reflexivity|exact E|exact (lives_filter D 0 _ F eq_refl)].
Qed.
Lemma fine_appcall h f tweak radix sizes env X k : inv (env, mkmem X k) -> fine (AppCall h f tweak radix sizes) (env, mkmem X k).
Proof.
  intros I. destruct (get_key env h) as [p|] eqn:G; [|left; cbn [make fst]; now rewrite G].
  destruct (app_call_eq al rich p f tweak radix sizes X k) as (D & k' & E & F).
  eapply (fine_use (AppCall h f tweak radix sizes)); [exact I|cbn [make fst]; rewrite G; reflexivity|exact E|].
  unfold lives. rewrite F. cbn [leaves]. unfold good_radix. now destruct ((radix <? 2)%N || (36 <? radix)%N).
Qed.
Lemma fine_parallel n ctr env X k : inv (env, mkmem X k) -> fine (Parallel n ctr) (env, mkmem X k).
Proof.
  intros I. destruct (forallb (fun i => length (ctr i) =? 16) (seq 0 (len_s n))) eqn:G; [|left; cbn [make fst]; now rewrite G].
  assert (H : forall i, i < len_s n -> length (ctr i) = 16).
  { intros i Hi. rewrite forallb_forall in G. apply Nat.eqb_eq, G, in_seq. lia. }
  destruct (parallel_eq al rich n ctr X k H) as (L & k' & E & LL & AL & _).
  eapply (fine_use (Parallel n ctr)); [exact I|cbn [make fst]; rewrite G; reflexivity|exact E|]. rewrite lives_all by exact AL. exact LL.
Qed.
Lemma fine_cbc inp padded env X k : inv (env, mkmem X k) -> fine (CbcEncrypt inp padded) (env, mkmem X k).
Proof.
  intros I. destruct (length inp <=? length padded) eqn:G; [|left; cbn [make fst]; now rewrite G]. pose proof G as G0. apply Nat.leb_le in G.
  destruct (cbc_encrypt_eq al rich inp padded X k G) as (k' & E).
  eapply (fine_use (CbcEncrypt inp padded)); [exact I|cbn [make fst]; rewrite G0; reflexivity|exact E|reflexivity].
Qed.

(** ** Releasing *)
Lemma fine_release h env X k : inv (env, mkmem X k) -> fine (Release h) (env, mkmem X k).
Proof.
  intros I. destruct (nth_error env h) as [[kd p rel]|] eqn:G; [|left; cbn [make fst]; now rewrite G].
  destruct rel; [left; cbn [make fst]; now rewrite G|].
  destruct (is_null p) eqn:N.
  - (* NULL *)
    assert (Q : make al blk tab dummy (Release h) (env, mkmem X k) = Abort \/
      (match kd with KFpe | KMac => True | _ => False end) /\ make al blk tab dummy (Release h) (env, mkmem X k) = Ret (set env h (mkh kd p true), mkmem X k)).
    { cbn [make fst]. rewrite G, N. destruct kd; auto; right; (split; [exact Logic.I|]);
        unfold release, life_fpe_free, life_mac_free; cbn [fst snd]; rewrite N; reflexivity. }
    destruct Q as [Q|(W & Q)]; [left; exact Q|]. right. rewrite Q. eexists. split; [reflexivity|].
    pose proof (occ_set env h _ (mkh kd p true) G) as OS. assert (Li : h < length env) by (apply nth_error_Some; congruence).
    split; [|split].
    + destruct I as (A & B). split; cbn [fst snd m_blocks] in *.
      * intros j z Ez. rewrite nth_error_set_lt in Ez by auto. destruct (Nat.eqb_spec j h) as [J|J].
        -- injection Ez as <-. unfold placed. cbn [h_ptr]. destruct p; auto; discriminate.
        -- apply (placed_mono env); [intros q; now apply (is_key_set env h _ _ q G)|]. eapply A, Ez.
      * intros j j' z z' Hj Ez Ez'. rewrite nth_error_set_lt in Ez, Ez' by auto. unfold before.
        destruct (Nat.eqb_spec j h) as [J|J]; [injection Ez as <-; cbn [h_ptr]; destruct p; auto; discriminate|].
        destruct (Nat.eqb_spec j' h) as [J'|J']; [injection Ez' as <-; cbn [h_ptr]; destruct p, (h_ptr z); auto; discriminate|].
        exact (B _ _ _ _ Hj Ez Ez').
    + cbn [fst snd m_blocks leaves]. unfold occupies in OS. cbn [h_kind h_ptr h_released] in OS. rewrite N in OS. destruct kd; try contradiction; lia.
    + intros j _ z lz a Ez Pz Ha. reflexivity.
  - destruct (object _ _ _ _ _ I G N) as (lo & P & LO & S). cbn [h_kind h_ptr h_released] in *. subst p.
    assert (WB : forall d, kd = KWb d -> fine (Release h) (env, mkmem X k)).
    { intros d ->. destruct S as (By & ev & LBy & (LL & T & AL & _)). destruct (proj1 T) as (cs & Ec & Lc).
      assert (E0 : nth_error X lo = Some (mkblk true cs)) by (rewrite <- (Nat.add_0_r lo), (seg_look lo (span (KWb d))) by (cbn; lia); exact Ec).
      assert (Lo : lo < length X) by (apply nth_error_Some; congruence).
      eapply (fine_any _ env X k h _ lo (mkh (KWb d) (Ptr lo) true) (set X lo (mkblk true (repeat (Num 0) (length cs)))) k);
        [exact I|exact G|reflexivity|reflexivity|reflexivity| | | | | |reflexivity].
      - cbn [make fst]. rewrite G. cbn [is_null]. apply (release_ret _ env h). apply zero_eq. exact E0.
      - rewrite length_set. lia.
      - cbn [h_kind]. change (span (KWb d)) with (5 + 31 * (32 + 4 * d)). intros a La Ha. rewrite nth_error_set_lt by auto. destruct (Nat.eqb_spec a lo); [|reflexivity]. lia.
      - cbn [h_kind h_released shape]. exists (repeat (Num 0) (length cs)).
        set (X' := set X lo (mkblk true (repeat (Num 0) (length cs)))).
        assert (Q : nth_error (seg lo (span (KWb d)) X') 0 = Some (mkblk true (repeat (Num 0) (length cs)))).
        { rewrite nth_error_seg, Nat.add_0_r. unfold X'. rewrite nth_error_set_lt, Nat.eqb_refl by auto. reflexivity. }
        destruct (seg lo (span (KWb d)) X') as [|b L']; [discriminate|]. injection Q as ->. now exists L'.
      - cbn [leaves]. pose proof (lives_set X lo _ (mkblk true (repeat (Num 0) (length cs))) E0) as Q. cbn [b_live] in Q.
        unfold occupies. cbn [h_kind]. lia. }
    destruct kd as [n|d| | | | |].
    + (* cipher contexts in one block *)
      destruct S as (cs & S & Lc). apply look_seg1 in S.
      eapply (fine_one _ env X k h _ lo (mkblk true (repeat (Num 0) (length cs))) cs (mkh (KCtx n) (Ptr lo) true) []);
        [exact I|exact G|reflexivity|reflexivity|reflexivity|reflexivity|exact S| | |reflexivity|reflexivity].
      * exists (repeat (Num 0) (length cs)). split; [reflexivity|]. now rewrite repeat_length.
      * cbn [make fst]. rewrite G, app_nil_r. cbn [is_null]. apply (release_ret _ env h). apply zero_eq. exact S.
    + now apply (WB d).
    + destruct S as (b & S & (cs & key & f & -> & _)). apply look_seg1 in S.
      eapply (fine_one _ env X k h _ lo (mkblk true (repeat (Num 0) (length cs))) cs (mkh KGcm (Ptr lo) true) []);
        [exact I|exact G|reflexivity|reflexivity|reflexivity|reflexivity|exact S|exact Logic.I| |reflexivity|reflexivity].
      cbn [make fst]. rewrite G, app_nil_r. cbn [is_null]. apply (release_ret _ env h). apply zero_eq. exact S.
    + (* GCM for files *)
      destruct S as (cs & bl & S & C & Q).
      assert (E0 : nth_error X lo = Some (mkblk true cs)) by (rewrite <- (Nat.add_0_r lo), (seg_look lo (span KFile)) by (cbn; lia); rewrite S; reflexivity).
      assert (Lo : lo < length X) by (apply nth_error_Some; congruence).
      eapply (fine_any _ env X k h _ lo (mkh KFile (Ptr lo) true) (set X lo (mkblk true (repeat (Num 0) (length cs)))) k);
        [exact I|exact G|reflexivity|reflexivity|reflexivity| | | |exact Logic.I| |reflexivity].
      * cbn [make fst]. rewrite G. cbn [is_null]. apply (release_ret _ env h). apply zero_eq. exact E0.
      * rewrite length_set. lia.
      * cbn [h_kind span]. intros a La Ha. rewrite nth_error_set_lt by auto. destruct (Nat.eqb_spec a lo); [|reflexivity]. lia.
      * cbn [leaves]. pose proof (lives_set X lo _ (mkblk true (repeat (Num 0) (length cs))) E0) as Q'. cbn [b_live] in Q'.
        unfold occupies. cbn [h_kind]. lia.
    + destruct S as (b & S & (cs & key & f & -> & _)). apply look_seg1 in S.
      eapply (fine_one _ env X k h _ lo (mkblk false (repeat (Num 0) (length cs))) cs (mkh KWbgcm (Ptr lo) true) []);
        [exact I|exact G|reflexivity|reflexivity|reflexivity|reflexivity|exact S|exact Logic.I| |reflexivity|reflexivity].
      cbn [make fst]. rewrite G, app_nil_r. cbn [is_null]. apply (release_ret _ env h). apply wbgcm_free_eq. exact S.
    + (* FPE *)
      destruct S as (c0 & c1 & c2 & c4 & ct & S).
      assert (E0 : nth_error X lo = Some (mkblk true [c0; c1; c2; Ptr (Datatypes.S lo); c4])) by (rewrite <- (Nat.add_0_r lo) at 1; rewrite (seg_look lo (span KFpe)) by (cbn; lia); rewrite S; reflexivity).
      assert (E1 : nth_error X (Datatypes.S lo) = Some (mkblk true ct)) by (rewrite <- (Nat.add_1_r lo), (seg_look lo (span KFpe)) by (cbn; lia); rewrite S; reflexivity).
      assert (L1 : Datatypes.S lo < length X) by (apply nth_error_Some; congruence).
      eapply (fine_any _ env X k h _ lo (mkh KFpe (Ptr lo) true)
        (set (set X (Datatypes.S lo) (mkblk false ct)) lo (mkblk false [c0; c1; c2; Ptr (Datatypes.S lo); c4])) k);
        [exact I|exact G|reflexivity|reflexivity|reflexivity| | | |exact Logic.I| |reflexivity].
      * cbn [make fst]. rewrite G. apply (release_ret _ env h). apply fpe_free_eq; [lia|exact E0|exact E1].
      * rewrite !length_set. lia.
      * cbn [h_kind span]. intros a La Ha. rewrite !nth_error_set_lt by (rewrite ?length_set; lia).
        destruct (Nat.eqb_spec a lo); [lia|]. destruct (Nat.eqb_spec a (Datatypes.S lo)); [lia|reflexivity].
      * cbn [leaves]. pose proof (lives_set X (Datatypes.S lo) _ (mkblk false ct) E1) as Q1. cbn [b_live] in Q1.
        assert (E0' : nth_error (set X (Datatypes.S lo) (mkblk false ct)) lo = Some (mkblk true [c0; c1; c2; Ptr (Datatypes.S lo); c4])).
        { rewrite nth_error_set_lt by auto. destruct (Nat.eqb_spec lo (Datatypes.S lo)); [lia|exact E0]. }
        pose proof (lives_set _ lo _ (mkblk false [c0; c1; c2; Ptr (Datatypes.S lo); c4]) E0') as Q2. cbn [b_live] in Q2.
        unfold occupies. cbn [h_kind h_ptr h_released is_null]. lia.
    + (* FF1-CMAC *)
      destruct S as (c0 & c1 & c2 & c4 & ct & S).
      set (l1 := Datatypes.S lo) in *. set (l2 := Datatypes.S l1) in *.
      assert (E0 : nth_error X lo = Some (mkblk true [Ptr l1])) by (rewrite <- (Nat.add_0_r lo) at 1; rewrite (seg_look lo (span KMac)) by (cbn; lia); rewrite S; reflexivity).
      assert (E1 : nth_error X l1 = Some (mkblk true [c0; c1; c2; Ptr l2; c4])).
      { replace l1 with (lo + 1) at 1 by lia. rewrite (seg_look lo (span KMac)) by (cbn; lia); rewrite S; reflexivity. }
      assert (E2 : nth_error X l2 = Some (mkblk true ct)).
      { replace l2 with (lo + 2) by lia. rewrite (seg_look lo (span KMac)) by (cbn; lia); rewrite S; reflexivity. }
      assert (L2 : l2 < length X) by (apply nth_error_Some; congruence). assert (N1 : lo < l1) by lia. assert (N2 : l1 < l2) by lia.
      set (o1 := [c0; c1; c2; Ptr l2; c4]) in *.
      eapply (fine_any _ env X k h _ lo (mkh KMac (Ptr lo) true)
        (set (set (set X l2 (mkblk false ct)) l1 (mkblk false o1)) lo (mkblk false [Ptr l1])) k);
        [exact I|exact G|reflexivity|reflexivity|reflexivity| | | |exact Logic.I| |reflexivity].
      * cbn [make fst]. rewrite G. apply (release_ret _ env h). apply mac_free_eq; try lia; assumption.
      * rewrite !length_set. lia.
      * cbn [h_kind span]. intros a La Ha. rewrite !nth_error_set_lt by (rewrite ?length_set; lia).
        destruct (Nat.eqb_spec a lo); [lia|]. destruct (Nat.eqb_spec a l1); [lia|]. destruct (Nat.eqb_spec a l2); [lia|reflexivity].
      * cbn [leaves]. pose proof (lives_set X l2 _ (mkblk false ct) E2) as Q1. cbn [b_live] in Q1.
        assert (E1' : nth_error (set X l2 (mkblk false ct)) l1 = Some (mkblk true o1)).
        { rewrite nth_error_set_lt by auto. destruct (Nat.eqb_spec l1 l2); [lia|exact E1]. }
        pose proof (lives_set _ l1 _ (mkblk false o1) E1') as Q2. cbn [b_live] in Q2.
        assert (E0' : nth_error (set (set X l2 (mkblk false ct)) l1 (mkblk false o1)) lo = Some (mkblk true [Ptr l1])).
        { rewrite !nth_error_set_lt by (rewrite ?length_set; lia). destruct (Nat.eqb_spec lo l1); [lia|]. destruct (Nat.eqb_spec lo l2); [lia|exact E0]. }
        pose proof (lives_set _ lo _ (mkblk false [Ptr l1]) E0') as Q3. cbn [b_live] in Q3.
        unfold occupies. cbn [h_kind h_ptr h_released is_null]. lia.
Qed.

Lemma make_fine c st : inv st -> fine c st.
Proof.
  destruct st as [env [X k]]. intros I. destruct c.
  - now apply fine_context. - now apply fine_se. - now apply fine_wb. - now apply fine_sm4key. - now apply fine_segen. - now apply fine_wbgen.
  - now apply fine_gcm. - now apply fine_gcmfile. - now apply fine_wbgcm. - now apply fine_gcmuse. - now apply fine_fpe. - now apply fine_mac.
  - now apply fine_scratch. - now apply fine_appcall. - now apply fine_parallel. - now apply fine_cbc. - now apply fine_release.
Qed.
Lemma play_abort cs : fold_left (fun s c => obind s (make al blk tab dummy c)) cs Abort = Abort.
Proof. induction cs as [|c cs IH]; [reflexivity|]. exact IH. Qed.
Lemma play_fine cs : forall st, inv st ->
  play al blk tab dummy cs st = Abort \/
  exists st', play al blk tab dummy cs st = Ret st' /\ inv st' /\
    lives (m_blocks (snd st')) + occ (fst st) = lives (m_blocks (snd st)) + occ (fst st') + total (map leaves cs).
Proof.
  unfold play. induction cs as [|c cs IH]; intros st I.
  - right. exists st. split; [reflexivity|]. split; [exact I|]. cbn. lia.
  - cbn [fold_left obind]. destruct (make_fine c st I) as [E|(st1 & E & I1 & L1 & _)]; rewrite E.
    + left. apply play_abort.
    + destruct (IH st1 I1) as [E2|(st2 & E2 & I2 & L2)]; [left; exact E2|]. right. exists st2. split; [exact E2|]. split; [exact I2|].
      unfold total in *. cbn [map fold_right]. lia.
Qed.
Definition nothing : state := ([], mkmem [] 0).
Lemma inv_nothing : inv nothing.
Proof. split; cbn [nothing fst snd m_blocks]; intros [|i]; intros; discriminate. Qed.
Lemma play_safe_lemma cs : play al blk tab dummy cs nothing <> Undef.
Proof. destruct (play_fine cs nothing inv_nothing) as [E|(st & E & _)]; rewrite E; discriminate. Qed.
Lemma play_memory_lemma cs env m : play al blk tab dummy cs nothing = Ret (env, m) ->
  live_blocks m = total (map occupies env) + total (map leaves cs).
Proof.
  intros P. destruct (play_fine cs nothing inv_nothing) as [E|(st & E & _ & L)]; [congruence|]. assert (st = (env, m)) by congruence. subst st.
  cbn [fst snd nothing m_blocks] in L. change (live_blocks m) with (lives (m_blocks m)). unfold occ in L. cbn [lives filter length map total fold_right] in L.
  rewrite Nat.add_0_r in L. exact L.
Qed.
Lemma play_untouched_lemma cs c st st' j : play al blk tab dummy cs nothing = Ret st -> make al blk tab dummy c st = Ret st' ->
  subject c <> Some j -> untouched j st st'.
Proof.
  intros P M S. destruct (play_fine cs nothing inv_nothing) as [E|(st0 & E & I & _)]; [congruence|]. assert (st0 = st) by congruence. subst st0.
  destruct (make_fine c st I) as [E1|(st1 & E1 & _ & _ & U)]; [congruence|]. assert (st1 = st') by congruence. subst st1. now apply U.
Qed.
End Safe.
