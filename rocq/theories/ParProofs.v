From Verif Require Import Base CbcModel CbcSpec CbcProofs GcmModel GcmSpec GfProofs GcmProofs ParModel Toy.
Local Open Scope nat_scope.

Lemma len_s_nblk n : 0 < n -> len_s n = nblk n.
Proof.
  intros H. unfold len_s, nblk. destruct (Nat.eqb_spec n 0); [lia|].
  replace (n + 15) with (n - 1 + 1 * 16) by lia. rewrite Nat.div_add by lia. reflexivity.
Qed.
Lemma use_len_bounds n i : 0 < n -> i < len_s n -> 0 < use_len n i <= 16 /\ 16 * i + use_len n i <= n.
Proof.
  intros Hn Hi. unfold use_len, len_s in *. destruct (Nat.eqb_spec n 0); [lia|].
  pose proof (Nat.div_mod (n - 1) 16 ltac:(lia)) as E. set (q := (n - 1) / 16) in *.
  pose proof (Nat.mod_upper_bound (n - 1) 16 ltac:(lia)).
  assert (M : n mod 16 = ((n - 1) mod 16 + 1) mod 16).
  { rewrite Nat.add_mod_idemp_l by lia. f_equal. lia. }
  set (r := (n - 1) mod 16) in *.
  destruct (Nat.eqb_spec i (q + 1 - 1)).
  - destruct (Nat.eqb_spec (n mod 16) 0) as [Z|Z].
    + assert (r = 15). { destruct (Nat.eq_dec r 15); auto. rewrite M, Nat.mod_small in Z by lia. lia. }
      lia.
    + assert (r < 15). { destruct (Nat.eq_dec r 15) as [R|R]; [|lia]. rewrite M, R in Z. cbn in Z. lia. }
      rewrite M, Nat.mod_small by lia. lia.
  - lia.
Qed.
Lemma pos_in_use n k : k < n -> k / 16 < len_s n /\ k mod 16 < use_len n (k / 16).
Proof.
  intros Hk. pose proof (Nat.div_mod k 16 ltac:(lia)) as E.
  pose proof (Nat.mod_upper_bound k 16 ltac:(lia)).
  pose proof (Nat.div_mod (n - 1) 16 ltac:(lia)) as E2.
  pose proof (Nat.mod_upper_bound (n - 1) 16 ltac:(lia)).
  assert (k / 16 <= (n - 1) / 16) by (apply Nat.div_le_mono; lia).
  unfold use_len, len_s. destruct (Nat.eqb_spec n 0); [lia|].
  split; [lia|].
  destruct (Nat.eqb_spec (k / 16) ((n - 1) / 16 + 1 - 1)) as [Q|Q]; [|lia].
  destruct (Nat.eqb_spec (n mod 16) 0) as [Z|Z]; [lia|].
  assert (n mod 16 = (n - 1) mod 16 + 1).
  { symmetry. apply (Nat.mod_unique _ _ ((n - 1) / 16)); [|lia].
    destruct (Nat.eq_dec ((n - 1) mod 16) 15) as [R|R]; [|lia].
    exfalso. apply Z. symmetry. apply (Nat.mod_unique _ _ ((n-1)/16 + 1)); lia. }
  lia.
Qed.

Section Region.
  Variable E : list N -> list N.
  Variable ys : list (list N).
  Variable inp : list N.
  Hypothesis HE : forall i, i < len_s (length inp) -> length (E (nth i ys [])) = 16.
  Hypothesis Hin : 0 < length inp.
  Let n := length inp.
  (** the value position k must get *)
  Definition target (k : nat) : N := N.lxor (nth (k mod 16) (E (nth (k / 16) ys [])) 0%N) (get inp k).

  (** position k still has to be written by worker t *)
  Definition pend (t : thr) (j k : nat) : Prop :=
    In (k / 16) (t_todo t) \/
    match t_run t with
    | None => False
    | Some (i, PInit) => k / 16 = i
    | Some (i, PTest) | Some (i, PBody) => k / 16 = i /\ j <= k mod 16
    | Some (i, PInc) => k / 16 = i /\ j < k mod 16
    end.
  Definition tinv (t : thr) (j : nat) : Prop :=
    Forall (fun i => i < len_s n) (t_todo t) /\
    match t_run t with
    | None => True
    | Some (i, PInit) | Some (i, PTest) => i < len_s n
    | Some (i, PBody) | Some (i, PInc) => i < len_s n /\ j < use_len n i
    end.

  Lemma nth_error_get l k : k < length l -> nth_error l k = Some (nth k l 0%N).
  Proof. intros H. apply nth_error_nth'. exact H. Qed.
  Lemma divmod16 i j : j < 16 -> (16 * i + j) / 16 = i /\ (16 * i + j) mod 16 = j.
  Proof.
    intros H. split.
    - symmetry. apply (Nat.div_unique _ _ _ j); lia.
    - symmetry. apply (Nat.mod_unique _ _ i); lia.
  Qed.

  Lemma local_step_ok t j out : tinv t j -> n <= length out ->
    exists t' j' out', local_step E ys inp t j out = Some (t', j', out') /\ tinv t' j' /\
      length out' = length out /\ t_j t' = t_j t /\
      (t_run t = None -> t_run t' = None -> j' = j) /\
      (forall k, n <= k -> nth k out' 0%N = nth k out 0%N) /\
      (forall k, k < n -> pend t j k -> pend t' j' k \/ nth k out' 0%N = target k) /\
      (forall k, k < n -> nth k out 0%N = target k -> nth k out' 0%N = target k).
  Proof.
    intros [HT HR] Ho. unfold local_step. destruct t as [todo run tj]. cbn [t_todo t_run t_j] in *.
    destruct run as [[i ph]|].
    - destruct ph.
      + eexists; eexists; eexists. split; [reflexivity|]. split; [split; cbn [t_todo t_run]; auto|].
        do 4 (split; [solve [auto; discriminate]|]).
        split; auto. intros k Hk HP. left. unfold pend in *. cbn [t_todo t_run] in *.
        destruct HP as [HP|HP]; auto. right. split; auto. lia.
      + destruct (Nat.ltb_spec j (use_len (length inp) i)) as [L|L].
        * eexists; eexists; eexists. split; [reflexivity|]. split; [split; cbn [t_todo t_run]; auto|].
          do 4 (split; [solve [auto; discriminate]|]). split; auto.
        * eexists; eexists; eexists. split; [reflexivity|]. split; [split; cbn [t_todo t_run]; auto|].
          do 4 (split; [solve [auto; discriminate]|]). split; auto.
          intros k Hk HP. left. unfold pend in *. cbn [t_todo t_run] in *.
          destruct HP as [HP|[HP1 HP2]]; auto. exfalso.
          pose proof (pos_in_use (length inp) k Hk) as [_ P]. rewrite HP1 in P. lia.
      + destruct HR as [Hi Hj]. pose proof (use_len_bounds n i Hin Hi) as [UB1 UB2].
        rewrite (nth_error_get (E (nth i ys [])) j) by (rewrite HE; auto; lia). cbn [bind].
        rewrite (nth_error_get inp (16 * i + j)) by (fold n; lia). cbn [bind].
        destruct (Nat.ltb_spec (16 * i + j) (length out)) as [L|L]; [|lia].
        apply Nat.ltb_lt in L.
        assert (D := divmod16 i j ltac:(lia)). destruct D as [D1 D2].
        assert (TG : N.lxor (nth j (E (nth i ys [])) 0%N) (nth (16 * i + j) inp 0%N) = target (16 * i + j)).
        { unfold target. rewrite D1, D2. reflexivity. }
        eexists; eexists; eexists. split; [reflexivity|]. split; [split; cbn [t_todo t_run]; auto|].
        split; [apply length_set|]. repeat (split; [solve [auto; discriminate]|]).
        split; [intros k Hk; rewrite nth_set, L, andb_true_r; destruct (Nat.eqb_spec k (16 * i + j)); [lia|auto]|].
        split.
        * intros k Hk HP. unfold pend in *. cbn [t_todo t_run] in *.
          destruct HP as [HP|[HP1 HP2]]; auto.
          destruct (Nat.eq_dec (k mod 16) j) as [EQ|NE].
          -- right. assert (k = 16 * i + j) by (rewrite (Nat.div_mod k 16) by lia; lia). subst k.
             rewrite nth_set, L, andb_true_r. rewrite Nat.eqb_refl. exact TG.
          -- left. right. split; auto. lia.
        * intros k Hk HV. rewrite nth_set, L, andb_true_r.
          destruct (Nat.eqb_spec k (16 * i + j)); [subst; exact TG|auto].
      + destruct HR as [Hi Hj]. eexists; eexists; eexists. split; [reflexivity|]. split; [split; cbn [t_todo t_run]; auto|].
        do 4 (split; [solve [auto; discriminate]|]). split; auto.
        intros k Hk HP. left. unfold pend in *. cbn [t_todo t_run] in *.
        destruct HP as [HP|[HP1 HP2]]; auto. right. split; auto. lia.
    - destruct todo as [|i r].
      + eexists; eexists; eexists. split; [reflexivity|]. split; [split; cbn [t_todo t_run]; auto|].
        do 4 (split; [solve [auto; discriminate]|]). split; auto.
      + inversion HT; subst. eexists; eexists; eexists. split; [reflexivity|]. split; [split; cbn [t_todo t_run]; auto|].
        do 4 (split; [solve [auto; discriminate]|]). split; auto.
        intros k Hk HP. left. unfold pend in *. cbn [t_todo t_run] in *.
        destruct HP as [[HP|HP]|[]]; auto.
  Qed.

  (** ** private j: every interleaving *)
  Definition pinv (len : nat) (old : list N) (st : pstate) : Prop :=
    Forall (fun t => tinv t (t_j t)) (s_thr st) /\ length (s_out st) = len /\
    (forall k, n <= k -> nth k (s_out st) 0%N = nth k old 0%N) /\
    forall k, k < n -> (exists t, In t (s_thr st) /\ pend t (t_j t) k) \/ nth k (s_out st) 0%N = target k.

  Lemma nth_error_set_cases {A} (l : list A) i v t : In t (set l i v) -> t = v \/ In t l.
  Proof.
    revert i; induction l as [|x l IH]; intros [|i]; cbn [set In]; intuition. destruct (IH i H0); auto.
  Qed.
  Lemma set_keeps {A} (l : list A) i v x t : nth_error l i = Some x -> In t l -> t = x \/ In t (set l i v).
  Proof.
    revert i; induction l as [|y l IH]; intros [|i]; cbn [set In nth_error]; intros HN HI; try contradiction.
    - injection HN as ->. destruct HI; auto.
    - destruct HI as [HI|HI]; auto. destruct (IH i HN HI); auto.
  Qed.
  Lemma set_in {A} (l : list A) i v x : nth_error l i = Some x -> In v (set l i v).
  Proof. revert i; induction l as [|y l IH]; intros [|i]; cbn [set In nth_error]; intros HN; try discriminate; eauto. Qed.

  Lemma priv_step_ok len old st tid : n <= len -> pinv len old st ->
    exists st', priv_step E ys inp st tid = Some st' /\ pinv len old st'.
  Proof.
    intros Hlen (HT & HL & HF & HP). unfold priv_step.
    destruct (nth_error (s_thr st) tid) as [t|] eqn:EN; [|exists st; split; auto; split; auto].
    assert (Ht : tinv t (t_j t)) by (rewrite Forall_forall in HT; apply HT; eapply nth_error_In; eauto).
    destruct (local_step_ok t (t_j t) (s_out st) Ht ltac:(lia)) as (t' & j' & out' & ES & HI & HO & HJ & _ & HF' & HPD & HV).
    rewrite ES. cbn [bind]. eexists. split; [reflexivity|].
    assert (PE : forall k, pend (set_j t' j') j' k <-> pend t' j' k) by (intros k; reflexivity).
    split; [|split; [|split]]; cbn [s_thr s_out].
    - rewrite Forall_forall in HT |- *. intros u Hu. apply nth_error_set_cases in Hu as [->|Hu]; [exact HI|auto].
    - now rewrite HO.
    - intros k Hk. rewrite HF' by auto. auto.
    - intros k Hk. destruct (HP k Hk) as [(u & Hu & HU)|HU]; [|right; auto].
      destruct (set_keeps _ tid (set_j t' j') t u EN Hu) as [->|Hu'].
      + destruct (HPD k Hk HU) as [Q|Q]; auto. left. exists (set_j t' j'). split; [eapply set_in; eauto|exact Q].
      + left. eauto.
  Qed.
  Lemma priv_run_ok len old sched : n <= len -> forall st, pinv len old st ->
    exists st', run_sched (priv_step E ys inp) st sched = Some st' /\ pinv len old st'.
  Proof.
    intros Hl. induction sched as [|tid s IH]; intros st HP; cbn [run_sched].
    - eauto.
    - destruct (priv_step_ok len old st tid Hl HP) as (st1 & E1 & H1). rewrite E1. cbn [bind]. auto.
  Qed.

  (** ** shared j: exclusive schedules *)
  Definition sinv (len : nat) (old : list N) (st : pstate) : Prop :=
    Forall (fun t => tinv t (s_j st)) (s_thr st) /\ length (s_out st) = len /\
    (forall k, n <= k -> nth k (s_out st) 0%N = nth k old 0%N) /\
    forall k, k < n -> (exists t, In t (s_thr st) /\ pend t (s_j st) k) \/ nth k (s_out st) 0%N = target k.

  Lemma idle_tinv t j j' : t_run t = None -> tinv t j -> tinv t j'.
  Proof. unfold tinv. now intros ->. Qed.
  Lemma idle_pend t j j' k : t_run t = None -> pend t j k -> pend t j' k.
  Proof. unfold pend. now intros ->. Qed.

  Lemma in_set_nth {A} (l : list A) i v t : In t (set l i v) ->
    t = v \/ exists k, k <> i /\ nth_error l k = Some t.
  Proof.
    revert i; induction l as [|x l IH]; intros [|i]; cbn [set In]; intros H.
    - contradiction. - contradiction.
    - destruct H as [H|H]; auto. right. apply In_nth_error in H as [k Hk]. exists (S k). split; auto.
    - destruct H as [H|H]; [right; exists 0; split; auto; now subst|].
      destruct (IH i H) as [|[k [H1 H2]]]; auto. right. exists (S k). split; auto.
  Qed.
  Lemma nth_other_in_set {A} (l : list A) i k v t : k <> i -> nth_error l k = Some t -> In t (set l i v).
  Proof.
    revert i k; induction l as [|x l IH]; intros [|i] [|k]; cbn [set In nth_error]; intros NE H; try discriminate; auto.
    - lia. - right. now apply nth_error_In in H. - left. congruence. - right. apply (IH i k); auto.
  Qed.

  Lemma par_step_ok len old st tid : n <= len -> sinv len old st ->
    (forall k t, nth_error (s_thr st) k = Some t -> k <> tid -> t_run t = None) ->
    exists st', par_step E ys inp st tid = Some st' /\ sinv len old st'.
  Proof.
    intros Hlen (HT & HL & HF & HP) HX. unfold par_step.
    destruct (nth_error (s_thr st) tid) as [t|] eqn:EN; [|exists st; split; auto; split; auto].
    assert (Ht : tinv t (s_j st)) by (rewrite Forall_forall in HT; apply HT; eapply nth_error_In; eauto).
    destruct (local_step_ok t (s_j st) (s_out st) Ht ltac:(lia)) as (t' & j' & out' & ES & HI & HO & HJ & _ & HF' & HPD & HV).
    rewrite ES. cbn [bind]. eexists. split; [reflexivity|].
    split; [|split; [|split]]; cbn [s_thr s_out s_j].
    - rewrite Forall_forall in HT |- *. intros u Hu. apply in_set_nth in Hu as [->|[k [Hk Hu]]]; [exact HI|].
      eapply idle_tinv; [eapply HX; eauto|]. apply HT. eapply nth_error_In; eauto.
    - now rewrite HO.
    - intros k Hk. rewrite HF' by auto. auto.
    - intros k Hk. destruct (HP k Hk) as [(u & Hu & HU)|HU]; [|right; auto].
      apply In_nth_error in Hu as [q Hq]. destruct (Nat.eq_dec q tid) as [->|NE].
      + rewrite EN in Hq. injection Hq as <-. destruct (HPD k Hk HU) as [Q|Q]; auto.
        left. exists t'. split; [eapply set_in; eauto|exact Q].
      + left. exists u. split; [eapply nth_other_in_set; eauto|]. eapply idle_pend; eauto.
  Qed.
  Lemma par_run_ok len old sched : n <= len -> forall st, sinv len old st ->
    exclusive (par_step E ys inp) st sched ->
    exists st', run_sched (par_step E ys inp) st sched = Some st' /\ sinv len old st'.
  Proof.
    intros Hl. induction sched as [|tid s IH]; intros st HP HX; cbn [run_sched].
    - eauto.
    - cbn [exclusive] in HX. destruct HX as [HX HX'].
      destruct (par_step_ok len old st tid Hl HP HX) as (st1 & E1 & H1). rewrite E1 in HX' |- *. cbn [bind]. auto.
  Qed.

  Lemma done_out st :
    (forall k, k < n -> (exists t, In t (s_thr st) /\ exists j, pend t j k) \/ nth k (s_out st) 0%N = target k) ->
    region_ended st = true -> forall k, k < n -> nth k (s_out st) 0%N = target k.
  Proof.
    intros HP HD k Hk. destruct (HP k Hk) as [(t & Ht & j & Hj)|]; auto. exfalso.
    unfold region_ended in HD. rewrite forallb_forall in HD. specialize (HD t Ht). unfold pend in Hj.
    destruct t as [[|] [|] tj]; cbn in *; try discriminate. intuition.
  Qed.

  Lemma start_inv todos out : work_split n todos ->
    (Forall (fun t => forall j, tinv t j) (s_thr (par_start 16 out todos))) /\
    forall k, k < n -> exists t, In t (s_thr (par_start 16 out todos)) /\ forall j, pend t j k.
  Proof.
    intros [HA HB]. split.
    - cbn [par_start s_thr]. rewrite Forall_map. eapply Forall_impl; [|exact HB].
      intros td Htd j. split; auto. exact I.
    - intros k Hk. destruct (HA (k / 16)) as (td & H1 & H2); [now apply pos_in_use|].
      exists (mkthr td None 0). split; [apply in_map_iff; eauto|]. intros j. left. exact H2.
  Qed.
End Region.

(** ** y_arr *)
Lemma y_arr_spec k : forall y, block16 y ->
  snd (y_arr k y) = inc32_n k y /\ length (fst (y_arr k y)) = k /\
  forall i, i < k -> nth i (fst (y_arr k y)) [] = inc32_n (S i) y.
Proof.
  induction k as [|k IH]; intros y Hy; cbn [y_arr inc32_n].
  - repeat split. intros i Hi. lia.
  - rewrite ctr_incr_spec by auto. pose proof (inc32_block y Hy) as Hy'.
    destruct (IH _ Hy') as (H1 & H2 & H3). destruct (y_arr k (inc32 y)) as [a z]. cbn [fst snd] in *.
    split; auto. split; [cbn; lia|]. intros [|i] Hi; [reflexivity|]. cbn [nth].
    rewrite H3 by lia. reflexivity.
Qed.
(** GCTR position by position *)
Lemma gctr_nth E x : block_function E -> forall y k, block16 y -> k < length x ->
  nth k (gctr E y x) 0%N = N.lxor (nth (k mod 16) (E (inc32_n (k / 16) y)) 0%N) (get x k).
Proof.
  intros HE. pattern x. apply blocks_ind; clear x.
  - intros y k _ Hk. cbn in Hk. lia.
  - intros p Hp y k Hy Hk. rewrite gctr_short by lia. rewrite Nat.mod_small, Nat.div_small by lia.
    cbn [inc32_n]. destruct (HE y Hy) as [LE _].
    change (nth k (xorl p (firstn (length p) (E y))) 0%N) with (get (xorl p (firstn (length p) (E y))) k).
    rewrite get_xorl by (rewrite firstn_length; lia). rewrite N.lxor_comm. f_equal.
    unfold get. rewrite <- (firstn_skipn (length p) (E y)) at 2. rewrite app_nth1; auto.
    rewrite firstn_length. lia.
  - intros b s Hb IH y k Hy Hk. rewrite gctr_block by auto. destruct (HE y Hy) as [LE BE].
    rewrite firstn_all2 by lia.
    assert (LX : length (xorl b (E y)) = 16) by (rewrite length_xorl; lia).
    destruct (Nat.lt_ge_cases k 16) as [L|L].
    + rewrite app_nth1 by lia. rewrite Nat.mod_small, Nat.div_small by lia. cbn [inc32_n].
      change (nth k (xorl b (E y)) 0%N) with (get (xorl b (E y)) k).
      rewrite get_xorl by lia. rewrite N.lxor_comm. f_equal. unfold get. now rewrite app_nth1 by lia.
    + rewrite app_nth2 by lia. rewrite LX. rewrite app_length in Hk.
      rewrite IH by (auto using inc32_block; lia).
      assert (DM : k mod 16 = (k - 16) mod 16) by (replace k with (k - 16 + 1 * 16) at 1 by lia; apply Nat.mod_add; lia).
      assert (DD : k / 16 = S ((k - 16) / 16)).
      { replace k with (k - 16 + 1 * 16) at 1 by lia. rewrite Nat.div_add by lia. lia. }
      rewrite DM, DD. cbn [inc32_n]. f_equal.
      unfold get. rewrite app_nth2 by lia. f_equal. lia.
Qed.

(** ** the sequential hash *)
Lemma len_s_add16 m : 0 < m -> len_s (16 + m) = S (len_s m).
Proof. intros H. rewrite !len_s_nblk by lia. apply nblk_add16. Qed.
Lemma use_len_add16 m i : 0 < m -> use_len (16 + m) (S i) = use_len m i.
Proof.
  intros H. unfold use_len. rewrite len_s_add16, mod_add16 by auto.
  assert (0 < len_s m) by (unfold len_s; destruct (m =? 0); lia).
  destruct (Nat.eqb_spec (S i) (S (len_s m) - 1)), (Nat.eqb_spec i (len_s m - 1)); auto; lia.
Qed.
Local Opaque gcm_mult.
Lemma par_hash_spec HH HL data : data <> [] -> forall rest acc,
  par_hash HH HL (length data) (data ++ rest) acc = absorb HH HL acc data.
Proof.
  pattern data. apply blocks_ind; clear data.
  - intros H. contradiction.
  - intros p Hp _ rest acc. rewrite absorb_short by lia. unfold par_hash.
    assert (L1 : len_s (length p) = 1) by (rewrite len_s_nblk, nblk_short; lia).
    rewrite L1. cbn [seq]. rewrite fold_left_cons. cbn [fold_left].
    assert (U : use_len (length p) 0 = length p).
    { unfold use_len. rewrite L1. cbn [Nat.sub Nat.eqb]. rewrite Nat.mod_small by lia.
      destruct (Nat.eqb_spec (length p) 0); lia. }
    rewrite U. change (16 * 0) with 0. rewrite skipn_O, firstn_app_exact. reflexivity.
  - intros b s Hb IH _ rest acc. rewrite <- app_assoc, absorb_block by auto.
    destruct s as [|x s].
    + unfold par_hash. rewrite app_nil_r, Hb. change (len_s 16) with 1. cbn [seq].
      rewrite fold_left_cons. cbn [fold_left]. change (use_len 16 0) with 16. change (16 * 0) with 0.
      rewrite skipn_O, <- Hb, firstn_app_exact. reflexivity.
    + rewrite <- (IH ltac:(discriminate) rest). rewrite app_length, Hb. set (s' := x :: s) in *.
      assert (0 < length s') by (cbn; lia). clearbody s'.
      unfold par_hash. rewrite len_s_add16 by auto. cbn [seq]. rewrite fold_left_cons.
      assert (U0 : use_len (16 + length s') 0 = 16).
      { unfold use_len. rewrite len_s_add16 by auto.
        assert (0 < len_s (length s')) by (unfold len_s; destruct (length s' =? 0); lia).
        destruct (Nat.eqb_spec 0 (S (len_s (length s')) - 1)); [lia|auto]. }
      rewrite U0. change (16 * 0) with 0. rewrite skipn_O. 
      assert (FB : firstn 16 (b ++ s' ++ rest) = b) by (rewrite <- Hb; apply firstn_app_exact). rewrite FB.
      generalize (gcm_mult HH HL (xor_into acc b)) as a. intros a.
      rewrite <- seq_shift. clear IH. revert a. generalize (seq 0 (len_s (length s'))) as l.
      induction l as [|i l IHl]; intros a; [reflexivity|]. cbn [map]. rewrite !fold_left_cons, IHl.
      f_equal. rewrite use_len_add16 by auto. f_equal.
      replace (16 * S i) with (length b + 16 * i) by lia.
      rewrite <- skipn_skipn_add, skipn_app_exact. reflexivity.
Qed.

(** ** the whole function *)
Lemma nth_ext_out (a b : list N) : length a = length b -> (forall k, k < length a -> nth k a 0%N = nth k b 0%N) -> a = b.
Proof. intros L H. apply (nth_ext a b 0%N 0%N); auto. Qed.

Definition seq_result (E : list N -> list N) (c : gcm_ctx) (inp outbuf : list N) : bool * gcm_ctx * list N :=
  let '(ok, c', o) := gcm_crypt Enc (lift E) c inp (length outbuf) in
  (ok, c', o ++ skipn (length o) outbuf).

Lemma finish_parallel E h c inp outbuf st ys y' :
  block_function E -> ctx_ok h c -> bytes inp -> inp <> [] ->
  (N.of_nat (length inp) <= int_max)%N -> length inp <= length outbuf ->
  y_arr (len_s (length inp)) (g_y c) = (ys, y') ->
  length (s_out st) = length outbuf ->
  (forall k, length inp <= k -> nth k (s_out st) 0%N = nth k outbuf 0%N) ->
  (forall k, k < length inp -> nth k (s_out st) 0%N = target E ys inp k) ->
  (if length (s_out st) <? 16 * (len_s (length inp) - 1) + use_len (length inp) (len_s (length inp) - 1) then None
   else Some (true, mkgcm (w64 (g_len c + N.of_nat (length inp))) (g_add_len c) (g_HL c) (g_HH c) (g_base c) y'
      (par_hash (g_HH c) (g_HL c) (length inp) (s_out st) (g_buf c)), s_out st))
  = Some (seq_result E c inp outbuf).
Proof.
  intros HE HC Bi NE Hm Ho EY HL HF HT.
  assert (Hpos : 0 < length inp) by (destruct inp; [contradiction|cbn; lia]).
  assert (LS : 0 < len_s (length inp)) by (unfold len_s; destruct (_ =? 0); lia).
  destruct (use_len_bounds (length inp) (len_s (length inp) - 1) Hpos ltac:(lia)) as [_ UB].
  destruct (Nat.ltb_spec (length (s_out st)) (16 * (len_s (length inp) - 1) + use_len (length inp) (len_s (length inp) - 1))); [lia|].
  unfold seq_result. rewrite (gcm_crypt_spec E h) by auto.
  destruct HC as [HK [Hy Hb]]. pose proof (inc32_block _ Hy) as Hy'.
  destruct (y_arr_spec (len_s (length inp)) (g_y c) Hy) as (Y1 & Y2 & Y3). rewrite EY in *. cbn [fst snd] in *.
  set (o := gctr E (inc32 (g_y c)) inp).
  assert (Lo : length o = length inp) by (now apply gctr_length).
  assert (EO : s_out st = o ++ skipn (length inp) outbuf).
  { apply nth_ext_out.
    - rewrite app_length, skipn_length. lia.
    - intros k Hk. destruct (Nat.lt_ge_cases k (length inp)) as [L|L].
      + rewrite HT by auto. rewrite app_nth1 by lia. unfold o. rewrite gctr_nth by auto.
        unfold target. rewrite Y3 by (now apply pos_in_use). reflexivity.
      + rewrite HF by auto. rewrite app_nth2 by lia. rewrite Lo.
        rewrite <- (firstn_skipn (length inp) outbuf) at 1. rewrite app_nth2 by (rewrite firstn_length; lia).
        rewrite firstn_length. f_equal. lia. }
  rewrite EO. rewrite Lo.
  assert (EH : par_hash (g_HH c) (g_HL c) (length inp) (o ++ skipn (length inp) outbuf) (g_buf c)
               = ghash_from h (g_buf c) (pad16 (hashed Enc inp o))).
  { cbn [hashed]. rewrite <- Lo at 1. rewrite par_hash_spec by (destruct o; [cbn in *; lia|discriminate]).
    apply absorb_spec; auto. now apply gctr_bytes. }
  rewrite EH. rewrite Y1, len_s_nblk by auto. reflexivity.
Qed.

Lemma ys_total E c (inp : list N) ys y' : block_function E -> block16 (g_y c) ->
  y_arr (len_s (length inp)) (g_y c) = (ys, y') ->
  forall i, i < len_s (length inp) -> length (E (nth i ys [])) = 16.
Proof.
  intros HE Hy EY i Hi. destruct (y_arr_spec (len_s (length inp)) (g_y c) Hy) as (_ & _ & Y3).
  rewrite EY in Y3. cbn [fst] in Y3. rewrite Y3 by auto. apply HE. now apply inc32_n_block.
Qed.

Lemma parallel_shared E h c inp outbuf todos sched :
  block_function E -> ctx_ok h c -> bytes inp -> inp <> [] ->
  (N.of_nat (length inp) <= int_max)%N -> length inp <= length outbuf ->
  work_split (length inp) todos ->
  exclusive (par_step E (fst (y_arr (len_s (length inp)) (g_y c))) inp) (par_start 16 outbuf todos) sched ->
  exists st, run_sched (par_step E (fst (y_arr (len_s (length inp)) (g_y c))) inp) (par_start 16 outbuf todos) sched = Some st /\
  (region_ended st = true -> gcm_parallel_with par_step E c inp outbuf todos sched = Some (seq_result E c inp outbuf)).
Proof.
  intros HE HC Bi NE Hm Ho HW HX. destruct (y_arr (len_s (length inp)) (g_y c)) as [ys y'] eqn:EY. cbn [fst] in *.
  assert (Hpos : 0 < length inp) by (destruct inp; [contradiction|cbn; lia]).
  pose proof (ys_total E c inp ys y' HE (proj1 (proj2 HC)) EY) as HYS.
  destruct (start_inv inp todos outbuf HW) as [S1 S2].
  assert (HI : sinv E ys inp (length outbuf) outbuf (par_start 16 outbuf todos)).
  { split; [|split; [reflexivity|split; [auto|]]].
    - eapply Forall_impl; [|exact S1]. auto.
    - intros k Hk. left. destruct (S2 k Hk) as (t & H1 & H2). eauto. }
  destruct (par_run_ok E ys inp HYS Hpos (length outbuf) outbuf sched Ho _ HI HX) as (st & ER & (I1 & I2 & I3 & I4)).
  exists st. split; [exact ER|]. intros ED. unfold gcm_parallel_with.
  destruct (Nat.ltb_spec (length outbuf) (length inp)); [lia|].
  destruct (N.ltb_spec int_max (N.of_nat (length inp))); [lia|].
  rewrite EY, ER. cbn [bind]. rewrite ED.
  rewrite (finish_parallel E h c inp outbuf st ys y'); auto.
  intros k Hk. apply (done_out E ys inp st); auto.
  intros q Hq. destruct (I4 q Hq) as [(t & H1 & H2)|]; auto. left. eauto.
Qed.
Lemma parallel_private E h c inp outbuf todos sched :
  block_function E -> ctx_ok h c -> bytes inp -> inp <> [] ->
  (N.of_nat (length inp) <= int_max)%N -> length inp <= length outbuf ->
  work_split (length inp) todos ->
  exists st, run_sched (priv_step E (fst (y_arr (len_s (length inp)) (g_y c))) inp) (par_start 16 outbuf todos) sched = Some st /\
  (region_ended st = true -> gcm_parallel_with priv_step E c inp outbuf todos sched = Some (seq_result E c inp outbuf)).
Proof.
  intros HE HC Bi NE Hm Ho HW. destruct (y_arr (len_s (length inp)) (g_y c)) as [ys y'] eqn:EY. cbn [fst].
  assert (Hpos : 0 < length inp) by (destruct inp; [contradiction|cbn; lia]).
  pose proof (ys_total E c inp ys y' HE (proj1 (proj2 HC)) EY) as HYS.
  destruct (start_inv inp todos outbuf HW) as [S1 S2].
  assert (HI : pinv E ys inp (length outbuf) outbuf (par_start 16 outbuf todos)).
  { split; [|split; [reflexivity|split; [auto|]]].
    - eapply Forall_impl; [|exact S1]. auto.
    - intros k Hk. left. destruct (S2 k Hk) as (t & H1 & H2). eauto. }
  destruct (priv_run_ok E ys inp HYS Hpos (length outbuf) outbuf sched Ho _ HI) as (st & ER & (I1 & I2 & I3 & I4)).
  exists st. split; [exact ER|]. intros ED. unfold gcm_parallel_with.
  destruct (Nat.ltb_spec (length outbuf) (length inp)); [lia|].
  destruct (N.ltb_spec int_max (N.of_nat (length inp))); [lia|].
  rewrite EY, ER. cbn [bind]. rewrite ED.
  rewrite (finish_parallel E h c inp outbuf st ys y'); auto.
  intros k Hk. apply (done_out E ys inp st); auto.
  intros q Hq. destruct (I4 q Hq) as [(t & H1 & H2)|]; auto. left. eauto.
Qed.

(** data of the examples in ParProps *)
Definition par_ctx : option gcm_ctx := do c0 <- gcm_init (lift toyE); gcm_run (lift toyE) c0 [OpSetiv gcm_iv12; OpAad gcm_aad5].
Definition race_sched : list nat := [0; 0; 1; 1] ++ repeat 0 3 ++ repeat 1 49 ++ repeat 0 1.
Definition race_oob : list nat := [1; 1] ++ repeat 0 47 ++ [1; 0; 0; 0; 1].

(** ** concrete schedules *)
Fixpoint exclusive_b (step : pstate -> nat -> option pstate) (st : pstate) (sched : list nat) : bool :=
  match sched with
  | [] => true
  | tid :: s' =>
    forallb (fun kt => (fst kt =? tid) || match t_run (snd kt) with None => true | _ => false end)
            (combine (seq 0 (length (s_thr st))) (s_thr st)) &&
    match step st tid with None => true | Some st' => exclusive_b step st' s' end
  end.
Lemma combine_seq_in {A} (l : list A) : forall s k x, nth_error l k = Some x -> In (s + k, x) (combine (seq s (length l)) l).
Proof.
  induction l as [|y l IH]; intros s [|k] x H; cbn in *; try discriminate.
  - left. injection H as ->. f_equal. lia.
  - right. replace (s + S k) with (S s + k) by lia. auto.
Qed.
Lemma exclusive_b_ok step sched : forall st, exclusive_b step st sched = true -> exclusive step st sched.
Proof.
  induction sched as [|tid s IH]; intros st H; cbn [exclusive exclusive_b] in *; auto.
  apply andb_prop in H as [H1 H2]. split.
  - intros k t Hk NE. rewrite forallb_forall in H1.
    specialize (H1 (k, t) (combine_seq_in _ 0 k t Hk)). cbn [fst snd] in H1.
    destruct (Nat.eqb_spec k tid); [contradiction|]. cbn [orb] in H1. destruct (t_run t); [discriminate|auto].
  - destruct (step st tid); auto.
Qed.
Lemma reachable_parallel E c : block_function E -> reachable (lift E) c -> exists h, ctx_ok h c.
Proof. intros HE HR. exists (hash_key E). now apply (reachable_ctx_ok E). Qed.

(** one iteration takes 3 + 3 * use_len steps: fetch, init, use_len times (test, body, inc), last test *)
Definition steps_of (w n i : nat) : list nat := repeat w (3 + 3 * use_len n i).

(** only worker w has anything to do *)
Definition alone (w : nat) (st : pstate) : Prop :=
  forall k t, nth_error (s_thr st) k = Some t -> k <> w -> t_run t = None /\ t_todo t = [].
Lemma nth_error_set_other {A} (l : list A) i v k : k <> i -> nth_error (set l i v) k = nth_error l k.
Proof. revert i k; induction l as [|x l IH]; intros [|i] [|k] H; cbn [set nth_error]; auto; lia. Qed.
Lemma nth_error_set_same {A} (l : list A) i v x : nth_error (set l i v) i = Some x -> x = v.
Proof. revert i; induction l as [|y l IH]; intros [|i] H; cbn [set nth_error] in H; try discriminate; eauto. congruence. Qed.
Lemma alone_step E ys inp w st tid st' : alone w st -> par_step E ys inp st tid = Some st' -> alone w st'.
Proof.
  intros HA. unfold par_step. destruct (nth_error (s_thr st) tid) as [t|] eqn:EN; [|intros H; injection H as <-; exact HA].
  intros H. destruct (Nat.eq_dec tid w) as [->|NE].
  - destruct (local_step E ys inp t (s_j st) (s_out st)) as [[[t' j'] o']|]; [|discriminate].
    cbn [bind] in H. injection H as <-. intros k u Hk Hw. cbn [s_thr] in Hk.
    rewrite nth_error_set_other in Hk by auto. eauto.
  - destruct (HA tid t EN NE) as [R T]. unfold local_step in H. rewrite R, T in H. cbn [bind] in H.
    injection H as <-. intros k u Hk Hw. cbn [s_thr] in Hk.
    destruct (Nat.eq_dec k tid) as [->|N2].
    + apply nth_error_set_same in Hk. subst u. auto.
    + rewrite nth_error_set_other in Hk by auto. eauto.
Qed.
(** a step of a worker with nothing to do leaves the state as it is, so it can be skipped *)
Lemma set_same {A} (l : list A) i x : nth_error l i = Some x -> set l i x = l.
Proof. revert i; induction l as [|y l IH]; intros [|i] H; cbn [set nth_error] in *; try congruence. f_equal. auto. Qed.
Lemma idle_step E ys inp w st tid : alone w st -> tid <> w -> par_step E ys inp st tid = Some st.
Proof.
  intros HA NE. unfold par_step. destruct (nth_error (s_thr st) tid) as [t|] eqn:EN; auto.
  destruct (HA tid t EN NE) as [R T]. unfold local_step. rewrite R, T. cbn [bind].
  rewrite set_same by auto. now destruct st.
Qed.
Lemma alone_filter E ys inp w sched : forall st, alone w st ->
  run_sched (par_step E ys inp) st sched = run_sched (par_step E ys inp) st (filter (Nat.eqb w) sched) /\
  exclusive (par_step E ys inp) st (filter (Nat.eqb w) sched).
Proof.
  induction sched as [|tid s IH]; intros st HA; cbn [filter run_sched]; [split; [auto|exact I]|].
  destruct (Nat.eqb_spec w tid) as [<-|NE].
  - cbn [run_sched exclusive]. destruct (par_step E ys inp st w) as [st'|] eqn:ES; cbn [bind].
    + destruct (IH st' (alone_step E ys inp w st w st' HA ES)). split; auto. split; auto.
      intros k t Hk Hw. apply (HA k t Hk Hw).
    + split; auto. split; auto. intros k t Hk Hw. apply (HA k t Hk Hw).
  - rewrite (idle_step E ys inp w) by auto. cbn [bind]. auto.
Qed.
Lemma start_alone out todos : NoDup (concat todos) -> Forall (Forall (fun i => i < 1)) todos ->
  exists w, alone w (par_start 16 out todos).
Proof.
  unfold alone. cbn [par_start s_thr]. induction todos as [|td tds IH]; intros HN HF.
  - exists 0. intros k t Hk. destruct k; discriminate.
  - inversion HF as [|? ? F1 F2]; subst. cbn [concat map] in *. destruct td as [|i td].
    + destruct (IH HN F2) as [w Hw]. exists (S w). intros [|k] t Hk NE; cbn [nth_error] in Hk.
      * injection Hk as <-. auto.
      * apply (Hw k t Hk). lia.
    + exists 0. intros [|k] t Hk NE; [lia|]. cbn [nth_error] in Hk.
      rewrite nth_error_map in Hk. destruct (nth_error tds k) as [td'|] eqn:ET; [|discriminate].
      injection Hk as <-. cbn [t_run t_todo]. split; auto. destruct td' as [|i' td']; auto. exfalso.
      apply nth_error_In in ET. rewrite Forall_forall in F2. pose proof (F2 _ ET) as F3.
      inversion F3; inversion F1; subst. assert (i = i') by lia. subst i'. cbn [app] in HN.
      inversion HN as [|? ? N1 N2]; subst. apply N1. apply in_or_app. right. apply in_concat.
      exists (i :: td'). split; auto. left. auto.
Qed.
Lemma parallel_one_block E h c inp outbuf todos sched :
  block_function E -> ctx_ok h c -> bytes inp -> inp <> [] -> length inp <= 16 -> length inp <= length outbuf ->
  work_split (length inp) todos -> NoDup (concat todos) ->
  exists st, run_sched (par_step E (fst (y_arr (len_s (length inp)) (g_y c))) inp) (par_start 16 outbuf todos) sched = Some st /\
  (region_ended st = true -> gcm_parallel_with par_step E c inp outbuf todos sched = Some (seq_result E c inp outbuf)).
Proof.
  intros HE HC Bi NE L16 HL HW HN.
  assert (Hpos : 0 < length inp) by (destruct inp; [contradiction|cbn; lia]).
  assert (LS : len_s (length inp) = 1) by (rewrite len_s_nblk, nblk_short; lia).
  destruct (start_alone outbuf todos HN) as [w Hw]; [rewrite <- LS; exact (proj2 HW)|].
  destruct (alone_filter E (fst (y_arr (len_s (length inp)) (g_y c))) inp w sched _ Hw) as [F1 F2].
  destruct (parallel_shared E h c inp outbuf todos (filter (Nat.eqb w) sched)) as (st & R1 & R2); auto.
  { unfold int_max. lia. }
  exists st. rewrite F1. split; [exact R1|]. intros ED. rewrite <- (R2 ED). unfold gcm_parallel_with.
  destruct (_ <? _); auto. destruct (_ <? _)%N; auto.
  destruct (y_arr (len_s (length inp)) (g_y c)) as [ys y']. cbn [fst] in F1. now rewrite F1.
Qed.

Lemma gcm_parallel_encrypt_partial_lemma : forall E c inp outbuf todos sched,
  block_function E -> reachable (lift E) c -> small_pieces [inp] -> inp <> [] -> length inp <= length outbuf ->
  work_split (length inp) todos ->
  exclusive (par_step E (fst (y_arr (len_s (length inp)) (g_y c))) inp) (par_start 16 outbuf todos) sched ->
  exists st, run_sched (par_step E (fst (y_arr (len_s (length inp)) (g_y c))) inp) (par_start 16 outbuf todos) sched = Some st /\
  (region_ended st = true -> gcm_parallel_encrypt E c inp outbuf todos sched = Some (sequential Enc E c inp outbuf)).
Proof.
  intros E c inp outbuf todos sched HE HR HS NE HL HW HX.
  destruct (reachable_parallel E c HE HR) as [h HC]. inversion HS as [|? ? [B M]]; subst.
  exact (parallel_shared E h c inp outbuf todos sched HE HC B NE M HL HW HX).
Qed.

Lemma gcm_parallel_private_lemma : forall E c inp outbuf todos sched,
  block_function E -> reachable (lift E) c -> small_pieces [inp] -> inp <> [] -> length inp <= length outbuf ->
  work_split (length inp) todos ->
  exists st, run_sched (priv_step E (fst (y_arr (len_s (length inp)) (g_y c))) inp) (par_start 16 outbuf todos) sched = Some st /\
  (region_ended st = true -> gcm_parallel_with priv_step E c inp outbuf todos sched = Some (sequential Enc E c inp outbuf)).
Proof.
  intros E c inp outbuf todos sched HE HR HS NE HL HW.
  destruct (reachable_parallel E c HE HR) as [h HC]. inversion HS as [|? ? [B M]]; subst.
  exact (parallel_private E h c inp outbuf todos sched HE HC B NE M HL HW).
Qed.

Lemma gcm_parallel_one_block_lemma : forall E c inp outbuf todos sched,
  block_function E -> reachable (lift E) c -> bytes inp -> 0 < length inp <= 16 -> length inp <= length outbuf ->
  work_split (length inp) todos -> NoDup (concat todos) ->
  exists st, run_sched (par_step E (fst (y_arr (len_s (length inp)) (g_y c))) inp) (par_start 16 outbuf todos) sched = Some st /\
  (region_ended st = true -> gcm_parallel_encrypt E c inp outbuf todos sched = Some (sequential Enc E c inp outbuf)).
Proof.
  intros E c inp outbuf todos sched HE HR HB HI HL HW HN.
  destruct (reachable_parallel E c HE HR) as [h HC].
  eapply (parallel_one_block E h c inp outbuf todos sched); eauto; [destruct inp; [cbn in HI; lia|discriminate]|lia].
Qed.

Lemma gcm_parallel_race_refuted_lemma : exists E c inp outbuf todos sched r sched2,
  block_function E /\ reachable (lift E) c /\ small_pieces [inp] /\ length inp = length outbuf /\
  work_split (length inp) todos /\ NoDup (concat todos) /\
  gcm_parallel_encrypt E c inp outbuf todos sched = Some r /\
  fst (fst r) = true /\ snd r <> snd (sequential Enc E c inp outbuf) /\
  snd (fst r) <> snd (fst (sequential Enc E c inp outbuf)) /\
  run_sched (par_step E (fst (y_arr (len_s (length inp)) (g_y c))) inp) (par_start 16 outbuf todos) sched2 = None.
Proof.
  exists toyE. eexists. exists (firstn 32 gcm_msg), (repeat 0%N 32), [[0]; [1]], race_sched.
  eexists. exists race_oob.
  split; [apply toy_is_block_cipher|].
  split.
  - eexists. exists [OpSetiv gcm_iv12; OpAad gcm_aad5].
    split; [vm_compute; reflexivity|]. split; [repeat constructor|]. vm_compute; reflexivity.
  - split; [apply small_pieces_check; vm_compute; reflexivity|].
    split; [reflexivity|]. split; [|split; [repeat constructor; cbn; intuition lia|]].
    { split; [|change (len_s (length (firstn 32 gcm_msg))) with 2; repeat constructor].
      intros i Hi. change (len_s (length (firstn 32 gcm_msg))) with 2 in Hi.
      destruct i as [|[|i]]; [exists [0]|exists [1]|lia]; cbn; intuition lia. }
    split; [vm_compute; reflexivity|]. split; [vm_compute; reflexivity|].
    split; [vm_compute; discriminate|].
    split; [intros H; apply (f_equal g_buf) in H; vm_compute in H; discriminate|].
    vm_compute. reflexivity.
Qed.

Lemma gcm_parallel_empty_refuted_lemma : forall E c todos sched,
  (g_len c < 2 ^ 64)%N ->
  gcm_parallel_encrypt E c [] [] todos sched = None /\ sequential Enc E c [] [] = (true, c, []).
Proof.
  intros E c todos sched L. split.
  - unfold gcm_parallel_encrypt, gcm_parallel_with. change (length (@nil N)) with 0. rewrite Nat.ltb_irrefl.
    destruct (int_max <? N.of_nat 0)%N; auto.
    destruct (y_arr (len_s 0) (g_y c)) as [ys y'].
    destruct (run_sched _ _ _) as [st|] eqn:ER; auto. cbn [bind]. destruct (region_ended st); auto.
    destruct (Nat.ltb_spec (length (s_out st)) (16 * (len_s 0 - 1) + use_len 0 (len_s 0 - 1))) as [|GE]; auto.
    exfalso. change (16 * (len_s 0 - 1) + use_len 0 (len_s 0 - 1)) with 16 in GE.
    assert (LN : forall sched st0, length (s_out st0) = 0 -> run_sched (par_step E ys []) st0 sched = Some st -> length (s_out st) = 0).
    { clear. induction sched as [|tid s IH]; intros st0 H0 H; cbn [run_sched] in H; [congruence|].
      destruct (par_step E ys [] st0 tid) as [st1|] eqn:ES; [|discriminate]. cbn [bind] in H.
      apply (IH st1); auto. revert ES. unfold par_step. destruct (nth_error (s_thr st0) tid) as [t|]; [|congruence].
      unfold local_step. destruct (t_run t) as [[i []]|]; cbn [bind]; try (intros ES; injection ES as <-; exact H0).
      - destruct (_ <? _); intros ES; injection ES as <-; exact H0.
      - destruct (nth_error (E (nth i ys [])) (s_j st0)); [|discriminate]. cbn [bind].
        rewrite (proj2 (nth_error_None [] (16 * i + s_j st0))) by (cbn; lia). discriminate.
      - destruct (t_todo t); cbn [bind]; intros ES; injection ES as <-; exact H0. }
    specialize (LN sched (par_start 16 [] todos) eq_refl ER). lia.
  - unfold sequential, gcm_crypt. cbn [length Nat.ltb Nat.leb]. change (c_int (N.of_nat 0)) with 0%Z.
    cbn [Z.to_nat firstn chunks]. change (chunks 16 (@nil N)) with (@nil (list N)). cbn [crypt_loop].
    rewrite Z.add_0_r, Z.mod_small by lia. rewrite N2Z.id. destruct c; reflexivity.
Qed.

Lemma gcm_parallel_decrypt_actual_lemma : forall E c inp outbuf todos sched,
  block_function E -> reachable (lift E) c -> small_pieces [inp] -> inp <> [] -> length inp <= length outbuf ->
  work_split (length inp) todos ->
  exclusive (par_step E (fst (y_arr (len_s (length inp)) (g_y c))) inp) (par_start 16 outbuf todos) sched ->
  let r := sequential Enc E c inp outbuf in
  exists st, run_sched (par_step E (fst (y_arr (len_s (length inp)) (g_y c))) inp) (par_start 16 outbuf todos) sched = Some st /\
  (region_ended st = true -> gcm_parallel_decrypt E c inp outbuf todos sched = Some r) /\
  snd r = snd (sequential Dec E c inp outbuf) /\
  g_y (snd (fst r)) = g_y (snd (fst (sequential Dec E c inp outbuf))).
Proof.
  intros E c inp outbuf todos sched HE HR HS NE HL HW HX r.
  destruct (reachable_parallel E c HE HR) as [h HC]. inversion HS as [|? ? [B M]]; subst.
  destruct (parallel_shared E h c inp outbuf todos sched HE HC B NE M HL HW HX) as (st & R1 & R2).
  exists st. split; [exact R1|]. split; [exact R2|]. unfold r, sequential.
  rewrite !(gcm_crypt_spec E h) by auto. cbn [fst snd g_y]. split; reflexivity.
Qed.

Lemma gcm_parallel_decrypt_refuted_lemma : exists E c inp outbuf todos sched r,
  block_function E /\ reachable (lift E) c /\ bytes inp /\ length inp = length outbuf /\ length inp <= 16 /\
  work_split (length inp) todos /\ gcm_parallel_decrypt E c inp outbuf todos sched = Some r /\
  fst (fst r) = true /\
  (do t <- gcm_finish (snd (fst r)) 16; Some (snd t)) <>
  (do t <- gcm_finish (snd (fst (sequential Dec E c inp outbuf))) 16; Some (snd t)).
Proof.
  exists toyE. eexists. exists (firstn 16 gcm_msg), (repeat 0%N 16), [[0]], (steps_of 0 16 0). eexists.
  split; [apply toy_is_block_cipher|].
  split.
  - eexists. exists [OpSetiv gcm_iv12; OpAad gcm_aad5].
    split; [vm_compute; reflexivity|]. split; [repeat constructor|]. vm_compute; reflexivity.
  - split; [repeat constructor|]. split; [reflexivity|]. split; [cbn; lia|]. split.
    { split; [|change (len_s (length (firstn 16 gcm_msg))) with 1; repeat constructor].
      intros i Hi. change (len_s (length (firstn 16 gcm_msg))) with 1 in Hi. exists [0]; cbn; intuition lia. }
    split; [vm_compute; reflexivity|]. split; [vm_compute; reflexivity|]. vm_compute. discriminate.
Qed.
