(** * Table generation on the heap, with enough memory *)
From Verif Require Import Base CbcModel GcmModel FpeModel Sm4Model ParModel LifeModel LifeSpec LifeProofs LifeTotal LifeTree.
Local Open Scope nat_scope.
Local Opaque sm4_object.

Lemma leaf_not_parent r t t' i n : 5 + 7 * r <= t -> node r t' t i n -> False.
Proof. intros H N. inversion N; subst; lia. Qed.
Lemma length_row tab w i j : length (row tab w i j) = 256.
Proof. unfold row. now rewrite map_length, seq_length. Qed.
Lemma ext_room i j : i < 4 -> j < 4 -> 6 + 4096 + 1024 * i + 256 * j + 256 <= wbsm4_cells.
Proof. intros Hi Hj. unfold wbsm4_cells. lia. Qed.

Section Gen.
Variables (r : nat) (B Z : list block) (ev : cell).
Let lo := length B.
Definition intact (L : list block) : Prop := length L = 5 + 31 * r /\ tree r lo (5 + 31 * r) L /\ all_live L /\ cellof L 0 1 = Some ev.
Definition ready (m : mem) : Prop := exists L k, m = mkmem (B ++ (L ++ Z)) k /\ intact L.
Lemma intact_set L a cs cs' : intact L -> nth_error L a = Some (mkblk true cs) -> length cs' = length cs ->
  (forall t i n, node r t a i n -> nth_error cs' i = nth_error cs i) -> (a = 0 -> nth_error cs' 1 = nth_error cs 1) ->
  intact (set L a (mkblk true cs')).
Proof.
  intros (LL & T & AL & C) E SZ F G. assert (La : a < length L) by (apply nth_error_Some; congruence).
  split; [now rewrite length_set|]. split; [|split].
  - apply (tree_set r lo _ L a cs); auto. intros. eapply F; eauto.
  - intros b Ib. apply In_nth_error in Ib as (x & Ex). rewrite nth_error_set_lt in Ex by auto. destruct (x =? a); [injection Ex as <-; reflexivity|].
    apply AL. eapply nth_error_In. exact Ex.
  - unfold cellof in *. rewrite nth_error_set_lt by auto. destruct (Nat.eqb_spec 0 a) as [Q|Q]; [|exact C]. subst a. rewrite E in C. cbn [b_live b_cells] in *. rewrite G; auto.
Qed.
Lemma ready_load t p i n m : node r t p i n -> ready m -> load (Ptr (lo + p)) i m = Ret (Ptr (lo + t), m).
Proof.
  intros N (L & k & -> & (LL & T & _)). apply (tree_load r B t p i n _ k (5 + 31 * r)); auto; [now apply tree_app|]. apply (node_pos _ _ _ _ _ N).
Qed.
Lemma ready_load0 t i n m : node r t 0 i n -> ready m -> load (Ptr lo) i m = Ret (Ptr (lo + t), m).
Proof. intros N H. pose proof (ready_load _ _ _ _ _ N H) as E. now rewrite Nat.add_0_r in E. Qed.
Lemma set_mid (L : list block) a v : a < length L -> set (B ++ (L ++ Z)) (lo + a) v = B ++ (set L a v ++ Z).
Proof. intros H. unfold lo. rewrite set_at. now rewrite set_old. Qed.
Lemma look_mid (L : list block) a : a < length L -> nth_error (B ++ (L ++ Z)) (lo + a) = nth_error L a.
Proof. intros H. unfold lo. rewrite look_at. now apply look_old. Qed.
Lemma ready_write t p i vs m : node r t p i 256 -> 5 + 7 * r <= t -> length vs = 256 -> ready m ->
  exists m', write (Ptr (lo + t)) 0 vs m = Ret (tt, m') /\ ready m'.
Proof.
  intros N Hl Hv (L & k & -> & I). pose proof I as (LL & T & _). pose proof (node_pos _ _ _ _ _ N) as (P0 & _ & P).
  destruct (proj2 T _ _ _ _ N P) as ((cs & E & Lc) & _).
  eexists. split; [apply (write_eq _ 0 vs cs); [rewrite look_mid by lia; exact E|lia]|].
  cbn [firstn app]. rewrite skipn_all2 by lia. rewrite app_nil_r, set_mid by lia.
  exists (set L t (mkblk true vs)), k. split; [reflexivity|]. apply (intact_set L t cs); auto; [congruence| |intros ->; lia].
  intros t' i' n' N'. exfalso. exact (leaf_not_parent _ _ _ _ _ Hl N').
Qed.
Lemma nth_error_firstn_lt {A} (l : list A) n i : i < n -> nth_error (firstn n l) i = nth_error l i.
Proof. revert n i. induction l as [|x l IH]; intros [|n] [|i] H; cbn; try reflexivity; try lia. apply IH. lia. Qed.
Lemma ready_ext off vs m : 6 <= off -> off + length vs <= wbsm4_cells -> ready m -> exists m', write (Ptr lo) off vs m = Ret (tt, m') /\ ready m'.
Proof.
  intros Ho Hv (L & k & -> & I). pose proof I as (LL & T & _). destruct (proj1 T) as (cs & E & Lc).
  eexists. split.
  - rewrite <- (Nat.add_0_r lo). apply (write_eq (lo + 0) off vs cs); [rewrite look_mid by lia; exact E|lia].
  - rewrite set_mid by lia. eexists _, k. split; [reflexivity|].
    assert (F : forall i, i < 6 -> nth_error (firstn off cs ++ vs ++ skipn (off + length vs) cs) i = nth_error cs i).
    { intros i Hi. rewrite nth_error_app1 by (rewrite firstn_length; lia). apply nth_error_firstn_lt. lia. }
    apply (intact_set L 0 cs); auto.
    + rewrite !app_length, firstn_length, skipn_length. lia.
    + intros t i n N. apply F. inversion N; lia.
    + intros _. apply F. lia.
Qed.
Lemma ready_loop n body m : ready m -> (forall i m, i < n -> ready m -> exists m', body i m = Ret (tt, m') /\ ready m') ->
  exists m', loop n body m = Ret (tt, m') /\ ready m'.
Proof. intros H0 H. exact (loop_run n body (fun _ => ready) m H0 H). Qed.
Lemma ready_seq (f g : M unit) m : (exists m', f m = Ret (tt, m') /\ ready m') -> (forall m, ready m -> exists m', g m = Ret (tt, m') /\ ready m') ->
  exists m', (f ;; g) m = Ret (tt, m') /\ ready m'.
Proof. intros (m1 & E1 & H1) H. destruct (H m1 H1) as (m2 & E2 & H2). exists m2. split; [exact (seq_run _ _ _ _ _ E1 E2)|exact H2]. Qed.

(** writing one table of CC, DD or Table *)
Lemma ready_table tab w c i m : i < r -> c < 3 -> ready m ->
  exists m', loop 4 (fun j => let* a := load (Ptr lo) (3 + c) in let* ai := load a i in let* aij := load ai j in write aij 0 (row tab w i j)) m = Ret (tt, m') /\ ready m'.
Proof.
  intros Hi Hc H. apply ready_loop; [exact H|]. clear m H. intros j m Hj H.
  destruct (ready_write _ _ _ (row tab w i j) m (n_cdt2 r i j c Hi Hj Hc) ltac:(lia) (length_row _ _ _ _) H) as (m' & E & H').
  exists m'. split; [|exact H'].
  run ltac:(apply (ready_load0 (2 + c) (3 + c) r); [apply (n_top r (1 + c)); lia|exact H]).
  run ltac:(eapply ready_load; [apply (n_cdt r i c); lia|exact H]).
  run ltac:(eapply ready_load; [apply (n_cdt2 r i j c); lia|exact H]). exact E.
Qed.
Lemma ready_mm tab i m : i < r -> ready m ->
  exists m', loop 3 (fun w => loop 4 (fun j => let* a := load (Ptr lo) 2 in let* ai := load a i in let* aiw := load ai w in
        let* t := load aiw j in write t 0 (row tab w i j))) m = Ret (tt, m') /\ ready m'.
Proof.
  intros Hi H. apply ready_loop; [exact H|]. clear m H. intros w m Hw H. apply ready_loop; [exact H|]. clear m H. intros j m Hj H.
  destruct (ready_write _ _ _ (row tab w i j) m (n_mm3 r i w j Hi Hw Hj) ltac:(lia) (length_row _ _ _ _) H) as (m' & E & H').
  exists m'. split; [|exact H'].
  run ltac:(apply (ready_load0 1 2 r); [apply (n_top r 0); lia|exact H]).
  run ltac:(eapply ready_load; [apply (n_mm r i); lia|exact H]).
  run ltac:(eapply ready_load; [apply (n_mm2 r i w); lia|exact H]).
  run ltac:(eapply ready_load; [apply (n_mm3 r i w j); lia|exact H]). exact E.
Qed.
Lemma ready_tables tab dummy d m : r = 32 + 4 * d -> ready m -> exists m', gen_tables (Ptr lo) tab dummy d m = Ret (tt, m') /\ ready m'.
Proof.
  intros Hr H. unfold gen_tables. rewrite <- Hr. apply ready_loop; [exact H|]. clear m H. intros i m Hi H. destruct (dummy i).
  - apply ready_seq; [apply (ready_table tab 5 2 i m Hi ltac:(lia) H)|]. clear m H. intros m H. apply (ready_table tab 3 0 i m Hi ltac:(lia) H).
  - apply ready_seq; [apply (ready_mm tab i m Hi H)|]. clear m H. intros m H.
    apply ready_seq; [apply (ready_table tab 3 0 i m Hi ltac:(lia) H)|]. clear m H. intros m H.
    apply ready_seq; [apply (ready_table tab 4 1 i m Hi ltac:(lia) H)|]. clear m H. intros m H. apply (ready_table tab 5 2 i m Hi ltac:(lia) H).
Qed.
Lemma ready_gen_ext tab m : ready m -> exists m', gen_ext (Ptr lo) tab m = Ret (tt, m') /\ ready m'.
Proof.
  intros H. unfold gen_ext. apply ready_loop; [exact H|]. clear m H. intros i m Hi H. apply ready_loop; [exact H|]. clear m H. intros j m Hj H.
  pose proof (ext_room i j Hi Hj).
  apply ready_seq; [apply ready_ext; [lia|rewrite length_row; lia|exact H]|]. clear m H. intros m H. apply ready_ext; [lia|rewrite length_row; lia|exact H].
Qed.
End Gen.

Lemma dummy_array_eq al d B k : plenty al -> exists D k', life_dummy_array al d (mkmem B k) =
  Ret (Ptr (length (B ++ D)), mkmem ((B ++ D) ++ [mkblk true (repeat (Num 0) (32 + 4 * d))]) k') /\ filter b_live D = [].
Proof.
  intros R. exists [mkblk false (repeat (Num 0) (32 + d)); mkblk false (repeat (Num 0) (32 + d + 10))], (S (S (S k))). split; [|reflexivity].
  unfold life_dummy_array. run ltac:(apply malloc_eq; exact R). run ltac:(eapply zero_eq; at_end). rewrite repeat_length.
  run ltac:(run ltac:(apply malloc_eq; exact R); run ltac:(eapply zero_eq; at_end); rewrite repeat_length; eapply free_eq; at_end). rewrite ?set_new.
  run ltac:(apply malloc_eq; exact R). run ltac:(eapply zero_eq; at_end). rewrite repeat_length.
  run ltac:(eapply free_eq; rewrite <- !app_assoc, nth_error_app2, Nat.sub_diag by lia; reflexivity).
  unfold ret. rewrite <- !app_assoc. cbn [app].
  match goal with |- context [set (B ++ ?x :: ?L) (length B) ?y] =>
    replace (set (B ++ x :: L) (length B) y) with (B ++ y :: L) end.
  - rewrite !app_length. reflexivity.
  - match goal with |- ?A = set (B ++ ?x :: ?L) _ _ => change (x :: L) with ([x] ++ L) end.
    rewrite (app_assoc B). rewrite set_old by (rewrite app_length; cbn; lia). rewrite set_new, <- app_assoc. reflexivity.
Qed.

(** the mode the tables are generated for *)
Definition mode_of (e : cell) : N := match e with Num 0 => 0 | _ => 1 end%N.
Lemma wbsm4_gen_total al tab dummy d key B Z L k ev : plenty al -> intact (32 + 4 * d) B ev L -> exists L' D k',
  life_wbsm4_gen al tab dummy (Ptr (length B)) d key (mkmem (B ++ (L ++ Z)) k) = Ret (tt, mkmem (B ++ (L' ++ (Z ++ D))) k') /\
  intact (32 + 4 * d) B ev L' /\ filter b_live D = [mkblk true (sm4_object (mode_of ev) key)].
Proof.
  intros R I. set (M0 := B ++ (L ++ Z)). pose proof I as (LL & T & AL & C).
  destruct (context_init_eq al R 32 M0 k) as (k1 & E1).
  destruct (sm4_key_eq al R (mode_of ev) (length M0) (repeat (Num 0) 32) key (M0 ++ [mkblk true (repeat (Num 0) 32)]) k1 (look_new M0 _) (repeat_length _ _)) as (k2 & E2).
  rewrite set_new in E2.
  set (S1 := [mkblk true (sm4_object (mode_of ev) key); mkblk false (map Num (key_padding_pkcs7 key))]).
  destruct (dummy_array_eq al d (M0 ++ S1) k2 R) as (D3 & k3 & E3 & F3).
  set (Z' := Z ++ S1 ++ D3 ++ [mkblk true (repeat (Num 0) (32 + 4 * d))]).
  assert (Q : ((M0 ++ S1) ++ D3) ++ [mkblk true (repeat (Num 0) (32 + 4 * d))] = B ++ (L ++ Z')) by (unfold M0, Z'; now rewrite <- !app_assoc).
  assert (RD : ready (32 + 4 * d) B Z' ev (mkmem (B ++ (L ++ Z')) k3)) by (exists L, k3; auto).
  destruct (ready_tables _ B Z' ev tab dummy d _ eq_refl RD) as (m4 & E4 & R4).
  destruct (ready_gen_ext _ B Z' ev tab m4 R4) as (m5 & E5 & (L5 & k5 & -> & I5)).
  exists L5, (S1 ++ D3 ++ [mkblk false (repeat (Num 0) (32 + 4 * d))]), k5. split; [|split; [exact I5|]].
  - destruct (proj1 T) as (cs & Ec & Lc). unfold cellof in C. rewrite Ec in C. cbn [b_live b_cells] in C.
    rewrite life_wbsm4_gen_eq. run ltac:(exact E1).
    run ltac:(apply (load_eq (length B) 1 cs ev); [|exact C]; rewrite <- (Nat.add_0_r (length B)); unfold M0;
      rewrite <- app_assoc, look_at, <- app_assoc, look_old by lia; exact Ec).
    change (match ev with Num 0 => 0%N | _ => 1%N end) with (mode_of ev).
    run ltac:(exact E2). replace ((M0 ++ [mkblk true (sm4_object (mode_of ev) key)]) ++ [mkblk false (map Num (key_padding_pkcs7 key))]) with (M0 ++ S1)
      by (unfold S1; now rewrite <- app_assoc).
    run ltac:(exact E3). rewrite Q. run ltac:(exact E4). run ltac:(exact E5).
    assert (LQ : length ((M0 ++ S1) ++ D3) = length (B ++ (L5 ++ (Z ++ S1 ++ D3)))).
    { unfold M0. rewrite !app_length. rewrite LL, (proj1 I5). lia. }
    rewrite LQ. unfold Z'. rewrite (free_eq _ (repeat (Num 0) (32 + 4 * d))).
    + do 3 f_equal. replace (B ++ L5 ++ Z ++ S1 ++ D3 ++ [mkblk true (repeat (Num 0) (32 + 4 * d))]) with
        ((B ++ (L5 ++ (Z ++ S1 ++ D3))) ++ [mkblk true (repeat (Num 0) (32 + 4 * d))]) by now rewrite <- !app_assoc.
      rewrite set_new. now rewrite <- !app_assoc.
    + replace (B ++ L5 ++ Z ++ S1 ++ D3 ++ [mkblk true (repeat (Num 0) (32 + 4 * d))]) with
        ((B ++ (L5 ++ (Z ++ S1 ++ D3))) ++ [mkblk true (repeat (Num 0) (32 + 4 * d))]) by now rewrite <- !app_assoc. apply look_new.
  - rewrite !filter_app, F3. reflexivity.
Qed.
