(** * The blocks of a white-box SM4 context *)
From Verif Require Import Base CbcModel GcmModel FpeModel Sm4Model ParModel LifeModel LifeSpec LifeProofs LifeTotal.
Local Open Scope nat_scope.

(** where the blocks of a context with [r] rounds are: block number [t] (0 is the struct itself) has [n] cells, and
    cell [i] of block [p] points to it *)
Inductive node (r : nat) : nat -> nat -> nat -> nat -> Prop :=
| n_top c : c < 4 -> node r (1 + c) 0 (2 + c) r
| n_mm i : i < r -> node r (5 + 4 * i) 1 i 3
| n_cdt i c : i < r -> c < 3 -> node r (5 + 4 * i + (1 + c)) (2 + c) i 4
| n_mm2 i j : i < r -> j < 3 -> node r (5 + 4 * r + (3 * i + j)) (5 + 4 * i) j 4
| n_mm3 i j k : i < r -> j < 3 -> k < 4 -> node r (5 + 7 * r + (12 * i + (4 * j + k))) (5 + 4 * r + (3 * i + j)) k 256
| n_cdt2 i j c : i < r -> j < 4 -> c < 3 -> node r (5 + 19 * r + (12 * i + (3 * j + c))) (5 + 4 * i + (1 + c)) j 256.
Lemma node_inj r t t' p i n n' : node r t p i n -> node r t' p i n' -> t = t'.
Proof. intros H H'. inversion H; inversion H'; subst; lia. Qed.
Lemma node_fun r t p p' i i' n n' : node r t p i n -> node r t p' i' n' -> p = p' /\ i = i' /\ n = n'.
Proof. intros H H'. inversion H; inversion H'; subst; lia. Qed.
Lemma node_pos r t p i n : node r t p i n -> 0 < t /\ p < t /\ t < 5 + 31 * r.
Proof. intros H. inversion H; subst; lia. Qed.
Lemma node_room r p i t n : node r t p i n -> p = 0 /\ i < 6 \/ exists p' i' n', node r p p' i' n' /\ i < n'.
Proof.
  intros H. inversion H; subst; [left; lia|..]; right.
  - exists 0, 2, r. split; [apply (n_top r 0); lia|lia].
  - exists 0, (2 + (1 + c)), r. split; [apply (n_top r (1 + c)); lia|lia].
  - exists 1, i0, 3. split; [apply n_mm; lia|lia].
  - exists (5 + 4 * i0), j, 4. split; [apply n_mm2; lia|lia].
  - exists (2 + c), i0, 4. split; [apply n_cdt; lia|lia].
Qed.
Lemma wbsm4_room : 6 <= wbsm4_cells.
Proof. unfold wbsm4_cells. lia. Qed.

(** the first [s] blocks of the context are in place in [L] *)
Definition cellof (L : list block) (a i : nat) : option cell :=
  match nth_error L a with Some b => if b_live b then nth_error (b_cells b) i else None | None => None end.
Definition sized (L : list block) (a n : nat) : Prop := exists cs, nth_error L a = Some (mkblk true cs) /\ length cs = n.
Definition tree (r lo s : nat) (L : list block) : Prop :=
  sized L 0 wbsm4_cells /\
  forall t p i n, node r t p i n -> t < s -> sized L t n /\ cellof L p i = Some (Ptr (lo + t)).

Lemma nth_error_set_lt {A} (l : list A) a b v : b < length l -> nth_error (set l b v) a = if a =? b then Some v else nth_error l a.
Proof.
  revert a b. induction l as [|x l IH]; intros a b H; cbn [length] in H; [lia|].
  destruct b as [|b], a as [|a]; cbn [set nth_error Nat.eqb]; try reflexivity. apply IH. lia.
Qed.
Lemma sized_lt L a n : sized L a n -> a < length L.
Proof. intros (cs & E & _). apply nth_error_Some. congruence. Qed.
Lemma sized_app L D a n : sized L a n -> sized (L ++ D) a n.
Proof. intros H. pose proof (sized_lt _ _ _ H). destruct H as (cs & E & S). exists cs. now rewrite look_old. Qed.
Lemma cellof_app L D a i v : cellof L a i = Some v -> cellof (L ++ D) a i = Some v.
Proof.
  unfold cellof. destruct (nth_error L a) as [b|] eqn:E; [|discriminate]. intros H.
  rewrite look_old, E by (apply nth_error_Some; congruence). exact H.
Qed.
Lemma tree_app r lo s L D : tree r lo s L -> tree r lo s (L ++ D).
Proof.
  intros (H0 & H). split; [now apply sized_app|]. intros t p i n N T. destruct (H _ _ _ _ N T). split; [now apply sized_app|now apply cellof_app].
Qed.
Lemma sized_set L a cs a' n : a < length L -> length cs = n -> a = a' -> sized (set L a (mkblk true cs)) a' n.
Proof. intros H E <-. exists cs. rewrite nth_error_set_lt, Nat.eqb_refl by auto. auto. Qed.
(** replacing the cells of one block by as many others, without touching the pointers in it *)
Lemma tree_set r lo s L a cs cs' : tree r lo s L -> nth_error L a = Some (mkblk true cs) -> length cs' = length cs ->
  (forall t i n, node r t a i n -> t < s -> nth_error cs' i = nth_error cs i) -> tree r lo s (set L a (mkblk true cs')).
Proof.
  intros (H0 & H) E LL F. assert (La : a < length L) by (apply nth_error_Some; congruence).
  assert (SZ : forall t n, sized L t n -> sized (set L a (mkblk true cs')) t n).
  { intros t n (c & Ec & Lc). exists (if t =? a then cs' else c). rewrite nth_error_set_lt by auto.
    destruct (Nat.eqb_spec t a) as [Q|Q]; [subst t; rewrite E in Ec; injection Ec as <-; split; [reflexivity|congruence]|auto]. }
  split; [now apply SZ|]. intros t p i n N T. destruct (H _ _ _ _ N T) as (A & B). split; [now apply SZ|].
  unfold cellof in *. rewrite nth_error_set_lt by auto. destruct (Nat.eqb_spec p a) as [Q|Q]; [|exact B].
  subst p. rewrite E in B. cbn [b_live b_cells] in *. rewrite (F t i n N T). exact B.
Qed.
Lemma length_set_cells {A} (l : list A) i v : length (set l i v) = length l.
Proof. apply length_set. Qed.

Definition within (n : nat) (c : cell) : Prop := match c with Ptr a => a < n | _ => True end.
Lemma closed_append B b k k' : closed (mkmem B k) -> Forall (within (length B)) (b_cells b) -> closed (mkmem (B ++ [b]) k').
Proof.
  intros C F a x c E Ic. cbn [m_blocks] in *. rewrite app_length. destruct (Nat.lt_ge_cases a (length B)) as [H|H].
  - rewrite look_old in E by auto. specialize (C a x c E Ic). cbn [m_blocks] in C. lia.
  - rewrite nth_error_app2 in E by auto. destruct (a - length B) as [|n]; [|now destruct n]. injection E as <-.
    rewrite Forall_forall in F. specialize (F _ Ic). cbn in F. lia.
Qed.
Lemma in_set {A} (l : list A) i v x : In x (set l i v) -> x = v \/ In x l.
Proof.
  revert i. induction l as [|y l IH]; intros [|i]; cbn [set In]; auto.
  - intros [H|H]; auto.
  - intros [H|H]; auto. destruct (IH _ H); auto.
Qed.
Lemma closed_store B a cs i v k k' : closed (mkmem B k) -> nth_error B a = Some (mkblk true cs) -> within (length B) v ->
  closed (mkmem (set B a (mkblk true (set cs i v))) k').
Proof.
  intros C E W a' x c E' Ic. cbn [m_blocks] in *. rewrite length_set.
  assert (La : a < length B) by (apply nth_error_Some; congruence). rewrite nth_error_set_lt in E' by auto.
  destruct (a' =? a); [|exact (C _ _ _ E' Ic)]. injection E' as <-. cbn [b_cells] in Ic. apply in_set in Ic as [Q|Q]; [subst v; exact W|].
  exact (C a _ c E Q).
Qed.

Section Tree.
Variables (al : nat -> answer) (r : nat) (B : list block).
Hypothesis rich : plenty al.
Let lo := length B.

Definition stage (s : nat) (m : mem) : Prop := exists L k, m = mkmem (B ++ L) k /\ length L = s /\ tree r lo s L /\ all_live L /\ (closed (mkmem B 0) -> closed m).
Lemma tree_load t p i n L k s : tree r lo s L -> node r t p i n -> t < s ->
  load (Ptr (lo + p)) i (mkmem (B ++ L) k) = Ret (Ptr (lo + t), mkmem (B ++ L) k).
Proof.
  intros (_ & H) N T. destruct (H _ _ _ _ N T) as (_ & C). unfold cellof in C.
  destruct (nth_error L p) as [[[] cs]|] eqn:E; try discriminate. cbn [b_live b_cells] in C.
  apply (load_eq (lo + p) i cs); [|exact C]. unfold lo. rewrite nth_error_app2 by lia.
  replace (length B + p - length B) with p by lia. exact E.
Qed.
Lemma set_at (L : list block) a v : set (B ++ L) (lo + a) v = B ++ set L a v.
Proof. unfold lo. induction B as [|x B' IH]; [reflexivity|]. cbn [app length Nat.add set]. now rewrite IH. Qed.
Lemma look_at (L : list block) a : nth_error (B ++ L) (lo + a) = nth_error L a.
Proof. unfold lo. rewrite nth_error_app2 by lia. f_equal. lia. Qed.
Lemma tree_grow s p i n L k : node r s p i n -> length L = s -> tree r lo s L -> all_live L -> (closed (mkmem B 0) -> forall k, closed (mkmem (B ++ L) k)) ->
  exists m', store (Ptr (lo + p)) i (Ptr (lo + s)) (mkmem (B ++ (L ++ [mkblk true (repeat Junk n)])) k) = Ret (tt, m') /\ stage (S s) m'.
Proof.
  intros N LL HT AL CL. pose proof HT as (H0 & H).
  assert (Hp : exists np, sized L p np /\ i < np).
  { destruct (node_room r p i s n N) as [[-> Hi]|(p' & i' & n' & N' & Hi)].
    - exists wbsm4_cells. split; [exact H0|]. pose proof wbsm4_room. lia.
    - exists n'. split; [|exact Hi]. apply (H _ _ _ _ N'). apply (node_pos _ _ _ _ _ N). }
  destruct Hp as (np & (cs & E & Lc) & Hi). assert (Lp : p < length L) by (apply nth_error_Some; congruence).
  eexists. split.
  - eapply (store_eq (lo + p) i (Ptr (lo + s)) cs); [rewrite look_at, look_old by auto; exact E|lia].
  - exists (set L p (mkblk true (set cs i (Ptr (lo + s)))) ++ [mkblk true (repeat Junk n)]), k.
    split; [rewrite set_at, set_old by auto; reflexivity|]. split; [rewrite app_length, length_set; cbn; lia|].
    assert (T1 : tree r lo s (set L p (mkblk true (set cs i (Ptr (lo + s)))))).
    { apply (tree_set r lo s L p cs); auto; [apply length_set|]. intros t i' n' N' T. rewrite nth_error_set_lt by lia.
      destruct (Nat.eqb_spec i' i) as [Q|Q]; [|reflexivity]. subst i'. pose proof (node_inj _ _ _ _ _ _ _ N N'). lia. }
    split.
    + apply (tree_app _ _ _ _ [mkblk true (repeat Junk n)]) in T1. destruct T1 as (A0 & A). split; [exact A0|].
      intros t p' i' n' N' T. destruct (Nat.eq_dec t s) as [Q|Q]; [|apply (A _ _ _ _ N'); lia].
      subst t. destruct (node_fun _ _ _ _ _ _ _ _ N N') as (<- & <- & <-). split.
      * exists (repeat Junk n). split; [|apply repeat_length]. set (v := mkblk true (set cs i (Ptr (lo + s)))). rewrite <- LL, <- (length_set L p v). apply look_new.
      * unfold cellof. rewrite look_old by (rewrite length_set; auto). rewrite nth_error_set_lt, Nat.eqb_refl by auto. cbn [b_live b_cells].
        rewrite nth_error_set_lt, Nat.eqb_refl by lia. reflexivity.
    + split; [|intros CB; apply (closed_store _ _ _ _ _ k)].
      2:{ rewrite app_assoc. apply (closed_append _ _ k); [exact (CL CB k)|]. rewrite Forall_forall. intros c Ic. apply repeat_spec in Ic. subst c. exact Logic.I. }
      2:{ rewrite look_at, look_old by auto. exact E. }
      2:{ cbn [within]. rewrite !app_length. cbn [length]. unfold lo. lia. }
      intros b Ib. apply in_app_iff in Ib as [Ib|[Ib|[]]]; [|subst b; reflexivity].
      apply In_nth_error in Ib as (x & Ex). rewrite nth_error_set_lt in Ex by auto. destruct (x =? p); [injection Ex as <-; reflexivity|].
      apply AL. eapply nth_error_In. exact Ex.
Qed.
Lemma stage_malloc n s L k : length L = s -> malloc al n (mkmem (B ++ L) k) = Ret (Ptr (lo + s), mkmem (B ++ (L ++ [mkblk true (repeat Junk n)])) (S k)).
Proof. intros <-. rewrite (malloc_eq al rich). rewrite app_length, app_assoc. reflexivity. Qed.

(** the four shapes of step *)
Lemma step0 s i n m : node r s 0 i n -> stage s m -> exists m', (let* a := malloc al n in store (Ptr lo) i a) m = Ret (tt, m') /\ stage (S s) m'.
Proof.
  intros N (L & k & -> & LL & HT & AL & CL). destruct (tree_grow s 0 i n L (S k) N LL HT AL (fun CB _ => CL CB)) as (m' & E & H). exists m'. split; [|exact H].
  run ltac:(apply (stage_malloc n s); exact LL). rewrite Nat.add_0_r in E. exact E.
Qed.
Lemma step1 s p i n x y m : node r s p i n -> node r p 0 x y -> stage s m ->
  exists m', (let* b := malloc al n in let* a := load (Ptr lo) x in store a i b) m = Ret (tt, m') /\ stage (S s) m'.
Proof.
  intros N N1 (L & k & -> & LL & HT & AL & CL). destruct (tree_grow s p i n L (S k) N LL HT AL (fun CB _ => CL CB)) as (m' & E & H). exists m'. split; [|exact H].
  run ltac:(apply (stage_malloc n s); exact LL).
  pose proof (tree_load _ _ _ _ _ (S k) _ (tree_app _ _ _ _ [mkblk true (repeat Junk n)] HT) N1 (proj1 (proj2 (node_pos _ _ _ _ _ N)))) as E1.
  rewrite Nat.add_0_r in E1. run ltac:(exact E1). exact E.
Qed.
Lemma step2 s p i n p1 x1 y1 x y m : node r s p i n -> node r p p1 x1 y1 -> node r p1 0 x y -> stage s m ->
  exists m', (let* b := malloc al n in let* a := load (Ptr lo) x in let* ai := load a x1 in store ai i b) m = Ret (tt, m') /\ stage (S s) m'.
Proof.
  intros N N1 N2 (L & k & -> & LL & HT & AL & CL). destruct (tree_grow s p i n L (S k) N LL HT AL (fun CB _ => CL CB)) as (m' & E & H). exists m'. split; [|exact H].
  run ltac:(apply (stage_malloc n s); exact LL). pose proof (node_pos _ _ _ _ _ N) as (_ & P1 & _). pose proof (node_pos _ _ _ _ _ N1) as (_ & P2 & _).
  pose proof (tree_load _ _ _ _ _ (S k) _ (tree_app _ _ _ _ [mkblk true (repeat Junk n)] HT) N2 ltac:(lia)) as E2.
  rewrite Nat.add_0_r in E2. run ltac:(exact E2).
  run ltac:(exact (tree_load _ _ _ _ _ (S k) _ (tree_app _ _ _ _ [mkblk true (repeat Junk n)] HT) N1 P1)). exact E.
Qed.
Lemma step3 s p i n p1 x1 y1 p2 x2 y2 x y m : node r s p i n -> node r p p1 x1 y1 -> node r p1 p2 x2 y2 -> node r p2 0 x y -> stage s m ->
  exists m', (let* b := malloc al n in let* a := load (Ptr lo) x in let* ai := load a x2 in let* aij := load ai x1 in store aij i b) m = Ret (tt, m') /\ stage (S s) m'.
Proof.
  intros N N1 N2 N3 (L & k & -> & LL & HT & AL & CL). destruct (tree_grow s p i n L (S k) N LL HT AL (fun CB _ => CL CB)) as (m' & E & H). exists m'. split; [|exact H].
  run ltac:(apply (stage_malloc n s); exact LL). pose proof (node_pos _ _ _ _ _ N) as (_ & P1 & _). pose proof (node_pos _ _ _ _ _ N1) as (_ & P2 & _).
  pose proof (node_pos _ _ _ _ _ N2) as (_ & P3 & _).
  pose proof (tree_load _ _ _ _ _ (S k) _ (tree_app _ _ _ _ [mkblk true (repeat Junk n)] HT) N3 ltac:(lia)) as E3.
  rewrite Nat.add_0_r in E3. run ltac:(exact E3).
  run ltac:(exact (tree_load _ _ _ _ _ (S k) _ (tree_app _ _ _ _ [mkblk true (repeat Junk n)] HT) N2 ltac:(lia))).
  run ltac:(exact (tree_load _ _ _ _ _ (S k) _ (tree_app _ _ _ _ [mkblk true (repeat Junk n)] HT) N1 ltac:(lia))). exact E.
Qed.
Lemma seq_run {A} (f : M unit) (g : M A) m m' R : f m = Ret (tt, m') -> g m' = R -> (f ;; g) m = R.
Proof. intros E F. rewrite (mbind_eq f _ m tt m' E). exact F. Qed.

Lemma stage0 k : stage 1 (mkmem (B ++ [mkblk true (repeat Junk wbsm4_cells)]) k).
Proof.
  exists [mkblk true (repeat Junk wbsm4_cells)], k. split; [reflexivity|]. split; [reflexivity|]. split.
  - split; [exists (repeat Junk wbsm4_cells); split; [reflexivity|apply repeat_length]|].
    intros t p i n N T. pose proof (node_pos _ _ _ _ _ N). lia.
  - split; [intros b [Ib|[]]; subst b; reflexivity|]. intros CB. apply (closed_append _ _ 0); [exact CB|].
    rewrite Forall_forall. intros c Ic. apply repeat_spec in Ic. subst c. exact Logic.I.
Qed.
Ltac nd c := eapply c; lia.
Ltac here H := match goal with H' : stage ?a ?m |- stage ?b ?m => replace b with a by lia; exact H' end.
Lemma loopA m : stage 5 m -> exists m', loop r (fun i =>
    (let* b := malloc al 3 in let* a := load (Ptr lo) 2 in store a i b) ;;
    (let* b := malloc al 4 in let* a := load (Ptr lo) 3 in store a i b) ;;
    (let* b := malloc al 4 in let* a := load (Ptr lo) 4 in store a i b) ;;
    (let* b := malloc al 4 in let* a := load (Ptr lo) 5 in store a i b)) m = Ret (tt, m') /\ stage (5 + 4 * r) m'.
Proof.
  intros H. apply (loop_run r _ (fun i => stage (5 + 4 * i)) m); [exact H|]. clear m H. intros i m Hi H.
  destruct (step1 (5 + 4 * i) 1 i 3 2 r m (n_mm r i Hi) (n_top r 0 ltac:(lia)) H) as (m1 & E1 & H1).
  replace (S (5 + 4 * i)) with (5 + 4 * i + (1 + 0)) in H1 by lia.
  destruct (step1 _ 2 i 4 3 r m1 (n_cdt r i 0 Hi ltac:(lia)) (n_top r 1 ltac:(lia)) H1) as (m2 & E2 & H2).
  replace (S (5 + 4 * i + (1 + 0))) with (5 + 4 * i + (1 + 1)) in H2 by lia.
  destruct (step1 _ 3 i 4 4 r m2 (n_cdt r i 1 Hi ltac:(lia)) (n_top r 2 ltac:(lia)) H2) as (m3 & E3 & H3).
  replace (S (5 + 4 * i + (1 + 1))) with (5 + 4 * i + (1 + 2)) in H3 by lia.
  destruct (step1 _ 4 i 4 5 r m3 (n_cdt r i 2 Hi ltac:(lia)) (n_top r 3 ltac:(lia)) H3) as (m4 & E4 & H4).
  replace (S (5 + 4 * i + (1 + 2))) with (5 + 4 * S i) in H4 by lia.
  exists m4. split; [|exact H4]. exact (seq_run _ _ _ _ _ E1 (seq_run _ _ _ _ _ E2 (seq_run _ _ _ _ _ E3 E4))).
Qed.
Lemma loopB m : stage (5 + 4 * r) m -> exists m', loop r (fun i => loop 3 (fun j =>
    let* b := malloc al 4 in let* a := load (Ptr lo) 2 in let* ai := load a i in store ai j b)) m = Ret (tt, m') /\ stage (5 + 7 * r) m'.
Proof.
  intros H. replace (5 + 7 * r) with (5 + 4 * r + 3 * r) by lia.
  apply (loop_run r _ (fun i => stage (5 + 4 * r + 3 * i)) m); [now rewrite Nat.mul_0_r, Nat.add_0_r|]. clear m H. intros i m Hi H.
  replace (5 + 4 * r + 3 * S i) with (5 + 4 * r + (3 * i + 3)) by lia.
  apply (loop_run 3 _ (fun j => stage (5 + 4 * r + (3 * i + j))) m); [now rewrite Nat.add_0_r|]. clear m H. intros j m Hj H.
  replace (5 + 4 * r + (3 * i + S j)) with (S (5 + 4 * r + (3 * i + j))) by lia.
  exact (step2 _ _ j 4 1 i 3 2 r m (n_mm2 r i j Hi Hj) (n_mm r i Hi) (n_top r 0 ltac:(lia)) H).
Qed.
Lemma loopC m : stage (5 + 7 * r) m -> exists m', loop r (fun i => loop 3 (fun j => loop 4 (fun k =>
    let* b := malloc al 256 in let* a := load (Ptr lo) 2 in let* ai := load a i in let* aij := load ai j in store aij k b))) m = Ret (tt, m') /\ stage (5 + 19 * r) m'.
Proof.
  intros H. replace (5 + 19 * r) with (5 + 7 * r + 12 * r) by lia.
  apply (loop_run r _ (fun i => stage (5 + 7 * r + 12 * i)) m); [now rewrite Nat.mul_0_r, Nat.add_0_r|]. clear m H. intros i m Hi H.
  replace (5 + 7 * r + 12 * S i) with (5 + 7 * r + (12 * i + 4 * 3)) by lia.
  apply (loop_run 3 _ (fun j => stage (5 + 7 * r + (12 * i + 4 * j))) m); [now rewrite Nat.mul_0_r, Nat.add_0_r|]. clear m H. intros j m Hj H.
  replace (5 + 7 * r + (12 * i + 4 * S j)) with (5 + 7 * r + (12 * i + (4 * j + 4))) by lia.
  apply (loop_run 4 _ (fun k => stage (5 + 7 * r + (12 * i + (4 * j + k)))) m); [now rewrite Nat.add_0_r|]. clear m H. intros k m Hk H.
  replace (5 + 7 * r + (12 * i + (4 * j + S k))) with (S (5 + 7 * r + (12 * i + (4 * j + k)))) by lia.
  exact (step3 _ _ k 256 _ j 4 1 i 3 2 r m (n_mm3 r i j k Hi Hj Hk) (n_mm2 r i j Hi Hj) (n_mm r i Hi) (n_top r 0 ltac:(lia)) H).
Qed.
Lemma loopD m : stage (5 + 19 * r) m -> exists m', loop r (fun i => loop 4 (fun j =>
    (let* b := malloc al 256 in let* a := load (Ptr lo) 3 in let* ai := load a i in store ai j b) ;;
    (let* b := malloc al 256 in let* a := load (Ptr lo) 4 in let* ai := load a i in store ai j b) ;;
    (let* b := malloc al 256 in let* a := load (Ptr lo) 5 in let* ai := load a i in store ai j b))) m = Ret (tt, m') /\ stage (5 + 31 * r) m'.
Proof.
  intros H. replace (5 + 31 * r) with (5 + 19 * r + 12 * r) by lia.
  apply (loop_run r _ (fun i => stage (5 + 19 * r + 12 * i)) m); [now rewrite Nat.mul_0_r, Nat.add_0_r|]. clear m H. intros i m Hi H.
  replace (5 + 19 * r + 12 * S i) with (5 + 19 * r + (12 * i + 3 * 4)) by lia.
  apply (loop_run 4 _ (fun j => stage (5 + 19 * r + (12 * i + 3 * j))) m); [now rewrite Nat.mul_0_r, Nat.add_0_r|]. clear m H. intros j m Hj H.
  replace (5 + 19 * r + (12 * i + 3 * j)) with (5 + 19 * r + (12 * i + (3 * j + 0))) in H by lia.
  destruct (step2 _ _ j 256 2 i 4 3 r m (n_cdt2 r i j 0 Hi Hj ltac:(lia)) (n_cdt r i 0 Hi ltac:(lia)) (n_top r 1 ltac:(lia)) H) as (m1 & E1 & H1).
  replace (S (5 + 19 * r + (12 * i + (3 * j + 0)))) with (5 + 19 * r + (12 * i + (3 * j + 1))) in H1 by lia.
  destruct (step2 _ _ j 256 3 i 4 4 r m1 (n_cdt2 r i j 1 Hi Hj ltac:(lia)) (n_cdt r i 1 Hi ltac:(lia)) (n_top r 2 ltac:(lia)) H1) as (m2 & E2 & H2).
  replace (S (5 + 19 * r + (12 * i + (3 * j + 1)))) with (5 + 19 * r + (12 * i + (3 * j + 2))) in H2 by lia.
  destruct (step2 _ _ j 256 4 i 4 5 r m2 (n_cdt2 r i j 2 Hi Hj ltac:(lia)) (n_cdt r i 2 Hi ltac:(lia)) (n_top r 3 ltac:(lia)) H2) as (m3 & E3 & H3).
  replace (S (5 + 19 * r + (12 * i + (3 * j + 2)))) with (5 + 19 * r + (12 * i + 3 * S j)) in H3 by lia.
  exists m3. split; [|exact H3]. exact (seq_run _ _ _ _ _ E1 (seq_run _ _ _ _ _ E2 E3)).
Qed.
(** writing numbers into cells of the struct that are not pointers *)
Lemma stage_store s i v m : 0 < s -> i < 2 -> (exists n, v = Num n) -> stage s m -> exists m', store (Ptr lo) i v m = Ret (tt, m') /\ stage s m' /\ cellof (skipn lo (m_blocks m')) 0 i = Some v /\
  forall j, j <> i -> cellof (skipn lo (m_blocks m')) 0 j = cellof (skipn lo (m_blocks m)) 0 j.
Proof.
  intros Hs Hi (nv & Ev) (L & k & -> & LL & HT & AL & CL). pose proof (proj1 HT) as (cs & E & Lc). pose proof wbsm4_room.
  assert (L0 : 0 < length L) by lia.
  assert (SK : forall L, skipn lo (B ++ L) = L). { intros L'. unfold lo. rewrite skipn_app, skipn_all, Nat.sub_diag. reflexivity. }
  exists (mkmem (B ++ set L 0 (mkblk true (set cs i v))) k). split.
  - rewrite <- (Nat.add_0_r lo). rewrite (store_eq (lo + 0) i v cs) by (rewrite ?look_at; auto; lia). now rewrite set_at.
  - split.
    + exists (set L 0 (mkblk true (set cs i v))), k. split; [reflexivity|]. split; [now rewrite length_set|]. split.
      * apply (tree_set r lo s L 0 cs); auto; [apply length_set|]. intros t i' n N T. rewrite nth_error_set_lt by lia.
        destruct (Nat.eqb_spec i' i) as [Q|Q]; [|reflexivity]. inversion N; lia.
      * split; [|intros CB; rewrite <- set_at; apply (closed_store _ _ _ _ _ k); [exact (CL CB)|rewrite look_at; exact E|subst v; exact Logic.I]].
        intros b Ib. apply In_nth_error in Ib as (x & Ex). rewrite nth_error_set_lt in Ex by auto. destruct (x =? 0); [injection Ex as <-; reflexivity|].
        apply AL. eapply nth_error_In. exact Ex.
    + cbn [m_blocks]. rewrite !SK. unfold cellof. rewrite nth_error_set_lt by auto. cbn [Nat.eqb b_live b_cells]. split.
      * rewrite nth_error_set_lt, Nat.eqb_refl by lia. reflexivity.
      * intros j Hj. rewrite nth_error_set_lt by lia. destruct (Nat.eqb_spec j i); [congruence|]. now rewrite E.
Qed.
End Tree.

Lemma wbsm4_init_eq al e d B k : plenty al -> exists L k', life_wbsm4_init al e d (mkmem B k) = Ret (Ptr (length B), mkmem (B ++ L) k') /\
  length L = 5 + 31 * (32 + 4 * d) /\ all_live L /\ tree (32 + 4 * d) (length B) (length L) L /\
  cellof L 0 0 = Some (Num (N.of_nat (32 + 4 * d))) /\ cellof L 0 1 = Some (Num e) /\ (closed (mkmem B 0) -> closed (mkmem (B ++ L) k')).
Proof.
  intros R. set (r := 32 + 4 * d).
  pose proof (stage0 r B (S k)) as H0.
  destruct (step0 al r B R 1 2 r _ (n_top r 0 ltac:(lia)) H0) as (m1 & E1 & H1).
  destruct (step0 al r B R 2 3 r _ (n_top r 1 ltac:(lia)) H1) as (m2 & E2 & H2).
  destruct (step0 al r B R 3 4 r _ (n_top r 2 ltac:(lia)) H2) as (m3 & E3 & H3).
  destruct (step0 al r B R 4 5 r _ (n_top r 3 ltac:(lia)) H3) as (m4 & E4 & H4).
  destruct (loopA al r B R m4 H4) as (m5 & E5 & H5). destruct (loopB al r B R m5 H5) as (m6 & E6 & H6).
  destruct (loopC al r B R m6 H6) as (m7 & E7 & H7). destruct (loopD al r B R m7 H7) as (m8 & E8 & H8).
  destruct (stage_store r B (5 + 31 * r) 0 (Num (N.of_nat r)) m8 ltac:(lia) ltac:(lia) (ex_intro _ _ eq_refl) H8) as (m9 & E9 & H9 & C9 & _).
  destruct (stage_store r B (5 + 31 * r) 1 (Num e) m9 ltac:(lia) ltac:(lia) (ex_intro _ _ eq_refl) H9) as (m10 & E10 & H10 & C10 & D10).
  pose proof H10 as (L & k' & -> & LL & HT & AL & CL). exists L, k'.
  assert (SK : skipn (length B) (m_blocks (mkmem (B ++ L) k')) = L). { cbn [m_blocks]. rewrite skipn_app, skipn_all, Nat.sub_diag. reflexivity. }
  split; [|split; [exact LL|split; [exact AL|split; [rewrite LL; exact HT|split; [|split; [|exact CL]]]]]].
  - unfold life_wbsm4_init. run ltac:(apply malloc_eq; exact R). cbn [is_null]. fold r. cbv zeta.
    eapply seq_run; [exact E1|]. eapply seq_run; [exact E2|]. eapply seq_run; [exact E3|]. eapply seq_run; [exact E4|].
    eapply seq_run; [exact E5|]. eapply seq_run; [exact E6|]. eapply seq_run; [exact E7|]. eapply seq_run; [exact E8|].
    eapply seq_run; [exact E9|]. eapply seq_run; [exact E10|]. reflexivity.
  - rewrite SK in D10. rewrite D10 by lia. exact C9.
  - rewrite SK in C10. exact C10.
Qed.
