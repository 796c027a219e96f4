(** * Proofs about the heap model: what no later step can reach stays as it is *)
From Verif Require Import Base Word32 CbcModel GcmModel FpeModel Sm4Model ParModel Sm4Spec Sm4Proofs LifeModel LifeSpec.
Local Open Scope nat_scope.

Definition size (m : mem) : nat := length (m_blocks m).

(** ** Elementary facts *)
Lemma nth_error_set {A} (l : list A) i j v : nth_error (set l i v) j = if (j =? i) && (i <? length l) then Some v else nth_error l j.
Proof.
  revert i j. induction l as [|x l IH]; intros i j.
  - replace (i <? length (@nil A)) with false by (symmetry; apply Nat.ltb_ge; cbn; lia). rewrite andb_false_r. now destruct i.
  - destruct i as [|i], j as [|j]; try reflexivity. cbn [set nth_error]. rewrite IH. cbn [length].
    replace (S i <? S (length l)) with (i <? length l) by (destruct (Nat.ltb_spec i (length l)), (Nat.ltb_spec (S i) (S (length l))); lia). reflexivity.
Qed.
Lemma cells_at_look m p cs : cells_at m p = Some cs -> exists a, p = Ptr a /\ nth_error (m_blocks m) a = Some (mkblk true cs) /\ a < size m.
Proof.
  destruct p as [n|a|f|]; cbn [cells_at]; try discriminate. destruct (nth_error _ a) as [[l c]|] eqn:E; try discriminate.
  cbn [b_live b_cells]. destruct l; try discriminate. intros H. injection H as <-. exists a. split; [reflexivity|].
  split; [exact E|]. unfold size. apply nth_error_Some. congruence.
Qed.

(** ** Invariants kept by a computation, however it is continued *)
Definition keeps {A} (I : mem -> Prop) (f : M A) (Q : A -> Prop) : Prop :=
  forall m, I m -> match f m with Ret r => I (snd r) /\ Q (fst r) | _ => True end.
Lemma keeps_ret {A} I (x : A) (Q : A -> Prop) : Q x -> keeps I (ret x) Q.
Proof. intros H m Hm. cbn. auto. Qed.
Lemma keeps_undef {A} I (Q : A -> Prop) : keeps I undef Q.
Proof. intros m _. exact Logic.I. Qed.
Lemma keeps_bind {A B} I (f : M A) (g : A -> M B) Q R : keeps I f Q -> (forall x, Q x -> keeps I (g x) R) -> keeps I (mbind f g) R.
Proof.
  intros F G m Hm. unfold mbind. specialize (F m Hm). destruct (f m) as [[x m1]| |]; cbn [obind]; auto.
  cbn [fst snd] in *. apply G; tauto.
Qed.
Lemma keeps_weaken {A} I (f : M A) (Q R : A -> Prop) : keeps I f Q -> (forall x, Q x -> R x) -> keeps I f R.
Proof. intros F W m Hm. specialize (F m Hm). destruct (f m) as [[x m1]| |]; auto. destruct F. split; auto. Qed.
Lemma keeps_for I is body : (forall i, In i is -> keeps I (body i) (fun _ => True)) -> keeps I (mfor is body) (fun _ => True).
Proof.
  induction is as [|i is IH]; intros H; cbn [mfor]; [now apply keeps_ret|].
  eapply keeps_bind; [apply H; now left|]. intros _ _. apply IH. intros j J. apply H. now right.
Qed.
Lemma keeps_loop I n body : (forall i, i < n -> keeps I (body i) (fun _ => True)) -> keeps I (loop n body) (fun _ => True).
Proof. intros H. apply keeps_for. intros i Hi. apply H. apply in_seq in Hi. lia. Qed.

(** ** A block nothing points to *)
Definition apart (a : nat) (bl : block) (m : mem) : Prop :=
  nth_error (m_blocks m) a = Some bl /\
  forall b x, nth_error (m_blocks m) b = Some x -> ~ In (Ptr a) (b_cells x).
Definition other (a : nat) (p : cell) : Prop := p <> Ptr a.
Lemma other_null a : other a null. Proof. discriminate. Qed.
Lemma other_num a n : other a (Num n). Proof. discriminate. Qed.
Lemma other_code a n : other a (Code n). Proof. discriminate. Qed.

Section Keep.
Variables (a : nat) (bl : block) (al : nat -> answer).
Notation I := (apart a bl).
Lemma apart_put m p x : I m -> other a p -> ~ In (Ptr a) (b_cells x) -> I (put m p x).
Proof.
  intros [H1 H2] O N. destruct p as [n|b|f|]; cbn [put]; try (split; assumption). split; cbn [m_blocks].
  - rewrite nth_error_set. destruct (Nat.eqb_spec a b) as [->|_]; [now destruct O|]. exact H1.
  - intros c y. rewrite nth_error_set. destruct ((c =? b) && _); [intros E; injection E as <-; exact N|apply H2].
Qed.
Lemma apart_calls m k : I m -> I (mkmem (m_blocks m) k).
Proof. intros H. exact H. Qed.
Lemma apart_grow m k x : I m -> ~ In (Ptr a) (b_cells x) -> I (mkmem (m_blocks m ++ [x]) k).
Proof.
  intros [H1 H2] N. split; cbn [m_blocks].
  - rewrite nth_error_app1; [exact H1|]. apply nth_error_Some. congruence.
  - intros b y E. destruct (Nat.lt_ge_cases b (length (m_blocks m))) as [L|L].
    + rewrite nth_error_app1 in E by exact L. now apply H2 in E.
    + rewrite nth_error_app2 in E by exact L. destruct (b - length (m_blocks m)) as [|k']; cbn in E; [|destruct k'; discriminate].
      injection E as <-. exact N.
Qed.
Lemma apart_cells m p cs : I m -> cells_at m p = Some cs -> ~ In (Ptr a) cs.
Proof. intros [_ H] E. apply cells_at_look in E as (b & -> & E & _). exact (H _ _ E). Qed.
Lemma not_in_repeat c n : c <> Ptr a -> ~ In (Ptr a) (repeat c n).
Proof. intros N H. apply repeat_spec in H. congruence. Qed.
Lemma not_in_nums (l : list N) : ~ In (Ptr a) (map Num l).
Proof. intros H. apply in_map_iff in H as (x & E & _). discriminate. Qed.

Lemma keeps_malloc n : keeps I (malloc al n) (other a).
Proof.
  intros m H. unfold malloc. assert (L : a < length (m_blocks m)) by (apply nth_error_Some; destruct H; congruence).
  assert (G : I (mkmem (m_blocks m ++ [mkblk true (repeat Junk n)]) (S (m_calls m)))).
  { apply apart_grow; [exact H|]. apply not_in_repeat. discriminate. }
  destruct (al (m_calls m)); cbn [fst snd].
  - split; [now apply apart_calls|discriminate].
  - split; [exact G|]. intros E. injection E as E. lia.
  - split; [exact G|]. intros E. injection E as E. lia.
Qed.
Lemma keeps_load p i : keeps I (load p i) (other a).
Proof.
  intros m H. unfold load. destruct (cells_at m p) as [cs|] eqn:E; [|exact Logic.I].
  destruct (nth_error cs i) as [v|] eqn:Ei; [|exact Logic.I]. cbn [fst snd]. split; [exact H|].
  intros ->. apply nth_error_In in Ei. now apply (apart_cells _ _ _ H E).
Qed.
Lemma keeps_write p off vs : other a p -> ~ In (Ptr a) vs -> keeps I (write p off vs) (fun _ => True).
Proof.
  intros O N m H. unfold write. destruct (_ =? 0); [cbn; auto|]. destruct (cells_at m p) as [cs|] eqn:E; [|exact Logic.I].
  destruct (_ <=? _); [|exact Logic.I]. cbn [fst snd]. split; [|exact Logic.I]. apply apart_put; [exact H|exact O|].
  cbn [b_cells]. pose proof (apart_cells _ _ _ H E) as F. rewrite !in_app_iff. intros [K|[K|K]]; auto.
  - apply F. rewrite <- (firstn_skipn off cs). apply in_app_iff. now left.
  - apply F. rewrite <- (firstn_skipn (off + length vs) cs). apply in_app_iff. now right.
Qed.
Lemma keeps_store p i v : other a p -> other a v -> keeps I (store p i v) (fun _ => True).
Proof. intros O V. apply keeps_write; [exact O|]. intros [E|[]]. now apply V. Qed.
Lemma keeps_zero p : other a p -> keeps I (zero p) (fun _ => True).
Proof.
  intros O m H. unfold zero. destruct (cells_at m p) as [cs|]; [|exact Logic.I]. cbn [fst snd]. split; [|exact Logic.I].
  apply apart_put; [exact H|exact O|]. cbn [b_cells]. apply not_in_repeat. discriminate.
Qed.
Lemma keeps_readall p : keeps I (readall p) (fun _ => True).
Proof. intros m H. unfold readall. destruct (cells_at m p); [|exact Logic.I]. cbn. auto. Qed.
Lemma keeps_free p : other a p -> keeps I (free p) (fun _ => True).
Proof.
  intros O m H. unfold free. destruct (is_null p); [cbn; auto|]. destruct (cells_at m p) as [cs|] eqn:E; [|exact Logic.I].
  cbn [fst snd]. split; [|exact Logic.I]. apply apart_put; [exact H|exact O|]. exact (apart_cells _ _ _ H E).
Qed.
Lemma keeps_realloc p n : other a p -> keeps I (realloc al p n) (other a).
Proof.
  intros O m H. unfold realloc. destruct (is_null p); [now apply keeps_malloc|].
  destruct (cells_at m p) as [cs|] eqn:E; [|exact Logic.I]. pose proof (apart_cells _ _ _ H E) as F.
  assert (L : a < length (m_blocks m)) by (apply nth_error_Some; destruct H; congruence).
  assert (F' : ~ In (Ptr a) (firstn n cs ++ repeat Junk (n - length cs))).
  { rewrite in_app_iff. intros [K|K]; [|revert K; apply not_in_repeat; discriminate].
    apply F. rewrite <- (firstn_skipn n cs). apply in_app_iff. now left. }
  destruct (al (m_calls m)); cbn [fst snd].
  - split; [now apply apart_calls|discriminate].
  - split; [|exact O]. now apply apart_put.
  - split; [|intros K; injection K as K; lia]. apply apart_grow; [|exact F']. now apply apart_put.
Qed.
Lemma keeps_sm4_init : keeps I (life_sm4_init al) (other a).
Proof.
  unfold life_sm4_init, context_init. eapply keeps_bind; [apply keeps_malloc|]. intros p O.
  destruct (is_null p); [apply keeps_ret, other_null|]. eapply keeps_bind; [now apply keeps_zero|]. intros _ _. now apply keeps_ret.
Qed.
Lemma keeps_dummy_array d : keeps I (life_dummy_array al d) (other a).
Proof.
  unfold life_dummy_array. eapply keeps_bind; [apply keeps_malloc|]. intros da Oda.
  eapply keeps_bind; [now apply keeps_zero|]. intros _ _.
  eapply keeps_bind with (Q := fun _ => True).
  { eapply keeps_bind; [apply keeps_malloc|]. intros rn Orn. eapply keeps_bind; [now apply keeps_zero|]. intros _ _. now apply keeps_free. }
  intros _ _. eapply keeps_bind; [apply keeps_malloc|]. intros r Or. eapply keeps_bind; [now apply keeps_zero|]. intros _ _.
  eapply keeps_bind; [now apply keeps_free|]. intros _ _. now apply keeps_ret.
Qed.
Lemma keeps_via1 (p : cell) i (g : cell -> M unit) : (forall q, other a q -> keeps I (g q) (fun _ => True)) ->
  keeps I (mbind (load p i) g) (fun _ => True).
Proof. intros G. eapply keeps_bind; [apply keeps_load|exact G]. Qed.
End Keep.

(** ** The round keys an SM4 key setup leaves in a context *)
Lemma round_keys_written e key : bytes key -> e = 0%N \/ e = 1%N ->
  sm4_init_key_mode e sm4_context_init key = if (e =? 1)%N then round_keys (normal_key key) else rev (round_keys (normal_key key)).
Proof.
  intros B E. rewrite init_key_mode_spec by (try reflexivity; exact B). rewrite normal_key_eq. destruct E as [E|E]; subst e; reflexivity.
Qed.

Definition hoare {A} (P : mem -> Prop) (f : M A) (Q : A -> mem -> Prop) : Prop :=
  forall m, P m -> match f m with Ret r => Q (fst r) (snd r) | _ => True end.
Lemma hoare_bind {A B} P (f : M A) (g : A -> M B) Q R : hoare P f Q -> (forall x, hoare (Q x) (g x) R) -> hoare P (mbind f g) R.
Proof.
  intros F G m Hm. unfold mbind. specialize (F m Hm). destruct (f m) as [[x m1]| |]; cbn [obind]; auto. exact (G x m1 F).
Qed.
Lemma hoare_keeps {A} I (f : M A) Q : keeps I f Q -> hoare I f (fun x m => I m /\ Q x).
Proof. intros K. exact K. Qed.
Lemma hoare_of_keeps {A} I (f : M A) Q : keeps I f Q -> hoare I f (fun _ => I).
Proof. intros K m H. specialize (K m H). destruct (f m) as [r| |]; auto. apply K. Qed.
Lemma hoare_pre {A} (P P' : mem -> Prop) (f : M A) Q : hoare P f Q -> (forall m, P' m -> P m) -> hoare P' f Q.
Proof. intros H W m Hm. apply H. auto. Qed.
Lemma hoare_and {A} (I : mem -> Prop) (C : Prop) (f : M A) Q : (C -> hoare I f Q) -> hoare (fun m => I m /\ C) f Q.
Proof. intros H m [Hm c]. exact (H c m Hm). Qed.

Lemma fresh_context al n m r : closed m -> context_init al n m = Ret r ->
  (fst r = null /\ m_blocks (snd r) = m_blocks m) \/
  (fst r = Ptr (size m) /\ apart (size m) (mkblk true (repeat (Num 0) n)) (snd r) /\
   m_blocks (snd r) = m_blocks m ++ [mkblk true (repeat (Num 0) n)]).
Proof.
  intros C. unfold context_init, mbind, malloc, size.
  assert (G : forall k, zero (Ptr (length (m_blocks m))) (mkmem (m_blocks m ++ [mkblk true (repeat Junk n)]) k) =
    Ret (tt, mkmem (m_blocks m ++ [mkblk true (repeat (Num 0) n)]) k)).
  { intros k. unfold zero, cells_at. cbn [m_blocks]. rewrite nth_error_app2, Nat.sub_diag by lia. cbn [nth_error b_live b_cells].
    rewrite repeat_length. cbn [put m_blocks m_calls]. do 3 f_equal.
    induction (m_blocks m) as [|x l IH]; [reflexivity|]. cbn [app length set]. now rewrite IH. }
  assert (D : forall k, apart (length (m_blocks m)) (mkblk true (repeat (Num 0) n)) (mkmem (m_blocks m ++ [mkblk true (repeat (Num 0) n)]) k)).
  { intros k. split; cbn [m_blocks].
    - rewrite nth_error_app2, Nat.sub_diag by lia. reflexivity.
    - intros b x E J. destruct (Nat.lt_ge_cases b (length (m_blocks m))) as [L|L].
      + rewrite nth_error_app1 in E by exact L. pose proof (C _ _ _ E J). lia.
      + rewrite nth_error_app2 in E by exact L. destruct (b - length (m_blocks m)) as [|k']; cbn in E; [|destruct k'; discriminate].
        injection E as <-. cbn [b_cells] in J. apply repeat_spec in J. discriminate. }
  destruct (al (m_calls m)); cbn [obind fst snd is_null null].
  - rewrite N.eqb_refl. cbn. intros E. injection E as <-. left. auto.
  - rewrite G. cbn [obind fst snd ret]. intros E. injection E as <-. right. cbn [fst snd m_blocks]. auto.
  - rewrite G. cbn [obind fst snd ret]. intros E. injection E as <-. right. cbn [fst snd m_blocks]. auto.
Qed.

Lemma length_ks_step e s i : length (snd (sm4_ks_step e s i)) = length (snd s).
Proof. destruct s as [K rk]. unfold sm4_ks_step. cbn [snd]. destruct (e =? 1)%N; [apply length_set|]. destruct (e =? 0)%N; [apply length_set|reflexivity]. Qed.
Lemma length_ks_fold {A B} (f : A * list B -> nat -> A * list B) is : (forall s i, length (snd (f s i)) = length (snd s)) ->
  forall s, length (snd (fold_left f is s)) = length (snd s).
Proof. intros H. induction is as [|i is IH]; intros s; [reflexivity|]. cbn [fold_left]. now rewrite IH, H. Qed.
Lemma length_written e key : length (sm4_init_key_mode e sm4_context_init key) = 32.
Proof. unfold sm4_init_key_mode. rewrite length_ks_fold by apply length_ks_step. reflexivity. Qed.

Lemma keyed_context_gen al s cs (pk vs : list N) : length cs = 32 -> length vs = 32 -> hoare (apart s (mkblk true cs))
  (let* padkey := malloc al 16 in
   (let* dst := realloc al padkey 16 in write dst 0 (map Num pk)) ;;
   readall padkey ;; write (Ptr s) 0 (map Num vs) ;; free padkey)
  (fun _ => apart s (mkblk true (map Num vs))).
Proof.
  intros L L2. eapply hoare_bind; [apply hoare_keeps, keeps_malloc|]. intros pad. apply hoare_and. intros Op.
  eapply hoare_bind.
  { apply hoare_keeps. eapply keeps_bind; [apply keeps_realloc, Op|]. intros dst Od. apply keeps_write; [exact Od|]. apply not_in_nums. }
  intros []. apply hoare_and. intros _. eapply hoare_bind; [apply hoare_keeps, keeps_readall|]. intros rc. apply hoare_and. intros _.
  eapply hoare_bind with (Q := fun _ => apart s (mkblk true (map Num vs))).
  { intros m H. unfold write. rewrite map_length, L2. cbn [Nat.eqb]. unfold cells_at. rewrite (proj1 H). cbn [b_live b_cells].
    rewrite L. cbn [Nat.leb Nat.add]. cbn [fst snd firstn app]. rewrite (skipn_all2 cs) by lia. rewrite app_nil_r.
    pose proof (proj1 H) as H1. destruct H as [_ H2]. split; cbn [put m_blocks].
    - rewrite nth_error_set, Nat.eqb_refl. cbn [andb].
      replace (s <? length (m_blocks m)) with true; [reflexivity|]. symmetry. apply Nat.ltb_lt. apply nth_error_Some. congruence.
    - intros b x. rewrite nth_error_set. destruct ((b =? s) && _); [|apply H2]. intros E. injection E as <-. cbn [b_cells]. apply not_in_nums. }
  intros []. intros m H. pose proof (keeps_free s (mkblk true (map Num vs)) pad Op m H) as K.
  destruct (free pad m) as [[x m1]| |]; auto. apply K.
Qed.

Lemma keyed_context al e s cs key : length cs = 32 -> hoare (apart s (mkblk true cs)) (life_sm4_key al e (Ptr s) key)
  (fun _ => apart s (mkblk true (map Num (sm4_init_key_mode e sm4_context_init key)))).
Proof. intros L. exact (keyed_context_gen al s cs (key_padding_pkcs7 key) (sm4_init_key_mode e sm4_context_init key) L (length_written e key)). Qed.

Lemma row_no_ptr a tab w i j : ~ In (Ptr a) (row tab w i j).
Proof. intros H. apply in_map_iff in H as (x & E & _). discriminate. Qed.
Ltac keep1 := first
  [ apply keeps_via1; intros ? ?
  | apply keeps_write; [assumption|apply row_no_ptr]
  | apply keeps_loop; intros ? _ ].
Definition gen_tables (ctx : cell) (tab : nat -> nat -> nat -> nat -> N) (dummy : nat -> bool) (d : nat) : M unit :=
  loop (32 + 4 * d) (fun i =>
    if dummy i then
      loop 4 (fun j => let* a := load ctx 5 in let* ai := load a i in let* aij := load ai j in write aij 0 (row tab 5 i j)) ;;
      loop 4 (fun j => let* a := load ctx 3 in let* ai := load a i in let* aij := load ai j in write aij 0 (row tab 3 i j))
    else
      loop 3 (fun w => loop 4 (fun j => let* a := load ctx 2 in let* ai := load a i in let* aiw := load ai w in
        let* t := load aiw j in write t 0 (row tab w i j))) ;;
      loop 4 (fun j => let* a := load ctx 3 in let* ai := load a i in let* aij := load ai j in write aij 0 (row tab 3 i j)) ;;
      loop 4 (fun j => let* a := load ctx 4 in let* ai := load a i in let* aij := load ai j in write aij 0 (row tab 4 i j)) ;;
      loop 4 (fun j => let* a := load ctx 5 in let* ai := load a i in let* aij := load ai j in write aij 0 (row tab 5 i j))).
Definition gen_ext (ctx : cell) (tab : nat -> nat -> nat -> nat -> N) : M unit :=
  loop 4 (fun i => loop 4 (fun j =>
    write ctx (6 + 1024 * i + 256 * j) (row tab 6 i j) ;; write ctx (6 + 4096 + 1024 * i + 256 * j) (row tab 7 i j))).
Lemma life_wbsm4_gen_eq al tab dummy ctx d key : life_wbsm4_gen al tab dummy ctx d key =
  (let* sm4_key := life_sm4_init al in
  let* e := load ctx 1 in
  life_sm4_key al (match e with Num 0 => 0 | _ => 1 end)%N sm4_key key ;;
  let* dummy_array := life_dummy_array al d in
  gen_tables ctx tab dummy d ;; gen_ext ctx tab ;; free dummy_array).
Proof. reflexivity. Qed.

Lemma keeps_gen_tables a bl ctx tab dummy d : keeps (apart a bl) (gen_tables ctx tab dummy d) (fun _ => True).
Proof.
  unfold gen_tables. apply keeps_loop. intros i _. destruct (dummy i).
  - eapply keeps_bind; [repeat keep1|]. intros _ _. repeat keep1.
  - eapply keeps_bind; [repeat keep1|]. intros _ _. eapply keeps_bind; [repeat keep1|]. intros _ _.
    eapply keeps_bind; [repeat keep1|]. intros _ _. repeat keep1.
Qed.
Lemma keeps_gen_ext a bl ctx tab : other a ctx -> keeps (apart a bl) (gen_ext ctx tab) (fun _ => True).
Proof.
  intros O. unfold gen_ext. apply keeps_loop. intros i _. apply keeps_loop. intros j _.
  eapply keeps_bind; [apply keeps_write; [exact O|apply row_no_ptr]|]. intros _ _. apply keeps_write; [exact O|apply row_no_ptr].
Qed.

(** nothing leads to a block without references *)
Lemma apart_unreachable a bl m roots : apart a bl m -> ~ In a roots -> ~ reaches m roots a.
Proof.
  intros [_ H] R K. inversion K as [x I|x cs y _ E J]; subst; [now apply R|]. exact (H _ _ E J).
Qed.

Lemma write_null off vs m : length vs <> 0 -> write null off vs m = Undef.
Proof. intros L. unfold write. destruct (Nat.eqb_spec (length vs) 0); [easy|]. reflexivity. Qed.
Lemma key_null_gen al (pk vs : list N) m r : length vs <> 0 ->
  (let* padkey := malloc al 16 in
   (let* dst := realloc al padkey 16 in write dst 0 (map Num pk)) ;;
   readall padkey ;; write null 0 (map Num vs) ;; free padkey) m <> Ret r.
Proof.
  intros L K. unfold mbind in K.
  destruct (malloc al 16 m) as [[pad m2]| |]; cbn [obind fst snd] in K; try discriminate.
  destruct (realloc al pad 16 m2) as [[dst m3]| |]; cbn [obind fst snd] in K; try discriminate.
  destruct (write dst 0 (map Num pk) m3) as [[? m4]| |]; cbn [obind fst snd] in K; try discriminate.
  destruct (readall pad m4) as [[? m5]| |]; cbn [obind fst snd] in K; try discriminate.
  rewrite write_null in K by (rewrite map_length; exact L). discriminate.
Qed.
Lemma key_null al e key m r : life_sm4_key al e null key m <> Ret r.
Proof.
  exact (key_null_gen al (key_padding_pkcs7 key) (sm4_init_key_mode e sm4_context_init key) m r
    (eq_ind_r (fun n => n <> 0) (Nat.neq_succ_0 31) (length_written e key))).
Qed.

(** ** Generating white-box tables *)
Lemma gen_leaves al tab dummy ctx d key m cs r : bytes key -> closed m -> cells_at m ctx = Some cs ->
  life_wbsm4_gen al tab dummy ctx d key m = Ret r ->
  exists vs, apart (size m) (mkblk true (map Num vs)) (snd r) /\
    vs = (if match nth_error cs 1 with Some (Num 0) => true | _ => false end then rev (round_keys (normal_key key)) else round_keys (normal_key key)).
Proof.
  intros B C Hc. rewrite life_wbsm4_gen_eq. unfold mbind at 1. unfold life_sm4_init.
  destruct (context_init al 32 m) as [[s m1]| |] eqn:E; cbn [obind]; try discriminate. cbn [fst snd].
  apply (fresh_context _ _ _ _ C) in E. cbn [fst snd] in E.
  apply cells_at_look in Hc as (x & -> & Hx & Lx).
  assert (O : other (size m) (Ptr x)). { intros K. injection K as K. lia. }
  assert (V : nth_error (m_blocks m1) x = Some (mkblk true cs)).
  { destruct E as [[_ E]|(_ & _ & E)]; rewrite E; [exact Hx|]. rewrite nth_error_app1 by exact Lx. exact Hx. }
  unfold mbind at 1. unfold load, cells_at. rewrite V. cbn [b_live b_cells].
  destruct (nth_error cs 1) as [e|]; cbn [obind]; try discriminate. cbn [fst snd].
  set (e' := (match e with Num 0 => 0 | _ => 1 end)%N).
  assert (Ee : e' = (if match e with Num 0 => true | _ => false end then 0 else 1)%N) by (subst e'; destruct e as [[|?]| | |]; reflexivity).
  clearbody e'.
  destruct E as [[-> _]|(-> & E & _)].
  { unfold mbind at 1. destruct (life_sm4_key al e' null key m1) as [r1| |] eqn:K; cbn [obind]; try discriminate. now apply key_null in K. }
  intros G.
  assert (H : hoare (apart (size m) (mkblk true (repeat (Num 0) 32)))
    (life_sm4_key al e' (Ptr (size m)) key ;; let* dummy_array := life_dummy_array al d in
      gen_tables (Ptr x) tab dummy d ;; gen_ext (Ptr x) tab ;; free dummy_array)
    (fun _ => apart (size m) (mkblk true (map Num (sm4_init_key_mode e' sm4_context_init key))))).
  { eapply hoare_bind; [apply keyed_context; apply repeat_length|]. intros u.
    assert (K : keeps (apart (size m) (mkblk true (map Num (sm4_init_key_mode e' sm4_context_init key))))
      (let* dummy_array := life_dummy_array al d in gen_tables (Ptr x) tab dummy d ;; gen_ext (Ptr x) tab ;; free dummy_array) (fun _ => True)).
    { eapply keeps_bind; [apply keeps_dummy_array|]. intros da Oda. eapply keeps_bind; [apply keeps_gen_tables|]. intros _ _.
      eapply keeps_bind; [now apply keeps_gen_ext|]. intros _ _. now apply keeps_free. }
    exact (hoare_of_keeps _ _ _ K). }
  specialize (H _ E). rewrite G in H. eexists. split; [exact H|].
  rewrite round_keys_written; [|exact B|rewrite Ee; destruct e as [[|?]| | |]; auto].
  rewrite Ee. destruct e as [[|?]| | |]; reflexivity.
Qed.

Lemma se_gen_leaves al ctx key maps m cs r : bytes key -> closed m -> cells_at m ctx = Some cs ->
  life_se_gen al ctx key maps m = Ret r ->
  exists vs, apart (size m) (mkblk true (map Num vs)) (snd r) /\
    vs = (if match nth_error cs 0 with Some (Num 0) => true | _ => false end then rev (round_keys (normal_key key)) else round_keys (normal_key key)).
Proof.
  intros B C Hc. unfold life_se_gen. unfold mbind at 1. unfold life_sm4_init.
  destruct (context_init al 32 m) as [[s m1]| |] eqn:E; cbn [obind]; try discriminate. cbn [fst snd].
  apply (fresh_context _ _ _ _ C) in E. cbn [fst snd] in E.
  apply cells_at_look in Hc as (x & -> & Hx & Lx).
  assert (O : other (size m) (Ptr x)). { intros K. injection K as K. lia. }
  assert (V : nth_error (m_blocks m1) x = Some (mkblk true cs)).
  { destruct E as [[_ E]|(_ & _ & E)]; rewrite E; [exact Hx|]. rewrite nth_error_app1 by exact Lx. exact Hx. }
  unfold mbind at 1. unfold load, cells_at. rewrite V. cbn [b_live b_cells].
  destruct (nth_error cs 0) as [e|]; cbn [obind]; try discriminate. cbn [fst snd].
  set (e' := (match e with Num 0 => 0 | _ => 1 end)%N).
  assert (Ee : e' = (if match e with Num 0 => true | _ => false end then 0 else 1)%N) by (subst e'; destruct e as [[|?]| | |]; reflexivity).
  clearbody e'.
  destruct E as [[-> _]|(-> & E & _)].
  { unfold mbind at 1. destruct (life_sm4_key al e' null key m1) as [r1| |] eqn:K; cbn [obind]; try discriminate. now apply key_null in K. }
  intros G.
  assert (H : hoare (apart (size m) (mkblk true (repeat (Num 0) 32)))
    (life_sm4_key al e' (Ptr (size m)) key ;; write (Ptr x) 1 (map Num maps))
    (fun _ => apart (size m) (mkblk true (map Num (sm4_init_key_mode e' sm4_context_init key))))).
  { eapply hoare_bind; [apply keyed_context; apply repeat_length|]. intros u.
    apply (hoare_of_keeps _ _ (fun _ => True)). apply keeps_write; [exact O|]. apply not_in_nums. }
  specialize (H _ E). rewrite G in H. eexists. split; [exact H|].
  rewrite round_keys_written; [|exact B|rewrite Ee; destruct e as [[|?]| | |]; auto].
  rewrite Ee. destruct e as [[|?]| | |]; reflexivity.
Qed.

(** ** The key from the round keys *)
Lemma lxor_lxor a b : N.lxor (N.lxor a b) b = a.
Proof. now rewrite N.lxor_assoc, N.lxor_nilpotent, N.lxor_0_r. Qed.
Lemma unround_round TT s k : unround TT (round TT s k) k = s.
Proof. destruct s as [[[x0 x1] x2] x3]. unfold round, unround. now rewrite lxor_lxor. Qed.
Lemma unrounds TT ks s : fold_left (unround TT) (rev ks) (rounds TT ks s) = s.
Proof.
  revert s. induction ks as [|k ks IH]; intros s; [reflexivity|]. cbn [rev]. rewrite fold_left_app. cbn [fold_left].
  change (rounds TT (k :: ks) s) with (rounds TT ks (round TT s k)). rewrite IH. apply unround_round.
Qed.
Lemma expand_app a : forall s b, expand s (a ++ b) = expand s a ++ expand (rounds T' a s) b.
Proof.
  induction a as [|c a IH]; intros s b; [reflexivity|]. cbn [app expand]. rewrite IH. reflexivity.
Qed.
Lemma expand_last s a c0 c1 c2 c3 n : length a = n ->
  let rks := expand s (a ++ [c0; c1; c2; c3]) in
  (get rks n, get rks (n + 1), get rks (n + 2), get rks (n + 3)) = rounds T' (a ++ [c0; c1; c2; c3]) s.
Proof.
  intros L. cbv zeta. rewrite expand_app, rounds_app. pose proof (length_expand s a) as LE. rewrite L in LE.
  set (t := rounds T' a s). clearbody t. unfold get. rewrite !app_nth2 by lia. rewrite LE, Nat.sub_diag.
  replace (n + 1 - n) with 1 by lia. replace (n + 2 - n) with 2 by lia. replace (n + 3 - n) with 3 by lia.
  destruct t as [[[x0 x1] x2] x3]. unfold rounds. cbn [expand nth fold_left round snd]. reflexivity.
Qed.
Lemma st_xor_xor a b : st_xor (st_xor a b) b = a.
Proof. destruct a as [[[? ?] ?] ?], b as [[[? ?] ?] ?]. unfold st_xor. now rewrite !lxor_lxor. Qed.
Lemma key_of_round_keys k : block16 k -> sm4_key_of_round_keys (round_keys k) = k.
Proof.
  intros K. unfold sm4_key_of_round_keys, round_keys.
  change (seq 0 32) with (seq 0 28 ++ [28; 29; 30; 31]). rewrite map_app. cbn [map].
  pose proof (expand_last (st_xor (st_of k) std_FK) (map std_CK (seq 0 28)) (std_CK 28) (std_CK 29) (std_CK 30) (std_CK 31) 28) as E.
  specialize (E ltac:(now rewrite map_length, seq_length)). cbv zeta in E.
  change (28 + 1) with 29 in E. change (28 + 2) with 30 in E. change (28 + 3) with 31 in E.
  set (l := map std_CK (seq 0 28)) in *. clearbody l. set (r := [_; _; _; _]) in *. clearbody r. rewrite E.
  rewrite unrounds, st_xor_xor. now apply st_to_of.
Qed.
