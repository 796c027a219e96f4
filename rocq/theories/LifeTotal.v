(** * With enough memory: what the functions of the heap model do, exactly *)
From Verif Require Import Base CbcModel GcmModel FpeModel Sm4Model ParModel CbcProofs GfProofs LifeModel LifeSpec LifeProofs.
Local Open Scope nat_scope.

(** ** Block lists *)
Lemma look_new {A} (B : list A) x : nth_error (B ++ [x]) (length B) = Some x.
Proof. rewrite nth_error_app2, Nat.sub_diag by lia. reflexivity. Qed.
Lemma look_old {A} (B L : list A) a : a < length B -> nth_error (B ++ L) a = nth_error B a.
Proof. intros H. now apply nth_error_app1. Qed.
Lemma set_new {A} (B : list A) x y : set (B ++ [x]) (length B) y = B ++ [y].
Proof. induction B as [|z B IH]; [reflexivity|]. cbn [app length set]. now rewrite IH. Qed.
Lemma set_old {A} (B L : list A) a y : a < length B -> set (B ++ L) a y = set B a y ++ L.
Proof.
  revert a. induction B as [|z B IH]; intros a H; [cbn in H; lia|]. destruct a as [|a]; [reflexivity|].
  cbn [app set]. rewrite IH by (cbn [length] in H; lia). reflexivity.
Qed.
Lemma set_set {A} (B : list A) a x y : set (set B a x) a y = set B a y.
Proof. revert a. induction B as [|z B IH]; intros [|a]; cbn [set]; try reflexivity. now rewrite IH. Qed.
Lemma set_past {A} (B : list A) a y : length B <= a -> set B a y = B.
Proof. revert a. induction B as [|z B IH]; intros [|a] H; cbn [set length] in *; try reflexivity; try lia. rewrite IH by lia. reflexivity. Qed.
Definition lives (B : list block) : nat := length (filter b_live B).
Lemma lives_app A B : lives (A ++ B) = lives A + lives B.
Proof. unfold lives. now rewrite filter_app, app_length. Qed.
Lemma lives_set B a x y : nth_error B a = Some x ->
  lives (set B a y) + (if b_live x then 1 else 0) = lives B + (if b_live y then 1 else 0).
Proof.
  unfold lives. revert a. induction B as [|z B IH]; intros [|a] E; cbn [nth_error] in E; try discriminate.
  - injection E as ->. cbn [set filter]. destruct (b_live x), (b_live y); cbn [length]; lia.
  - cbn [set filter]. specialize (IH _ E). destruct (b_live z); cbn [length]; lia.
Qed.

(** the objects GCM initialisation builds: before and after the tables are filled *)
Definition gcm_blank (key : cell) (f : nat) : list cell := repeat (Num 0) 82 ++ [key; Code f].
Definition gcm_object (key : cell) (f : nat) (h : list N) : list cell :=
  [Num 0; Num 0] ++ map Num (snd (init_tables h)) ++ map Num (fst (init_tables h)) ++ repeat (Num 0) 48 ++ [key; Code f].
Lemma length_init_tables h : length (fst (init_tables h)) = 16 /\ length (snd (init_tables h)) = 16.
Proof.
  destruct (init_tables_eq h) as (v0h & v0l & E1 & E2 & HT). cbv zeta in HT. rewrite HT. split; reflexivity.
Qed.
Definition good_radix (radix : N) : bool := negb ((radix <? 2)%N || (36 <? radix)%N).
Definition fpe_object (key : cell) (f : nat) (radix : N) (t : cell) (tweak : list N) : list cell :=
  [key; Code f; Num radix; t; Num (N.of_nat (length tweak) mod 2 ^ 32)].

(** the SM4 key object after key setup *)
Definition sm4_object (e : N) (key : list N) : list cell := map Num (sm4_init_key_mode e sm4_context_init key).

Lemma write_eq a off vs cs B k : nth_error B a = Some (mkblk true cs) -> off + length vs <= length cs ->
  write (Ptr a) off vs (mkmem B k) = Ret (tt, mkmem (set B a (mkblk true (firstn off cs ++ vs ++ skipn (off + length vs) cs))) k).
Proof.
  intros E L. unfold write. destruct (Nat.eqb_spec (length vs) 0) as [Z|Z].
  - destruct vs; [|discriminate]. cbn [app length]. rewrite Nat.add_0_r, firstn_skipn. do 3 f_equal. symmetry.
    clear L. revert a E. induction B as [|z B IH]; intros [|a] E; cbn [nth_error set] in *; try reflexivity; [congruence|]. now rewrite IH.
  - unfold cells_at. cbn [m_blocks]. rewrite E. cbn [b_live b_cells]. apply Nat.leb_le in L. rewrite L. reflexivity.
Qed.
Lemma store_eq a i v cs B k : nth_error B a = Some (mkblk true cs) -> i < length cs ->
  store (Ptr a) i v (mkmem B k) = Ret (tt, mkmem (set B a (mkblk true (set cs i v))) k).
Proof.
  intros E L. unfold store. rewrite (write_eq _ _ _ cs) by (auto; cbn [length]; lia). do 5 f_equal. cbn [length].
  clear E. revert i L. induction cs as [|c cs IH]; intros i L; [cbn [length] in L; lia|]. destruct i as [|i]; [reflexivity|].
  cbn [length] in L. cbn [firstn app set skipn Nat.add]. rewrite <- IH by lia. reflexivity.
Qed.
Lemma zero_eq a cs B k : nth_error B a = Some (mkblk true cs) ->
  zero (Ptr a) (mkmem B k) = Ret (tt, mkmem (set B a (mkblk true (repeat (Num 0) (length cs)))) k).
Proof. intros E. unfold zero, cells_at. cbn [m_blocks]. now rewrite E. Qed.
Lemma free_eq a cs B k : nth_error B a = Some (mkblk true cs) ->
  free (Ptr a) (mkmem B k) = Ret (tt, mkmem (set B a (mkblk false cs)) k).
Proof. intros E. unfold free, cells_at. cbn [m_blocks is_null]. now rewrite E. Qed.
Lemma load_eq a i cs v B k : nth_error B a = Some (mkblk true cs) -> nth_error cs i = Some v ->
  load (Ptr a) i (mkmem B k) = Ret (v, mkmem B k).
Proof. intros E F. unfold load, cells_at. cbn [m_blocks]. rewrite E. cbn [b_live b_cells]. now rewrite F. Qed.
Lemma readall_eq a cs B k : nth_error B a = Some (mkblk true cs) -> readall (Ptr a) (mkmem B k) = Ret (cs, mkmem B k).
Proof. intros E. unfold readall, cells_at. cbn [m_blocks]. now rewrite E. Qed.
Lemma mbind_eq {A B} (f : M A) (g : A -> M B) m x m' : f m = Ret (x, m') -> mbind f g m = g x m'.
Proof. intros E. unfold mbind. now rewrite E. Qed.
Lemma write_mid a (X Y vs Z : list cell) off B k : nth_error B a = Some (mkblk true (X ++ Y ++ Z)) -> off = length X -> length vs = length Y ->
  write (Ptr a) off vs (mkmem B k) = Ret (tt, mkmem (set B a (mkblk true (X ++ vs ++ Z))) k).
Proof.
  intros E -> L. rewrite (write_eq a _ vs _ _ _ E) by (rewrite !app_length; lia). do 5 f_equal.
  rewrite firstn_app, firstn_all, Nat.sub_diag, app_nil_r. f_equal. f_equal.
  rewrite skipn_app, L. rewrite skipn_all2 by lia. cbn [app]. replace (length X + length Y - length X) with (length Y) by lia.
  rewrite skipn_app, skipn_all, Nat.sub_diag. reflexivity.
Qed.
Ltac run t := eapply eq_trans; [eapply mbind_eq; t|]; cbv beta; rewrite ?set_new.
Ltac at_end := apply look_new.
Ltac inside := unfold gcm_cells, gcm_key_at, gcm_block_at; rewrite ?app_length, ?repeat_length, ?map_length, ?length_set; cbn; lia.
Lemma gcm_blank_eq key f : set (set (repeat (Num 0) gcm_cells) gcm_key_at key) gcm_block_at (Code f) = gcm_blank key f.
Proof. reflexivity. Qed.
Lemma gcm_fill key f h B k : exists k', (let '(HH, HL) := init_tables h in
    write (Ptr (length B)) 2 (map Num HL) ;; write (Ptr (length B)) 18 (map Num HH) ;; ret (Ptr (length B))) (mkmem (B ++ [mkblk true (gcm_blank key f)]) k)
  = Ret (Ptr (length B), mkmem (B ++ [mkblk true (gcm_object key f h)]) k').
Proof.
  exists k. unfold gcm_object. destruct (length_init_tables h) as [L1 L2]. destruct (init_tables h) as [HH HL]. cbn [fst snd] in *.
  run ltac:(eapply (write_mid _ [Num 0; Num 0] (repeat (Num 0) 16) _ (repeat (Num 0) 64 ++ [key; Code f])); [at_end|reflexivity|rewrite map_length; exact L2]).
  run ltac:(eapply (write_mid _ ([Num 0; Num 0] ++ map Num HL) (repeat (Num 0) 16) _ (repeat (Num 0) 48 ++ [key; Code f]));
    [rewrite <- app_assoc; at_end|rewrite app_length, map_length, L2; reflexivity|rewrite map_length; exact L1]).
  unfold ret. rewrite <- app_assoc. reflexivity.
Qed.
Lemma fpe_free_eq a t c0 c1 c2 c4 ct B k : a <> t -> nth_error B a = Some (mkblk true [c0; c1; c2; Ptr t; c4]) -> nth_error B t = Some (mkblk true ct) ->
  life_fpe_free (Ptr a) (mkmem B k) = Ret (tt, mkmem (set (set B t (mkblk false ct)) a (mkblk false [c0; c1; c2; Ptr t; c4])) k).
Proof.
  intros N E F. unfold life_fpe_free. cbn [is_null]. run ltac:(eapply load_eq; [exact E|reflexivity]). cbn [is_null].
  run ltac:(eapply free_eq; exact F). apply free_eq. rewrite nth_error_set. destruct (Nat.eqb_spec a t); [congruence|exact E].
Qed.
Lemma mac_free_eq p a t c0 c1 c2 c4 ct B k : p <> a -> p <> t -> a <> t -> nth_error B p = Some (mkblk true [Ptr a]) ->
  nth_error B a = Some (mkblk true [c0; c1; c2; Ptr t; c4]) -> nth_error B t = Some (mkblk true ct) ->
  life_mac_free (Ptr p) (mkmem B k) =
  Ret (tt, mkmem (set (set (set B t (mkblk false ct)) a (mkblk false [c0; c1; c2; Ptr t; c4])) p (mkblk false [Ptr a])) k).
Proof.
  intros N1 N2 N3 D E F. unfold life_mac_free. cbn [is_null]. run ltac:(eapply load_eq; [exact D|reflexivity]). cbn [is_null].
  run ltac:(eapply fpe_free_eq; eassumption). apply free_eq. rewrite !nth_error_set.
  destruct (Nat.eqb_spec p a); [congruence|]. destruct (Nat.eqb_spec p t); [congruence|exact D].
Qed.
Lemma wbgcm_free_eq a cs B k : nth_error B a = Some (mkblk true cs) ->
  life_wbgcm_free (Ptr a) (mkmem B k) = Ret (tt, mkmem (set B a (mkblk false (repeat (Num 0) (length cs)))) k).
Proof.
  intros E. unfold life_wbgcm_free. run ltac:(eapply zero_eq; exact E). cbn [is_null].
  rewrite (free_eq _ (repeat (Num 0) (length cs))), set_set; [reflexivity|]. rewrite nth_error_set, Nat.eqb_refl.
  assert (H : nth_error B a <> None) by congruence. apply nth_error_Some in H. apply Nat.ltb_lt in H. now rewrite ?H.
Qed.
Lemma loop_run n body (P : nat -> mem -> Prop) m : P 0 m ->
  (forall i m, i < n -> P i m -> exists m', body i m = Ret (tt, m') /\ P (S i) m') -> exists m', loop n body m = Ret (tt, m') /\ P n m'.
Proof.
  intros H0 S. unfold loop.
  assert (G : forall c i m, i + c = n -> P i m -> exists m', mfor (seq i c) body m = Ret (tt, m') /\ P n m').
  { induction c as [|c IH]; intros i m' L HP.
    - exists m'. rewrite Nat.add_0_r in L. subst. split; [reflexivity|exact HP].
    - destruct (S i m' ltac:(lia) HP) as (m1 & E1 & H1). destruct (IH (Datatypes.S i) m1 ltac:(lia) H1) as (m2 & E2 & H2).
      exists m2. split; [|exact H2]. cbn [seq mfor]. eapply eq_trans; [eapply mbind_eq; exact E1|]. exact E2. }
  exact (G n 0 m eq_refl H0).
Qed.
Definition all_live (L : list block) : Prop := forall b, In b L -> b_live b = true.
Lemma filter_all_live L : all_live L -> filter b_live L = L.
Proof.
  induction L as [|b L IH]; intros H; [reflexivity|]. cbn [filter]. rewrite (H b (or_introl eq_refl)). rewrite IH; [reflexivity|].
  intros x I. apply H. now right.
Qed.

Section Total.
Variable al : nat -> answer.
Hypothesis rich : plenty al.

Lemma malloc_eq n B k : malloc al n (mkmem B k) = Ret (Ptr (length B), mkmem (B ++ [mkblk true (repeat Junk n)]) (S k)).
Proof. unfold malloc. cbn [m_calls m_blocks]. rewrite rich. reflexivity. Qed.
Lemma realloc_eq a n cs B k : nth_error B a = Some (mkblk true cs) ->
  realloc al (Ptr a) n (mkmem B k) = Ret (Ptr a, mkmem (set B a (mkblk true (firstn n cs ++ repeat Junk (n - length cs)))) (S k)).
Proof. intros E. unfold realloc, cells_at. cbn [m_blocks is_null m_calls]. rewrite E. cbn [b_live b_cells]. rewrite rich. reflexivity. Qed.

(** ** Contexts in one block *)
Lemma context_init_eq n B k : exists k', context_init al n (mkmem B k) = Ret (Ptr (length B), mkmem (B ++ [mkblk true (repeat (Num 0) n)]) k').
Proof.
  eexists. unfold context_init. rewrite (mbind_eq _ _ _ _ _ (malloc_eq n B k)). cbn [is_null].
  rewrite (mbind_eq _ _ _ _ _ (zero_eq _ _ _ _ (look_new B _))). rewrite set_new, repeat_length. reflexivity.
Qed.
Lemma sm4_key_gen_eq a cs (pk vs : list N) B k : nth_error B a = Some (mkblk true cs) -> length cs = 32 -> length vs = 32 -> length pk = 16 ->
  exists k', (let* padkey := malloc al 16 in
   (let* dst := realloc al padkey 16 in write dst 0 (map Num pk)) ;;
   readall padkey ;; write (Ptr a) 0 (map Num vs) ;; free padkey) (mkmem B k) =
  Ret (tt, mkmem (set B a (mkblk true (map Num vs)) ++ [mkblk false (map Num pk)]) k').
Proof.
  intros E L Lv Lp. eexists. rewrite (mbind_eq _ _ _ _ _ (malloc_eq 16 B k)).
  assert (La : a < length B) by (apply nth_error_Some; congruence).
  match goal with |- mbind ?f ?g ?m = _ => assert (G : f m = Ret (tt, mkmem (B ++ [mkblk true (map Num pk)]) (S (S k)))) end.
  { rewrite (mbind_eq _ _ _ _ _ (realloc_eq _ 16 _ _ _ (look_new B _))). rewrite set_new.
    rewrite (write_eq _ 0 (map Num pk) _ _ _ (look_new B _)) by (rewrite map_length, Lp; cbn; lia).
    rewrite set_new. cbn [firstn]. rewrite skipn_all2; [now rewrite app_nil_r|]. rewrite map_length, Lp. cbn. lia. }
  rewrite (mbind_eq _ _ _ _ _ G). rewrite (mbind_eq _ _ _ _ _ (readall_eq _ _ _ _ (look_new B _))).
  assert (E2 : nth_error (B ++ [mkblk true (map Num pk)]) a = Some (mkblk true cs)) by (rewrite look_old; auto).
  rewrite (mbind_eq _ _ _ _ _ (write_eq a 0 (map Num vs) cs _ _ E2 ltac:(rewrite map_length; lia))). rewrite set_old by exact La.
  cbn [firstn app]. rewrite skipn_all2 by (rewrite map_length; lia). rewrite app_nil_r.
  assert (E3 : nth_error (set B a (mkblk true (map Num vs)) ++ [mkblk true (map Num pk)]) (length B) = Some (mkblk true (map Num pk))).
  { rewrite <- (length_set B a (mkblk true (map Num vs))). apply look_new. }
  rewrite (free_eq _ _ _ _ E3). do 3 f_equal. rewrite <- (length_set B a (mkblk true (map Num vs))). apply set_new.
Qed.
Lemma sm4_key_eq e a cs key B k : nth_error B a = Some (mkblk true cs) -> length cs = 32 ->
  exists k', life_sm4_key al e (Ptr a) key (mkmem B k) =
  Ret (tt, mkmem (set B a (mkblk true (sm4_object e key)) ++ [mkblk false (map Num (key_padding_pkcs7 key))]) k').
Proof.
  intros E L. unfold sm4_object. apply (sm4_key_gen_eq a cs (key_padding_pkcs7 key) (sm4_init_key_mode e sm4_context_init key) B k E L); [apply length_written|].
  apply key_padding_length.
Qed.
Lemma length_sm4_object e key : length (sm4_object e key) = 32.
Proof. unfold sm4_object. rewrite map_length. apply length_written. Qed.
Local Opaque sm4_object.

(** ** GCM *)
Section Gcm.
Variable blk : nat -> mem -> cell -> list N -> outcome (option (list N)).
Definition ask (f : nat) (key : cell) (b : list N) : M (option (list N)) := fun m => obind (blk f m key b) (fun r => Ret (r, m)).
Lemma ask_eq f key b m r : blk f m key b = Ret r -> ask f key b m = Ret (r, m).
Proof. intros E. unfold ask. rewrite E. reflexivity. Qed.
(** the memory the block function is called in *)
Definition at_call (key : cell) (f : nat) (B : list block) (k : nat) : mem := mkmem (B ++ [mkblk true (gcm_blank key f)]) (S k).
Lemma gcm_init_eq key f B k r : blk f (at_call key f B k) key (repeat 0%N 16) = Ret r -> exists k',
  life_gcm_init al blk key f (mkmem B k) =
  match r with
  | Some h => Ret (Ptr (length B), mkmem (B ++ [mkblk true (gcm_object key f h)]) k')
  | None => Ret (null, mkmem (B ++ [mkblk true (gcm_blank key f)]) k')
  end.
Proof.
  intros E. destruct r as [h|].
  - destruct (gcm_fill key f h B (S k)) as (k' & F). exists k'. unfold life_gcm_init.
    run ltac:(apply malloc_eq). cbn [is_null]. run ltac:(eapply zero_eq; at_end). rewrite repeat_length.
    run ltac:(eapply store_eq; [at_end|inside]). run ltac:(eapply store_eq; [at_end|inside]).
    rewrite gcm_blank_eq. run ltac:(apply (ask_eq f key _ _ (Some h)); exact E). exact F.
  - exists (S k). unfold life_gcm_init.
    run ltac:(apply malloc_eq). cbn [is_null]. run ltac:(eapply zero_eq; at_end). rewrite repeat_length.
    run ltac:(eapply store_eq; [at_end|inside]). run ltac:(eapply store_eq; [at_end|inside]).
    rewrite gcm_blank_eq. run ltac:(apply (ask_eq f key _ _ None); exact E). reflexivity.
Qed.
Lemma wbgcm_init_eq key f B k r : blk f (at_call key f B k) key (repeat 0%N 16) = Ret r -> exists k',
  life_wbgcm_init al blk key f (mkmem B k) =
  Ret (Ptr (length B), mkmem (B ++ [mkblk true (gcm_object key f (match r with Some h => h | None => repeat 0%N 16 end))]) k').
Proof.
  intros E. set (h := match r with Some h => h | None => repeat 0%N 16 end).
  destruct (gcm_fill key f h B (S k)) as (k' & F). exists k'. unfold life_wbgcm_init.
  run ltac:(apply malloc_eq). cbn [is_null]. run ltac:(eapply zero_eq; at_end). rewrite repeat_length.
  run ltac:(eapply store_eq; [at_end|inside]). run ltac:(eapply store_eq; [at_end|inside]).
  rewrite gcm_blank_eq. run ltac:(apply (ask_eq f key _ _ r); exact E). exact F.
Qed.
Definition gcmfile_object (g : cell) : list cell := g :: repeat (Num 0) 4 ++ repeat Junk 12.
Lemma gcmfile_init_eq key f B k r :
  blk f (at_call key f (B ++ [mkblk true (gcmfile_object Junk)]) (S k)) key (repeat 0%N 16) = Ret r -> exists k',
  life_gcmfile_init al blk key f (mkmem B k) =
  match r with
  | Some h => Ret (Ptr (length B), mkmem (B ++ [mkblk true (gcmfile_object (Ptr (S (length B)))); mkblk true (gcm_object key f h)]) k')
  | None => Ret (Ptr (length B), mkmem (B ++ [mkblk true (gcmfile_object null); mkblk true (gcm_blank key f)]) k')
  end.
Proof.
  intros E. destruct (gcm_init_eq key f _ _ r E) as (k' & F). exists k'. unfold life_gcmfile_init.
  assert (G : forall x g b, (store (Ptr (length B)) 0 g;; ret (Ptr (length B))) (mkmem ((B ++ [mkblk true (gcmfile_object Junk)]) ++ [b]) x) =
     Ret (Ptr (length B), mkmem (B ++ [mkblk true (gcmfile_object g); b]) x)).
  { intros x g b. run ltac:(eapply store_eq; [rewrite look_old by (rewrite app_length; cbn; lia); at_end|inside]).
    rewrite set_old by (rewrite app_length; cbn; lia). rewrite set_new, <- app_assoc. reflexivity. }
  destruct r as [h|].
  - run ltac:(apply malloc_eq). cbn [is_null].
    run ltac:(eapply (write_mid _ [Junk] (repeat Junk 4) _ (repeat Junk 12)); [at_end|reflexivity|reflexivity]).
    run ltac:(exact F). rewrite app_length, Nat.add_1_r. apply G.
  - run ltac:(apply malloc_eq). cbn [is_null].
    run ltac:(eapply (write_mid _ [Junk] (repeat Junk 4) _ (repeat Junk 12)); [at_end|reflexivity|reflexivity]).
    run ltac:(exact F). apply G.
Qed.
End Gcm.

(** ** FPE *)
Lemma fpe_init_eq tweak radix key f B k : exists k', life_fpe_init al tweak radix key f (mkmem B k) =
  if good_radix radix
  then Ret (Ptr (length B), mkmem (B ++ [mkblk true (fpe_object key f radix (Ptr (S (length B))) tweak); mkblk true (map Num tweak)]) k')
  else Ret (null, mkmem (B ++ [mkblk true (repeat Junk 5)]) k').
Proof.
  unfold good_radix. destruct ((radix <? 2)%N || (36 <? radix)%N) eqn:R; cbn [negb].
  - exists (S k). unfold life_fpe_init. run ltac:(apply malloc_eq). cbn [is_null]. rewrite R. reflexivity.
  - exists (S (S k)). unfold life_fpe_init. run ltac:(apply malloc_eq). cbn [is_null]. rewrite R.
    run ltac:(eapply store_eq; [at_end|inside]). run ltac:(eapply store_eq; [at_end|inside]).
    run ltac:(eapply store_eq; [at_end|inside]). run ltac:(eapply store_eq; [at_end|inside]).
    run ltac:(apply malloc_eq).
    run ltac:(eapply store_eq; [rewrite look_old by (rewrite app_length; cbn; lia); at_end|inside]).
    rewrite set_old by (rewrite app_length; cbn; lia). rewrite set_new.
    rewrite (app_length B), Nat.add_1_r. cbn [repeat set].
    match goal with |- (write (Ptr (S (length B))) 0 _ ;; _) (mkmem ((B ++ [?x]) ++ _) _) = _ =>
      replace (S (length B)) with (length (B ++ [x])) at 1 by (rewrite app_length; cbn; lia) end.
    run ltac:(eapply write_eq; [at_end|inside]). cbn [firstn app].
    rewrite skipn_all2 by (rewrite repeat_length, map_length; lia). rewrite app_nil_r, <- app_assoc. reflexivity.
Qed.
Lemma mac_init_eq tweak radix key f B k : exists k', life_mac_init al tweak radix key f (mkmem B k) =
  if good_radix radix
  then Ret (Ptr (length B), mkmem (B ++ [mkblk true [Ptr (S (length B))]; mkblk true (fpe_object key f radix (Ptr (S (S (length B)))) tweak); mkblk true (map Num tweak)]) k')
  else Ret (null, mkmem (B ++ [mkblk true [Junk]]) k').
Proof.
  destruct (fpe_init_eq tweak radix key f (B ++ [mkblk true [Junk]]) (S k)) as (k' & F).
  unfold good_radix in *. destruct ((radix <? 2)%N || (36 <? radix)%N) eqn:R; cbn [negb] in *.
  - exists (S k). unfold life_mac_init. run ltac:(apply malloc_eq). cbn [is_null]. rewrite R. reflexivity.
  - exists k'. unfold life_mac_init. run ltac:(apply malloc_eq). cbn [is_null]. rewrite R.
    run ltac:(exact F).
    run ltac:(eapply store_eq; [rewrite <- app_assoc, nth_error_app2, Nat.sub_diag by lia; reflexivity|cbn; lia]).
    rewrite !app_length, Nat.add_1_r. rewrite set_old by (rewrite app_length; cbn; lia). rewrite set_new, <- app_assoc. reflexivity.
Qed.

(** ** Calls *)
Lemma scratch_eq sizes B k : exists D k', life_scratch al sizes (mkmem B k) = Ret (tt, mkmem (B ++ D) k') /\ filter b_live D = [].
Proof.
  revert B k. induction sizes as [|n sizes IH]; intros B k.
  - exists [], k. rewrite app_nil_r. split; reflexivity.
  - destruct (IH (B ++ [mkblk true (repeat (Num 0) n)]) (S k)) as (D & k' & F & G).
    exists (mkblk false (repeat (Num 0) n) :: D), k'. split; [|exact G].
    unfold life_scratch in *. run ltac:(apply malloc_eq). run ltac:(eapply zero_eq; at_end). rewrite repeat_length.
    run ltac:(exact F). rewrite (free_eq _ (repeat (Num 0) n)).
    + rewrite set_old by (rewrite app_length; cbn; lia). rewrite set_new, <- app_assoc. reflexivity.
    + rewrite look_old by (rewrite app_length; cbn; lia). at_end.
Qed.
Lemma cbc_encrypt_eq inp padded B k : length inp <= length padded -> exists k',
  life_cbc_encrypt al inp padded (mkmem B k) = Ret (tt, mkmem (B ++ [mkblk true (map Num padded)]) k').
Proof.
  intros L. eexists. unfold life_cbc_encrypt. run ltac:(apply malloc_eq).
  run ltac:(run ltac:(eapply realloc_eq; at_end);
    eapply write_eq; [at_end|rewrite ?app_length, ?firstn_length, ?repeat_length, ?map_length; lia]).
  run ltac:(eapply readall_eq; at_end).
  cbn [firstn app]. rewrite skipn_all2 by (rewrite ?app_length, ?firstn_length, ?repeat_length, ?map_length; lia). rewrite app_nil_r. reflexivity.
Qed.
Lemma parallel_eq n ctr B k : (forall i, i < len_s n -> length (ctr i) = 16) -> exists L k',
  life_parallel al n ctr (mkmem B k) = Ret (tt, mkmem (B ++ L) k') /\ length L = 1 + len_s n /\ all_live L /\
  forall i, i < len_s n -> nth_error L (S i) = Some (mkblk true (map Num (ctr i))).
Proof.
  intros Hc. unfold life_parallel.
  assert (H0 : (fun i m => exists q L, m_blocks m = B ++ mkblk true q :: L /\ length q = len_s n /\ length L = i /\ all_live L /\
      forall j, j < i -> nth_error L j = Some (mkblk true (map Num (ctr j))))
     0 (mkmem (B ++ [mkblk true (repeat Junk (len_s n))]) (S k))).
  { exists (repeat Junk (len_s n)), []. rewrite repeat_length. repeat split; [intros b []|intros j Hj; lia]. }
  destruct (loop_run (len_s n) (fun i => let* y := malloc al 16 in store (Ptr (length B)) i y ;; write y 0 (map Num (ctr i))) _ _ H0) as (m' & E & q & L & E1 & E2 & E3 & E4 & E5).
  { intros i [BB kk] Hi. specialize (Hc i Hi). intros (q & L & E & Lq & LL & AL & C). cbn [m_blocks] in E. subst BB.
    set (nb := length (B ++ mkblk true q :: L)).
    assert (S1 : set (B ++ mkblk true q :: L) (length B) (mkblk true (set q i (Ptr nb))) = B ++ mkblk true (set q i (Ptr nb)) :: L).
    { change (mkblk true q :: L) with ([mkblk true q] ++ L). rewrite app_assoc. rewrite set_old by (rewrite app_length; cbn; lia).
      rewrite set_new, <- app_assoc. reflexivity. }
    assert (S2 : nb = length (B ++ mkblk true (set q i (Ptr nb)) :: L)) by (unfold nb; rewrite !app_length; reflexivity).
    eexists. split.
    - run ltac:(apply malloc_eq). fold nb.
      run ltac:(eapply store_eq; [rewrite look_old by (rewrite app_length; cbn; lia); rewrite nth_error_app2, Nat.sub_diag by lia; reflexivity|lia]).
      rewrite set_old by (rewrite app_length; cbn; lia). rewrite S1.
      eapply write_eq; [rewrite S2 at 2; at_end|rewrite map_length, Hc, repeat_length; lia].
    - exists (set q i (Ptr nb)), (L ++ [mkblk true (map Num (ctr i))]). cbn [m_blocks]. split; [|repeat split].
      + cbn [firstn app]. rewrite skipn_all2 by (rewrite repeat_length, map_length, Hc; lia). rewrite app_nil_r.
        rewrite S2 at 2. rewrite set_new, <- app_assoc. reflexivity.
      + now rewrite length_set.
      + rewrite app_length. cbn. lia.
      + intros b Ib. apply in_app_iff in Ib as [Ib|[Ib|[]]]; [now apply AL|subst b; reflexivity].
      + intros j Hj. destruct (Nat.eq_dec j i) as [Ej|Ej].
        * subst j. rewrite <- LL. apply look_new.
        * rewrite look_old by lia. apply C. lia. }
  exists (mkblk true q :: L), (m_calls m'). split; [|split; [|split]].
  - run ltac:(apply malloc_eq). rewrite E, <- E1. destruct m'; reflexivity.
  - cbn [length]. lia.
  - intros b [Ib|Ib]; [subst b; reflexivity|now apply E4].
  - intros i Hi. cbn [nth_error]. now apply E5.
Qed.

(** ** Applications *)
Lemma app_init_eq key B k : exists k', life_app_init_sm4 al key (mkmem B k) =
  Ret (Ptr (length B), mkmem (B ++ [mkblk true (sm4_object 1 key); mkblk false (map Num (key_padding_pkcs7 key))]) k').
Proof.
  destruct (context_init_eq 32 B k) as (k1 & E1).
  destruct (sm4_key_eq 1 (length B) (repeat (Num 0) 32) key (B ++ [mkblk true (repeat (Num 0) 32)]) k1 (look_new B _) (repeat_length _ _)) as (k2 & E2).
  exists k2. unfold life_app_init_sm4. run ltac:(exact E1). run ltac:(exact E2). unfold ret. rewrite ?set_new, <- app_assoc. cbn [app]. reflexivity.
Qed.
Lemma app_call_eq c f tweak radix sizes B k : exists D k',
  life_app_call al c f tweak radix sizes (mkmem B k) = Ret (tt, mkmem (B ++ D) k') /\
  filter b_live D = if good_radix radix then [] else [mkblk true (repeat Junk 5)].
Proof.
  destruct (fpe_init_eq tweak radix c f B k) as (k1 & E1). destruct (good_radix radix).
  - set (O := fpe_object c f radix (Ptr (S (length B))) tweak) in *. set (T := map Num tweak) in *.
    destruct (scratch_eq sizes (B ++ [mkblk true O; mkblk true T]) k1) as (D & k2 & E2 & F2).
    exists (mkblk false O :: mkblk false T :: D), k2. split; [|exact F2].
    unfold life_app_call. run ltac:(exact E1). run ltac:(exact E2).
    rewrite (fpe_free_eq (length B) (S (length B)) c (Code f) (Num radix) (Num (N.of_nat (length tweak) mod 2 ^ 32)) T).
    + do 3 f_equal. change [c; Code f; Num radix; Ptr (S (length B)); Num (N.of_nat (length tweak) mod 2 ^ 32)] with O. clearbody O.
      replace (S (length B)) with (length (B ++ [mkblk true O])) by (rewrite app_length; cbn; lia).
      change [mkblk true O; mkblk true T] with ([mkblk true O] ++ [mkblk true T]). rewrite app_assoc.
      rewrite (set_old _ D) by (rewrite !app_length; cbn; lia). rewrite set_new. rewrite <- !app_assoc. rewrite (app_assoc B).
      rewrite set_old by (rewrite app_length; cbn; lia). rewrite set_new, <- app_assoc. reflexivity.
    + lia.
    + rewrite <- app_assoc, nth_error_app2, Nat.sub_diag by lia. reflexivity.
    + rewrite <- app_assoc, nth_error_app2 by lia. replace (S (length B) - length B) with 1 by lia. reflexivity.
  - destruct (scratch_eq sizes (B ++ [mkblk true (repeat Junk 5)]) k1) as (D & k2 & E2 & F2).
    exists (mkblk true (repeat Junk 5) :: D), k2. split; [|cbn [filter b_live]; now rewrite F2].
    unfold life_app_call. run ltac:(exact E1). run ltac:(exact E2). unfold life_fpe_free. cbn. rewrite <- app_assoc. reflexivity.
Qed.
Lemma udf_row_eq key tweak radix f sizes B k : good_radix radix = true -> exists D k',
  life_udf_row al key tweak radix f sizes (mkmem B k) = Ret (tt, mkmem (B ++ D) k') /\ filter b_live D = [mkblk true (sm4_object 1 key)].
Proof.
  intros R. destruct (app_init_eq key B k) as (k1 & E1). set (L1 := [mkblk true (sm4_object 1 key); mkblk false (map Num (key_padding_pkcs7 key))]) in *.
  destruct (app_call_eq (Ptr (length B)) f tweak radix sizes (B ++ L1) k1) as (D & k2 & E2 & F2). rewrite R in F2.
  exists (L1 ++ D), k2. split.
  - unfold life_udf_row. run ltac:(exact E1). rewrite E2, <- app_assoc. reflexivity.
  - rewrite filter_app, F2. unfold L1. cbn [filter b_live]. now rewrite app_nil_r.
Qed.
Lemma udf_query_eq n key f rows B k : Forall (fun r => good_radix (snd (fst r)) = true) rows -> exists D k',
  life_udf_query al n key f rows (mkmem B k) = Ret (tt, mkmem (B ++ D) k') /\
  filter b_live D = repeat (mkblk true (sm4_object 1 key)) (length rows).
Proof.
  intros R. unfold life_udf_query.
  set (go := fix go (rows : list (list N * N * list nat)) : M unit := match rows with
     | [] => ret tt | (tweak, radix, sizes) :: rows' => life_udf_row al key tweak radix f sizes ;; go rows' end).
  assert (G : forall rows B k, Forall (fun r => good_radix (snd (fst r)) = true) rows -> exists D k',
     go rows (mkmem B k) = Ret (tt, mkmem (B ++ D) k') /\ filter b_live D = repeat (mkblk true (sm4_object 1 key)) (length rows)).
  { clear rows R B k. induction rows as [|[[tweak radix] sizes] rows IH]; intros B k R.
    - exists [], k. rewrite app_nil_r. split; reflexivity.
    - inversion R as [|x xs R1 R2]; subst. cbn [fst snd] in R1.
      destruct (udf_row_eq key tweak radix f sizes B k R1) as (D1 & k1 & E1 & F1).
      destruct (IH (B ++ D1) k1 R2) as (D2 & k2 & E2 & F2).
      exists (D1 ++ D2), k2. split.
      + cbn [go]. run ltac:(exact E1). fold go. rewrite E2, <- app_assoc. reflexivity.
      + rewrite filter_app, F1, F2. reflexivity. }
  destruct (G rows (B ++ [mkblk true (repeat Junk (n + 1))]) (S k) R) as (D & k2 & E & F).
  exists (mkblk false (repeat Junk (n + 1)) :: D), k2. split; [|exact F].
  run ltac:(apply malloc_eq). cbn [is_null]. run ltac:(exact E).
  rewrite (free_eq _ (repeat Junk (n + 1))).
  - rewrite set_old by (rewrite app_length; cbn; lia). rewrite set_new, <- app_assoc. reflexivity.
  - rewrite look_old by (rewrite app_length; cbn; lia). at_end.
Qed.
End Total.
