(** * The generators of tables over the real generator are instances of those over any sequence *)
From Verif Require Import Base Word32 Sm4Model FpeModel MatModel MatSpec MatProofs GaussProofs ComProofs Wbsm4Model SewbModel WbaesModel WbgcmModel RandModel RandProofs.
Local Open Scope nat_scope.

(** ** Functions that look at no more of the sequence than they consume *)
Definition tape (l : list N) (rnd : nat -> N) (pos : nat) : Prop := forall k, k < length l -> draw rnd (pos + k) = nth k l 0%N.
Lemma tape_app l1 l2 rnd pos : tape (l1 ++ l2) rnd pos <-> tape l1 rnd pos /\ tape l2 rnd (pos + length l1).
Proof.
  unfold tape. rewrite app_length. split.
  - intro H. split; intros k K.
    + rewrite H, app_nth1 by lia. reflexivity.
    + replace (pos + length l1 + k) with (pos + (length l1 + k)) by lia. rewrite H by lia. rewrite app_nth2 by lia. f_equal. lia.
  - intros [A B] k K. destruct (lt_dec k (length l1)).
    + rewrite app_nth1 by lia. now apply A.
    + rewrite app_nth2 by lia. rewrite <- B by lia. f_equal. lia.
Qed.
Definition drawn (rnd : nat -> N) (a b : nat) : list N := map (draw rnd) (seq a (b - a)).
Lemma drawn_length rnd a b : length (drawn rnd a b) = b - a.
Proof. unfold drawn. now rewrite map_length, seq_length. Qed.
Lemma drawn_app rnd a b c : a <= b -> b <= c -> drawn rnd a c = drawn rnd a b ++ drawn rnd b c.
Proof.
  intros A B. unfold drawn. rewrite <- map_app. f_equal. replace (c - a) with ((b - a) + (c - b)) by lia.
  rewrite seq_app. do 2 f_equal. lia.
Qed.
Lemma tape_drawn rnd a b rnd' pos : tape (drawn rnd a b) rnd' pos <-> forall k, k < b - a -> draw rnd' (pos + k) = draw rnd (a + k).
Proof.
  unfold tape. rewrite drawn_length. unfold drawn. split; intros H k K.
  - rewrite H by exact K. rewrite (nth_indep _ 0%N (draw rnd 0)) by (rewrite map_length, seq_length; lia).
    rewrite map_nth, seq_nth by lia. reflexivity.
  - rewrite H by exact K. rewrite (nth_indep _ 0%N (draw rnd 0)) by (rewrite map_length, seq_length; lia).
    rewrite map_nth, seq_nth by lia. reflexivity.
Qed.
(** [f] on any sequence that continues with [l] returns [a] and has consumed exactly [l] *)
Definition runs {A} (f : (nat -> N) -> nat -> outcome (A * nat)) (l : list N) (a : A) : Prop :=
  forall rnd pos, tape l rnd pos -> f rnd pos = Ret (a, pos + length l).
Definition local {A} (f : (nat -> N) -> nat -> outcome (A * nat)) : Prop :=
  forall rnd pos a e, f rnd pos = Ret (a, e) -> pos <= e /\ runs f (drawn rnd pos e) a.
Definition obnd {A B} (f : (nat -> N) -> nat -> outcome (A * nat)) (g : A -> (nat -> N) -> nat -> outcome (B * nat)) :=
  fun rnd pos => obind (f rnd pos) (fun r => g (fst r) rnd (snd r)).
Lemma runs_bind {A B} f g l1 l2 (a : A) (b : B) : runs f l1 a -> runs (g a) l2 b -> runs (obnd f g) (l1 ++ l2) b.
Proof.
  intros F G rnd pos T. apply tape_app in T. destruct T as [T1 T2]. unfold obnd. rewrite (F _ _ T1). cbn [obind fst snd].
  rewrite (G _ _ T2), app_length. do 2 f_equal. lia.
Qed.
Lemma local_bind {A B} (f : (nat -> N) -> nat -> outcome (A * nat)) (g : A -> (nat -> N) -> nat -> outcome (B * nat)) :
  local f -> (forall a, local (g a)) -> local (obnd f g).
Proof.
  intros F G rnd pos b e H. unfold obnd in H. destruct (f rnd pos) as [[a m]| |] eqn:E; try discriminate. cbn [obind fst snd] in H.
  destruct (F _ _ _ _ E) as [L1 R1]. destruct (G a _ _ _ _ H) as [L2 R2]. split; [lia|].
  rewrite (drawn_app _ _ m) by assumption. now apply runs_bind with (a := a).
Qed.
Lemma local_ret {A} (a : A) : local (fun _ pos => Ret (a, pos)).
Proof. intros rnd pos x e H. injection H as <- <-. split; [lia|]. intros r p _. rewrite drawn_length. do 2 f_equal. lia. Qed.
Lemma local_draw {A} (h : N -> A) : local (fun rnd pos => Ret (h (draw rnd pos), pos + 1)).
Proof.
  intros rnd pos x e H. injection H as <- <-. split; [lia|]. intros r p T. rewrite tape_drawn in T.
  specialize (T 0 ltac:(lia)). rewrite !Nat.add_0_r in T. rewrite T, drawn_length. do 2 f_equal. lia.
Qed.
Lemma local_ext {A} (f g : (nat -> N) -> nat -> outcome (A * nat)) : (forall rnd pos, f rnd pos = g rnd pos) -> local f -> local g.
Proof.
  intros E L rnd pos a e H. rewrite <- E in H. destruct (L _ _ _ _ H) as [P R]. split; [exact P|].
  intros r p T. rewrite <- E. now apply R.
Qed.
Lemma local_undef {A} : local (fun (_ : nat -> N) (_ : nat) => @Undef (A * nat)).
Proof. intros rnd pos a e H. discriminate. Qed.
(** a function of a fixed number of draws *)
Lemma local_fixed {A} (h : (nat -> N) -> A) (c : nat) : (forall d d', (forall k, k < c -> d k = d' k) -> h d = h d') ->
  local (fun rnd pos => Ret (h (fun k => draw rnd (pos + k)), pos + c)).
Proof.
  intros X rnd pos a e H. injection H as <- <-. split; [lia|]. intros r p T. rewrite tape_drawn in T. rewrite drawn_length.
  f_equal. f_equal; [|lia]. apply X. intros k K. apply T. lia.
Qed.

(** ** WBMatrix *)
Definition l_randM n rnd pos : outcome (list N * nat) := Ret (randM n rnd pos).
Lemma local_randM n : local (l_randM n).
Proof.
  destruct (Nat.eqb_spec n 128) as [G|G]; [|destruct (Nat.eqb_spec n 64) as [E|E]].
  - refine (local_ext _ _ _ (local_fixed (fun d : nat -> N => map (fun i =>
      (((d (4 * i)%nat * 4294967296 + d (4 * i + 1)%nat) * 4294967296 + d (4 * i + 2)%nat) * 4294967296 + d (4 * i + 3)%nat)%N) (seq 0 n)) 512 _)).
    + intros. unfold l_randM, randM. rewrite (proj2 (Nat.eqb_eq _ _) G). do 2 f_equal. apply map_ext. intro i. now rewrite !Nat.add_assoc.
    + intros d d' D. apply map_ext_in. intros i I. apply in_seq in I. rewrite !D by lia. reflexivity.
  - refine (local_ext _ _ _ (local_fixed (fun d : nat -> N => map (fun i => (d (2 * i)%nat * 4294967296 + d (2 * i + 1)%nat)%N) (seq 0 n)) 128 _)).
    + intros. unfold l_randM, randM. rewrite (proj2 (Nat.eqb_neq _ _) G), (proj2 (Nat.eqb_eq _ _) E). do 2 f_equal. apply map_ext. intro i. now rewrite Nat.add_assoc.
    + intros d d' D. apply map_ext_in. intros i I. apply in_seq in I. rewrite !D by lia. reflexivity.
  - refine (local_ext _ _ _ (local_fixed (fun d : nat -> N => map (fun i => (d i mod 2 ^ N.of_nat n)%N) (seq 0 n)) n _)).
    + intros. unfold l_randM, randM. now rewrite (proj2 (Nat.eqb_neq _ _) G), (proj2 (Nat.eqb_neq _ _) E).
    + intros d d' D. apply map_ext_in. intros i I. apply in_seq in I. rewrite !D by lia. reflexivity.
Qed.
Definition l_randV n rnd pos : outcome (N * nat) := Ret (randV n rnd pos).
Lemma local_randV n : local (l_randV n).
Proof.
  destruct (Nat.eqb_spec n 128) as [G|G]; [|destruct (Nat.eqb_spec n 64) as [E|E]; [|destruct (Nat.eqb_spec n 32) as [F|F]]].
  - refine (local_ext _ _ _ (local_fixed (fun d : nat -> N => (((((((d 0%nat mod 65536 * 65536 + d 1%nat mod 65536) * 65536 + d 2%nat mod 65536) * 65536
      + d 3%nat mod 65536) * 65536 + d 4%nat mod 65536) * 65536 + d 5%nat mod 65536) * 65536 + d 6%nat mod 65536) * 65536 + d 7%nat mod 65536)%N) 8 _)).
    + intros. unfold l_randV, randV. now rewrite (proj2 (Nat.eqb_eq _ _) G).
    + intros d d' D. rewrite !D by lia. reflexivity.
  - refine (local_ext _ _ _ (local_fixed (fun d : nat -> N => (((d 0%nat mod 65536 * 65536 + d 1%nat mod 65536) * 65536 + d 2%nat mod 65536) * 65536 + d 3%nat mod 65536)%N) 4 _)).
    + intros. unfold l_randV, randV. now rewrite (proj2 (Nat.eqb_neq _ _) G), (proj2 (Nat.eqb_eq _ _) E).
    + intros d d' D. rewrite !D by lia. reflexivity.
  - refine (local_ext _ _ _ (local_fixed (fun d : nat -> N => (d 0%nat mod 65536 * 65536 + d 1%nat mod 65536)%N) 2 _)).
    + intros. unfold l_randV, randV. now rewrite (proj2 (Nat.eqb_neq _ _) G), (proj2 (Nat.eqb_neq _ _) E), (proj2 (Nat.eqb_eq _ _) F).
    + intros d d' D. rewrite !D by lia. reflexivity.
  - refine (local_ext _ _ _ (local_draw (fun v => (v mod 2 ^ N.of_nat n)%N))).
    intros. unfold l_randV, randV. now rewrite (proj2 (Nat.eqb_neq _ _) G), (proj2 (Nat.eqb_neq _ _) E), (proj2 (Nat.eqb_neq _ _) F).
Qed.
Definition l_scramble n i s rnd pos : outcome (gst * nat) := Ret (gen_scramble n rnd i s pos).
Lemma local_scramble n i s : local (l_scramble n i s).
Proof.
  assert (G : forall ts s, local (fun rnd pos => Ret (fold_left (fun sp t => let '(s, pos) := sp in
                 (if (draw rnd pos mod 2 =? 0)%N then s else gstep n (OAdd t i) s, pos + 1)) ts (s, pos)))).
  { induction ts as [|t ts IH]; intro s0.
    - apply local_ret.
    - apply (local_ext (obnd (fun rnd pos => Ret ((fun v => if (v mod 2 =? 0)%N then s0 else gstep n (OAdd t i) s0) (draw rnd pos), pos + 1))
        (fun s rnd pos => Ret (fold_left (fun sp t => let '(s, pos) := sp in
                 (if (draw rnd pos mod 2 =? 0)%N then s else gstep n (OAdd t i) s, pos + 1)) ts (s, pos))))).
      + reflexivity.
      + apply (local_bind (fun rnd pos => Ret ((fun v => if (v mod 2 =? 0)%N then s0 else gstep n (OAdd t i) s0) (draw rnd pos), pos + 1))); [exact (local_draw (fun v => if (v mod 2 =? 0)%N then s0 else gstep n (OAdd t i) s0))|exact IH]. }
  unfold l_scramble, gen_scramble. destruct (i <? n - 1) eqn:E.
  - apply (local_ext (obnd (fun rnd pos => Ret ((fun v => gstep n (OSwap (i + 1 + N.to_nat (v mod N.of_nat (n - 1 - i))%N) i) s) (draw rnd pos), pos + 1))
      (fun s rnd pos => Ret (fold_left (fun sp t => let '(s, pos) := sp in
                 (if (draw rnd pos mod 2 =? 0)%N then s else gstep n (OAdd t i) s, pos + 1)) (seq (i + 1) (n - 1 - i)) (s, pos))))).
    + reflexivity.
    + apply local_bind; [exact (local_draw (fun v => gstep n (OSwap (i + 1 + N.to_nat (v mod N.of_nat (n - 1 - i))%N) i) s))|apply G].
  - apply local_ret.
Qed.
Definition l_forward n is (sb : gst * bool) rnd pos : outcome ((gst * bool) * nat) :=
  Ret (fold_left (gen_forward n rnd) is (fst sb, snd sb, pos)).
Lemma local_forward n : forall is sb, local (l_forward n is sb).
Proof.
  induction is as [|i is IH]; intros [s b].
  - apply local_ret.
  - unfold l_forward. cbn [fst snd fold_left].
    destruct (readbit n (g_temp s) i i) eqn:E; [|destruct (find_pivot n g_temp i s) as [j|] eqn:F].
    + apply (local_ext (l_forward n is (elim_below n g_temp (gstep n) i s, b))); [|apply IH].
      intros. unfold l_forward. cbn [fst snd]. do 2 f_equal. unfold gen_forward. now rewrite E.
    + apply (local_ext (l_forward n is (elim_below n g_temp (gstep n) i (gstep n (OSwap j i) s), b))); [|apply IH].
      intros. unfold l_forward. cbn [fst snd]. do 2 f_equal. unfold gen_forward. now rewrite E, F.
    + apply (local_ext (obnd (l_scramble n i s) (fun s' => l_forward n is (s', false)))).
      * intros. unfold obnd, l_forward, l_scramble. cbn [obind fst snd]. do 2 f_equal. unfold gen_forward. rewrite E, F.
        destruct (gen_scramble n rnd i s pos). reflexivity.
      * apply local_bind; [apply local_scramble|intro; apply IH].
Qed.
Lemma local_genMatpair n : local (genMatpair n).
Proof.
  apply (local_ext (obnd (l_randM n) (fun A => obnd (l_forward n (seq 0 n) (mkgst A (identityM n) [] true, true)) (fun sb _ pos =>
    if (snd sb : bool) then
      let s := elim_above n g_temp gstep_norec (fst sb) in
      if g_ok s then Ret (A, g_inv s, pos) else Undef
    else
      let s := elim_above n g_temp (gstep n) (fst sb) in
      if g_ok s then Ret (fold_left (fun M o => applyop o M) (g_trail s) (identityM n), g_inv s, pos) else Undef)))).
  - intros. unfold genMatpair, obnd, l_randM, l_forward. cbn [obind fst snd]. destruct (randM n rnd pos) as [A p]. cbn [fst snd].
    destruct (fold_left (gen_forward n rnd) (seq 0 n) (mkgst A (identityM n) [] true, true, p)) as [[s b] q]. reflexivity.
  - apply local_bind; [apply local_randM|]. intro A. apply local_bind; [apply local_forward|]. intros [s []]; cbn [fst snd]; cbv zeta.
    + destruct (g_ok _); [apply local_ret|apply local_undef].
    + destruct (g_ok _); [apply local_ret|apply local_undef].
Qed.

(** ** Permutations do not depend on what the array of the inverse held *)
Lemma get_nth l i : get l i = nth i l 0%N. Proof. reflexivity. Qed.
Lemma inverse_unique k P Q Q' : permutation_of k P -> inverse_of k P Q -> inverse_of k P Q' -> Q = Q'.
Proof.
  intros (LP & ND & BP) [LQ HQ] [LQ' HQ']. apply nth_ext with (d := 0%N) (d' := 0%N); [congruence|].
  intros i I. rewrite LQ in I.
  assert (In (N.of_nat i) P) as J.
  { assert (C : incl (map N.of_nat (seq 0 k)) P).
    { apply NoDup_length_incl; [exact ND|rewrite map_length, seq_length; lia|]. intros x X. rewrite Forall_forall in BP. specialize (BP x X).
      apply in_map_iff. exists (N.to_nat x). rewrite in_seq. lia. }
    apply C, in_map, in_seq. lia. }
  apply (In_nth _ _ 0%N) in J. destruct J as (j & J & E). rewrite LP in J.
  pose proof (proj1 (HQ j J)) as A. pose proof (proj1 (HQ' j J)) as B. rewrite (get_nth P j), E, Nat2N.id in A, B.
  rewrite !get_nth in A, B. congruence.
Qed.
Lemma genPermutation_junk size rnd pos ji ji' : length ji = size -> length ji' = size ->
  genPermutation size rnd pos ji = genPermutation size rnd pos ji'.
Proof.
  intros L L'. pose proof (genPermutation_lemma size rnd pos ji L) as H. pose proof (genPermutation_lemma size rnd pos ji' L') as H'.
  unfold genPermutation in *. cbv zeta in *. destruct H as [H1 H2]. destruct H' as [_ H3]. do 2 f_equal. eapply inverse_unique; eassumption.
Qed.
Definition junk0 : nat -> nat -> N := fun _ _ => 0%N.
Lemma genPermutations_junk size k rnd junk : forall pos, genPermutations size k rnd junk pos = genPermutations size k rnd junk0 pos.
Proof.
  induction k as [|k IH]; intro pos; [reflexivity|]. cbn [genPermutations].
  rewrite (genPermutation_junk size rnd pos (map (junk pos) (seq 0 size)) (map (junk0 pos) (seq 0 size))) by (now rewrite map_length, seq_length).
  destruct (genPermutation size rnd pos (map (junk0 pos) (seq 0 size))) as [[P Q] p]. now rewrite IH.
Qed.
Definition l_perms size k rnd pos : outcome (list (list N * list N) * nat) := Ret (genPermutations size k rnd junk0 pos).
Definition perm_of size (d : nat -> N) : list N * list N :=
  let permutation := map N.of_nat (seq 0 size) in
  let permutation := fold_left (fun P i =>
      let j := N.to_nat (d i mod N.of_nat (size - i))%N in
      let temp := get P i in set (set P i (get P (i + j))) (i + j) temp) (seq 0 (size - 1)) permutation in
  let inverse := fold_left (fun Q i => set Q (N.to_nat (get permutation i)) (N.of_nat i)) (seq 0 size) (map (junk0 0) (seq 0 size)) in
  (permutation, inverse).
Lemma fold_left_ext_in {A B} (f g : A -> B -> A) l : (forall a b, In b l -> f a b = g a b) -> forall a, fold_left f l a = fold_left g l a.
Proof. induction l as [|b l IH]; intros H a; [reflexivity|]. cbn. rewrite H by now left. apply IH. intros. apply H. now right. Qed.
Lemma local_perm size : local (fun rnd pos => Ret (perm_of size (fun k => draw rnd (pos + k)), pos + (size - 1))).
Proof.
  apply local_fixed. intros d d' D. unfold perm_of. cbv zeta.
  rewrite (fold_left_ext_in (fun P i => set (set P i (get P (i + N.to_nat (d i mod N.of_nat (size - i))%N))) (i + N.to_nat (d i mod N.of_nat (size - i))%N) (get P i))
     (fun P i => set (set P i (get P (i + N.to_nat (d' i mod N.of_nat (size - i))%N))) (i + N.to_nat (d' i mod N.of_nat (size - i))%N) (get P i))); [reflexivity|].
  intros P i I. apply in_seq in I. rewrite D by lia. reflexivity.
Qed.
Lemma local_perms size k : local (l_perms size k).
Proof.
  induction k as [|k IH]; [apply local_ret|].
  refine (local_ext _ _ _ (local_bind _ (fun PQ => obnd (l_perms size k) (fun l _ pos => Ret (PQ :: l, pos))) (local_perm size) _)).
  - intros. unfold obnd, l_perms. cbn [obind fst snd genPermutations]. unfold genPermutation, perm_of. cbv zeta.
    change (map (junk0 pos) (seq 0 size)) with (map (junk0 0) (seq 0 size)).
    match goal with |- context [genPermutations size k rnd junk0 ?p] => destruct (genPermutations size k rnd junk0 p) as [l q] end. reflexivity.
  - intro PQ. apply local_bind; [exact IH|intro; apply local_ret].
Qed.

(** ** From the real generator to a sequence *)
Definition words (l : list N) : Prop := Forall (fun x => x < 4294967296)%N l.
Definition lifts {A} (f : (nat -> N) -> nat -> outcome (A * nat)) (sf : rng -> outcome (A * rng)) : Prop :=
  forall s a s', sf s = Ret (a, s') -> exists l, words l /\ runs f l a.
Lemma words_drawn rnd a b : words (drawn rnd a b).
Proof. apply Forall_forall. intros x H. apply in_map_iff in H. destruct H as [k [<- _]]. unfold draw. apply N.mod_lt. discriminate. Qed.
Lemma lifts_bind {A B} (f : (nat -> N) -> nat -> outcome (A * nat)) (g : A -> (nat -> N) -> nat -> outcome (B * nat)) sf sg :
  lifts f sf -> (forall a, lifts (g a) (sg a)) -> lifts (obnd f g) (fun s => obind (sf s) (fun r => sg (fst r) (snd r))).
Proof.
  intros F G s b s' H. destruct (sf s) as [[a s1]| |] eqn:E; try discriminate. cbn [obind fst snd] in H.
  destruct (F _ _ _ E) as (l1 & W1 & R1). destruct (G a _ _ _ H) as (l2 & W2 & R2).
  exists (l1 ++ l2). split; [apply Forall_app; now split|]. now apply runs_bind with (a := a).
Qed.
Lemma lifts_seg {A} (f : (nat -> N) -> nat -> outcome (A * nat)) (seed : rng -> rng) : local f ->
  lifts f (fun s => let s := seed s in obind (f (rng_stream s) 0) (fun r => Ret (fst r, rng_adv s (snd r)))).
Proof.
  intros L s a s' H. cbv zeta in H. destruct (f (rng_stream (seed s)) 0) as [[x p]| |] eqn:E; try discriminate. injection H as -> _.
  destruct (L _ _ _ _ E) as [_ R]. exists (drawn (rng_stream (seed s)) 0 p). split; [apply words_drawn|exact R].
Qed.
Lemma lifts_ret {A} (a : A) : lifts (fun _ pos => Ret (a, pos)) (fun s => Ret (a, s)).
Proof. intros s x s' H. injection H as <- _. exists []. split; [constructor|]. intros rnd pos _. cbn. do 2 f_equal. lia. Qed.
Lemma lifts_ext {A} (f g : (nat -> N) -> nat -> outcome (A * nat)) sf sg : (forall rnd pos, f rnd pos = g rnd pos) -> (forall s, sf s = sg s) ->
  lifts f sf -> lifts g sg.
Proof.
  intros E S H s a s' R. rewrite <- S in R. destruct (H _ _ _ R) as (l & W & X). exists l. split; [exact W|].
  intros rnd pos T. rewrite <- E. now apply X.
Qed.
(** the sequence that starts with [l] *)
Definition rnd_of (l : list N) (k : nat) : N := nth k l 0%N.
Lemma tape_rnd_of l : words l -> tape l (rnd_of l) 0.
Proof.
  intros W k K. unfold draw, rnd_of. cbn [Nat.add]. apply N.mod_small. unfold words in W. rewrite Forall_forall in W. apply W, nth_In, K.
Qed.

Lemma lifts_genMatpair n clk : lifts (genMatpair n) (s_genMatpair n clk).
Proof.
  apply (lifts_ext (genMatpair n) (genMatpair n) _ _ (fun _ _ => eq_refl)) with (2 := lifts_seg (genMatpair n) (fun s => reseed clk (reseed clk s)) (local_genMatpair n)).
  intro s. unfold s_genMatpair. cbv zeta. destruct (genMatpair n _ 0) as [[[A B] p]| |]; reflexivity.
Qed.
Lemma lifts_randV n clk : lifts (l_randV n) (fun s => Ret (s_randV n clk s)).
Proof.
  apply (lifts_ext (l_randV n) (l_randV n) _ _ (fun _ _ => eq_refl)) with (2 := lifts_seg (l_randV n) (reseed clk) (local_randV n)).
  intro s. unfold s_randV, l_randV. cbv zeta. cbn [obind]. destruct (randV n _ 0); reflexivity.
Qed.
Lemma lifts_genaffinepair n clk : lifts (genaffinepair n) (s_genaffinepair n clk).
Proof.
  eapply lifts_ext; [| |apply (lifts_bind (genMatpair n) (fun AB => obnd (l_randV n) (fun v _ pos => Ret (mkaff (fst AB) v, mkaff (snd AB) (MatMulVec n (snd AB) v), pos))) (s_genMatpair n clk)
     (fun AB s => obind (Ret (s_randV n clk s)) (fun r => Ret (mkaff (fst AB) (fst r), mkaff (snd AB) (MatMulVec n (snd AB) (fst r)), snd r))))].
  - intros. unfold obnd, genaffinepair, l_randV. destruct (genMatpair n rnd pos) as [[[A B] p]| |]; cbn [obind fst snd]; try reflexivity.
    destruct (randV n rnd p). reflexivity.
  - intros. unfold s_genaffinepair. destruct (s_genMatpair n clk s) as [[[A B] p]| |]; cbn [obind fst snd]; try reflexivity.
    destruct (s_randV n clk p). reflexivity.
  - apply lifts_genMatpair.
  - intros [A B]. cbn [fst snd].
    apply (lifts_bind (l_randV n) (fun v _ pos => Ret (mkaff A v, mkaff B (MatMulVec n B v), pos)) (fun s => Ret (s_randV n clk s)) (fun v s => Ret (mkaff A v, mkaff B (MatMulVec n B v), s))).
    + apply lifts_randV.
    + intro v. apply lifts_ret.
Qed.
Lemma lifts_genaffinepairs n k clk : lifts (genaffinepairs n k) (s_genaffinepairs n k clk).
Proof.
  induction k as [|k IH]; [apply lifts_ret|].
  eapply lifts_ext; [| |apply (lifts_bind (genaffinepair n) (fun ab => obnd (genaffinepairs n k) (fun l _ pos => Ret (ab :: l, pos))) (s_genaffinepair n clk)
     (fun ab s => obind (s_genaffinepairs n k clk s) (fun r => Ret (ab :: fst r, snd r))))].
  - intros. unfold obnd. cbn [genaffinepairs]. destruct (genaffinepair n rnd pos) as [[[A B] p]| |]; cbn [obind fst snd]; try reflexivity.
    destruct (genaffinepairs n k rnd p) as [[l q]| |]; reflexivity.
  - intros. cbn [s_genaffinepairs]. destruct (s_genaffinepair n clk s) as [[[A B] p]| |]; cbn [obind fst snd]; try reflexivity.
    destruct (s_genaffinepairs n k clk p) as [[l q]| |]; reflexivity.
  - apply lifts_genaffinepair.
  - intro ab. apply (lifts_bind (genaffinepairs n k) (fun l _ pos => Ret (ab :: l, pos)) (s_genaffinepairs n k clk) (fun l s => Ret (ab :: l, s))); [exact IH|intro; apply lifts_ret].
Qed.
Lemma lifts_genMatpairs n k clk : lifts (genMatpairs n k) (s_genMatpairs n k clk).
Proof.
  induction k as [|k IH]; [apply lifts_ret|].
  eapply lifts_ext; [| |apply (lifts_bind (genMatpair n) (fun ab => obnd (genMatpairs n k) (fun l _ pos => Ret (ab :: l, pos))) (s_genMatpair n clk)
     (fun ab s => obind (s_genMatpairs n k clk s) (fun r => Ret (ab :: fst r, snd r))))].
  - intros. unfold obnd. cbn [genMatpairs]. destruct (genMatpair n rnd pos) as [[[A B] p]| |]; cbn [obind fst snd]; try reflexivity.
    destruct (genMatpairs n k rnd p) as [[l q]| |]; reflexivity.
  - intros. cbn [s_genMatpairs]. destruct (s_genMatpair n clk s) as [[[A B] p]| |]; cbn [obind fst snd]; try reflexivity.
    destruct (s_genMatpairs n k clk p) as [[l q]| |]; reflexivity.
  - apply lifts_genMatpair.
  - intro ab. apply (lifts_bind (genMatpairs n k) (fun l _ pos => Ret (ab :: l, pos)) (s_genMatpairs n k clk) (fun l s => Ret (ab :: l, s))); [exact IH|intro; apply lifts_ret].
Qed.
