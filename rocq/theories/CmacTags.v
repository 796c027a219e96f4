(** * How many tags FF1-CMAC has *)
From Verif Require Import Base CbcSpec FpeModel FpeSpec FpeProofs.
From Coq Require Import Permutation.
Local Open Scope nat_scope.

(** ** The multisets of k numbers below m *)
Fixpoint msets (m : nat) : nat -> list (list N) :=
  match m with
  | O => fun k => match k with O => [[]] | S _ => [] end
  | S m' => fix go (k : nat) : list (list N) := match k with O => [[]] | S k' => msets m' (S k') ++ map (cons (N.of_nat m')) (go k') end
  end.
(** their numbers for k = 0, 1, ...: running sums *)
Fixpoint sums (acc : N) (l : list N) : list N := match l with [] => [] | x :: l' => (acc + x)%N :: sums (acc + x) l' end.
Definition counts (m K : nat) : list N := Nat.iter m (sums 0) (1%N :: repeat 0%N K).
Lemma length_sums l : forall acc, length (sums acc l) = length l.
Proof. induction l as [|x l IH]; intros acc; [reflexivity|]. cbn [sums length]. now rewrite IH. Qed.
Lemma length_counts m K : length (counts m K) = S K.
Proof. induction m as [|m IH]; [unfold counts; cbn; now rewrite repeat_length|]. change (counts (S m) K) with (sums 0 (counts m K)). now rewrite length_sums. Qed.
Lemma sums_0 l acc : l <> [] -> get (sums acc l) 0 = (acc + get l 0)%N.
Proof. destruct l; [congruence|reflexivity]. Qed.
Lemma sums_S l : forall acc k, S k < length l -> get (sums acc l) (S k) = (get (sums acc l) k + get l (S k))%N.
Proof.
  induction l as [|x l IH]; intros acc k L; [cbn in L; lia|]. cbn [sums]. destruct l as [|y l]; [cbn in L; lia|]. destruct k as [|k]; [reflexivity|].
  unfold get in *. cbn [nth]. change (nth (S k) (sums (acc + x) (y :: l)) 0%N = (nth k (sums (acc + x) (y :: l)) 0 + nth (S k) (y :: l) 0)%N).
  apply IH. cbn [length] in *. lia.
Qed.
Lemma msets_S m k : msets (S m) (S k) = msets m (S k) ++ map (cons (N.of_nat m)) (msets (S m) k).
Proof. reflexivity. Qed.
Lemma msets_count K : forall m k, k <= K -> N.of_nat (length (msets m k)) = get (counts m K) k.
Proof.
  induction m as [|m IHm]; intros k L.
  - change (counts 0 K) with (1%N :: repeat 0%N K). destruct k as [|k]; [reflexivity|]. unfold get. cbn [nth msets length]. symmetry. apply nth_repeat.
  - assert (E : counts (S m) K = sums 0 (counts m K)) by reflexivity.
    induction k as [|k IHk].
    + rewrite E, sums_0 by (intros Q; apply (f_equal (@length N)) in Q; rewrite length_counts in Q; discriminate). rewrite <- IHm by lia.
      destruct m; reflexivity.
    + rewrite msets_S, app_length, map_length, Nat2N.inj_add, IHm, IHk, E by lia. rewrite (sums_S _ 0 k) by (rewrite length_counts; lia). lia.
Qed.
Lemma msets_all : forall m k bs, length bs = k -> Forall (fun b => b < N.of_nat m)%N bs -> exists ms, In ms (msets m k) /\ Permutation bs ms.
Proof.
  induction m as [|m IHm].
  - intros k bs L F. destruct bs as [|b bs]; [subst k; exists []; split; [left; reflexivity|constructor]|]. inversion F. lia.
  - induction k as [|k IHk]; intros bs L F.
    + destruct bs; [|discriminate]. exists []. split; [left; reflexivity|constructor].
    + rewrite msets_S. destruct (in_dec N.eq_dec (N.of_nat m) bs) as [I|NI].
      * apply in_split in I as (l1 & l2 & ->). destruct (IHk (l1 ++ l2)) as (ms & M & P).
        -- rewrite app_length in *. cbn [length] in L. lia.
        -- apply Forall_app in F as [F1 F2]. inversion F2. apply Forall_app. auto.
        -- exists (N.of_nat m :: ms). split; [apply in_or_app; right; now apply in_map|]. rewrite <- Permutation_middle. now constructor.
      * destruct (IHm (S k) bs L) as (ms & M & P).
        -- rewrite Forall_forall in *. intros b Hb. specialize (F b Hb). assert (b <> N.of_nat m) by congruence. lia.
        -- exists ms. split; [apply in_or_app; now left|exact P].
Qed.

(** ** The tags *)
Lemma fold_xorl_acc l : forall a b, fold_left xorl l (xorl a b) = xorl a (fold_left xorl l b).
Proof. induction l as [|x l IH]; intros a b; [reflexivity|]. cbn [fold_left]. rewrite xorl_assoc. apply IH. Qed.
Lemma fold_xorl_perm l l' : Permutation l l' -> forall z, fold_left xorl l z = fold_left xorl l' z.
Proof.
  induction 1 as [|x l l' P IH|x y l|l l' l'' P1 IH1 P2 IH2]; intros z; cbn [fold_left]; [reflexivity|apply IH| |congruence].
  f_equal. rewrite !xorl_assoc. f_equal. apply xorl_comm.
Qed.
Definition all_tags (E : list N -> list N) : list (list N) := map (fun bs => fold_left xorl (map (cmac_byte_part E) bs) (repeat 0%N 16)) (msets 256 10).
Lemma all_tags_number E : (N.of_nat (length (all_tags E)) = 396323862426048128)%N.
Proof. unfold all_tags. rewrite map_length. rewrite (msets_count 10) by lia. vm_compute. reflexivity. Qed.
Lemma all_tags_in E bs : length bs = 10 -> bytes bs -> In (fold_left xorl (map (cmac_byte_part E) bs) (repeat 0%N 16)) (all_tags E).
Proof.
  intros L B. destruct (msets_all 256 10 bs L) as (ms & M & P).
  - eapply Forall_impl; [|exact B]. intros b Hb. exact Hb.
  - rewrite (fold_xorl_perm _ (map (cmac_byte_part E) ms)) by now apply Permutation_map.
    apply (in_map (fun bs => fold_left xorl (map (cmac_byte_part E) bs) (repeat 0%N 16))). exact M.
Qed.
Lemma ff1_cmac_tags_lemma E : block_function E -> exists tags, (N.of_nat (length tags) < 2 ^ 59)%N /\
  forall clog radix T c s junk cnj out tag, ff1_limits clog radix T (length s) -> ~ ff1_bad_tweak clog radix T (length s) ->
    (forall i, bytes (cnj i)) -> numeral_string radix s -> fpe_init T radix = Some c -> ff1_cmac_encrypt E clog cnj c junk s = Ret (out, tag) -> In tag tags.
Proof.
  intros HE. exists (all_tags E). split; [rewrite all_tags_number; reflexivity|]. intros clog radix T c s junk cnj out tag HL HB HJ HN HI R.
  destruct (ff1_cmac_tag_ten_bytes_lemma E clog radix T c s junk cnj HE HL HB HJ HN HI) as (ct & bs & L & B & Q). rewrite R in Q. injection Q as _ ->. now apply all_tags_in.
Qed.

(** ** Two strings with one tag *)
Lemma collision_or (f : list N -> list N) l : NoDup l -> NoDup (map f l) \/ exists x y, In x l /\ In y l /\ x <> y /\ f x = f y.
Proof.
  induction 1 as [|x l NI _ [IH|(a & b & A & B & D & F)]]; [left; constructor| |right; exists a, b; cbn; auto].
  destruct (in_dec (list_eq_dec N.eq_dec) (f x) (map f l)) as [I|I].
  - right. apply in_map_iff in I as (y & F & I). exists x, y. split; [now left|]. split; [now right|]. split; [|now symmetry].
    intros ->. exact (NI I).
  - left. cbn [map]. now constructor.
Qed.
Lemma pigeons (f : list N -> list N) l tags : NoDup l -> (forall x, In x l -> In (f x) tags) -> length tags < length l ->
  exists x y, In x l /\ In y l /\ x <> y /\ f x = f y.
Proof.
  intros ND I L. destruct (collision_or f l ND) as [U|C]; [|exact C]. exfalso.
  assert (Q : length (map f l) <= length tags).
  { apply NoDup_incl_length; [exact U|]. intros t T. apply in_map_iff in T as (x & <- & X). now apply I. }
  rewrite map_length in Q. lia.
Qed.
(** the strings of n characters *)
Fixpoint strs (chars : list N) (n : nat) : list (list N) :=
  match n with O => [[]] | S n' => flat_map (fun d => map (cons d) (strs chars n')) chars end.
Lemma strs_number chars n : N.of_nat (length (strs chars n)) = (N.of_nat (length chars) ^ N.of_nat n)%N.
Proof.
  induction n as [|n IH]; [reflexivity|]. cbn [strs]. rewrite Nat2N.inj_succ, N.pow_succ_r', <- IH. generalize (strs chars n) as l. intros l.
  clear IH. induction chars as [|d cs IH]; [reflexivity|]. cbn [flat_map]. rewrite app_length, map_length, Nat2N.inj_add, IH. cbn [length]. lia.
Qed.
Lemma strs_in chars n s : In s (strs chars n) -> length s = n /\ Forall (fun d => In d chars) s.
Proof.
  revert s. induction n as [|n IH]; intros s; cbn [strs].
  - intros [<-|[]]. split; [reflexivity|constructor].
  - intros I. apply in_flat_map in I as (d & D & I). apply in_map_iff in I as (t & <- & I). destruct (IH t I) as [L F]. split; [cbn; lia|now constructor].
Qed.
Lemma strs_nodup chars n : NoDup chars -> NoDup (strs chars n).
Proof.
  intros ND. induction n as [|n IH]; [constructor; [intros []|constructor]|]. cbn [strs]. revert IH. generalize (strs chars n) as l. intros l Hl.
  induction ND as [|d cs NI _ IH]; [constructor|]. cbn [flat_map].
  assert (A : NoDup (map (cons d) l)) by (apply FinFun.Injective_map_NoDup; [intros a b Q; now injection Q|exact Hl]).
  revert A. generalize (eq_refl (map (cons d) l)). generalize (map (cons d) l) at 1 3 4. intros m Em A.
  assert (X : forall t, In t m -> ~ In t (flat_map (fun d => map (cons d) l) cs)).
  { intros t I J. rewrite Em in I. apply in_map_iff in I as (u & <- & _). apply in_flat_map in J as (e & He & J). apply in_map_iff in J as (v & Q & _).
    injection Q as -> _. exact (NI He). }
  clear Em. induction A as [|t m N' _ IA]; [exact IH|]. cbn [app]. constructor.
  - rewrite in_app_iff. intros [I|I]; [exact (N' I)|exact (X t (or_introl eq_refl) I)].
  - apply IA. intros u U. apply X. now right.
Qed.
Definition decimal : list N := [48; 49; 50; 51; 52; 53; 54; 55; 56; 57]%N.
Lemma ff1_cmac_collision_gen E clog T c junk cnj n : block_function E -> (2 ^ 59 <= 10 ^ N.of_nat n)%N -> ff1_limits clog 10 T n -> ~ ff1_bad_tweak clog 10 T n ->
  (forall i, bytes (cnj i)) -> fpe_init T 10 = Some c ->
  exists s s' out out' tag, s <> s' /\ length s = n /\ length s' = n /\ Forall (fun d => In d decimal) s /\ Forall (fun d => In d decimal) s' /\
    ff1_cmac_encrypt E clog cnj c junk s = Ret (out, tag) /\ ff1_cmac_encrypt E clog cnj c junk s' = Ret (out', tag).
Proof.
  intros HE SZ HL HB HJ HI. destruct (ff1_cmac_tags_lemma E HE) as (tags & LT & A).
  assert (NS : forall s, Forall (fun d => In d decimal) s -> numeral_string 10 s).
  { intros s F. unfold numeral_string. eapply Forall_impl; [|exact F]. intros d D. cbn beta in *. unfold decimal in D. cbn [In] in D.
    repeat (destruct D as [<-|D]; [vm_compute; repeat first [left; reflexivity|right]|]). destruct D. }
  assert (R : forall s, In s (strs decimal n) -> exists out tag, ff1_cmac_encrypt E clog cnj c junk s = Ret (out, tag) /\ In tag tags).
  { intros s I. destruct (strs_in _ _ _ I) as [L F]. rewrite <- L in HL, HB.
    destruct (ff1_cmac_tag_ten_bytes_lemma E clog 10 T c s junk cnj HE HL HB HJ (NS s F) HI) as (ct & bs & _ & _ & Q).
    eexists; eexists. split; [exact Q|]. exact (A clog 10%N T c s junk cnj _ _ HL HB HJ (NS s F) HI Q). }
  destruct (pigeons (fun s => match ff1_cmac_encrypt E clog cnj c junk s with Ret (_, t) => t | _ => [] end) (strs decimal n) tags) as (s & s' & I & I' & D & Q).
  - apply strs_nodup. unfold decimal. repeat (constructor; [cbn [In]; intros X; repeat (destruct X as [X|X]; [discriminate X|]); exact X|]). constructor.
  - intros s I. destruct (R s I) as (out & tag & -> & J). exact J.
  - enough (N.of_nat (length tags) < N.of_nat (length (strs decimal n)))%N by lia. rewrite strs_number. change (N.of_nat (length decimal)) with 10%N. lia.
  - destruct (R s I) as (out & tag & Es & _). destruct (R s' I') as (out' & tag' & Es' & _). rewrite Es, Es' in Q. subst tag'.
    destruct (strs_in _ _ _ I) as [L F]. destruct (strs_in _ _ _ I') as [L' F']. exists s, s', out, out', tag. auto 10.
Qed.
