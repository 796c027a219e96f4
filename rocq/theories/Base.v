(** * Base: bytes, byte lists, bounds-checked buffers, words.

    Shared vocabulary of the model.  Nothing in this file models a particular
    function of /repo; the definitions are the C notions used everywhere
    (byte arrays, big-endian conversion, exclusive or of arrays). *)
From Coq Require Export List Arith ZArith NArith Lia Bool.
From Coq Require Import ZifyBool ZifyNat ZifyN.
Export ListNotations.

#[global] Ltac Zify.zify_post_hook ::= Z.div_mod_to_equations.

#[global] Arguments N.add : simpl never.
#[global] Arguments N.sub : simpl never.
#[global] Arguments N.mul : simpl never.
#[global] Arguments N.div : simpl never.
#[global] Arguments N.modulo : simpl never.
#[global] Arguments N.pow : simpl never.
#[global] Arguments N.lxor : simpl never.
#[global] Arguments N.land : simpl never.
#[global] Arguments N.lor : simpl never.
#[global] Arguments N.shiftl : simpl never.
#[global] Arguments N.shiftr : simpl never.
#[global] Arguments N.testbit : simpl never.
#[global] Arguments N.ltb : simpl never.
#[global] Arguments N.leb : simpl never.
#[global] Arguments N.eqb : simpl never.

(** ** Bytes *)
Definition byte (x : N) : Prop := (x < 256)%N.
Definition bytes (l : list N) : Prop := Forall byte l.
(** a well-formed 16-byte block *)
Definition block16 (l : list N) : Prop := length l = 16 /\ bytes l.

(** C array element access of a fixed-size array whose index is in range by
    construction; the default is never used under the length hypotheses. *)
Definition get (l : list N) (i : nat) : N := nth i l 0%N.
Fixpoint set {A} (l : list A) (i : nat) (v : A) : list A :=
  match l, i with
  | [], _ => []
  | _ :: t, O => v :: t
  | x :: t, S j => x :: set t j v
  end.

(** exclusive or of two byte arrays (length of the shorter) *)
Fixpoint xorl (a b : list N) : list N :=
  match a, b with
  | x :: a', y :: b' => N.lxor x y :: xorl a' b'
  | _, _ => []
  end.

(** ** Bounds-checked buffers: [None] is an out-of-bounds access (undefined
    behaviour in C). *)
Definition read_at (l : list N) (off n : nat) : option (list N) :=
  if off + n <=? length l then Some (firstn n (skipn off l)) else None.
Definition write_at (l : list N) (off : nat) (v : list N) : option (list N) :=
  if off + length v <=? length l
  then Some (firstn off l ++ v ++ skipn (off + length v) l) else None.

Definition bind {A B} (o : option A) (f : A -> option B) : option B :=
  match o with Some x => f x | None => None end.
Notation "'do' x <- o ; f" := (bind o (fun x => f))
  (at level 200, x pattern, o at level 100, f at level 200).

(** ** Big-endian conversion *)
Definition be_to_N (l : list N) : N := fold_left (fun a b => a * 256 + b)%N l 0%N.
Fixpoint N_to_be (n : nat) (x : N) : list N :=
  match n with
  | O => []
  | S n' => ((x / 256 ^ N.of_nat n') mod 256)%N :: N_to_be n' x
  end.
Definition le_to_N (l : list N) : N := be_to_N (rev l).
Definition N_to_le (n : nat) (x : N) : list N := rev (N_to_be n x).

(** ** Cutting a list into pieces of [n] *)
Fixpoint chunk_fuel {A} (fuel n : nat) (l : list A) : list (list A) :=
  match fuel with
  | O => []
  | S f => match l with
           | [] => []
           | _ => firstn n l :: chunk_fuel f n (skipn n l)
           end
  end.
Definition chunks {A} (n : nat) (l : list A) : list (list A) := chunk_fuel (length l) n l.

(** ** Lemmas *)
Lemma length_set {A} (l : list A) i v : length (set l i v) = length l.
Proof. revert i; induction l as [|x l IH]; intros [|i]; cbn; auto. Qed.

Lemma nth_set {A} (l : list A) i j v d :
  nth j (set l i v) d = if (j =? i) && (i <? length l) then v else nth j l d.
Proof.
  revert i j; induction l as [|x l IH]; intros i j.
  - cbn [set length nth]. replace (i <? 0) with false by (symmetry; apply Nat.ltb_ge; lia).
    now rewrite andb_false_r.
  - destruct i as [|i], j as [|j]; try reflexivity.
    cbn [set nth length]. rewrite IH. reflexivity.
Qed.

Lemma get_set l i j v : i < length l ->
  get (set l i v) j = if j =? i then v else get l j.
Proof.
  intros H. unfold get. rewrite nth_set.
  destruct (Nat.ltb_spec i (length l)); [|lia]. now rewrite andb_true_r.
Qed.

Lemma list_ext_get (a b : list N) :
  length a = length b -> (forall i, i < length a -> get a i = get b i) -> a = b.
Proof.
  intros HL H. apply nth_ext with (d := 0%N) (d' := 0%N); auto.
Qed.

Lemma length_xorl a b : length (xorl a b) = Nat.min (length a) (length b).
Proof. revert b; induction a as [|x a IH]; intros [|y b]; cbn; auto. Qed.

Lemma get_xorl a b i : length a = length b ->
  get (xorl a b) i = N.lxor (get a i) (get b i).
Proof.
  revert b i; induction a as [|x a IH]; intros [|y b] i H; try discriminate.
  - cbn. destruct i; reflexivity.
  - destruct i as [|i]; cbn; auto. apply (IH b i). now injection H.
Qed.

Lemma xorl_comm a b : xorl a b = xorl b a.
Proof. revert b; induction a as [|x a IH]; intros [|y b]; cbn; auto. rewrite N.lxor_comm, IH; auto. Qed.

Lemma xorl_assoc a b c : xorl (xorl a b) c = xorl a (xorl b c).
Proof. revert b c; induction a as [|x a IH]; intros [|y b] [|z c]; cbn; auto. rewrite N.lxor_assoc, IH; auto. Qed.

Lemma xorl_nil_r a : xorl a [] = [].
Proof. destruct a; auto. Qed.

Lemma xorl_cancel_r a b : length a <= length b -> xorl (xorl a b) b = a.
Proof.
  revert b; induction a as [|x a IH]; intros [|y b] H; cbn in *; auto; try lia.
  rewrite N.lxor_assoc, N.lxor_nilpotent, N.lxor_0_r, IH; auto. lia.
Qed.

Lemma xorl_cancel_l a b : length b <= length a -> xorl a (xorl a b) = b.
Proof. intros H. rewrite (xorl_comm a b), xorl_comm. apply xorl_cancel_r; auto. Qed.

Lemma xorl_app a b c d : length a = length c ->
  xorl (a ++ b) (c ++ d) = xorl a c ++ xorl b d.
Proof.
  revert c; induction a as [|x a IH]; intros [|y c] H; try discriminate; cbn; auto.
  rewrite IH; auto.
Qed.

Lemma xorl_zeros_r a n : length a <= n -> xorl a (repeat 0%N n) = a.
Proof.
  revert n; induction a as [|x a IH]; intros [|n] H; cbn in *; auto; try lia.
  rewrite N.lxor_0_r, IH; auto; lia.
Qed.
Lemma xorl_zeros_l a n : length a <= n -> xorl (repeat 0%N n) a = a.
Proof. intros; rewrite xorl_comm; now apply xorl_zeros_r. Qed.

Lemma firstn_xorl n a b : firstn n (xorl a b) = xorl (firstn n a) (firstn n b).
Proof.
  revert a b; induction n as [|n IH]; intros [|x a] [|y b]; cbn; auto. now rewrite IH.
Qed.

Lemma lxor_lt n a b : (a < 2 ^ n -> b < 2 ^ n -> N.lxor a b < 2 ^ n)%N.
Proof.
  intros Ha Hb.
  destruct (N.eq_dec (N.lxor a b) 0) as [E|E].
  { rewrite E. apply N.neq_0_lt_0, N.pow_nonzero. discriminate. }
  apply N.log2_lt_pow2; [lia|].
  eapply N.le_lt_trans; [apply N.log2_lxor|].
  destruct (N.eq_dec a 0) as [->|Ha0].
  - destruct (N.eq_dec b 0) as [->|Hb0]; [now cbn in E|].
    rewrite N.max_r by (cbn; lia). apply N.log2_lt_pow2; lia.
  - destruct (N.eq_dec b 0) as [->|Hb0].
    + rewrite N.max_l by (cbn; lia). apply N.log2_lt_pow2; lia.
    + apply N.max_lub_lt; apply N.log2_lt_pow2; lia.
Qed.

Lemma byte_lxor a b : byte a -> byte b -> byte (N.lxor a b).
Proof. unfold byte. change 256%N with (2^8)%N. apply lxor_lt. Qed.

Lemma bytes_xorl a b : bytes a -> bytes b -> bytes (xorl a b).
Proof.
  unfold bytes. revert b; induction a as [|x a IH]; intros [|y b] Ha Hb; cbn; auto.
  inversion Ha; inversion Hb; subst. constructor; auto. now apply byte_lxor.
Qed.

Lemma bytes_app a b : bytes (a ++ b) <-> bytes a /\ bytes b.
Proof. apply Forall_app. Qed.

Lemma bytes_firstn n a : bytes a -> bytes (firstn n a).
Proof. intros H. rewrite <- (firstn_skipn n a), bytes_app in H. tauto. Qed.
Lemma bytes_skipn n a : bytes a -> bytes (skipn n a).
Proof. intros H. rewrite <- (firstn_skipn n a), bytes_app in H. tauto. Qed.
Lemma bytes_repeat b n : byte b -> bytes (repeat b n).
Proof. intros H. induction n; cbn; constructor; auto. Qed.
Lemma bytes_rev l : bytes l -> bytes (rev l).
Proof. apply Forall_rev. Qed.
Lemma bytes_get l i : bytes l -> byte (get l i).
Proof.
  intros H. unfold get. destruct (Nat.lt_ge_cases i (length l)) as [Hi|Hi].
  - unfold bytes in H. rewrite Forall_forall in H. apply H. now apply nth_In.
  - rewrite nth_overflow by auto. unfold byte; lia.
Qed.
Lemma bytes_set l i v : bytes l -> byte v -> bytes (set l i v).
Proof.
  unfold bytes. intros H Hv. revert i; induction H as [|x l Hx Hl IH]; intros [|i]; cbn; auto.
Qed.

Lemma block16_xorl a b : block16 a -> block16 b -> block16 (xorl a b).
Proof.
  intros [La Ba] [Lb Bb]. split; [rewrite length_xorl; lia|]. now apply bytes_xorl.
Qed.
Lemma block16_zeros : block16 (repeat 0%N 16).
Proof. split; [reflexivity|]. apply bytes_repeat. unfold byte; lia. Qed.

(** *** big-endian *)
Lemma fold_be_acc l a :
  fold_left (fun a b => a * 256 + b)%N l a = (a * 256 ^ N.of_nat (length l) + be_to_N l)%N.
Proof.
  unfold be_to_N. revert a; induction l as [|x l IH]; intros a.
  - cbn. rewrite N.pow_0_r. lia.
  - cbn [fold_left length]. rewrite (IH (a*256+x)%N), (IH (0*256+x)%N).
    rewrite Nat2N.inj_succ, N.pow_succ_r by lia. lia.
Qed.
Lemma be_to_N_cons x l : be_to_N (x :: l) = (x * 256 ^ N.of_nat (length l) + be_to_N l)%N.
Proof. unfold be_to_N at 1. cbn [fold_left]. rewrite fold_be_acc. lia. Qed.
Lemma be_to_N_app a b : be_to_N (a ++ b) = (be_to_N a * 256 ^ N.of_nat (length b) + be_to_N b)%N.
Proof. unfold be_to_N at 1. rewrite fold_left_app. fold (be_to_N a). apply fold_be_acc. Qed.
Lemma be_to_N_bound l : bytes l -> (be_to_N l < 256 ^ N.of_nat (length l))%N.
Proof.
  induction 1 as [|x l Hx Hl IH]; [cbn; lia|].
  rewrite be_to_N_cons. cbn [length]. rewrite Nat2N.inj_succ, N.pow_succ_r by lia.
  unfold byte in Hx. nia.
Qed.
Lemma length_N_to_be n x : length (N_to_be n x) = n.
Proof. induction n; cbn; auto. Qed.
Lemma bytes_N_to_be n x : bytes (N_to_be n x).
Proof. induction n; cbn; constructor; auto. unfold byte. apply N.mod_lt. lia. Qed.
Lemma N_to_be_mod n k x : (n <= k)%nat -> N_to_be n (x mod 256 ^ N.of_nat k) = N_to_be n x.
Proof.
  induction n as [|n IH]; intros H; auto. cbn [N_to_be]. rewrite IH by lia. f_equal.
  assert (E : (256 ^ N.of_nat k = 256 ^ N.of_nat n * (256 * 256 ^ N.of_nat (k - n - 1)))%N).
  { rewrite <- N.pow_succ_r', <- N.pow_add_r. f_equal. lia. }
  rewrite E.
  assert (P : (256 ^ N.of_nat n <> 0)%N) by (apply N.pow_nonzero; lia).
  assert (P2 : (256 ^ N.of_nat (k-n-1) <> 0)%N) by (apply N.pow_nonzero; lia).
  set (A := (256 ^ N.of_nat n)%N) in *. set (B := (256 ^ N.of_nat (k-n-1))%N) in *.
  rewrite N.mod_mul_r by lia.
  rewrite (N.mul_comm A), N.div_add by lia.
  rewrite (N.div_small (x mod A)) by (apply N.mod_lt; lia).
  rewrite N.add_0_l, N.mod_mul_r by lia.
  rewrite (N.mul_comm 256), N.mod_add by lia. rewrite N.mod_mod; lia.
Qed.
Lemma N_to_be_to_N l : bytes l -> N_to_be (length l) (be_to_N l) = l.
Proof.
  induction 1 as [|x l Hx Hl IH]; auto.
  cbn [length N_to_be]. rewrite be_to_N_cons.
  pose proof (be_to_N_bound l Hl) as HB.
  assert (P : (256 ^ N.of_nat (length l) <> 0)%N) by (apply N.pow_nonzero; lia).
  f_equal.
  - rewrite N.add_comm, N.div_add by lia. rewrite N.div_small by auto.
    unfold byte in Hx. rewrite N.add_0_l. now apply N.mod_small.
  - rewrite <- (N_to_be_mod _ (length l)) by lia.
    rewrite N.add_comm, N.mod_add by lia. rewrite N.mod_small; auto.
Qed.
Lemma be_to_N_to_be n x : (x < 256 ^ N.of_nat n)%N -> be_to_N (N_to_be n x) = x.
Proof.
  revert x; induction n as [|n IH]; intros x H.
  - cbn in *. rewrite N.pow_0_r in H. unfold be_to_N. cbn. lia.
  - cbn [N_to_be]. rewrite be_to_N_cons, length_N_to_be.
    rewrite <- (N_to_be_mod n n) by lia.
    assert (P : (256 ^ N.of_nat n <> 0)%N) by (apply N.pow_nonzero; lia).
    rewrite IH by (apply N.mod_lt; auto).
    rewrite Nat2N.inj_succ, N.pow_succ_r' in H.
    rewrite (N.mod_small (x / _)) by (apply N.div_lt_upper_bound; lia).
    rewrite (N.mul_comm (x / _)). symmetry. now apply N.div_mod.
Qed.
Lemma be_to_N_inj a b : length a = length b -> bytes a -> bytes b -> be_to_N a = be_to_N b -> a = b.
Proof.
  intros HL Ha Hb H. rewrite <- (N_to_be_to_N a), <- (N_to_be_to_N b) by auto. now rewrite HL, H.
Qed.

(** *** disjoint addition as [lor]/[lxor] *)
Lemma testbit_high a n i : (a < 2 ^ n -> n <= i -> N.testbit a i = false)%N.
Proof.
  intros H Hi. destruct (N.eq_dec a 0) as [->|Ha]; [apply N.bits_0|].
  apply N.bits_above_log2. apply N.log2_lt_pow2 in H; lia.
Qed.
Lemma add_shift_lxor a b n : (b < 2 ^ n -> a * 2 ^ n + b = N.lxor (N.shiftl a n) b)%N.
Proof.
  intros H. rewrite <- N.shiftl_mul_pow2. apply N.add_nocarry_lxor.
  apply N.bits_inj. intros i. rewrite N.land_spec, N.bits_0.
  destruct (N.lt_ge_cases i n) as [L|L].
  - rewrite N.shiftl_spec_low by auto. reflexivity.
  - rewrite (testbit_high b n i) by auto. apply andb_false_r.
Qed.
Lemma testbit_add_shift a b n i : (b < 2 ^ n)%N ->
  N.testbit (a * 2 ^ n + b) i = if (i <? n)%N then N.testbit b i else N.testbit a (i - n).
Proof.
  intros H. rewrite add_shift_lxor by auto. rewrite N.lxor_spec.
  destruct (N.ltb_spec i n).
  - rewrite N.shiftl_spec_low by auto. now rewrite xorb_false_l.
  - rewrite N.shiftl_spec_high' by auto. rewrite (testbit_high b n i) by auto. apply xorb_false_r.
Qed.
Lemma lxor_add_shift a b c d n : (b < 2 ^ n -> d < 2 ^ n ->
  N.lxor (a * 2 ^ n + b) (c * 2 ^ n + d) = N.lxor a c * 2 ^ n + N.lxor b d)%N.
Proof.
  intros Hb Hd. apply N.bits_inj; intros i.
  rewrite N.lxor_spec, !testbit_add_shift by (auto using lxor_lt).
  destruct (i <? n)%N; now rewrite N.lxor_spec.
Qed.
Lemma pow256 n : (256 ^ n = 2 ^ (8 * n))%N.
Proof. rewrite N.pow_mul_r. reflexivity. Qed.
Lemma be_to_N_xorl a b : length a = length b -> bytes a -> bytes b ->
  be_to_N (xorl a b) = N.lxor (be_to_N a) (be_to_N b).
Proof.
  intros HL Ha. revert b HL. induction Ha as [|x a Hx Ha IH]; intros [|y b] HL Hb; try discriminate.
  - reflexivity.
  - injection HL as HL. inversion Hb as [|? ? Hy Hb']; subst. cbn [xorl].
    rewrite !be_to_N_cons, length_xorl, IH by auto.
    rewrite <- HL, Nat.min_id.
    pose proof (be_to_N_bound a Ha) as B1. pose proof (be_to_N_bound b Hb') as B2.
    rewrite <- HL in B2. rewrite pow256 in *. symmetry. now apply lxor_add_shift.
Qed.
Lemma N_to_be_lxor n x y : N_to_be n (N.lxor x y) = xorl (N_to_be n x) (N_to_be n y).
Proof.
  induction n as [|n IH]; auto. cbn [N_to_be xorl]. rewrite IH. f_equal.
  rewrite pow256, <- !N.shiftr_div_pow2. change 256%N with (2^8)%N.
  rewrite <- !N.land_ones, N.shiftr_lxor.
  apply N.bits_inj; intros i. rewrite !N.lxor_spec, !N.land_spec, N.lxor_spec.
  destruct (N.testbit (N.ones 8) i); rewrite ?andb_true_r, ?andb_false_r; auto.
Qed.

(** *** chunks *)
Lemma chunk_fuel_enough {A} n (l : list A) f g : 0 < n -> length l <= f -> length l <= g ->
  chunk_fuel f n l = chunk_fuel g n l.
Proof.
  intros Hn. revert g l; induction f as [|f IH]; intros g l Hf Hg.
  - destruct l; cbn in *; [destruct g; reflexivity|lia].
  - destruct g as [|g]; [destruct l; cbn in *; [reflexivity|lia]|].
    cbn. destruct l as [|x l]; auto. f_equal. apply IH; rewrite skipn_length; cbn [length] in *; lia.
Qed.
Lemma chunks_nil {A} n : chunks n (@nil A) = [].
Proof. reflexivity. Qed.
Lemma chunks_eq {A} n (l : list A) : 0 < n -> l <> [] ->
  chunks n l = firstn n l :: chunks n (skipn n l).
Proof.
  intros Hn Hl. unfold chunks. destruct l as [|x l]; [congruence|].
  cbn [length chunk_fuel]. f_equal. apply chunk_fuel_enough; auto.
  rewrite skipn_length. cbn [length]. lia.
Qed.
Lemma chunks_app {A} n (a b : list A) : 0 < n -> length a = n ->
  chunks n (a ++ b) = a :: chunks n b.
Proof.
  intros Hn Ha. rewrite chunks_eq; auto.
  - rewrite firstn_app, skipn_app. rewrite Ha, Nat.sub_diag. cbn [firstn skipn].
    rewrite <- Ha, firstn_all, skipn_all, app_nil_r, app_nil_l. reflexivity.
  - destruct a; cbn in *; [lia|congruence].
Qed.
Lemma concat_chunks {A} n (l : list A) : 0 < n -> concat (chunks n l) = l.
Proof.
  intros Hn. remember (length l) as k eqn:E. revert l E.
  induction k as [k IH] using lt_wf_ind; intros l ->.
  destruct l as [|x l]; auto. rewrite chunks_eq by (auto; congruence).
  cbn [concat]. rewrite (IH (length (skipn n (x :: l)))); auto.
  - apply firstn_skipn.
  - rewrite skipn_length. cbn [length]. lia.
Qed.
(** induction over an aligned list, one block of [n] at a time *)
Lemma aligned_ind {A} n (P : list A -> Prop) : 0 < n ->
  P [] -> (forall b l, length b = n -> length l mod n = 0 -> P l -> P (b ++ l)) ->
  forall l, length l mod n = 0 -> P l.
Proof.
  intros Hn H0 HS l. remember (length l) as k eqn:E. revert l E.
  induction k as [k IH] using lt_wf_ind; intros l -> Hm.
  destruct l as [|x l]; auto.
  assert (n <= length (x :: l)).
  { destruct (Nat.lt_ge_cases (length (x :: l)) n) as [L|L]; auto.
    rewrite Nat.mod_small in Hm by auto. cbn in Hm. lia. }
  assert (Hm' : length (skipn n (x :: l)) mod n = 0).
  { rewrite skipn_length. rewrite <- Hm.
    replace (length (x :: l)) with ((length (x :: l) - n) + 1 * n) at 2 by lia.
    now rewrite Nat.mod_add by lia. }
  rewrite <- (firstn_skipn n (x :: l)). apply HS; auto.
  - rewrite firstn_length. lia.
  - eapply IH; [|reflexivity|auto]. rewrite skipn_length. lia.
Qed.
Lemma chunks_Forall_length {A} n (l : list A) : 0 < n -> length l mod n = 0 ->
  Forall (fun c => length c = n) (chunks n l).
Proof.
  intros Hn H. pattern l. apply (aligned_ind n); auto; [constructor|].
  intros b r Hb _ IH. rewrite chunks_app; auto.
Qed.
Lemma bytes_chunks n l : 0 < n -> bytes l -> Forall bytes (chunks n l).
Proof.
  intros Hn. remember (length l) as k eqn:E. revert l E.
  induction k as [k IH] using lt_wf_ind; intros l -> H.
  destruct l as [|x l]; [constructor|]. rewrite chunks_eq by (auto; congruence).
  constructor; [now apply bytes_firstn|]. eapply IH; [|reflexivity|now apply bytes_skipn].
  rewrite skipn_length; cbn [length]; lia.
Qed.
