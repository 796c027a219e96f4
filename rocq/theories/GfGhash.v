(** * GHASH as a polynomial in the hash key. *)
From Verif Require Import Base CbcModel CbcSpec CbcProofs GcmModel GcmSpec GfProofs GcmProofs GfField.
From Coq Require Import ZifyBool ZifyNat ZifyN.
Local Open Scope nat_scope.
#[local] Opaque gf_mul.

(** ** over numbers *)
Definition gfold (h : N) (xs : list N) (y : N) : N := fold_left (fun y x => gf_mul (N.lxor y x) h) xs y.
Lemma gfold_cons h x xs y : gfold h (x :: xs) y = gfold h xs (gf_mul (N.lxor y x) h).
Proof. exact (fold_left_cons (fun y x => gf_mul (N.lxor y x) h) x xs y). Qed.
Lemma block16_N b : block16 b -> blk128 (be_to_N b).
Proof. intros [L B]. unfold blk128. pose proof (be_to_N_bound b B) as H. rewrite L in H. exact H. Qed.
Lemma lxor_blk a b : blk128 a -> blk128 b -> blk128 (N.lxor a b).
Proof. apply lxor_lt. Qed.
Lemma block_mul_N X H : block16 H -> be_to_N (block_mul X H) = gf_mul (be_to_N X) (be_to_N H).
Proof. intros HH. unfold block_mul. apply be_to_N_to_be. apply mul_bound. now apply block16_N. Qed.
Lemma ghash_from_N H s : block16 H -> length s mod 16 = 0 -> bytes s -> forall a, block16 a ->
  be_to_N (ghash_from H a s) = gfold (be_to_N H) (map be_to_N (chunks 16 s)) (be_to_N a).
Proof.
  intros HH Hm. apply (aligned_ind 16 (fun s => bytes s -> forall a, block16 a ->
    be_to_N (ghash_from H a s) = gfold (be_to_N H) (map be_to_N (chunks 16 s)) (be_to_N a))); [lia| | |exact Hm].
  - intros _ a _. reflexivity.
  - intros b l Lb _ IH Hb a Ha. apply Forall_app in Hb. destruct Hb as [B1 B2].
    rewrite ghash_from_block by exact Lb. rewrite chunks_app by (lia || exact Lb). rewrite IH by (exact B2 || apply block_mul_block).
    rewrite block_mul_N by exact HH. destruct Ha as [La Ba]. rewrite be_to_N_xorl by (lia || assumption). cbn [map]. now rewrite gfold_cons.
Qed.
Lemma gfold_bound h xs y : blk128 h -> blk128 y -> blk128 (gfold h xs y).
Proof. intros Hh. revert y; induction xs as [|x xs IH]; intros y Hy; [exact Hy|]. rewrite gfold_cons. apply IH. now apply mul_bound. Qed.
Lemma mul_inj_l a b h : blk128 a -> blk128 b -> blk128 h -> h <> 0%N -> gf_mul a h = gf_mul b h -> a = b.
Proof.
  intros Ha Hb Hh NZ E. apply N.lxor_eq. assert (Z : gf_mul (N.lxor a b) h = 0%N) by (rewrite mul_lxor_l, E; apply N.lxor_nilpotent).
  apply gf_cancel in Z; [|now apply lxor_blk|exact Hh]. destruct Z; [assumption|congruence].
Qed.
Lemma xor_cancel a b x : N.lxor a x = N.lxor b x -> a = b.
Proof. intros E. rewrite <- (N.lxor_0_r a), <- (N.lxor_0_r b), <- (N.lxor_nilpotent x), <- !N.lxor_assoc, E. reflexivity. Qed.
Lemma gfold_inj h xs : blk128 h -> h <> 0%N -> Forall blk128 xs -> forall y y', blk128 y -> blk128 y' -> gfold h xs y = gfold h xs y' -> y = y'.
Proof.
  intros Hh NZ. induction 1 as [|x xs Hx _ IH]; intros y y' Hy Hy' E; [exact E|]. rewrite !gfold_cons in E.
  apply IH in E; [|now apply mul_bound|now apply mul_bound]. apply mul_inj_l in E; try apply lxor_blk; try assumption. now apply xor_cancel in E.
Qed.
Lemma gfold_app h xs ys y : gfold h (xs ++ ys) y = gfold h ys (gfold h xs y).
Proof. unfold gfold. apply fold_left_app. Qed.
Lemma gfold_one h xs x x' ys y : blk128 h -> h <> 0%N -> Forall blk128 ys -> blk128 x -> blk128 x' -> blk128 y ->
  x <> x' -> gfold h (xs ++ x :: ys) y <> gfold h (xs ++ x' :: ys) y.
Proof.
  intros Hh NZ Hys Hx Hx' Hy Hn E. rewrite !gfold_app in E. rewrite !gfold_cons in E.
  apply gfold_inj in E; try assumption; try now apply mul_bound.
  pose proof (gfold_bound h xs y Hh Hy) as HB. apply mul_inj_l in E; try apply lxor_blk; try assumption.
  rewrite !(N.lxor_comm (gfold _ _ _)) in E. now apply xor_cancel in E.
Qed.

(** ** GHASH detects every change inside one block *)
Lemma chunks_app_aligned {A} (a b : list A) : length a mod 16 = 0 -> chunks 16 (a ++ b) = chunks 16 a ++ chunks 16 b.
Proof.
  intros H. apply (aligned_ind 16 (fun a => chunks 16 (a ++ b) = chunks 16 a ++ chunks 16 b)); [lia|reflexivity| |exact H].
  intros u l Lu _ IH. rewrite <- app_assoc, (chunks_app 16 u (l ++ b)), (chunks_app 16 u l) by (lia || exact Lu). now rewrite IH.
Qed.
Lemma chunks_blk s : length s mod 16 = 0 -> bytes s -> Forall blk128 (map be_to_N (chunks 16 s)).
Proof.
  intros Hm Hb. rewrite Forall_map. pose proof (chunks_Forall_length 16 s ltac:(lia) Hm) as H1. pose proof (bytes_chunks 16 s ltac:(lia) Hb) as H2.
  rewrite Forall_forall in *. intros c Hc. apply block16_N. split; auto.
Qed.
Lemma ghash_block16 H s : length s mod 16 = 0 -> block16 (ghash H s).
Proof. intros Hm. apply (ghash_from_block16 H (repeat 0%N 16) s); [|exact Hm]. split; [reflexivity|apply bytes_repeat; reflexivity]. Qed.
Lemma ghash_N H s : block16 H -> length s mod 16 = 0 -> bytes s -> be_to_N (ghash H s) = gfold (be_to_N H) (map be_to_N (chunks 16 s)) 0%N.
Proof. intros HH Hm Hb. apply (ghash_from_N H s HH Hm Hb (repeat 0%N 16) block16_zeros). Qed.
Lemma ghash_one_block H u x x' w : block16 H -> be_to_N H <> 0%N -> length u mod 16 = 0 -> length w mod 16 = 0 -> block16 x -> block16 x' ->
  bytes u -> bytes w -> x <> x' -> ghash H (u ++ x ++ w) <> ghash H (u ++ x' ++ w).
Proof.
  intros HH NZ Hu Hw Hx Hx' Bu Bw Hn E. apply (f_equal be_to_N) in E.
  assert (HM : forall z, block16 z -> length (u ++ z ++ w) mod 16 = 0).
  { intros z [Lz _]. rewrite !app_length, Lz. rewrite Nat.add_mod by lia. rewrite Hu. rewrite (Nat.add_mod 16) by lia. now rewrite Hw. }
  assert (HB : forall z, block16 z -> bytes (u ++ z ++ w)).
  { intros z [_ Bz]. apply Forall_app. split; [exact Bu|]. apply Forall_app. now split. }
  rewrite !ghash_N in E by auto. rewrite !(chunks_app_aligned u) in E by exact Hu.
  destruct Hx as [Lx Bx], Hx' as [Lx' Bx']. rewrite (chunks_app 16 x w), (chunks_app 16 x' w) in E by (lia || assumption). rewrite !map_app in E. cbn [map] in E.
  apply gfold_one in E; try assumption.
  - now apply block16_N.
  - now apply chunks_blk.
  - apply block16_N; now split.
  - apply block16_N; now split.
  - reflexivity.
  - intros X. apply Hn. apply be_to_N_inj; [lia|assumption|assumption|exact X].
Qed.
(** strings that agree outside block number k *)
Lemma get_firstn_lt l n j : j < n -> get (firstn n l) j = get l j.
Proof. intros H. unfold get. revert n j H; induction l as [|x l IH]; intros [|n] [|j] H; try reflexivity; try lia. cbn. apply IH. lia. Qed.
Lemma get_skipn l n j : get (skipn n l) j = get l (n + j).
Proof. unfold get. revert l; induction n as [|n IH]; intros l; [reflexivity|]. destruct l as [|x l]; [cbn; now destruct j|]. cbn. apply IH. Qed.
Lemma ghash_block_change H k s s' : block16 H -> be_to_N H <> 0%N -> length s = length s' -> length s mod 16 = 0 -> bytes s -> bytes s' ->
  (forall j, j / 16 <> k -> get s j = get s' j) -> s <> s' -> ghash H s <> ghash H s'.
Proof.
  intros HH NZ HL Hm Bs Bs' HA Hn.
  assert (Hk : 16 * (k + 1) <= length s).
  { destruct (Nat.lt_ge_cases (length s) (16 * (k + 1))) as [L|L]; [exfalso|exact L]. apply Hn, list_ext_get; [exact HL|].
    intros j Hj. apply HA. pose proof (Nat.div_mod (length s) 16 ltac:(lia)) as D. rewrite Hm in D.
    intros X. pose proof (Nat.div_mod j 16 ltac:(lia)) as D2. rewrite X in D2. pose proof (Nat.mod_upper_bound j 16 ltac:(lia)). lia. }
  set (u := firstn (16 * k) s). set (w := skipn (16 * (k + 1)) s).
  assert (Eu : u = firstn (16 * k) s').
  { apply list_ext_get; [unfold u; rewrite !firstn_length; lia|]. intros j Hj. unfold u in *. rewrite firstn_length in Hj. rewrite !get_firstn_lt by lia.
    apply HA. assert (j / 16 < k) by (apply Nat.div_lt_upper_bound; lia). lia. }
  assert (Ew : w = skipn (16 * (k + 1)) s').
  { apply list_ext_get; [unfold w; rewrite !skipn_length; lia|]. intros j Hj. unfold w. rewrite !get_skipn. apply HA.
    assert (k + 1 <= (16 * (k + 1) + j) / 16) by (apply Nat.div_le_lower_bound; lia). lia. }
  set (x := firstn 16 (skipn (16 * k) s)). set (x' := firstn 16 (skipn (16 * k) s')).
  assert (Es : forall t : list N, 16 * (k + 1) <= length t -> t = firstn (16 * k) t ++ firstn 16 (skipn (16 * k) t) ++ skipn (16 * (k + 1)) t).
  { intros t Ht. rewrite <- (firstn_skipn (16 * k) t) at 1. f_equal. rewrite <- (firstn_skipn 16 (skipn (16 * k) t)) at 1. f_equal. rewrite skipn_skipn_add. f_equal. lia. }
  pose proof (Es s Hk) as E1. pose proof (Es s' ltac:(lia)) as E2. fold u x w in E1. rewrite <- Eu, <- Ew in E2. fold x' in E2.
  assert (Lx : length x = 16) by (unfold x; rewrite firstn_length, skipn_length; lia).
  assert (Lx' : length x' = 16) by (unfold x'; rewrite firstn_length, skipn_length; lia).
  assert (Lu : length u = 16 * k) by (unfold u; rewrite firstn_length; lia).
  rewrite E1, E2. apply ghash_one_block; try assumption.
  - rewrite Lu, Nat.mul_comm. now apply Nat.mod_mul.
  - unfold w. rewrite skipn_length. pose proof (Nat.div_mod (length s) 16 ltac:(lia)) as D. rewrite Hm in D.
    replace (length s - 16 * (k + 1)) with ((length s / 16 - (k + 1)) * 16) by lia. now apply Nat.mod_mul.
  - split; [exact Lx|]. apply bytes_firstn, bytes_skipn, Bs.
  - split; [exact Lx'|]. apply bytes_firstn, bytes_skipn, Bs'.
  - apply bytes_firstn, Bs.
  - apply bytes_skipn, Bs.
  - intros X. apply Hn. rewrite E1, E2, X. reflexivity.
Qed.

(** ** polynomials, lowest coefficient first *)
Fixpoint horner (h : N) (cs : list N) : N :=
  match cs with [] => 0%N | c :: cs' => N.lxor c (gf_mul (horner h cs') h) end.
Lemma horner_cons h c cs : horner h (c :: cs) = N.lxor c (gf_mul (horner h cs) h).
Proof. reflexivity. Qed.
Lemma horner_bound h cs : blk128 h -> Forall blk128 cs -> blk128 (horner h cs).
Proof. intros Hh. destruct 1 as [|c cs Hc _]; [reflexivity|]. rewrite horner_cons. apply lxor_blk; [exact Hc|now apply mul_bound]. Qed.
Lemma gfold_horner h xs : gfold h xs 0%N = horner h (0%N :: rev xs).
Proof.
  rewrite horner_cons, N.lxor_0_l. induction xs as [|x xs IH] using rev_ind; [symmetry; apply mul_0_l|].
  rewrite gfold_app, gfold_cons, IH, rev_app_distr. cbn [rev app]. rewrite horner_cons. rewrite (N.lxor_comm x). reflexivity.
Qed.
(** division by (z - r) *)
Fixpoint quo (r : N) (cs : list N) : list N :=
  match cs with [] => [] | c :: cs' => match cs' with [] => [] | _ => horner r cs' :: quo r cs' end end.
Lemma quo_length r cs : length (quo r cs) = length cs - 1.
Proof. induction cs as [|c cs IH]; [reflexivity|]. destruct cs as [|d cs]; [reflexivity|]. cbn [quo length] in *. rewrite IH. lia. Qed.
Lemma quo_cons2 r c d cs : quo r (c :: d :: cs) = horner r (d :: cs) :: quo r (d :: cs).
Proof. reflexivity. Qed.
Lemma quo_bound r cs : blk128 r -> Forall blk128 cs -> Forall blk128 (quo r cs).
Proof.
  intros Hr. induction 1 as [|c cs Hc Hcs IH]; [constructor|]. destruct cs as [|d cs]; [constructor|]. rewrite quo_cons2.
  constructor; [now apply horner_bound|exact IH].
Qed.
Lemma quo_spec r h cs : blk128 r -> blk128 h -> Forall blk128 cs ->
  horner h cs = N.lxor (gf_mul (horner h (quo r cs)) (N.lxor h r)) (horner r cs).
Proof.
  intros Hr Hh. induction 1 as [|c cs Hc Hcs IH].
  - cbn [quo horner]. now rewrite mul_0_l.
  - destruct cs as [|d cs].
    + cbn [quo]. rewrite !horner_cons. cbn [horner]. now rewrite !mul_0_l.
    + rewrite quo_cons2. rewrite (horner_cons h c), (horner_cons r c), (horner_cons h (horner r (d :: cs))).
      set (P := d :: cs) in *. assert (HQ : blk128 (horner h (quo r P))) by (apply horner_bound; [exact Hh|now apply quo_bound]).
      assert (HR : blk128 (horner r P)) by now apply horner_bound.
      rewrite IH. set (q := horner h (quo r P)) in *. set (v := horner r P) in *.
      rewrite !mul_lxor_l, !mul_lxor_r, !mul_lxor_l.
      rewrite <- (mul_assoc q h r), (mul_comm h r) by assumption. rewrite (mul_assoc q r h) by assumption.
      set (A := gf_mul (gf_mul q h) h). set (B := gf_mul (gf_mul q r) h). set (C := gf_mul v h). set (D := gf_mul v r).
      apply N.bits_inj. intros i. rewrite !N.lxor_spec.
      destruct (N.testbit c i), (N.testbit A i), (N.testbit B i), (N.testbit C i), (N.testbit D i); reflexivity.
Qed.
Lemma quo_zero r cs : Forall (fun c => c = 0%N) (quo r cs) -> horner r cs = 0%N -> Forall (fun c => c = 0%N) cs.
Proof.
  induction cs as [|c cs IH]; intros HQ HR; [constructor|]. destruct cs as [|d cs].
  - constructor; [|constructor]. rewrite horner_cons in HR. cbn [horner] in HR. now rewrite mul_0_l, N.lxor_0_r in HR.
  - rewrite quo_cons2 in HQ. apply Forall_cons_iff in HQ. destruct HQ as [Z HQ']. rewrite (horner_cons r c), Z, mul_0_l, N.lxor_0_r in HR. subst c.
    constructor; [reflexivity|]. now apply IH.
Qed.
(** a polynomial with a non-zero coefficient has fewer roots than coefficients *)
Lemma roots : forall n cs hs, length cs = n -> Forall blk128 cs -> Forall blk128 hs -> NoDup hs -> Forall (fun h => horner h cs = 0%N) hs ->
  ~ Forall (fun c => c = 0%N) cs -> length hs < n.
Proof.
  induction n as [|n IH]; intros cs hs HL Hcs Hhs HD HR HN.
  - exfalso. apply HN. destruct cs; [constructor|discriminate].
  - destruct hs as [|r hs]; [cbn [length]; lia|]. cbn [length].
    inversion Hhs as [|? ? Hr Hhs']; subst. inversion HD as [|? ? NI HD']; subst. inversion HR as [|? ? R0 HR']; subst.
    apply -> Nat.succ_lt_mono. apply (IH (quo r cs)).
    + rewrite quo_length. lia.
    + now apply quo_bound.
    + exact Hhs'.
    + exact HD'.
    + rewrite Forall_forall in *. intros h Hh. specialize (HR' h Hh). specialize (Hhs' h Hh).
      rewrite (quo_spec r h cs Hr Hhs') in HR' by (rewrite Forall_forall; exact Hcs). rewrite R0, N.lxor_0_r in HR'.
      apply gf_cancel in HR'; [|apply horner_bound; [exact Hhs'|apply quo_bound; [exact Hr|rewrite Forall_forall; exact Hcs]]|now apply lxor_blk].
      destruct HR' as [Z|Z]; [exact Z|]. apply N.lxor_eq in Z. subst h. contradiction.
    + intros Z. apply HN. now apply (quo_zero r).
Qed.
(** sum of polynomials *)
Fixpoint padd (a b : list N) : list N :=
  match a, b with [], _ => b | _, [] => a | x :: a', y :: b' => N.lxor x y :: padd a' b' end.
Lemma padd_horner h a : forall b, horner h (padd a b) = N.lxor (horner h a) (horner h b).
Proof.
  induction a as [|x a IH]; intros b; [cbn [padd horner]; now rewrite N.lxor_0_l|].
  destruct b as [|y b]; [cbn [padd]; now rewrite N.lxor_0_r|]. cbn [padd]. rewrite !horner_cons, IH, mul_lxor_l. apply xor_swap4.
Qed.
Lemma padd_length a : forall b, length (padd a b) = Nat.max (length a) (length b).
Proof. induction a as [|x a IH]; intros [|y b]; cbn [padd length]; try lia. rewrite IH. reflexivity. Qed.
Lemma padd_bound a : Forall blk128 a -> forall b, Forall blk128 b -> Forall blk128 (padd a b).
Proof. induction 1 as [|x a Hx Ha IH]; intros b Hb; [exact Hb|]. destruct Hb as [|y b Hy Hb]; [now constructor|]. cbn [padd]. constructor; [now apply lxor_blk|now apply IH]. Qed.
Lemma padd_zero a : forall b, length a = length b -> Forall (fun c => c = 0%N) (padd a b) -> a = b.
Proof.
  induction a as [|x a IH]; intros [|y b] HL HZ; try discriminate; [reflexivity|]. cbn [padd] in HZ. inversion HZ as [|? ? Z HZ']; subst.
  apply N.lxor_eq in Z. subst y. f_equal. apply IH; [now injection HL|exact HZ'].
Qed.
