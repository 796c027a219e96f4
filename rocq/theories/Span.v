(** * Vectors over GF(2) that span all vectors of a length, by elimination *)
From Verif Require Import Base.
From Coq Require Import ZifyBool ZifyNat ZifyN.
Local Open Scope nat_scope.

(** [spans i l]: elimination from bit i - 1 down finds a pivot for each bit *)
Fixpoint spans (i : nat) (l : list N) : bool :=
  match i with
  | O => true
  | S i' =>
      match find (fun w => N.testbit w (N.of_nat i')) l with
      | None => false
      | Some v => spans i' (map (fun w => if N.testbit w (N.of_nat i') then N.lxor w v else w) l)
      end
  end.
Lemma drop_top i x : (x < 2 ^ N.of_nat (S i))%N -> N.testbit x (N.of_nat i) = false -> (x < 2 ^ N.of_nat i)%N.
Proof.
  intros B T. destruct (N.eq_dec x 0) as [->|NZ]; [apply N.neq_0_lt_0, N.pow_nonzero; discriminate|].
  apply N.log2_lt_pow2; [lia|]. apply N.log2_lt_pow2 in B; [|lia].
  assert (N.log2 x <> N.of_nat i) by (intros E; rewrite <- E, N.bit_log2 in T by exact NZ; discriminate). lia.
Qed.
Lemma lxor_lt_pow i x y : (x < 2 ^ N.of_nat i)%N -> (y < 2 ^ N.of_nat i)%N -> (N.lxor x y < 2 ^ N.of_nat i)%N.
Proof. apply lxor_lt. Qed.
Section Zero.
  Variable f : N -> N.
  Lemma spans_zero : forall i l,
    (forall x y, (x < 2 ^ N.of_nat i)%N -> (y < 2 ^ N.of_nat i)%N -> f (N.lxor x y) = N.lxor (f x) (f y)) ->
    (forall x, In x l -> (x < 2 ^ N.of_nat i)%N /\ f x = 0%N) -> spans i l = true -> forall x, (x < 2 ^ N.of_nat i)%N -> f x = 0%N.
  Proof.
    induction i as [|i IH]; intros l A Z H x B.
    - assert (x = 0%N) by (cbn in B; lia). subst x. rewrite <- (N.lxor_nilpotent 0) , A by reflexivity. apply N.lxor_nilpotent.
    - cbn [spans] in H. destruct (find _ l) as [v|] eqn:F; [|discriminate]. apply find_some in F. destruct F as [IV TV]. destruct (Z v IV) as [BV ZV].
      assert (UP : forall y, (y < 2 ^ N.of_nat i)%N -> (y < 2 ^ N.of_nat (S i))%N).
      { intros y Y. eapply N.lt_le_trans; [exact Y|]. apply N.pow_le_mono_r; lia. }
      assert (K : forall y, (y < 2 ^ N.of_nat i)%N -> f y = 0%N).
      { refine (IH _ (fun a b Ba Bb => A a b (UP a Ba) (UP b Bb)) _ H). intros y Hy. apply in_map_iff in Hy. destruct Hy as (w & <- & IW).
        destruct (Z w IW) as [BW ZW]. destruct (N.testbit w (N.of_nat i)) eqn:TW.
        - split; [|rewrite A, ZW, ZV by assumption; reflexivity]. apply drop_top; [now apply lxor_lt_pow|]. now rewrite N.lxor_spec, TW, TV.
        - split; [now apply drop_top|exact ZW]. }
      destruct (N.testbit x (N.of_nat i)) eqn:TX; [|apply K; now apply drop_top].
      assert (E : f (N.lxor x v) = 0%N) by (apply K, drop_top; [now apply lxor_lt_pow|]; now rewrite N.lxor_spec, TX, TV).
      rewrite A, ZV, N.lxor_0_r in E by assumption. exact E.
  Qed.
End Zero.
