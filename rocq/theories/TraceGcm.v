(** * What the lookups of GHASH reveal (C106) *)
From Verif Require Import Base CbcModel CbcSpec CbcProofs GcmModel GcmSpec GfProofs GcmProofs GfField GfGhash TraceModel.
From Coq Require Import ZifyBool ZifyNat ZifyN.
Local Open Scope nat_scope.
#[local] Opaque gf_mul mult_nibble.

(** the indices used with the table HH, in order *)
Definition hh_indices (t : lookups) : list N := concat (map (fun a => match a with (THH, n) => [n] | _ => [] end) t).
Lemma hh_app a b : hh_indices (a ++ b) = hh_indices a ++ hh_indices b.
Proof. unfold hh_indices. now rewrite map_app, concat_app. Qed.
Definition lo (x : list N) i := N.land (get x i) 0x0f.
Definition hi (x : list N) i := N.shiftr (get x i) 4.
Definition step_indices (x : list N) (i : nat) : list N := (if i =? 15 then [] else [lo x i]) ++ [hi x i].
Definition mult_step_tr HH HL (x : list N) (m : traced (N * N)) i : traced (N * N) :=
  look z <- m;
  look z1 <- (if i =? 15 then tret z else mult_nibble_tr HH HL z (N.to_nat (N.land (get x i) 0x0f)));
  mult_nibble_tr HH HL z1 (N.to_nat (N.shiftr (get x i) 4)).
Definition mult_step HH HL (x : list N) (z : N * N) i : N * N :=
  mult_nibble HH HL (if i =? 15 then z else mult_nibble HH HL z (N.to_nat (N.land (get x i) 0x0f))) (N.to_nat (N.shiftr (get x i) 4)).
Lemma mult_step_spec HH HL x m i : fst (mult_step_tr HH HL x m i) = mult_step HH HL x (fst m) i /\ hh_indices (snd (mult_step_tr HH HL x m i)) = hh_indices (snd m) ++ step_indices x i.
Proof.
  destruct m as [z t]. unfold mult_step_tr, mult_step, step_indices, mult_nibble_tr. cbn [tbind fst snd].
  destruct (i =? 15); cbn [tbind tret fst snd app]; (split; [reflexivity|]); rewrite !hh_app; f_equal; unfold hh_indices; cbn [map concat app]; rewrite ?N2Nat.id; reflexivity.
Qed.
Lemma mult_fold_tr HH HL x l : forall m, fst (fold_left (mult_step_tr HH HL x) l m) = fold_left (mult_step HH HL x) l (fst m) /\
  hh_indices (snd (fold_left (mult_step_tr HH HL x) l m)) = hh_indices (snd m) ++ concat (map (step_indices x) l).
Proof.
  induction l as [|i l IH]; intro m; [cbn; now rewrite app_nil_r|]. cbn [fold_left map concat]. destruct (IH (mult_step_tr HH HL x m i)) as [A B].
  destruct (mult_step_spec HH HL x m i) as [C D]. rewrite A, B, C, D. split; [reflexivity|]. now rewrite <- app_assoc.
Qed.
Definition mult_indices (x : list N) : list N := [lo x 15] ++ concat (map (step_indices x) [15;14;13;12;11;10;9;8;7;6;5;4;3;2;1;0]).
Lemma gcm_mult_tr_spec HH HL x : fst (gcm_mult_tr HH HL x) = gcm_mult HH HL x /\ hh_indices (snd (gcm_mult_tr HH HL x)) = mult_indices x.
Proof.
  unfold gcm_mult_tr, gcm_mult. cbv zeta. fold (mult_step_tr HH HL x). fold (mult_step HH HL x).
  set (z0 := (get HH _, get HL _)). set (t0 := [(THH, _); _]).
  destruct (mult_fold_tr HH HL x [15;14;13;12;11;10;9;8;7;6;5;4;3;2;1;0] (z0, t0)) as [A B]. cbn [fst snd] in A, B.
  change (fun z i => mult_nibble HH HL (if i =? 15 then z else mult_nibble HH HL z (N.to_nat (N.land (get x i) 15))) (N.to_nat (N.shiftr (get x i) 4))) with (mult_step HH HL x).
  destruct (fold_left (mult_step_tr HH HL x) _ (z0, t0)) as [[zh zl] t]. cbn [fst snd] in A, B. rewrite <- A. cbn [tbind tret fst snd]. split; [reflexivity|].
  rewrite app_nil_r, B. unfold mult_indices, t0, hh_indices. cbn [map concat app]. rewrite N2Nat.id. reflexivity.
Qed.
Lemma byte_nibbles a b : N.land a 15 = N.land b 15 -> N.shiftr a 4 = N.shiftr b 4 -> a = b.
Proof.
  intros H1 H2. change 15%N with (N.ones 4) in H1. rewrite !N.land_ones in H1. rewrite !N.shiftr_div_pow2 in H2.
  rewrite (N.div_mod a (2 ^ 4)), (N.div_mod b (2 ^ 4)) by discriminate. now rewrite H1, H2.
Qed.
Lemma mult_indices_inj x y : length x = 16 -> length y = 16 -> mult_indices x = mult_indices y -> x = y.
Proof.
  intros LX LY H. unfold mult_indices, step_indices in H. cbn [map concat app Nat.eqb] in H. unfold lo, hi in H.
  injection H. intros. apply list_ext_get; [congruence|]. intros i I. rewrite LX in I.
  do 16 (destruct i as [|i]; [apply byte_nibbles; assumption|]). lia.
Qed.
Lemma length_mult_indices x : length (mult_indices x) = 32.
Proof. reflexivity. Qed.
#[local] Opaque gcm_mult_tr gcm_mult mult_indices.
Definition absorb_step_tr HH HL (m : traced (list N)) p : traced (list N) := look a <- m; gcm_mult_tr HH HL (xor_into a p).
Lemma absorb_step_spec HH HL m p : fst (absorb_step_tr HH HL m p) = gcm_mult HH HL (xor_into (fst m) p) /\
  hh_indices (snd (absorb_step_tr HH HL m p)) = hh_indices (snd m) ++ mult_indices (xor_into (fst m) p).
Proof.
  destruct m as [a t]. unfold absorb_step_tr. cbn [tbind]. destruct (gcm_mult_tr_spec HH HL (xor_into a p)) as [A B].
  destruct (gcm_mult_tr HH HL (xor_into a p)) as [b u]. cbn [fst snd] in *. split; [exact A|]. now rewrite hh_app, B.
Qed.
(** [f] is applied to every state, [g] moves to the next one; generic, so that the guard checker does not unfold GHASH *)
Fixpoint unroll {A B : Type} (f : A -> B -> list N) (g : A -> B -> A) (acc : A) (cs : list B) : list N :=
  match cs with [] => [] | p :: cs' => f acc p ++ unroll f g (g acc p) cs' end.
Definition absorb_indices HH HL : list N -> list (list N) -> list N :=
  unroll (fun a p => mult_indices (xor_into a p)) (fun a p => gcm_mult HH HL (xor_into a p)).
Lemma absorb_indices_cons HH HL acc p cs : absorb_indices HH HL acc (p :: cs) = mult_indices (xor_into acc p) ++ absorb_indices HH HL (gcm_mult HH HL (xor_into acc p)) cs.
Proof. reflexivity. Qed.
Lemma absorb_indices_nil HH HL acc : absorb_indices HH HL acc [] = [].
Proof. reflexivity. Qed.
Lemma unroll_fold {A B : Type} (step : traced A -> B -> traced A) (f : A -> B -> list N) (g : A -> B -> A) :
  (forall m p, fst (step m p) = g (fst m) p /\ hh_indices (snd (step m p)) = hh_indices (snd m) ++ f (fst m) p) ->
  forall cs m, fst (fold_left step cs m) = fold_left g cs (fst m) /\ hh_indices (snd (fold_left step cs m)) = hh_indices (snd m) ++ unroll f g (fst m) cs.
Proof.
  intro ST. induction cs as [|p cs IH]; intro m; [cbn [fold_left unroll]; now rewrite app_nil_r|]. cbn [fold_left unroll]. destruct (IH (step m p)) as [X Y].
  destruct (ST m p) as [C D]. rewrite X, Y, C, D. split; [reflexivity|]. now rewrite <- app_assoc.
Qed.
Lemma absorb_fold_tr HH HL cs m : fst (fold_left (absorb_step_tr HH HL) cs m) = fold_left (fun a p => gcm_mult HH HL (xor_into a p)) cs (fst m) /\
  hh_indices (snd (fold_left (absorb_step_tr HH HL) cs m)) = hh_indices (snd m) ++ absorb_indices HH HL (fst m) cs.
Proof.
  pose proof (unroll_fold (absorb_step_tr HH HL) (fun a p => mult_indices (xor_into a p)) (fun a p => gcm_mult HH HL (xor_into a p)) (absorb_step_spec HH HL) cs m) as P.
  unfold absorb_indices. exact P.
Qed.
#[local] Opaque absorb_indices.
Lemma gcm_aad_tr_spec c aad : fst (gcm_aad_tr c aad) = gcm_aad c aad /\
  hh_indices (snd (gcm_aad_tr c aad)) = absorb_indices (g_HH c) (g_HL c) (g_buf c) (chunks 16 aad).
Proof.
  unfold gcm_aad_tr, gcm_aad, absorb_tr, absorb. fold (absorb_step_tr (g_HH c) (g_HL c)).
  destruct (absorb_fold_tr (g_HH c) (g_HL c) (chunks 16 aad) (tret (g_buf c))) as [A B].
  destruct (fold_left (absorb_step_tr (g_HH c) (g_HL c)) (chunks 16 aad) (tret (g_buf c))) as [b t]. cbn [fst snd tret tbind] in *. rewrite A. split; [reflexivity|].
  rewrite app_nil_r, B. reflexivity.
Qed.
Lemma xor_into_inj_buf a b p : length a = 16 -> length b = 16 -> length p <= 16 -> xor_into a p = xor_into b p -> a = b.
Proof.
  intros LA LB LP H. rewrite !xor_into_pad in H by assumption. apply (f_equal (fun t => xorl t (p ++ repeat 0%N (16 - length p)))) in H.
  rewrite !xorl_cancel_r in H by (rewrite app_length, repeat_length; lia). exact H.
Qed.
Lemma mul_inj_r x h k : blk128 x -> blk128 h -> blk128 k -> x <> 0%N -> gf_mul x h = gf_mul x k -> h = k.
Proof. intros X H K Z E. rewrite (mul_comm x h), (mul_comm x k) in E by assumption. exact (mul_inj_l h k x H K X Z E). Qed.
(** a context ready for additional data, whatever the IV *)
Lemma gcm_ready E iv c0 c : block_function E -> gcm_init (lift E) = Some c0 -> gcm_setiv (lift E) c0 iv = (true, c) ->
  tables_ok (g_HH c) (g_HL c) (be_to_N (hash_key E)) /\ g_buf c = repeat 0%N 16.
Proof.
  intros HE I S. unfold gcm_init in I. change (lift E (repeat 0%N 16)) with (Some (hash_key E)) in I. cbn iota in I.
  destruct (init_tables (hash_key E)) as [HH HL] eqn:ET. injection I as <-.
  unfold gcm_setiv in S. cbv zeta in S. cbn [g_HH g_HL g_add_len g_base] in S. unfold lift in S. apply (f_equal snd) in S. cbn [snd] in S. rewrite <- S. cbn [g_HH g_HL g_buf]. split; [|reflexivity].
  eapply init_tables_ok; [|exact ET]. apply HE, block16_zeros.
Qed.
Lemma gcm_lookups_lemma : forall E1 E2 iv1 iv2 aad c1 c1' c2 c2', block_function E1 -> block_function E2 -> bytes aad ->
  16 < length aad -> firstn 16 aad <> repeat 0%N 16 ->
  gcm_init (lift E1) = Some c1 -> gcm_setiv (lift E1) c1 iv1 = (true, c1') ->
  gcm_init (lift E2) = Some c2 -> gcm_setiv (lift E2) c2 iv2 = (true, c2') ->
  fst (gcm_aad_tr c1' aad) = gcm_aad c1' aad /\
  (snd (gcm_aad_tr c1' aad) = snd (gcm_aad_tr c2' aad) -> hash_key E1 = hash_key E2).
Proof.
  intros E1 E2 iv1 iv2 aad c1 c1' c2 c2' H1 H2 BA LA NZ I1 S1 I2 S2. destruct (gcm_aad_tr_spec c1' aad) as [A1 T1]. destruct (gcm_aad_tr_spec c2' aad) as [_ T2]. split; [exact A1|].
  intro Q. rewrite Q, T2 in T1. clear Q T2 A1. destruct (gcm_ready E1 iv1 c1 c1' H1 I1 S1) as [K1 B1]. destruct (gcm_ready E2 iv2 c2 c2' H2 I2 S2) as [K2 B2]. rewrite B1, B2 in T1.
  assert (NE : aad <> []) by (intros ->; cbn in LA; lia). rewrite (chunks_eq 16 aad) in T1 by (lia || exact NE).
  assert (NE' : skipn 16 aad <> []) by (intro Z; apply (f_equal (@length N)) in Z; rewrite skipn_length in Z; cbn in Z; lia).
  rewrite (chunks_eq 16 (skipn 16 aad)) in T1 by (lia || exact NE'). rewrite !absorb_indices_cons in T1.
  set (a := firstn 16 aad) in *. assert (La : length a = 16) by (unfold a; rewrite firstn_length; lia). assert (Ba : block16 a) by (split; [exact La|now apply bytes_firstn]).
  assert (X0 : xor_into (repeat 0%N 16) a = a) by (rewrite xor_into_full by (now rewrite repeat_length); apply xorl_zeros_l; lia). rewrite X0 in T1.
  rewrite (gcm_mult_block _ _ _ a K1 Ba), (gcm_mult_block _ _ _ a K2 Ba) in T1.
  assert (T2 := app_inv_head _ _ _ T1). clear T1.
  assert (Z : forall (a b c d : list N), length a = length c -> a ++ b = c ++ d -> a = c).
  { clear. induction a as [|x a IH]; intros b [|y c] d L H; try discriminate; [reflexivity|]. cbn [app] in H. injection H as -> H. injection L as L. f_equal. exact (IH b c d L H). }
  apply Z in T2; [|now rewrite !length_mult_indices]. set (p := firstn 16 (skipn 16 aad)) in *. assert (Lp : length p <= 16) by (unfold p; rewrite firstn_length; lia).
  pose proof (block_mul_block a (hash_key E1)) as M1. pose proof (block_mul_block a (hash_key E2)) as M2.
  assert (LX : forall m, length m = 16 -> length (xor_into m p) = 16) by (intros m Lm; rewrite xor_into_pad by assumption; rewrite length_xorl, app_length, repeat_length; lia).
  apply mult_indices_inj in T2; [|now apply LX, M2|now apply LX, M1]. apply xor_into_inj_buf in T2; [|apply M2|apply M1|exact Lp].
  pose proof (H1 _ block16_zeros) as HK1. pose proof (H2 _ block16_zeros) as HK2. fold (hash_key E1) in HK1. fold (hash_key E2) in HK2.
  apply (f_equal be_to_N) in T2. rewrite !block_mul_N in T2 by assumption. symmetry in T2.
  apply be_to_N_inj; [destruct HK1, HK2; congruence|apply HK1|apply HK2|].
  apply (mul_inj_r (be_to_N a)); try (now apply block16_N); [|exact T2].
  intro Z0. apply NZ. apply be_to_N_inj; [now rewrite repeat_length|apply Ba|apply bytes_repeat; unfold byte; lia|]. rewrite Z0. reflexivity.
Qed.
