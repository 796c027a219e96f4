From Verif Require Import Base Word32 Sm3Model Sm3Spec.
Local Open Scope nat_scope.

(** ** word operations *)
Definition words (l : list N) : Prop := Forall word l.
Lemma words_get l i : words l -> word (get l i).
Proof.
  intros H. unfold get. destruct (Nat.lt_ge_cases i (length l)) as [L|L].
  - unfold words in H. rewrite Forall_forall in H. apply H. now apply nth_In.
  - rewrite nth_overflow by lia. unfold word. reflexivity.
Qed.
Lemma words_set l i v : words l -> word v -> words (set l i v).
Proof.
  intros H Hv. revert i. induction H as [|x l Hx Hl IH]; intros i; [destruct i; constructor|].
  destruct i; constructor; auto. apply IH.
Qed.
Lemma words_xorl a b : words a -> words b -> words (xorl a b).
Proof.
  intros Ha. revert b. induction Ha as [|x a Hx Ha IH]; intros b Hb; [constructor|].
  destruct Hb as [|y b Hy Hb]; [constructor|]. constructor; [now apply word_lxor|]. now apply IH.
Qed.
Lemma rol_eq a n : word a -> (0 < n < 32)%N -> rotl32 a n = rol a n.
Proof. intros. now apply rotl32_arith. Qed.
Lemma word_rotl15 l i : words l -> word (rotl32 (get l i) 15).
Proof. intros H. apply word_rotl32; [now apply words_get|lia]. Qed.
Lemma add_eq a b : add32 a b = add a b.
Proof. reflexivity. Qed.
Lemma word_add a b : word (add32 a b).
Proof. apply word_w32. Qed.
Lemma P0_eq x : word x -> c_P0 x = P0 x.
Proof. intros. unfold c_P0, P0. now rewrite !rol_eq by (auto; lia). Qed.
Lemma P1_eq x : word x -> c_P1 x = P1 x.
Proof. intros. unfold c_P1, P1. now rewrite !rol_eq by (auto; lia). Qed.
Lemma word_P0 x : word x -> word (c_P0 x).
Proof. intros. unfold c_P0. repeat apply word_lxor; auto; apply word_rotl32; auto; lia. Qed.
Lemma word_P1 x : word x -> word (c_P1 x).
Proof. intros. unfold c_P1. repeat apply word_lxor; auto; apply word_rotl32; auto; lia. Qed.
Lemma word_EXPAND a b c d e : word a -> word b -> word c -> word d -> word e -> word (c_EXPAND a b c d e).
Proof.
  intros. unfold c_EXPAND. apply word_lxor; auto. apply word_lxor; [|apply word_rotl32; auto; lia].
  apply word_P1. repeat apply word_lxor; auto. apply word_rotl32; auto; lia.
Qed.
Lemma FF_eq j x y z : (if (if j <? 16 then 1 else 2) =? 1 then c_FF0 else c_FF1) x y z = FF j x y z.
Proof.
  unfold FF. destruct (j <? 16); [reflexivity|]. cbn [Nat.eqb]. unfold c_FF1. apply N.bits_inj. intros i.
  rewrite !N.lor_spec, !N.land_spec, !N.lor_spec. destruct (N.testbit x i), (N.testbit y i), (N.testbit z i); reflexivity.
Qed.
Lemma testbit_ones32 i : N.testbit (2 ^ 32 - 1) i = (i <? 32)%N.
Proof.
  change (2 ^ 32 - 1)%N with (N.ones 32). destruct (N.ltb_spec i 32); [now apply N.ones_spec_low | now apply N.ones_spec_high].
Qed.
Lemma GG_eq j x y z : word x -> word y -> word z ->
  (if (if j <? 16 then 1 else 2) =? 1 then c_GG0 else c_GG1) x y z = GG j x y z.
Proof.
  intros Hx Hy Hz. unfold GG. destruct (j <? 16); [reflexivity|]. cbn [Nat.eqb]. unfold c_GG1, compl. apply N.bits_inj. intros i.
  rewrite !N.lor_spec, !N.lxor_spec, !N.land_spec, !N.lxor_spec, testbit_ones32.
  destruct (N.ltb_spec i 32) as [L|L].
  - destruct (N.testbit x i), (N.testbit y i), (N.testbit z i); reflexivity.
  - rewrite (word_testbit x), (word_testbit y), (word_testbit z) by auto. reflexivity.
Qed.

(** ** the 116 statements follow a pattern *)
Definition perm (j : nat) : list nat :=
  map (fun k => (k + 4 - j mod 4) mod 4) (seq 0 4) ++ map (fun k => 4 + (k + 4 - j mod 4) mod 4) (seq 0 4).
Definition gen (j : nat) : list stmt :=
  RND (if j <? 16 then 1 else 2) (perm j) (rol (Tj j) (N.of_nat (j mod 32))) (j mod 16) (j mod 16) ((j + 4) mod 16)
  :: (if j <? 52 then [EXP (j mod 16) (j mod 16) ((j + 7) mod 16) ((j + 13) mod 16) ((j + 3) mod 16) ((j + 10) mod 16)] else []).
Lemma prog_gen : sm3_prog = flat_map gen (seq 0 64).
Proof. vm_compute. reflexivity. Qed.

Definition view (R : list N) (j : nat) : regs :=
  let p := perm j in
  (get R (nth 0 p 0), get R (nth 1 p 0), get R (nth 2 p 0), get R (nth 3 p 0),
   get R (nth 4 p 0), get R (nth 5 p 0), get R (nth 6 p 0), get R (nth 7 p 0)).
(** one round with explicit message words *)
Definition round1 (j : nat) (wj wj4 : N) (s : regs) : regs :=
  let '(A, B, C, D, E, F, G, H) := s in
  let SS1 := rol (add (add (rol A 12) E) (rol (Tj j) (N.of_nat (j mod 32)))) 7 in
  let SS2 := N.lxor SS1 (rol A 12) in
  let TT1 := add (add (add (FF j A B C) D) SS2) (N.lxor wj wj4) in
  let TT2 := add (add (add (GG j E F G) H) SS1) wj in
  (TT1, A, rol B 9, C, P0 TT2, E, rol F 19, G).

Lemma words8 R : length R = 8 -> words R -> exists a b c d e f g h, R = [a; b; c; d; e; f; g; h] /\
  word a /\ word b /\ word c /\ word d /\ word e /\ word f /\ word g /\ word h.
Proof.
  intros L H. do 8 (destruct R as [|? R]; [discriminate|]). destruct R; [|discriminate].
  repeat match goal with H : words (_ :: _) |- _ => inversion H; clear H; subst
                       | H : Forall word (_ :: _) |- _ => inversion H; clear H; subst end.
  repeat eexists; eauto.
Qed.
Lemma rnd_step R j wj wj4 : length R = 8 -> words R -> word wj -> word wj4 ->
  let R' := exec_rnd (if j <? 16 then 1 else 2) (perm j) (rol (Tj j) (N.of_nat (j mod 32))) wj (N.lxor wj wj4) R in
  length R' = 8 /\ words R' /\ view R' (j + 1) = round1 j wj wj4 (view R j).
Proof.
  intros L HR Hw Hw4. unfold exec_rnd. cbv beta zeta.
  set (TJ := rol _ _).
  assert (HG : forall n, word (get R (nth n (perm j) 0))) by (intros n; now apply words_get).
  rewrite FF_eq, GG_eq by auto. change add32 with add.
  rewrite (rol_eq (get R (nth 0 (perm j) 0)) 12) by (auto; lia).
  rewrite (rol_eq (add _ _) 7) by (try lia; apply word_add).
  rewrite P0_eq by apply word_add. rewrite (rol_eq (get R (nth 1 (perm j) 0)) 9) by (auto; lia).
  unfold round1, view. cbv beta iota zeta.
  set (SS1 := rol (add (add _ _) TJ) 7).
  set (TT1 := add (add (add (FF j _ _ _) _) _) _). set (TT2 := add (add (add (GG j _ _ _) _) _) _).
  assert (H1 : word TT1) by apply word_add. assert (H2 : word TT2) by apply word_add.
  assert (H3 : word (rol (get R (nth 1 (perm j) 0)) 9)) by (rewrite <- rol_eq by (auto; lia); apply word_rotl32; auto; lia).
  assert (H4 : word (P0 TT2)) by (rewrite <- P0_eq by auto; now apply word_P0).
  set (X3 := set (set R _ _) _ TT1).
  assert (HX3 : words X3) by (unfold X3; repeat apply words_set; auto).
  rewrite (rol_eq (get X3 _) 19) by (try lia; now apply words_get).
  split; [rewrite !length_set; unfold X3; now rewrite !length_set|].
  split. { repeat apply words_set; auto. rewrite <- rol_eq by (try lia; now apply words_get). apply word_rotl32; [now apply words_get|lia]. }
  clearbody SS1 TT1 TT2 TJ. unfold X3. clear - L.
  assert (E : perm (j + 1) = map (fun k => (k + 4 - (j mod 4 + 1) mod 4) mod 4) (seq 0 4) ++
                              map (fun k => 4 + (k + 4 - (j mod 4 + 1) mod 4) mod 4) (seq 0 4)).
  { unfold perm. now rewrite Nat.add_mod_idemp_l by lia. }
  rewrite E. unfold perm. pose proof (Nat.mod_upper_bound j 4 ltac:(lia)) as B.
  set (r := j mod 4) in *. clearbody r.
  do 8 (destruct R as [|? R]; [discriminate|]). destruct R; [|discriminate].
  destruct r as [|[|[|[|r]]]]; [| | | |lia]; reflexivity.
Qed.

(** ** message expansion *)
Definition W_formula (W : list N) (j : nat) : N :=
  N.lxor (N.lxor (P1 (N.lxor (N.lxor (get W (j - 16)) (get W (j - 9))) (rol (get W (j - 3)) 15)))
                 (rol (get W (j - 13)) 7)) (get W (j - 6)).
Lemma get_app_l a b i : i < length a -> get (a ++ b) i = get a i.
Proof. intros. unfold get. now apply app_nth1. Qed.
Lemma extend_spec n : forall W, 16 <= length W ->
  length (extend n W) = length W + n /\ (forall i, i < length W -> get (extend n W) i = get W i) /\
  (forall i, length W <= i < length W + n -> get (extend n W) i = W_formula (extend n W) i).
Proof.
  induction n as [|n IH]; intros W L; cbn [extend].
  - split; [lia|]. split; [auto|]. intros; lia.
  - destruct (IH (W ++ [W_next W])) as (I1 & I2 & I3); [rewrite app_length; cbn; lia|].
    rewrite app_length in *. cbn [length] in *. split; [lia|]. split.
    + intros i Hi. rewrite I2 by lia. now apply get_app_l.
    + intros i Hi. destruct (Nat.eq_dec i (length W)) as [->|]; [|apply I3; lia].
      rewrite I2 by lia. unfold get at 1. rewrite app_nth2, Nat.sub_diag by lia. cbn [nth].
      unfold W_formula, W_next. rewrite !I2 by lia. rewrite !get_app_l by lia. reflexivity.
Qed.

Lemma mod_neq n i j : j < i -> i < j + n -> i mod n <> j mod n.
Proof.
  intros H1 H2 E. pose proof (Nat.div_mod i n ltac:(lia)) as Di. pose proof (Nat.div_mod j n ltac:(lia)) as Dj.
  rewrite E in Di. assert (n * (i / n) - n * (j / n) = i - j) by lia.
  rewrite <- Nat.mul_sub_distr_l in H. destruct (i / n - j / n) as [|k]; [lia|]. nia.
Qed.
Definition buf_ok (Ws Wb : list N) (j : nat) : Prop :=
  length Wb = 16 /\ words Wb /\ forall i, j <= i < j + 16 -> i < 68 -> get Wb (i mod 16) = get Ws i.

Lemma gen_step Ws R Wb j : j < 64 -> length Ws = 68 -> words Ws ->
  (forall i, 16 <= i < 68 -> get Ws i = W_formula Ws i) ->
  length R = 8 -> words R -> buf_ok Ws Wb j ->
  let '(R', Wb') := fold_left exec (gen j) (R, Wb) in
  length R' = 8 /\ words R' /\ buf_ok Ws Wb' (j + 1) /\ view R' (j + 1) = round Ws (view R j) j.
Proof.
  intros Hj LW HW HF LR HR (LB & HB & HG). unfold gen. cbn [fold_left exec].
  assert (E0 : get Wb (j mod 16) = get Ws j) by (apply HG; lia).
  assert (E4 : get Wb ((j + 4) mod 16) = get Ws (j + 4)) by (apply HG; lia).
  rewrite E0, E4.
  destruct (rnd_step R j (get Ws j) (get Ws (j + 4)) LR HR) as (S1 & S2 & S3); [now apply words_get..|].
  assert (RE : round Ws (view R j) j = round1 j (get Ws j) (get Ws (j + 4)) (view R j)) by reflexivity.
  rewrite RE. clear RE. cbv zeta in S1, S2, S3.
  set (R' := exec_rnd _ _ _ _ _ R) in *. clearbody R'.
  destruct (Nat.ltb_spec j 52) as [L|L]; cbn [fold_left exec].
  - split; [exact S1|]. split; [exact S2|]. split; [|exact S3].
    split; [now rewrite length_set|]. split.
    + apply words_set; auto. apply word_EXPAND; now apply words_get.
    + intros i Hi Hi68. rewrite get_set by (rewrite LB; apply Nat.mod_upper_bound; lia).
      destruct (Nat.eqb_spec (i mod 16) (j mod 16)) as [E|E].
      * assert (i = j + 16).
        { destruct (Nat.eq_dec i (j + 16)); auto. exfalso. apply (mod_neq 16 i j); lia. }
        subst i. rewrite HF by lia. unfold c_EXPAND, W_formula. rewrite E0.
        rewrite (HG (j + 7)), (HG (j + 13)), (HG (j + 3)), (HG (j + 10)) by lia.
        rewrite P1_eq by (repeat apply word_lxor; auto using words_get, word_rotl15).
        rewrite !rol_eq by (try lia; now apply words_get).
        replace (j + 16 - 16) with j by lia. replace (j + 16 - 9) with (j + 7) by lia. replace (j + 16 - 3) with (j + 13) by lia.
        replace (j + 16 - 13) with (j + 3) by lia. replace (j + 16 - 6) with (j + 10) by lia. reflexivity.
      * apply HG; [|lia]. assert (i <> j + 16) by (intros ->; apply E; replace (j + 16) with (j + 1 * 16) by lia; apply Nat.mod_add; lia). lia.
  - split; [exact S1|]. split; [exact S2|]. split; [|exact S3].
    split; [exact LB|]. split; [exact HB|]. intros i Hi Hi68. apply HG; lia.
Qed.
Lemma gen_run Ws n : forall a R Wb, a + n <= 64 -> length Ws = 68 -> words Ws ->
  (forall i, 16 <= i < 68 -> get Ws i = W_formula Ws i) ->
  length R = 8 -> words R -> buf_ok Ws Wb a ->
  let '(R', _) := fold_left exec (flat_map gen (seq a n)) (R, Wb) in
  length R' = 8 /\ words R' /\ view R' (a + n) = fold_left (round Ws) (seq a n) (view R a).
Proof.
  induction n as [|n IH]; intros a R Wb Ha LW HW HF LR HR HB; cbn [seq flat_map fold_left].
  - rewrite Nat.add_0_r. auto.
  - rewrite fold_left_app. pose proof (gen_step Ws R Wb a ltac:(lia) LW HW HF LR HR HB) as G.
    destruct (fold_left exec (gen a) (R, Wb)) as [R1 W1]. destruct G as (G1 & G2 & G3 & G4).
    rewrite <- G4. replace (a + 1) with (S a) in * by lia.
    specialize (IH (S a) R1 W1 ltac:(lia) LW HW HF G1 G2 G3).
    destruct (fold_left exec (flat_map gen (seq (S a) n)) (R1, W1)) as [R2 W2].
    replace (S a + n) with (a + S n) in IH by lia. exact IH.
Qed.

Definition byte_lor4 a b c d : byte b -> byte c -> byte d ->
  N.lor (N.lor (N.lor (N.shiftl a 24) (N.shiftl b 16)) (N.shiftl c 8)) d = be_to_N [a; b; c; d].
Proof.
  unfold byte. intros Hb Hc Hd. cbn [be_to_N fold_left].
  rewrite <- !N.lor_assoc. rewrite (lor_add_shift c d 8) by exact Hd.
  rewrite (lor_add_shift b _ 16) by (change (2 ^ 8)%N with 256%N; change (2 ^ 16)%N with 65536%N; lia).
  rewrite (lor_add_shift a _ 24) by (change (2 ^ 8)%N with 256%N; change (2 ^ 16)%N with 65536%N; change (2 ^ 24)%N with 16777216%N; lia).
  change (2 ^ 8)%N with 256%N; change (2 ^ 16)%N with 65536%N; change (2 ^ 24)%N with 16777216%N. lia.
Qed.
Lemma load_W_spec p : length p = 64 -> bytes p -> load_W p = map be_to_N (chunks 4 p) /\ words (load_W p).
Proof.
  intros L B. 
  assert (E : load_W p = map (fun i => be_to_N [get p (4 * i); get p (4 * i + 1); get p (4 * i + 2); get p (4 * i + 3)]) (seq 0 16)).
  { unfold load_W. apply map_ext. intros i. apply byte_lor4; now apply bytes_get. }
  split.
  - rewrite E. clear E B. do 64 (destruct p as [|? p]; [discriminate|]). destruct p; [reflexivity|discriminate].
  - rewrite E. apply Forall_forall. intros x Hx. apply in_map_iff in Hx as (i & <- & _).
    apply (be_to_N_bound [_; _; _; _]). repeat constructor; now apply bytes_get.
Qed.
Lemma words_W_formula W j : words W -> word (W_formula W j).
Proof.
  intros H. unfold W_formula. apply word_lxor; [|now apply words_get]. apply word_lxor.
  - rewrite <- (rol_eq (get W (j - 3))) by (try lia; now apply words_get).
    assert (X : word (N.lxor (N.lxor (get W (j - 16)) (get W (j - 9))) (rotl32 (get W (j - 3)) 15)))
      by (repeat apply word_lxor; auto using words_get, word_rotl15).
    rewrite <- P1_eq by exact X. now apply word_P1.
  - rewrite <- rol_eq by (try lia; now apply words_get); (apply word_rotl32; [now apply words_get|lia]).
Qed.
Lemma words_extend n : forall W, words W -> words (extend n W).
Proof.
  induction n as [|n IH]; intros W H; [exact H|]. cbn [extend]. apply IH. unfold words. apply Forall_app. split; auto.
  constructor; [|constructor]. exact (words_W_formula W (length W) H).
Qed.

Lemma block1_CF h p : length h = 8 -> words h -> length p = 64 -> bytes p ->
  block1 h p = CF h p /\ length (block1 h p) = 8 /\ words (block1 h p).
Proof.
  intros L H LP BP. unfold block1, CF. destruct (load_W_spec p LP BP) as [EL WL].
  set (Ws := expanded p).
  assert (L16 : length (load_W p) = 16) by (unfold load_W; rewrite map_length, seq_length; reflexivity).
  assert (EW : Ws = extend 52 (load_W p)) by (unfold Ws, expanded; now rewrite EL).
  destruct (extend_spec 52 (load_W p)) as (X1 & X2 & X3); [lia|]. rewrite <- EW in X1, X2, X3. rewrite L16 in *.
  assert (WW : words Ws) by (rewrite EW; now apply words_extend).
  pose proof (gen_run Ws 64 0 h (load_W p) ltac:(lia) X1 WW X3 L H) as G.
  rewrite prog_gen.
  destruct (fold_left exec (flat_map gen (seq 0 64)) (h, load_W p)) as [R W'].
  destruct G as (G1 & G2 & G3).
  { split; [exact L16|]. split; [exact WL|]. intros i Hi _. rewrite Nat.mod_small by lia. symmetry. apply X2. lia. }
  assert (V0 : view h 0 = to_regs h) by reflexivity. rewrite V0 in G3. rewrite <- G3.
  assert (V64 : of_regs (view R (0 + 64)) = R).
  { clear - G1. do 8 (destruct R as [|? R]; [discriminate|]). destruct R; [reflexivity|discriminate]. }
  rewrite V64. split; [apply xorl_comm|]. split; [rewrite length_xorl; lia|now apply words_xorl].
Qed.

(** ** block sequences *)
Local Opaque CF block1 sm3_prog.
Definition hb (h m : list N) : list N := fold_left CF (chunks 64 m) h.
Lemma blocks_gen (f g : list N -> list N -> list N) :
  (forall h p, length h = 8 -> words h -> length p = 64 -> bytes p -> f h p = g h p /\ length (f h p) = 8 /\ words (f h p)) ->
  forall cs, Forall (fun c => length c = 64) cs -> Forall bytes cs -> forall h, length h = 8 -> words h ->
  fold_left f cs h = fold_left g cs h /\ length (fold_left g cs h) = 8 /\ words (fold_left g cs h).
Proof.
  intros HF. induction cs as [|c cs IH]; intros HL HB h L H; [auto|].
  inversion HL; inversion HB; subst. destruct (HF h c) as (E1 & E2 & E3); auto. cbn [fold_left]. rewrite <- E1. now apply IH.
Qed.
Definition blocks_CF := blocks_gen block1 CF block1_CF.
Lemma bdo_hb p : bytes p -> length p mod 64 = 0 -> forall h, length h = 8 -> words h ->
  block_data_order h p = hb h p /\ length (hb h p) = 8 /\ words (hb h p).
Proof.
  intros BP LP. exact (blocks_CF (chunks 64 p) (chunks_Forall_length 64 p ltac:(lia) LP) (bytes_chunks 64 p ltac:(lia) BP)).
Qed.
Lemma chunks_app_aligned {A} n (a b : list A) : 0 < n -> length a mod n = 0 ->
  chunks n (a ++ b) = chunks n a ++ chunks n b.
Proof.
  intros Hn L. revert L. apply (aligned_ind n (fun a => chunks n (a ++ b) = chunks n a ++ chunks n b)); auto.
  intros c l Hc _ IH. rewrite <- app_assoc, (chunks_app n c (l ++ b)), (chunks_app n c l) by auto. rewrite IH. reflexivity.
Qed.
Lemma hb_app a b h : length a mod 64 = 0 -> hb h (a ++ b) = hb (hb h a) b.
Proof. intros L. unfold hb. rewrite <- fold_left_app. rewrite chunks_app_aligned by (auto; lia). reflexivity. Qed.
Local Opaque block_data_order.

(** ** the streaming interface *)
(** the context after hashing the byte string [m] *)
Definition inv (c : sm3_ctx) (m : list N) : Prop := exists full tail,
  m = full ++ tail /\ bytes m /\ length full mod 64 = 0 /\ length tail < 64 /\
  x_h c = hb IV full /\ x_num c = length tail /\ length (x_data c) = 64 /\ bytes (x_data c) /\
  firstn (length tail) (x_data c) = tail /\
  (x_Nl c < 2 ^ 32)%N /\ (x_Nh c * 2 ^ 32 + x_Nl c = (8 * N.of_nat (length m)) mod 2 ^ 64)%N.
Lemma inv_init : inv sm3_init [].
Proof.
  exists [], []. repeat match goal with |- _ /\ _ => split end; try reflexivity; try (cbn; lia); [constructor|].
  apply bytes_repeat. reflexivity.
Qed.
(** the bit counter *)
Lemma count_step Nl Nh L len : (Nl < 2 ^ 32)%N -> (Nh * 2 ^ 32 + Nl = (8 * L) mod 2 ^ 64)%N ->
  let l := w32 (Nl + w32 (w32 len * 8)) in
  let Nh1 := if (l <? Nl)%N then w32 (Nh + 1) else Nh in
  let Nh2 := w32 (Nh1 + w32 (N.shiftr len 29)) in
  (l < 2 ^ 32)%N /\ (Nh2 * 2 ^ 32 + l = (8 * (L + len)) mod 2 ^ 64)%N.
Proof.
  intros H1 H2. cbv zeta. unfold w32. change (2 ^ 32)%N with 4294967296%N in *.
  change (2 ^ 64)%N with 18446744073709551616%N in *.
  set (q := N.shiftr len 29). set (r := (len mod 536870912)%N).
  assert (D : (len = 536870912 * q + r)%N) by (unfold q, r; rewrite N.shiftr_div_pow2; apply N.div_mod; discriminate).
  assert (Hr : (r < 536870912)%N) by (unfold r; apply N.mod_lt; discriminate).
  assert (E8 : ((len mod 4294967296 * 8) mod 4294967296 = 8 * r)%N).
  { rewrite N.mul_mod_idemp_l by discriminate. clear H2. clearbody q r. symmetry. apply (N.mod_unique _ _ q); lia. }
  rewrite E8. clearbody q r. clear E8.
  pose proof (N.div_mod (8 * L) 18446744073709551616 ltac:(discriminate)) as D1. rewrite <- H2 in D1. clear H2.
  set (k1 := (8 * L / 18446744073709551616)%N) in *. clearbody k1.
  destruct (N.lt_ge_cases (Nl + 8 * r) 4294967296) as [G|G].
  - rewrite (N.mod_small (Nl + 8 * r)) by exact G. destruct (N.ltb_spec (Nl + 8 * r) Nl); [lia|].
    split; [exact G|]. rewrite N.add_mod_idemp_r by discriminate.
    pose proof (N.div_mod (Nh + q) 4294967296 ltac:(discriminate)) as D2.
    assert (X : ((Nh + q) mod 4294967296 < 4294967296)%N) by (apply N.mod_lt; discriminate).
    set (x := ((Nh + q) mod 4294967296)%N) in *. set (k2 := ((Nh + q) / 4294967296)%N) in *. clearbody x k2.
    apply (N.mod_unique _ _ (k1 + k2)); lia.
  - assert (E : ((Nl + 8 * r) mod 4294967296 = Nl + 8 * r - 4294967296)%N)
      by (symmetry; apply (N.mod_unique _ _ 1); lia).
    rewrite E. clear E. destruct (N.ltb_spec (Nl + 8 * r - 4294967296) Nl); [|lia].
    split; [lia|]. rewrite N.add_mod_idemp_r, N.add_mod_idemp_l by discriminate.
    pose proof (N.div_mod (Nh + 1 + q) 4294967296 ltac:(discriminate)) as D2.
    assert (X : ((Nh + 1 + q) mod 4294967296 < 4294967296)%N) by (apply N.mod_lt; discriminate).
    set (x := ((Nh + 1 + q) mod 4294967296)%N) in *. set (k2 := ((Nh + 1 + q) / 4294967296)%N) in *. clearbody x k2.
    apply (N.mod_unique _ _ (k1 + k2)); lia.
Qed.
Lemma length_put p off v : off + length v <= length p -> length (put p off v) = length p.
Proof. intros H. unfold put. rewrite !app_length, firstn_length, skipn_length. lia. Qed.
Lemma bytes_put p off v : bytes p -> bytes v -> bytes (put p off v).
Proof. intros. unfold put. repeat (apply bytes_app; split); auto using bytes_firstn, bytes_skipn. Qed.
Lemma firstn_put p off v : off <= length p -> firstn (off + length v) (put p off v) = firstn off p ++ v.
Proof.
  intros H. unfold put. rewrite app_assoc. rewrite firstn_app.
  assert (L : length (firstn off p ++ v) = off + length v) by (rewrite app_length, firstn_length; lia).
  rewrite L, Nat.sub_diag. rewrite firstn_all2 by lia. cbn [firstn]. now rewrite app_nil_r.
Qed.
Lemma hb_ok m : bytes m -> length m mod 64 = 0 -> length (hb IV m) = 8 /\ words (hb IV m).
Proof. intros B L. apply (bdo_hb m B L IV); [reflexivity|]. repeat constructor. Qed.
Lemma bdo_eq full p : bytes full -> bytes p -> length full mod 64 = 0 -> length p mod 64 = 0 ->
  block_data_order (hb IV full) p = hb IV (full ++ p).
Proof.
  intros B1 B2 L1 L2. destruct (hb_ok full B1 L1) as [H1 H2]. rewrite hb_app by auto. now apply bdo_hb.
Qed.
Lemma mod64_add a b : a mod 64 = 0 -> b mod 64 = 0 -> (a + b) mod 64 = 0.
Proof. intros Ha Hb. rewrite Nat.add_mod by lia. now rewrite Ha, Hb. Qed.

Lemma update_inv c m data : inv c m -> bytes data -> inv (sm3_update c data) (m ++ data).
Proof.
  intros (full & tail & Em & Bm & Lf & Lt & Eh & En & Ld & Bd & Ef & HNl & HN) BD.
  unfold sm3_update. destruct (N.eqb_spec (N.of_nat (length data)) 0) as [Z|NZ].
  { assert (data = []) by (destruct data; [reflexivity|cbn [length] in Z; lia]). subst data. rewrite app_nil_r. exists full, tail. auto 12. }
  pose proof (count_step (x_Nl c) (x_Nh c) (N.of_nat (length m)) (N.of_nat (length data)) HNl HN) as [C1 C2].
  cbv zeta in C1, C2.
  set (l := w32 (x_Nl c + _)) in *. set (Nh2 := w32 (_ + w32 (N.shiftr _ 29))) in *. clearbody l Nh2.
  replace (8 * (N.of_nat (length m) + N.of_nat (length data)))%N with (8 * N.of_nat (length (m ++ data)))%N in C2
    by (rewrite app_length; lia).
  assert (Bmd : bytes (m ++ data)) by (apply bytes_app; auto).
  subst m. apply bytes_app in Bm as [Bf Bt].
  (* the part common to both paths *)
  assert (REST : forall f p d, bytes f -> length f mod 64 = 0 -> length p = 64 -> bytes p -> bytes d ->
    (full ++ tail) ++ data = f ++ d ->
    inv (let k := length d / 64 in
         let h' := if 0 <? k then block_data_order (hb IV f) (firstn (k * 64) d) else hb IV f in
         let d' := if 0 <? k then skipn (k * 64) d else d in
         if length d' =? 0 then mksm3 h' l Nh2 p 0 else mksm3 h' l Nh2 (put p 0 d') (length d')) ((full ++ tail) ++ data)).
  { intros f p d Bff Lff Lp Bp Bdd E. cbv zeta. set (k := length d / 64).
    pose proof (Nat.div_mod (length d) 64 ltac:(lia)) as DM. fold k in DM.
    pose proof (Nat.mod_upper_bound (length d) 64 ltac:(lia)) as MB.
    assert (Lk : length (firstn (k * 64) d) = k * 64) by (rewrite firstn_length; lia).
    assert (Ek : (if 0 <? k then block_data_order (hb IV f) (firstn (k * 64) d) else hb IV f) = hb IV (f ++ firstn (k * 64) d)).
    { destruct (Nat.ltb_spec 0 k).
      - apply bdo_eq; auto using bytes_firstn. rewrite Lk. apply Nat.mod_mul. lia.
      - replace k with 0 by lia. cbn [Nat.mul firstn]. now rewrite app_nil_r. }
    assert (Ed : (if 0 <? k then skipn (k * 64) d else d) = skipn (k * 64) d).
    { destruct (Nat.ltb_spec 0 k); auto. replace k with 0 by lia. reflexivity. }
    rewrite Ek, Ed. set (d' := skipn (k * 64) d).
    assert (Ld' : length d' < 64) by (unfold d'; rewrite skipn_length; lia).
    assert (Bd' : bytes d') by (unfold d'; now apply bytes_skipn).
    assert (Lfull : length (f ++ firstn (k * 64) d) mod 64 = 0).
    { rewrite app_length, Lk. apply mod64_add; auto. apply Nat.mod_mul; lia. }
    assert (EE : (full ++ tail) ++ data = (f ++ firstn (k * 64) d) ++ d').
    { rewrite E, <- app_assoc. unfold d'. now rewrite firstn_skipn. }
    exists (f ++ firstn (k * 64) d), d'. split; [exact EE|]. split; [exact Bmd|]. split; [exact Lfull|]. split; [exact Ld'|].
    destruct (Nat.eqb_spec (length d') 0) as [Z|Z].
    - assert (Zd : d' = []) by (destruct d'; [reflexivity|discriminate]). rewrite Zd. cbn [x_h x_num x_data x_Nl x_Nh length firstn]. auto 12.
    - cbn [x_h x_num x_data x_Nl x_Nh]. split; [reflexivity|]. split; [reflexivity|].
      split; [rewrite length_put; lia|]. split; [now apply bytes_put|].
      split; [|auto]. exact (firstn_put p 0 d' ltac:(lia)). }
  rewrite Eh, En. destruct (Nat.eqb_spec (length tail) 0) as [Z|Z]; cbn [negb].
  - apply REST; auto. assert (Zt : tail = []) by (destruct tail; [reflexivity|discriminate]). rewrite Zt, app_nil_r. reflexivity.
  - destruct (Nat.leb_spec 64 (length data)) as [G|G]; [|destruct (Nat.leb_spec 64 (length data + length tail)) as [G'|G']]; cbn [orb].
    1,2: (assert (EP : put (x_data c) (length tail) (firstn (64 - length tail) data) = tail ++ firstn (64 - length tail) data) by
      (pose proof (firstn_put (x_data c) (length tail) (firstn (64 - length tail) data) ltac:(lia)) as FP;
       rewrite Ef in FP; rewrite firstn_all2 in FP; [exact FP|rewrite length_put; rewrite ?firstn_length; lia]);
      rewrite EP;
      assert (LP : length (tail ++ firstn (64 - length tail) data) = 64) by (rewrite app_length, firstn_length; lia);
      assert (BP : bytes (tail ++ firstn (64 - length tail) data)) by (apply bytes_app; split; auto using bytes_firstn);
      rewrite bdo_eq by (auto; rewrite LP; reflexivity);
      apply REST; auto using bytes_skipn, repeat_length;
      [ apply bytes_app; auto
      | rewrite app_length; apply mod64_add; auto; rewrite LP; reflexivity
      | apply bytes_repeat; reflexivity
      | rewrite <- !app_assoc; do 2 f_equal; symmetry; apply firstn_skipn ]).
    (* everything fits in the buffer *)
    exists full, (tail ++ data). split; [now rewrite app_assoc|]. split; [exact Bmd|]. split; [exact Lf|].
    split; [rewrite app_length; lia|]. cbn [x_h x_num x_data x_Nl x_Nh]. split; [reflexivity|]. split; [now rewrite app_length|].
    split; [rewrite length_put; lia|]. split; [now apply bytes_put|].
    split; [|auto]. rewrite app_length. rewrite firstn_put by lia. now rewrite Ef.
Qed.

(** ** the final block(s) *)
Lemma l2c_eq x : l2c x = N_to_be 4 x.
Proof.
  unfold l2c, N_to_be. change 0xff%N with (N.ones 8).
  rewrite !N.land_ones, !N.shiftr_div_pow2. change (256 ^ N.of_nat 0)%N with 1%N. rewrite N.div_1_r. reflexivity.
Qed.
Lemma N_to_be_app a b x : N_to_be (a + b) x = N_to_be a (x / 256 ^ N.of_nat b) ++ N_to_be b x.
Proof.
  induction a as [|a IH]; [reflexivity|]. cbn [Nat.add N_to_be app]. rewrite IH. f_equal. f_equal.
  rewrite N.div_div by (apply N.pow_nonzero; discriminate). f_equal. rewrite <- N.pow_add_r. f_equal. lia.
Qed.
Lemma length_field Nh Nl n : (Nl < 2 ^ 32)%N -> (Nh * 2 ^ 32 + Nl = n mod 2 ^ 64)%N ->
  l2c Nh ++ l2c Nl = N_to_be 8 n.
Proof.
  intros H1 H2. rewrite <- (N_to_be_mod 8 8 n (le_n 8)). change (256 ^ N.of_nat 8)%N with (2 ^ 64)%N. rewrite <- H2.
  rewrite (N_to_be_app 4 4). rewrite !l2c_eq. change (256 ^ N.of_nat 4)%N with (2 ^ 32)%N.
  rewrite (N.div_add_l Nh (2 ^ 32) Nl) by discriminate. rewrite N.div_small by exact H1. rewrite N.add_0_r. f_equal.
  rewrite <- (N_to_be_mod 4 4 (Nh * 2 ^ 32 + Nl) (le_n 4)). change (256 ^ N.of_nat 4)%N with (2 ^ 32)%N.
  rewrite N.add_comm, N.mod_add by discriminate. now rewrite N.mod_small.
Qed.
Lemma put_end p off v : off + length v = length p -> put p off v = firstn off p ++ v.
Proof. intros H. unfold put. rewrite skipn_all2 by lia. now rewrite app_nil_r. Qed.
Lemma concat_l2c h : concat (map l2c h) = concat (map (N_to_be 4) h).
Proof. f_equal. apply map_ext. apply l2c_eq. Qed.
Lemma pad_small full tail n : n = full + tail -> full mod 64 = 0 -> tail < 56 -> pad_zeros n = 55 - tail.
Proof.
  intros -> Hf Ht. unfold pad_zeros. rewrite Nat.add_mod, Hf by lia. cbn [Nat.add]. rewrite !Nat.mod_mod by lia.
  rewrite (Nat.mod_small tail) by lia. replace (119 - tail) with (55 - tail + 1 * 64) by lia.
  rewrite Nat.mod_add by lia. apply Nat.mod_small. lia.
Qed.
Lemma pad_big full tail n : n = full + tail -> full mod 64 = 0 -> 56 <= tail < 64 -> pad_zeros n = 119 - tail.
Proof.
  intros -> Hf Ht. unfold pad_zeros. rewrite Nat.add_mod, Hf by lia. cbn [Nat.add]. rewrite !Nat.mod_mod by lia.
  rewrite (Nat.mod_small tail) by lia. apply Nat.mod_small. lia.
Qed.
Lemma final_spec c m : inv c m -> snd (sm3_final c) = std_sm3 m.
Proof.
  intros (full & tail & Em & Bm & Lf & Lt & Eh & En & Ld & Bd & Ef & HNl & HN).
  pose proof (length_field _ _ _ HNl HN) as LF.
  unfold sm3_final, std_sm3, padded. rewrite LF, Eh, En. set (cnt := N_to_be 8 _).
  assert (Lc : length cnt = 8) by apply length_N_to_be. assert (Bc : bytes cnt) by apply bytes_N_to_be.
  subst m. clearbody cnt. apply bytes_app in Bm as [Bf Bt].
  assert (P1L : length (put (x_data c) (length tail) [128%N]) = 64) by (rewrite length_put; cbn [length]; lia).
  assert (P1F : firstn (length tail + 1) (put (x_data c) (length tail) [128%N]) = tail ++ [128%N])
    by (pose proof (firstn_put (x_data c) (length tail) [128%N] ltac:(lia)) as X; rewrite Ef in X; exact X).
  set (p := put (x_data c) (length tail) [128%N]) in *. clearbody p.
  change (64 - 8) with 56. destruct (Nat.ltb_spec 56 (length tail + 1)) as [G|G]; cbn [snd].
  - (* two blocks *)
    rewrite (put_end p) by (rewrite repeat_length; lia). rewrite P1F.
    set (b1 := (tail ++ [128%N]) ++ repeat 0%N (64 - (length tail + 1))).
    assert (Lb1 : length b1 = 64) by (unfold b1; rewrite !app_length, repeat_length; cbn [length]; lia).
    assert (Bb1 : bytes b1) by (unfold b1; repeat (apply bytes_app; split); auto; [repeat constructor|now apply bytes_repeat]).
    assert (E2 : put (put b1 0 (repeat 0%N (56 - 0))) 56 cnt = repeat 0%N 56 ++ cnt).
    { rewrite put_end by (rewrite length_put by (rewrite repeat_length; lia); lia). reflexivity. }
    rewrite E2. rewrite bdo_eq by (auto; rewrite Lb1; reflexivity).
    rewrite bdo_eq; [|apply bytes_app; auto|apply bytes_app; split; [now apply bytes_repeat|exact Bc]
      |rewrite app_length; apply mod64_add; [exact Lf|rewrite Lb1; reflexivity]
      |rewrite app_length, repeat_length, Lc; reflexivity].
    rewrite concat_l2c. unfold hb. do 4 f_equal.
    rewrite (pad_big (length full) (length tail)) by (auto using app_length; lia).
    replace (119 - length tail) with (64 - (length tail + 1) + 56) by lia. rewrite repeat_app. unfold b1.
    now rewrite <- !app_assoc.
  - (* one block *)
    assert (E2 : put (put p (length tail + 1) (repeat 0%N (56 - (length tail + 1)))) 56 cnt
      = (tail ++ [128%N]) ++ repeat 0%N (55 - length tail) ++ cnt).
    { rewrite put_end by (rewrite length_put by (rewrite repeat_length; lia); lia).
      pose proof (firstn_put p (length tail + 1) (repeat 0%N (56 - (length tail + 1))) ltac:(lia)) as X.
      rewrite repeat_length in X. replace (length tail + 1 + (56 - (length tail + 1))) with 56 in X by lia.
      rewrite X, P1F. rewrite <- !app_assoc. do 4 f_equal. lia. }
    rewrite E2. rewrite bdo_eq; auto.
    + rewrite concat_l2c. unfold hb. do 4 f_equal.
      rewrite (pad_small (length full) (length tail)) by (auto using app_length; lia). now rewrite <- !app_assoc.
    + repeat (apply bytes_app; split); auto; [repeat constructor|now apply bytes_repeat].
    + rewrite !app_length, repeat_length, Lc. cbn [length]. replace (length tail + 1 + (55 - length tail + 8)) with 64 by lia. reflexivity.
Qed.
Lemma updates_inv ps : Forall bytes ps -> forall c m, inv c m -> inv (fold_left sm3_update ps c) (m ++ concat ps).
Proof.
  induction 1 as [|d ps Hd Hp IH]; intros c m I; cbn [fold_left concat]; [now rewrite app_nil_r|].
  rewrite app_assoc. apply IH. now apply update_inv.
Qed.
(** a finished context: SM3_Final leaves the buffer empty but not re-initialised *)
Lemma std_sm3_length m : bytes m -> length (std_sm3 m) = 32.
Proof.
  intros B. unfold std_sm3. set (P := padded m).
  assert (BP : bytes P) by (unfold P, padded; repeat (apply bytes_app; split); auto;
    [repeat constructor|now apply bytes_repeat|apply bytes_N_to_be]).
  assert (LP : length P mod 64 = 0).
  { unfold P, padded. rewrite !app_length, repeat_length, length_N_to_be. cbn [length]. unfold pad_zeros.
    pose proof (Nat.div_mod (length m) 64 ltac:(lia)) as D. pose proof (Nat.mod_upper_bound (length m) 64 ltac:(lia)) as U.
    set (r := length m mod 64) in *. set (k := length m / 64) in *. clearbody r k. destruct (Nat.lt_ge_cases r 56) as [G|G].
    - replace (119 - r) with (55 - r + 1 * 64) by lia. rewrite Nat.mod_add, (Nat.mod_small (55 - r)) by lia.
      replace (length m + (1 + (55 - r + 8))) with ((k + 1) * 64) by lia. apply Nat.mod_mul. lia.
    - rewrite (Nat.mod_small (119 - r)) by lia.
      replace (length m + (1 + (119 - r + 8))) with ((k + 2) * 64) by lia. apply Nat.mod_mul. lia. }
  clearbody P. fold (hb IV P). destruct (hb_ok P BP LP) as [H1 _]. generalize dependent (hb IV P). intros h H1.
  do 9 (destruct h as [|? h]; cbn [length] in H1; try lia). reflexivity.
Qed.

Local Open Scope nat_scope.
Lemma sm3_conforms_lemma : forall m, bytes m -> sm3 m = std_sm3 m.
Proof.
  intros m B. apply final_spec. exact (update_inv sm3_init [] m inv_init B).
Qed.

Lemma sm3_streaming_lemma : forall pieces, Forall bytes pieces -> sm3_stream pieces = sm3 (concat pieces).
Proof.
  intros pieces B. assert (BC : bytes (concat pieces)).
  { induction B as [|d ps Hd Hp IH]; [constructor|]. cbn [concat]. apply bytes_app. auto. }
  rewrite sm3_conforms_lemma by exact BC. apply final_spec. exact (updates_inv pieces B sm3_init [] inv_init).
Qed.

Lemma sm3_digest_length_lemma : forall m, bytes m -> length (sm3 m) = 32.
Proof. intros m B. rewrite sm3_conforms_lemma by exact B. now apply std_sm3_length. Qed.
