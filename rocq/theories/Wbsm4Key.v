(** * Reading the key off white-box SM4 tables *)
From Verif Require Import GfProofs Base Word32 CbcSpec GcmModel Sm4Model Sm4Spec Sm4Proofs FpeModel MatModel MatSpec MatProofs GaussProofs ComProofs Wbsm4Model Wbsm4Proofs Wbsm4Enc.
From Coq Require Import ZArith.
Local Open Scope nat_scope.
Local Opaque MatMulVec MatMulNum MatMulMat genaffinepair affinemix affinecom4 genaffinepairs wRandomShuffleU8.

(** ** The S-box and the linear map *)
(** the differences of the S-box from the inputs 1 and 2 to 0, for the key byte [k] *)
Definition diffs (k : N) : N := 
  (N.lxor (get SBOX (N.to_nat (N.lxor 1 k))) (get SBOX (N.to_nat k)) * 256 + N.lxor (get SBOX (N.to_nat (N.lxor 2 k))) (get SBOX (N.to_nat k)))%N.
Lemma diffs_sweep : forallb (fun a => forallb (fun b => (a =? b) || negb (diffs (N.of_nat a) =? diffs (N.of_nat b))%N) (seq 0 256)) (seq 0 256) = true.
Proof. vm_compute. reflexivity. Qed.
Lemma Lin_sweep : forallb (fun j => forallb (fun b => negb (Lin (at_byte j (N.of_nat b)) =? 0)%N) (seq 1 255)) (seq 0 4) = true.
Proof. vm_compute. reflexivity. Qed.
Lemma forallb_in {A} (f : A -> bool) l x : forallb f l = true -> In x l -> f x = true.
Proof. intros F. now apply forallb_forall. Qed.
Local Opaque diffs Lin SBOX std_sbox.
Lemma diffs_inj a b : byte a -> byte b -> diffs a = diffs b -> a = b.
Proof.
  intros A B E. unfold byte in *. pose proof (forallb_in _ _ (N.to_nat a) diffs_sweep ltac:(apply in_seq; lia)) as F. cbv beta in F.
  apply (forallb_in _ _ (N.to_nat b)) in F; [|apply in_seq; lia]. cbv beta in F. rewrite !N2Nat.id, E, N.eqb_refl in F. cbn [negb] in F. rewrite orb_false_r in F. apply Nat.eqb_eq in F. lia.
Qed.
Lemma Lin_nonzero j b : j < 4 -> byte b -> Lin (at_byte j b) = 0%N -> b = 0%N.
Proof.
  intros J B E. destruct (N.eq_dec b 0) as [|NZ]; [assumption|exfalso]. unfold byte in B.
  pose proof (forallb_in _ _ j Lin_sweep ltac:(apply in_seq; lia)) as F. cbv beta in F. apply (forallb_in _ _ (N.to_nat b)) in F; [|apply in_seq; lia].
  cbv beta in F. rewrite N2Nat.id, E in F. discriminate.
Qed.
Local Transparent diffs.
Lemma at_byte_shift j x : j < 4 -> byte x -> at_byte j x = N.shiftl x (N.of_nat ((4 - 1 - j) * 8)).
Proof. intros J B. rewrite at_byte_mul by assumption. rewrite N.shiftl_mul_pow2. do 2 f_equal. lia. Qed.
Lemma at_byte_lxor j a b : j < 4 -> byte a -> byte b -> at_byte j (N.lxor a b) = N.lxor (at_byte j a) (at_byte j b).
Proof. intros J A B. rewrite !at_byte_shift by (auto using byte_lxor). apply N.shiftl_lxor. Qed.
Lemma byte_at_at_byte i j x : i < 4 -> j < 4 -> byte x -> byte_at (at_byte j x) (24 - 8 * N.of_nat i) = if j =? i then x else 0%N.
Proof.
  intros I J B. rewrite byte_at_block by exact I. rewrite at_byte_shift by assumption.
  apply (bit_ext 8); [apply vector_block|destruct (j =? i); [exact B|reflexivity]|]. intros b Hb. rewrite bit_block by assumption.
  change (4 * 8) with 32. rewrite (bit_shift 4 8) by assumption. destruct (j =? i); [reflexivity|]. unfold bit. now rewrite N.bits_0.
Qed.
Lemma tau_sum y : tau y = sum4 (fun j => at_byte j (std_sbox (byte_at y (24 - 8 * N.of_nat j)))).
Proof.
  rewrite (join_bytes (fun j => std_sbox (byte_at y (24 - 8 * N.of_nat j)))) by (intros; apply std_sbox_byte, byte_at_byte).
  unfold tau, of_bytes, word_bytes. rewrite N_to_be4. reflexivity.
Qed.
Lemma byte_at_lxor x y j : j < 4 -> byte_at (N.lxor x y) (24 - 8 * N.of_nat j) = N.lxor (byte_at x (24 - 8 * N.of_nat j)) (byte_at y (24 - 8 * N.of_nat j)).
Proof. intros J. rewrite !byte_at_block by exact J. apply block_lxor. Qed.
Definition sdiff (d k : N) : N := N.lxor (std_sbox (N.lxor d k)) (std_sbox k).
Lemma sdiff_byte d k : byte d -> byte k -> byte (sdiff d k).
Proof. intros D K. apply byte_lxor; apply std_sbox_byte; auto using byte_lxor. Qed.
Lemma sum4_eq f g : (forall j, j < 4 -> f j = g j) -> sum4 f = sum4 g.
Proof. intros H. unfold sum4. now rewrite !H by lia. Qed.
Lemma sum4_one (f : nat -> N) j : j < 4 -> (forall i, i < 4 -> i <> j -> f i = 0%N) -> sum4 f = f j.
Proof.
  intros J H. unfold sum4. destruct j as [|[|[|[|]]]]; [..|lia].
  - rewrite (H 1), (H 2), (H 3) by lia. now rewrite !N.lxor_0_r.
  - rewrite (H 0), (H 2), (H 3) by lia. now rewrite !N.lxor_0_r, N.lxor_0_l.
  - rewrite (H 0), (H 1), (H 3) by lia. now rewrite !N.lxor_0_r, !N.lxor_0_l.
  - rewrite (H 0), (H 1), (H 2) by lia. now rewrite !N.lxor_0_l.
Qed.
Lemma tau_step j d rk : j < 4 -> byte d -> tau (N.lxor (at_byte j d) rk) = N.lxor (tau rk) (at_byte j (sdiff d (byte_at rk (24 - 8 * N.of_nat j)))).
Proof.
  intros J D. enough (E : N.lxor (tau (N.lxor (at_byte j d) rk)) (tau rk) = at_byte j (sdiff d (byte_at rk (24 - 8 * N.of_nat j)))).
  { rewrite <- E. xors. }
  rewrite !tau_sum. rewrite <- sum4_lxor.
  rewrite (sum4_eq _ (fun i => at_byte i (N.lxor (std_sbox (byte_at (N.lxor (at_byte j d) rk) (24 - 8 * N.of_nat i))) (std_sbox (byte_at rk (24 - 8 * N.of_nat i)))))).
  - rewrite (sum4_one _ j J).
    + cbv beta. rewrite byte_at_lxor, byte_at_at_byte, Nat.eqb_refl by assumption. reflexivity.
    + intros i I NE. cbv beta. rewrite byte_at_lxor, byte_at_at_byte by assumption. destruct (Nat.eqb_spec j i) as [->|_]; [congruence|]. rewrite N.lxor_0_l, N.lxor_nilpotent.
      rewrite at_byte_shift by (auto; reflexivity). apply N.shiftl_0_l.
  - intros i I. symmetry. apply at_byte_lxor; [exact I|apply std_sbox_byte, byte_at_byte|apply std_sbox_byte, byte_at_byte].
Qed.
Lemma T_step j d rk : j < 4 -> byte d -> T (N.lxor (at_byte j d) rk) = N.lxor (T rk) (Lin (at_byte j (sdiff d (byte_at rk (24 - 8 * N.of_nat j))))).
Proof. intros J D. unfold T. rewrite tau_step by assumption. apply Lin_lxor; [apply tau_word|apply word_at_byte]. Qed.
Lemma sdiff_inj a b : byte a -> byte b -> sdiff 1 a = sdiff 1 b -> sdiff 2 a = sdiff 2 b -> a = b.
Proof.
  intros A B E1 E2. apply diffs_inj; [exact A|exact B|]. unfold diffs. assert (B1 : byte 1) by reflexivity. assert (B2 : byte 2) by reflexivity.
  rewrite !SBOX_ok by auto using byte_lxor. unfold sdiff in *. rewrite E1, E2. reflexivity.
Qed.
Local Opaque T T' sdiff at_byte.

(** ** The procedure: it only runs the first rounds of an encryption.  [held n b]: the four words after n rounds on the block b *)
(** a block whose state after the rounds with keys [ks] is [X] *)
Definition reach (ks : list N) (X : state) : list N := st_to (swap (rounds T (rev ks) (swap X))).
(** the last word of the state the white box holds after one more round *)
Definition shows (held : nat -> list N -> state) (ks : list N) (X : state) : N := snd (held (S (length ks)) (reach ks X)).
Definition guess (held : nat -> list N -> state) (ks : list N) (j : nat) (k : N) : bool :=
  forallb (fun d => (shows held ks (0, at_byte j d, 0, 0) =? shows held ks (Lin (at_byte j (sdiff d k)), 0, 0, 0))%N) [1; 2]%N.
Definition find_byte (held : nat -> list N -> state) (ks : list N) (j : nat) : N :=
  match find (guess held ks j) (map N.of_nat (seq 0 256)) with Some k => k | None => 0%N end.
Definition find_word (held : nat -> list N -> state) (ks : list N) : N := sum4 (fun j => at_byte j (find_byte held ks j)).
Fixpoint find_keys (held : nat -> list N -> state) (n : nat) : list N := match n with O => [] | S n' => let ks := find_keys held n' in ks ++ [find_word held ks] end.
(** the key from four round keys in a row, the first of which is round key number n *)
Definition unexpand (n : nat) (X : state) : list N := st_to (st_xor (swap (rounds T' (rev (map std_CK (seq 0 (n + 4)))) (swap X))) std_FK).
Definition read_sm4 (held : nat -> list N -> state) (em : Z) : list N :=
  match find_keys held 4 with
  | [a; b; c; d] => if (em =? 0)%Z then unexpand 28 (d, c, b, a) else unexpand 0 (a, b, c, d)
  | _ => []
  end.

(** ** The state *)
Lemma rounds_redo F ks X : rounds F ks (swap (rounds F (rev ks) (swap X))) = X.
Proof. pose proof (rounds_undo F (rev ks) (swap X)) as E. rewrite rev_involutive in E. rewrite <- (swap_swap (rounds F ks _)), E. apply swap_swap. Qed.
Lemma undo_word F ks X : (forall x, word (F x)) -> st_word X -> st_word (swap (rounds F (rev ks) (swap X))).
Proof. intros HF W. apply swap_word, rounds_word; [exact HF|now apply swap_word]. Qed.
Lemma zeros_all : forall da, zeros da = length da -> da = repeat 0%N (length da).
Proof. exact all_zeros. Qed.
Lemma lxor_cancel a b c : N.lxor a c = N.lxor b c -> a = b.
Proof. intros E. rewrite <- (N.lxor_0_r a), <- (N.lxor_nilpotent c), <- N.lxor_assoc, E, N.lxor_assoc, N.lxor_nilpotent. apply N.lxor_0_r. Qed.
Section State.
Variables (P : list (aff * aff)) (rk : list N) (held : nat -> list N -> state).
Hypothesis HP : inv_pairs 32 36 P.
Hypothesis Hheld : forall n b, n <= 32 -> block16 b -> held n b = enc P n (rounds T (firstn n rk) (st_of b)).
Hypothesis Hrk : Forall word rk.
Hypothesis Lrk : length rk = 32.
Lemma state_reach n X : n < 32 -> st_word X -> held (S n) (reach (firstn n rk) X) = enc P (S n) (round T X (get rk n)).
Proof.
  intros N W. unfold reach. rewrite Hheld by (auto using st_to_block; lia). rewrite st_of_to by (apply undo_word; auto using T_word).
  f_equal. assert (FS : firstn (S n) rk = firstn n rk ++ [get rk n]).
  { rewrite <- (firstn_skipn n rk) at 1. rewrite skipn_cons_get by lia. rewrite firstn_app. rewrite firstn_all2 by (rewrite firstn_length; lia). rewrite firstn_length, Lrk.
    replace (S n - Nat.min n 32) with 1 by lia. reflexivity. }
  rewrite FS, rounds_app, rounds_redo. reflexivity.
Qed.
Lemma shows_ok n X Y : n < 32 -> st_word X -> st_word Y ->
  shows held (firstn n rk) X = shows held (firstn n rk) Y <-> snd (round T X (get rk n)) = snd (round T Y (get rk n)).
Proof.
  intros N WX WY. unfold shows. rewrite firstn_length, Lrk. replace (Nat.min n 32) with n by lia. rewrite !state_reach by assumption.
  pose proof (round_word T X (get rk n) T_word WX) as RX. pose proof (round_word T Y (get rk n) T_word WY) as RY.
  destruct (round T X (get rk n)) as [[[x0 x1] x2] x3]. destruct (round T Y (get rk n)) as [[[y0 y1] y2] y3]. cbn [enc snd].
  destruct RX as (_ & _ & _ & X3). destruct RY as (_ & _ & _ & Y3). destruct HP as [_ HP'].
  split; [|intros ->; reflexivity]. intros E. destruct (HP' (S n + 3) ltac:(lia)) as (_ & _ & I).
  rewrite <- (proj2 (I x3 X3)), E. apply I. exact Y3.
Qed.
Lemma guess_ok n j k : n < 32 -> j < 4 -> byte k -> guess held (firstn n rk) j k = true <-> k = byte_at (get rk n) (24 - 8 * N.of_nat j).
Proof.
  intros N J K. set (k0 := byte_at (get rk n) (24 - 8 * N.of_nat j)). assert (K0 : byte k0) by apply byte_at_byte.
  assert (D : forall d, byte d -> ((shows held (firstn n rk) (0, at_byte j d, 0, 0) =? shows held (firstn n rk) (Lin (at_byte j (sdiff d k)), 0, 0, 0))%N = true <-> sdiff d k = sdiff d k0)).
  { intros d Bd. rewrite N.eqb_eq. rewrite shows_ok.
    - cbn [round snd]. rewrite !N.lxor_0_r, !N.lxor_0_l. rewrite T_step by assumption. fold k0. split.
      + intros E. assert (Z : Lin (at_byte j (N.lxor (sdiff d k) (sdiff d k0))) = 0%N).
        { rewrite at_byte_lxor by (auto using sdiff_byte). rewrite Lin_lxor by apply word_at_byte.
          rewrite (N.lxor_comm (T (get rk n))) in E. apply lxor_cancel in E. rewrite E. apply N.lxor_nilpotent. }
        apply N.lxor_eq. apply (Lin_nonzero j); [exact J|apply byte_lxor; auto using sdiff_byte|exact Z].
      + intros ->. apply N.lxor_comm.
    - exact N.
    - repeat split; auto; try reflexivity. apply word_at_byte.
    - repeat split; auto; try reflexivity. apply Lin_word, word_at_byte. }
  unfold guess. cbn [forallb]. rewrite andb_true_r, andb_true_iff. rewrite !D by reflexivity. split; [intros [E1 E2]; now apply sdiff_inj|intros ->; auto].
Qed.
Lemma find_byte_ok n j : n < 32 -> j < 4 -> find_byte held (firstn n rk) j = byte_at (get rk n) (24 - 8 * N.of_nat j).
Proof.
  intros N J. unfold find_byte. destruct (find (guess held (firstn n rk) j) (map N.of_nat (seq 0 256))) as [k|] eqn:E.
  - apply find_some in E. destruct E as [I F]. apply in_map_iff in I. destruct I as (x & <- & I). apply in_seq in I. apply guess_ok in F; auto. unfold byte. lia.
  - exfalso. set (k0 := byte_at (get rk n) (24 - 8 * N.of_nat j)). assert (K0 : byte k0) by apply byte_at_byte.
    assert (I : In k0 (map N.of_nat (seq 0 256))) by (apply in_map_iff; exists (N.to_nat k0); split; [apply N2Nat.id|apply in_seq; unfold byte in K0; lia]).
    pose proof (find_none _ _ E k0 I) as F. rewrite (proj2 (guess_ok n j k0 N J K0) eq_refl) in F. discriminate.
Qed.
Lemma find_keys_ok n : n <= 32 -> find_keys held n = firstn n rk.
Proof.
  induction n as [|n IH]; intros N; [reflexivity|]. cbn [find_keys]. cbv zeta. rewrite IH by lia.
  assert (W : word (get rk n)) by (rewrite Forall_forall in Hrk; apply Hrk, nth_In; lia).
  assert (F : find_word held (firstn n rk) = get rk n).
  { unfold find_word. rewrite (sum4_eq _ (fun j => at_byte j (byte_at (get rk n) (24 - 8 * N.of_nat j)))); [now apply split_word|]. intros j J. now rewrite find_byte_ok by (auto; lia). }
  rewrite F. symmetry. rewrite <- (firstn_skipn n rk) at 1. rewrite skipn_cons_get by lia. rewrite firstn_app. rewrite firstn_all2 by (rewrite firstn_length; lia).
  rewrite firstn_length, Lrk. replace (S n - Nat.min n 32) with 1 by lia. reflexivity.
Qed.
End State.

(** ** The key schedule backwards *)
Lemma expand_app a : forall s b, expand s (a ++ b) = expand s a ++ expand (rounds T' a s) b.
Proof. induction a as [|x a IH]; intros s b; [reflexivity|]. cbn [app expand]. cbv zeta. cbn [app]. f_equal. apply IH. Qed.
Lemma expand4 s a b c d : exists w x y z, expand s [a; b; c; d] = [w; x; y; z] /\ rounds T' [a; b; c; d] s = (w, x, y, z).
Proof. destruct s as [[[x0 x1] x2] x3]. do 4 eexists. split; reflexivity. Qed.
Lemma unexpand_ok key n w x y z : block16 key -> n <= 28 -> firstn 4 (skipn n (round_keys key)) = [w; x; y; z] -> unexpand n (w, x, y, z) = key.
Proof.
  intros B N E. unfold unexpand. set (s := st_xor (st_of key) std_FK).
  assert (R : rounds T' (map std_CK (seq 0 (n + 4))) s = (w, x, y, z)).
  { rewrite seq_app, map_app, rounds_app. cbn [plus seq map]. set (p := map std_CK (seq 0 n)).
    assert (K : round_keys key = expand s p ++ expand (rounds T' p s) [std_CK n; std_CK (S n); std_CK (S (S n)); std_CK (S (S (S n)))] ++ expand (rounds T' [std_CK n; std_CK (S n); std_CK (S (S n)); std_CK (S (S (S n)))] (rounds T' p s)) (map std_CK (seq (n + 4) (28 - n)))).
    { unfold round_keys. fold s. replace 32 with (n + (4 + (28 - n))) by lia. rewrite (seq_app n), map_app, expand_app. f_equal. rewrite Nat.add_0_l. rewrite (seq_app 4 (28 - n) n), map_app, expand_app. cbn [seq map]. reflexivity. }
    destruct (expand4 (rounds T' p s) (std_CK n) (std_CK (S n)) (std_CK (S (S n))) (std_CK (S (S (S n))))) as (w' & x' & y' & z' & E1 & E2).
    rewrite E2. rewrite K, E1 in E. assert (LP : length (expand s p) = n) by (rewrite length_expand; unfold p; now rewrite map_length, seq_length).
    rewrite skipn_app, LP, Nat.sub_diag in E. rewrite skipn_all2 in E by lia. cbn [app skipn firstn] in E. congruence. }
  rewrite <- R, rounds_undo. unfold s.
  assert (X : st_xor (st_xor (st_of key) std_FK) std_FK = st_of key).
  { destruct (st_of key) as [[[x0 x1] x2] x3]. unfold std_FK. cbn [st_xor]. rewrite !N.lxor_assoc, !N.lxor_nilpotent, !N.lxor_0_r. reflexivity. }
  rewrite X. now apply st_to_of.
Qed.
Lemma rev_first4 {A} (l : list A) a b c d : length l = 32 -> firstn 4 (rev l) = [a; b; c; d] -> firstn 4 (skipn 28 l) = [d; c; b; a].
Proof.
  intros L E. rewrite firstn_rev, L in E. cbn [Nat.sub] in E. apply (f_equal (@rev A)) in E. rewrite rev_involutive in E. cbn [rev app] in E.
  rewrite E. reflexivity.
Qed.

(** ** Both procedures, for anything that holds encoded SM4 states *)
Lemma test_lemma P held em key r j k : inv_pairs 32 36 P -> bytes key ->
  (forall n b, n <= 32 -> block16 b -> held n b = enc P n (rounds T (firstn n (wb_keys em key)) (st_of b))) -> r < 32 -> j < 4 -> byte k ->
  let rk := if (em =? 0)%Z then rev (round_keys (normal_key key)) else round_keys (normal_key key) in
  let shown X := snd (held (S r) (reach (firstn r rk) X)) in
  let S d := N.lxor (std_sbox (N.lxor d k)) (std_sbox k) in
  (shown (0, at_byte j 1, 0, 0)%N = shown (Lin (at_byte j (S 1%N)), 0, 0, 0)%N /\
   shown (0, at_byte j 2, 0, 0)%N = shown (Lin (at_byte j (S 2%N)), 0, 0, 0)%N) <->
  k = byte_at (get rk r) (24 - 8 * N.of_nat j).
Proof.
  intros HP B H L J K rk shown SS.
  pose proof (guess_ok P (wb_keys em key) held HP H (length_wb_keys em key) r j k L J K) as G. fold (wb_keys em key) in rk.
  change (wb_keys em key) with rk in G. rewrite <- G. unfold guess. cbn [forallb]. rewrite andb_true_r, andb_true_iff, !N.eqb_eq. unfold shows.
  assert (LR : length (firstn r rk) = r) by (rewrite firstn_length; unfold rk; rewrite length_wb_keys; lia). rewrite LR. unfold shown, SS. Local Transparent sdiff. unfold sdiff. reflexivity.
Qed.
Local Opaque sdiff.
Lemma key_lemma P held em key : inv_pairs 32 36 P -> bytes key ->
  (forall n b, n <= 32 -> block16 b -> held n b = enc P n (rounds T (firstn n (wb_keys em key)) (st_of b))) -> read_sm4 held em = normal_key key.
Proof.
  intros HP B H. unfold read_sm4.
  pose proof (find_keys_ok P (wb_keys em key) held HP H (wb_keys_word em key B) (length_wb_keys em key) 4 ltac:(lia)) as F.
  pose proof (length_wb_keys em key) as L. pose proof (length_round_keys (normal_key key)) as L'. pose proof (normal_key_block key B) as BK. clear H. unfold wb_keys in *.
  destruct (find_keys held 4) as [|a [|b [|c [|d [|]]]]]; try (apply (f_equal (@length N)) in F; rewrite firstn_length, L in F; cbn [length] in F; lia).
  destruct (em =? 0)%Z.
  - apply unexpand_ok; [exact BK|lia|]. apply rev_first4; [exact L'|]. now symmetry.
  - apply unexpand_ok; [exact BK|lia|]. cbn [skipn]. now symmetry.
Qed.

(** ** White-box SM4 *)
(** wbsm4_gen.c:235-240 leaves the tables of a dummy round all zero: reading them tells dummy rounds from real ones *)
Definition idle (mem : loc -> N) (i : nat) : bool := forallb (fun j => forallb (fun x => mem (LTable i j (N.of_nat x)) =? 0)%N (seq 0 256)) (seq 0 4).
Definition real_rounds (mem : loc -> N) (W : nat) : list nat := filter (fun i => negb (idle mem i)) (seq 0 W).
(** the four words after the first n of the rounds that are not dummy rounds; wbsm4.c:60-82 without the others *)
Definition wb_real (ctx : wctx) (n : nat) (b : list N) : state :=
  let mem := w_mem ctx in
  fold_left (wb_round mem) (firstn n (real_rounds mem (w_rounds ctx))) (lookup (fun j x => mem (LSE 0 j x)) (GET32 b 0), lookup (fun j x => mem (LSE 1 j x)) (GET32 b 4),
    lookup (fun j x => mem (LSE 2 j x)) (GET32 b 8), lookup (fun j x => mem (LSE 3 j x)) (GET32 b 12)).
Lemma idle_ok mem i : idle mem i = true <-> forall j x, j < 4 -> byte x -> mem (LTable i j x) = 0%N.
Proof.
  unfold idle. rewrite forallb_forall. split.
  - intros H j x J B. specialize (H j ltac:(apply in_seq; lia)). rewrite forallb_forall in H. specialize (H (N.to_nat x) ltac:(apply in_seq; unfold byte in B; lia)).
    rewrite N2Nat.id in H. now apply N.eqb_eq in H.
  - intros H j J. apply in_seq in J. apply forallb_forall. intros x Hx. apply in_seq in Hx. apply N.eqb_eq. apply H; [lia|unfold byte; lia].
Qed.
Lemma idle_lookup mem i x : idle mem i = true -> lookup (fun j x => mem (LTable i j x)) x = 0%N.
Proof. intros H. rewrite idle_ok in H. unfold lookup. rewrite !H by (auto; apply byte_at_byte). reflexivity. Qed.
#[local] Opaque idle.
Lemma sdiff_nonzero k : byte k -> sdiff 1 k <> 0%N.
Proof.
  intros K E. enough (Q : forallb (fun k => negb (sdiff 1 (N.of_nat k) =? 0)%N) (seq 0 256) = true).
  { apply (forallb_in _ _ (N.to_nat k)) in Q; [|apply in_seq; unfold byte in K; lia]. cbv beta in Q. rewrite N2Nat.id, E in Q. discriminate. }
  Local Transparent sdiff std_sbox SBOX. clear. vm_compute. reflexivity.
Qed.
#[local] Opaque sdiff std_sbox SBOX.
Lemma real_not_idle P mem rnd i r k n : inv_pairs 32 36 P -> n < 32 -> round_ok P n r -> real_at mem rnd i r k -> word k -> idle mem i = false.
Proof.
  intros HP L RO RA W. destruct (idle mem i) eqn:I; [exfalso|reflexivity].
  assert (WX : st_word (0, at_byte 0 1, 0, 0)%N) by (repeat split; try reflexivity; apply word_at_byte).
  assert (WY : st_word (0, 0, 0, 0)%N) by (repeat split; reflexivity).
  pose proof (real_round_spec mem rnd i r k P n _ HP L RO RA W WX) as EX. pose proof (real_round_spec mem rnd i r k P n _ HP L RO RA W WY) as EY.
  assert (Q : forall s t, fst (fst (fst s)) = fst (fst (fst t)) -> snd (wb_round mem s i) = snd (wb_round mem t i)).
  { intros [[[s0 s1] s2] s3] [[[t0 t1] t2] t3] E. cbn [fst] in E. subst t0. unfold wb_round. cbv zeta. cbn [snd]. now rewrite !idle_lookup by exact I. }
  pose proof (Q (enc P n (0, at_byte 0 1, 0, 0)%N) (enc P n (0, 0, 0, 0)%N) eq_refl) as E. rewrite EX, EY in E. cbn [round enc snd] in E. clear EX EY Q.
  destruct HP as [_ HP]. destruct (HP (n + 1 + 3) ltac:(lia)) as (_ & _ & J).
  rewrite !N.lxor_0_r, !N.lxor_0_l in E. rewrite T_step in E by (try lia; reflexivity).
  match type of E with affineU _ _ ?a = affineU _ _ ?b => assert (EQ : a = b) end.
  { apply (f_equal (affineU 32 (pair_snd P (n + 1 + 3)))) in E. rewrite (proj2 (J (T k) (T_word k))) in E. rewrite (proj2 (J _ ltac:(apply (vector_lxor 32); [apply T_word|apply Lin_word, word_at_byte]))) in E. exact E. }
  assert (Z : Lin (at_byte 0 (sdiff 1 (byte_at k (24 - 8 * N.of_nat 0)))) = 0%N).
  { apply (lxor_cancel _ _ (T k)). rewrite N.lxor_0_l, N.lxor_comm. exact EQ. }
  apply Lin_nonzero in Z; [|lia|apply sdiff_byte; [reflexivity|apply byte_at_byte]]. revert Z. apply sdiff_nonzero, byte_at_byte.
Qed.
Lemma real_fold P R rk rnd mem0 mem : inv_pairs 32 36 P -> (forall n r, nth_error R n = Some r -> round_ok P n r) -> Forall word rk -> length rk = 32 ->
  forall da i n m X, layout R rk rnd mem0 mem i n da -> n + zeros da <= 32 -> m <= zeros da -> st_word X ->
  fold_left (wb_round mem) (firstn m (filter (fun i => negb (idle mem i)) (seq i (length (spread da))))) (enc P n X) = enc P (n + m) (rounds T (firstn m (skipn n rk)) X).
Proof.
  intros HP HR Hrk Lrk. induction da as [|d t IH]; intros i n m X LL B M W.
  - cbn [zeros] in M. replace m with 0 by lia. cbn [firstn fold_left rounds]. now rewrite Nat.add_0_r.
  - destruct m as [|m]; [cbn [firstn fold_left rounds]; now rewrite Nat.add_0_r|]. cbn [layout zeros spread flat_map] in *. fold (spread t). destruct (d =? 0)%N.
    + destruct LL as [(r & ER & RA) LL]. cbn [app length seq filter].
      assert (Wk : word (get rk n)) by (apply (Forall_nth _ rk); auto; lia).
      rewrite (real_not_idle P mem rnd i r (get rk n) n) by (auto; lia). cbn [negb firstn fold_left].
      rewrite (real_round_spec mem rnd i r (get rk n) P n) by (auto; lia). rewrite Nat.add_1_r. rewrite IH; auto; try lia.
      * replace (S n + m) with (n + S m) by lia. f_equal. rewrite (skipn_cons_get rk n) by lia. cbn [firstn]. reflexivity.
      * apply round_word; auto using T_word.
    + destruct LL as [HD LL]. assert (LE : length (repeat 1%N 4 ++ spread t) = 4 + length (spread t)) by reflexivity. rewrite LE.
      assert (ID : forall k, k < 4 -> idle mem (i + k) = true) by (intros k K; apply idle_ok; intros j x _ _; apply (HD k K j x)).
      rewrite seq_app, filter_app. replace (filter (fun i => negb (idle mem i)) (seq i 4)) with (@nil nat).
      * cbn [app]. apply IH; auto.
      * cbn [seq filter]. pose proof (ID 0 ltac:(lia)) as I0. pose proof (ID 1 ltac:(lia)) as I1. pose proof (ID 2 ltac:(lia)) as I2. pose proof (ID 3 ltac:(lia)) as I3.
        rewrite Nat.add_0_r in I0. replace (i + 1) with (S i) in I1 by lia. replace (i + 2) with (S (S i)) in I2 by lia. replace (i + 3) with (S (S (S i))) in I3 by lia.
        now rewrite I0, I1, I2, I3.
Qed.
Lemma wbsm4_held rnd rs junk em d key ctx : bytes key -> length rs = 32 + d -> wbsm4_gen_table rnd rs (wbsm4_context_init junk em d) key = Ret ctx ->
  exists P, inv_pairs 32 36 P /\ forall n b, n <= 32 -> block16 b -> wb_real ctx n b = enc P n (rounds T (firstn n (wb_keys em key)) (st_of b)).
Proof.
  intros B LR E. destruct (apart false (placement rs d)) eqn:A.
  2: { rewrite (gen_table_undef rnd rs (wbsm4_context_init junk em d) key d) in E by auto. discriminate E. }
  destruct (gen_table_ok rnd rs (wbsm4_context_init junk em d) key d B eq_refl A) as (P & R & ctx' & E' & G). assert (ctx' = ctx) by congruence. subst ctx'. clear E E'.
  exists P. destruct G as (W & _ & _ & HP & HR & LL & EX). split; [exact HP|]. intros n b N Bb.
  pose proof (start_state P rnd (w_mem ctx) 0 b HP EX Bb) as S0. unfold wb_state in S0. cbn [seq fold_left] in S0. unfold wb_real. cbv zeta. rewrite S0. clear S0.
  unfold real_rounds. rewrite W. change (w_rounds (wbsm4_context_init junk em d)) with (32 + 4 * d). rewrite <- (length_spread_placement rs d).
  pose proof (wb_keys_word em key B) as WK. pose proof (length_wb_keys em key) as LK. pose proof (zeros_placement rs d) as Z.
  rewrite (real_fold P R (wb_keys em key) rnd _ _ HP HR WK LK (placement rs d) 0 0 n (st_of b) LL ltac:(lia) ltac:(lia) (st_of_word b Bb)). reflexivity.
Qed.
Lemma wbsm4_test_lemma rnd rs junk em d key ctx r j k : bytes key -> length rs = 32 + d -> wbsm4_gen_table rnd rs (wbsm4_context_init junk em d) key = Ret ctx -> r < 32 -> j < 4 -> byte k ->
  let rk := if (em =? 0)%Z then rev (round_keys (normal_key key)) else round_keys (normal_key key) in
  let shown X := snd (wb_real ctx (S r) (reach (firstn r rk) X)) in
  let S d := N.lxor (std_sbox (N.lxor d k)) (std_sbox k) in
  (shown (0, at_byte j 1, 0, 0)%N = shown (Lin (at_byte j (S 1%N)), 0, 0, 0)%N /\
   shown (0, at_byte j 2, 0, 0)%N = shown (Lin (at_byte j (S 2%N)), 0, 0, 0)%N) <->
  k = byte_at (get rk r) (24 - 8 * N.of_nat j).
Proof. intros B LR E. destruct (wbsm4_held rnd rs junk em d key ctx B LR E) as (P & HP & H). exact (test_lemma P _ em key r j k HP B H). Qed.
Lemma wbsm4_key_lemma rnd rs junk em d key ctx : bytes key -> length rs = 32 + d -> wbsm4_gen_table rnd rs (wbsm4_context_init junk em d) key = Ret ctx ->
  read_sm4 (wb_real ctx) em = normal_key key.
Proof. intros B LR E. destruct (wbsm4_held rnd rs junk em d key ctx B LR E) as (P & HP & H). exact (key_lemma P _ em key HP B H). Qed.
Lemma idle_dummy P R rk rnd mem0 mem : inv_pairs 32 36 P -> (forall n r, nth_error R n = Some r -> round_ok P n r) -> Forall word rk -> length rk = 32 ->
  forall da i n m, layout R rk rnd mem0 mem i n da -> n + zeros da <= 32 -> m < length (spread da) -> idle mem (i + m) = true <-> nth m (spread da) 0%N <> 0%N.
Proof.
  intros HP HR Hrk Lrk. induction da as [|d t IH]; intros i n m LL B M; [cbn in M; lia|].
  cbn [layout zeros spread flat_map] in *. fold (spread t) in *. destruct (N.eqb_spec d 0) as [->|ND].
  - destruct LL as [(r & ER & RA) LL]. assert (Wk : word (get rk n)) by (apply (Forall_nth _ rk); auto; lia).
    destruct m as [|m].
    + rewrite Nat.add_0_r. rewrite (real_not_idle P mem rnd i r (get rk n) n) by (auto; lia). cbn [app nth]. split; [discriminate|congruence].
    + cbn [app length nth] in *. replace (i + S m) with (S i + m) by lia. apply (IH (S i) (S n)); auto; lia.
  - destruct LL as [HD LL]. assert (LE : length (repeat 1%N 4 ++ spread t) = 4 + length (spread t)) by reflexivity. rewrite LE in M.
    destruct (Nat.lt_ge_cases m 4) as [L|L].
    + split; intros _.
      * rewrite app_nth1 by exact L. destruct m as [|[|[|[|]]]]; [discriminate..|lia].
      * apply idle_ok. intros j x _ _. apply (HD m L j x).
    + rewrite app_nth2 by exact L. cbn [repeat length]. replace (i + m) with (i + 4 + (m - 4)) by lia. apply (IH (i + 4) n); auto; lia.
Qed.
Lemma wbsm4_dummy_lemma rnd rs junk em d key ctx i : bytes key -> length rs = 32 + d -> wbsm4_gen_table rnd rs (wbsm4_context_init junk em d) key = Ret ctx -> i < 32 + 4 * d ->
  (forall j x, j < 4 -> byte x -> w_mem ctx (LTable i j x) = 0%N) <-> nth i (wbsm4_gen_dummyround_array rs 32 d) 0%N <> 0%N.
Proof.
  intros B LR E I. rewrite <- idle_ok. destruct (apart false (placement rs d)) eqn:A.
  2: { rewrite (gen_table_undef rnd rs (wbsm4_context_init junk em d) key d) in E by auto. discriminate E. }
  destruct (gen_table_ok rnd rs (wbsm4_context_init junk em d) key d B eq_refl A) as (P & R & ctx' & E' & G). assert (ctx' = ctx) by congruence. subst ctx'. clear E E'.
  destruct G as (W & _ & _ & HP & HR & LL & EX). rewrite dummy_array_eq. change i with (0 + i) at 1. pose proof (zeros_placement rs d) as Z.
  apply (idle_dummy P R (wb_keys em key) rnd _ _ HP HR (wb_keys_word em key B) (length_wb_keys em key) (placement rs d) 0 0 i LL ltac:(lia)).
  now rewrite length_spread_placement.
Qed.
