(** * Proofs about the key files of white-box SM4 *)
From Verif Require Import Base Word32 GcmModel Sm4Model FpeModel MatModel MatSpec Wbsm4Model Wbsm4Proofs WbkeyModel.
From Coq Require Import ZArith.
Local Open Scope nat_scope.

Lemma loc_eqb_spec a b : loc_eqb a b = true <-> a = b.
Proof.
  destruct a, b; cbn [loc_eqb]; split; intros H; try discriminate;
    repeat match goal with H : _ && _ = true |- _ => apply andb_prop in H as [H ?] end;
    repeat match goal with H : (_ =? _)%nat = true |- _ => apply Nat.eqb_eq in H | H : (_ =? _)%N = true |- _ => apply N.eqb_eq in H end;
    try (subst; reflexivity); injection H as; subst; rewrite ?Nat.eqb_refl, ?N.eqb_refl; reflexivity.
Qed.
Lemma store_same mem l v : store mem l v l = v.
Proof. unfold store. now rewrite (proj2 (loc_eqb_spec l l) eq_refl). Qed.
Lemma store_other mem l v l' : l <> l' -> store mem l v l' = mem l'.
Proof. intros H. unfold store. destruct (loc_eqb l l') eqn:E; [apply loc_eqb_spec in E; contradiction|reflexivity]. Qed.
Lemma list_eqb_spec a b : list_eqb a b = true <-> a = b.
Proof.
  revert b. induction a as [|x a IH]; intros [|y b]; cbn [list_eqb]; split; intros H; try discriminate; auto.
  - apply andb_prop in H as [E H]. apply N.eqb_eq in E. apply IH in H. congruence.
  - injection H as -> ->. rewrite N.eqb_refl. now apply IH.
Qed.

(** ** Numbers *)
Lemma length_le4 x : length (le4 x) = 4.
Proof. unfold le4. rewrite rev_length. apply length_N_to_be. Qed.
Lemma of_le4 x : word x -> of_le (le4 x) = x.
Proof. intros W. unfold of_le, le4. rewrite rev_involutive. now apply (be_to_N_to_be 4). Qed.
Lemma length_int z : length (int_bytes z) = 4.
Proof. apply length_le4. Qed.
Lemma bytes_int_bytes z : (- 2 ^ 31 <= z < 2 ^ 31)%Z -> bytes_int (int_bytes z) = z.
Proof.
  intros H. unfold bytes_int, int_bytes. cbv zeta. rewrite of_le4.
  - rewrite Z2N.id by (apply Z.mod_pos_bound; lia). destruct (Z.ltb_spec z 0).
    + rewrite <- (Z.mod_unique z (2 ^ 32) (-1) (z + 2 ^ 32)) by lia. destruct (Z.ltb_spec (z + 2 ^ 32) (2 ^ 31)); lia.
    + rewrite Z.mod_small by lia. destruct (Z.ltb_spec z (2 ^ 31)); lia.
  - unfold word. change (2 ^ 32)%N with (Z.to_N (2 ^ 32)). apply Z2N.inj_lt; try lia; apply Z.mod_pos_bound; lia.
Qed.

(** ** The header *)
Lemma fgets_prefix n : forall f l r, fgets n f = (l, r) -> f = l ++ r /\ length l <= n.
Proof.
  induction n as [|n IH]; intros [|c f] l r H; cbn [fgets] in H; try (injection H as <- <-; split; [reflexivity|cbn; lia]).
  destruct (c =? 10)%N; [injection H as <- <-; split; [reflexivity|cbn; lia]|].
  destruct (fgets n f) as [l' r'] eqn:E. injection H as <- <-. apply IH in E as [-> L]. split; [reflexivity|cbn; lia].
Qed.
Lemma cstring_prefix l : exists t, l = cstring l ++ t.
Proof. induction l as [|c l [t IH]]; [exists []; reflexivity|]. cbn [cstring]. destruct (c =? 0)%N; [now exists (c :: l)|]. exists t. cbn [app]. now rewrite <- IH. Qed.
Lemma fgets_header f : fgets 16 (header ++ f) = (header, f).
Proof. reflexivity. Qed.
Lemma header_accepted f l r : fgets 16 f = (l, r) -> list_eqb (cstring l) header = true -> l = header /\ f = header ++ r.
Proof.
  intros E H. apply list_eqb_spec in H. apply fgets_prefix in E as [-> L]. destruct (cstring_prefix l) as [t Ht]. rewrite H in Ht.
  assert (t = []) by (rewrite Ht, app_length in L; cbn [header length] in L; destruct t; [reflexivity|cbn [length] in L; lia]).
  subst t. rewrite app_nil_r in Ht. subst l. auto.
Qed.
Lemma wrong_header ctx f : firstn 16 f <> header -> wbsm4_file2key ctx (Some f) = Ret (false, ctx).
Proof.
  intros H. unfold wbsm4_file2key. destruct (fgets 16 f) as [l r] eqn:E. destruct (list_eqb (cstring l) header) eqn:Q; [|reflexivity].
  exfalso. apply H. destruct (header_accepted f l r E Q) as [_ ->]. reflexivity.
Qed.

(** ** The entries *)
Lemma fread4_app a f : length a = 4 -> fread4 (a ++ f) = Some (a, f).
Proof.
  intros L. unfold fread4. destruct (Nat.ltb_spec (length (a ++ f)) 4); [rewrite app_length in *; lia|].
  rewrite firstn_app, skipn_app, L, Nat.sub_diag, firstn_all2, skipn_all2 by lia. cbn [firstn skipn app]. now rewrite app_nil_r.
Qed.
Lemma fread4_short f : length f < 4 -> fread4 f = None.
Proof. intros L. unfold fread4. now apply Nat.ltb_lt in L; rewrite L. Qed.
Definition entries (mem : loc -> N) (ls : list loc) : list N := flat_map (fun l => le4 (mem l)) ls.
Lemma length_entries mem ls : length (entries mem ls) = 4 * length ls.
Proof. unfold entries. induction ls as [|l ls IH]; [reflexivity|]. cbn [flat_map length]. rewrite app_length, length_le4, IH. lia. Qed.
Lemma read_entries_ok alloc src ls : forallb (allocated alloc) ls = true -> (forall l, In l ls -> word (src l)) -> forall rest mem,
  exists mem', read_entries alloc ls (entries src ls ++ rest) mem = Ret (true, mem') /\
    (forall l, In l ls -> mem' l = src l) /\ (forall l, ~ In l ls -> mem' l = mem l).
Proof.
  induction ls as [|l ls IH]; intros A W rest mem.
  - exists mem. split; [reflexivity|]. split; [intros ? []|reflexivity].
  - cbn [forallb] in A. apply andb_prop in A as [Al A]. cbn [entries flat_map read_entries]. rewrite Al. cbn [negb].
    rewrite <- app_assoc. rewrite fread4_app by apply length_le4. rewrite of_le4 by (apply W; now left).
    destruct (IH A (fun l' I => W l' (or_intror I)) rest (store mem l (src l))) as (m & E & H1 & H2). exists m. split; [exact E|]. split.
    + intros l' [<-|I]; [|auto]. destruct (in_dec (fun a b => ltac:(destruct (loc_eqb a b) eqn:Q; [left; now apply loc_eqb_spec|right; intros ->; rewrite (proj2 (loc_eqb_spec b b) eq_refl) in Q; discriminate])) l ls) as [I|I]; [auto|].
      rewrite H2 by exact I. apply store_same.
    + intros l' N'. rewrite H2 by (intros I; apply N'; now right). apply store_other. intros ->. apply N'. now left.
Qed.
Lemma read_entries_short alloc : forall ls f mem, forallb (allocated alloc) ls = true -> length f < 4 * length ls ->
  exists mem', read_entries alloc ls f mem = Ret (false, mem').
Proof.
  induction ls as [|l ls IH]; intros f mem A L; [cbn in L; lia|]. cbn [forallb] in A. apply andb_prop in A as [Al A]. cbn [read_entries]. rewrite Al. cbn [negb].
  destruct (Nat.ltb_spec (length f) 4) as [S|S].
  - rewrite fread4_short by exact S. now eexists.
  - rewrite <- (firstn_skipn 4 f). rewrite fread4_app by (apply firstn_length_le; lia). apply IH; [exact A|]. rewrite skipn_length. cbn [length] in L. lia.
Qed.
Lemma read_entries_outside alloc : forall ls f mem, forallb (allocated alloc) ls = false -> 4 * length ls <= length f -> read_entries alloc ls f mem = Undef.
Proof.
  induction ls as [|l ls IH]; intros f mem A L; [discriminate|]. cbn [forallb read_entries] in *. destruct (allocated alloc l) eqn:Al; [|reflexivity]. cbn [negb andb] in *.
  cbn [length] in L. rewrite <- (firstn_skipn 4 f). rewrite fread4_app by (apply firstn_length_le; lia). apply IH; [exact A|]. rewrite skipn_length. lia.
Qed.

(** ** Which entries *)
Definition in_range (rounds : nat) (l : loc) : Prop :=
  match l with
  | LMM i k j x => i < rounds /\ k < 3 /\ j < 4 /\ byte x
  | LCC i j x | LDD i j x | LTable i j x => i < rounds /\ j < 4 /\ byte x
  | LSE i j x | LFE i j x => i < 4 /\ i < rounds /\ j < 4 /\ byte x
  end.
Lemma in_range256 x : In x range256 <-> byte x.
Proof.
  unfold range256, byte. rewrite in_map_iff. split.
  - intros (k & <- & K). apply in_seq in K. lia.
  - intros H. exists (N.to_nat x). split; [lia|]. apply in_seq. lia.
Qed.
Lemma in_file_locs rounds l : In l (file_locs rounds) <-> in_range rounds l.
Proof.
  unfold file_locs, mm_locs, other_locs. rewrite in_app_iff, !in_flat_map. split.
  - intros [(i & I & H)|(i & I & H)]; apply in_seq in I.
    + apply in_flat_map in H as (j & J & H). apply in_flat_map in H as (k & K & H). apply in_map_iff in H as (x & <- & X).
      apply in_seq in J, K. apply in_range256 in X. cbn [in_range]. repeat split; auto; lia.
    + apply in_flat_map in H as (j & J & H). apply in_flat_map in H as (x & X & H). apply in_seq in J. apply in_range256 in X.
      apply in_app_iff in H as [H|H].
      * destruct (Nat.ltb_spec i 4); [|destruct H]. destruct H as [<-|[<-|[]]]; cbn [in_range]; repeat split; auto; lia.
      * destruct H as [<-|[<-|[<-|[]]]]; cbn [in_range]; repeat split; auto; lia.
  - destruct l as [i k j x|i j x|i j x|i j x|i j x|i j x]; cbn [in_range].
    1: intros (I & K & J & X); left; exists i; split; [apply in_seq; lia|]; apply in_flat_map; exists k; split; [apply in_seq; lia|];
       apply in_flat_map; exists j; split; [apply in_seq; lia|]; apply in_map; now apply in_range256.
    all: intros H; right; exists i; (split; [apply in_seq; lia|]); apply in_flat_map; exists j; (split; [apply in_seq; lia|]);
       apply in_flat_map; exists x; (split; [apply in_range256; tauto|]); apply in_app_iff.
    1, 2, 3: right; cbn; tauto.
    all: left; destruct (Nat.ltb_spec i 4); [cbn; tauto|lia].
Qed.
Lemma locs_allocated alloc rounds : rounds <= alloc -> forallb (allocated alloc) (file_locs rounds) = true.
Proof.
  intros L. apply forallb_forall. intros l H. apply in_file_locs in H. destruct l; cbn [in_range allocated] in *; apply Nat.ltb_lt; lia.
Qed.
Lemma locs_outside alloc rounds : alloc < rounds -> forallb (allocated alloc) (file_locs rounds) = false.
Proof.
  intros L. destruct (forallb (allocated alloc) (file_locs rounds)) eqn:E; [|reflexivity]. rewrite forallb_forall in E.
  specialize (E (LCC alloc 0 0%N)). cbn [allocated] in E. rewrite Nat.ltb_irrefl in E. symmetry. apply E. apply in_file_locs. cbn [in_range]. split; [lia|]. split; [lia|]. reflexivity.
Qed.

(** ** Encryption reads only those entries *)
Lemma encrypt_ext c1 c2 b : w_rounds c1 = w_rounds c2 -> w_rounds c1 <= w_alloc c1 -> w_rounds c2 <= w_alloc c2 -> 4 <= w_rounds c1 ->
  (forall l, in_range (w_rounds c1) l -> w_mem c1 l = w_mem c2 l) -> wbsm4_encrypt c1 b = wbsm4_encrypt c2 b.
Proof.
  intros R A1 A2 R4 M. unfold wbsm4_encrypt. cbv zeta.
  destruct (Nat.ltb_spec (w_alloc c1) (w_rounds c1)); [lia|]. destruct (Nat.ltb_spec (w_alloc c2) (w_rounds c2)); [lia|].
  assert (SE : forall i x, i < 4 -> lookup (fun j y => w_mem c1 (LSE i j y)) x = lookup (fun j y => w_mem c2 (LSE i j y)) x).
  { intros i x I. apply lookup_ext. intros j y J Y. apply M. cbn [in_range]. repeat split; auto; lia. }
  assert (FE : forall i x, i < 4 -> lookup (fun j y => w_mem c1 (LFE i j y)) x = lookup (fun j y => w_mem c2 (LFE i j y)) x).
  { intros i x I. apply lookup_ext. intros j y J Y. apply M. cbn [in_range]. repeat split; auto; lia. }
  rewrite !SE by lia. rewrite <- R.
  assert (F : forall k s, k <= w_rounds c1 -> fold_left (wb_round (w_mem c1)) (seq 0 k) s = fold_left (wb_round (w_mem c2)) (seq 0 k) s).
  { induction k as [|k IH]; intros s K; [reflexivity|]. rewrite seq_S, !fold_left_app. rewrite IH by lia. cbn [fold_left plus].
    generalize (fold_left (wb_round (w_mem c2)) (seq 0 k) s). intros [[[x0 x1] x2] x3]. unfold wb_round.
    assert (MM : forall m x, m < 3 -> lookup (fun j y => w_mem c1 (LMM k m j y)) x = lookup (fun j y => w_mem c2 (LMM k m j y)) x).
    { intros m x Lm. apply lookup_ext. intros j y J Y. apply M. cbn [in_range]. repeat split; auto; lia. }
    assert (CC : forall x, lookup (fun j y => w_mem c1 (LCC k j y)) x = lookup (fun j y => w_mem c2 (LCC k j y)) x).
    { intros x. apply lookup_ext. intros j y J Y. apply M. cbn [in_range]. repeat split; auto; lia. }
    assert (DD : forall x, lookup (fun j y => w_mem c1 (LDD k j y)) x = lookup (fun j y => w_mem c2 (LDD k j y)) x).
    { intros x. apply lookup_ext. intros j y J Y. apply M. cbn [in_range]. repeat split; auto; lia. }
    assert (TT : forall x, lookup (fun j y => w_mem c1 (LTable k j y)) x = lookup (fun j y => w_mem c2 (LTable k j y)) x).
    { intros x. apply lookup_ext. intros j y J Y. apply M. cbn [in_range]. repeat split; auto; lia. }
    rewrite !MM, TT, CC, DD by lia. reflexivity. }
  rewrite F by lia. destruct (fold_left _ _ _) as [[[x0 x1] x2] x3]. rewrite !FE by lia. reflexivity.
Qed.

(** ** The file *)
Definition key_file (rounds : nat) (em : Z) (mem : loc -> N) : list N :=
  header ++ int_bytes (Z.of_nat rounds) ++ int_bytes em ++ entries mem (file_locs rounds).
Lemma key2file_eq ctx : w_rounds ctx <= w_alloc ctx -> wbsm4_key2file true ctx = Ret (key_file (w_rounds ctx) (w_encmode ctx) (w_mem ctx)).
Proof. intros A. unfold wbsm4_key2file. cbn [negb]. destruct (Nat.ltb_spec (w_alloc ctx) (w_rounds ctx)); [lia|]. reflexivity. Qed.
Lemma file2key_parts ctx rb eb rest : length rb = 4 -> length eb = 4 ->
  wbsm4_file2key ctx (Some (header ++ rb ++ eb ++ rest)) =
  obind (read_entries (w_alloc ctx) (file_locs (Z.to_nat (bytes_int rb))) rest (w_mem ctx)) (fun '(ok, mem) =>
    Ret (ok, mkwctx (Z.to_nat (bytes_int rb)) (bytes_int eb) (w_alloc ctx) mem)).
Proof.
  intros L1 L2. unfold wbsm4_file2key. rewrite fgets_header.
  assert (H : list_eqb (cstring header) header = true) by reflexivity. rewrite H. cbn [negb].
  rewrite fread4_app by exact L1. rewrite fread4_app by exact L2. reflexivity.
Qed.
Lemma file2key_ok ctx rounds em mem rest : (N.of_nat rounds < 2 ^ 31)%N -> (- 2 ^ 31 <= em < 2 ^ 31)%Z -> (forall l, in_range rounds l -> word (mem l)) -> rounds <= w_alloc ctx ->
  exists mem', wbsm4_file2key ctx (Some (key_file rounds em mem ++ rest)) = Ret (true, mkwctx rounds em (w_alloc ctx) mem') /\
    (forall l, in_range rounds l -> mem' l = mem l) /\ (forall l, ~ in_range rounds l -> mem' l = w_mem ctx l).
Proof.
  intros R E W A. unfold key_file. rewrite <- !app_assoc. rewrite file2key_parts by apply length_int.
  rewrite !bytes_int_bytes by lia. rewrite Nat2Z.id.
  destruct (read_entries_ok (w_alloc ctx) mem (file_locs rounds) (locs_allocated _ _ A) (fun l I => W l (proj1 (in_file_locs rounds l) I)) rest (w_mem ctx)) as (m & Em & H1 & H2).
  rewrite Em. exists m. split; [reflexivity|]. split; intros l Hl; [apply H1|apply H2]; rewrite in_file_locs; exact Hl.
Qed.
Lemma file2key_short ctx rounds em mem f : (N.of_nat rounds < 2 ^ 31)%N -> rounds <= w_alloc ctx ->
  (exists rest, rest <> [] /\ key_file rounds em mem = f ++ rest) -> exists ctx', wbsm4_file2key ctx (Some f) = Ret (false, ctx').
Proof.
  intros R A (rest & NE & E). assert (LT : length f < length (key_file rounds em mem)) by (rewrite E, app_length; destruct rest; [congruence|cbn; lia]).
  assert (PF : f = firstn (length f) (key_file rounds em mem)) by (rewrite E, firstn_app, Nat.sub_diag, firstn_all; cbn [firstn]; now rewrite app_nil_r).
  unfold key_file in *. rewrite !app_length, !length_int, length_entries in LT. change (length header) with 16 in LT.
  destruct (Nat.lt_ge_cases (length f) 16) as [S|S].
  { exists ctx. apply wrong_header. intros H. apply (f_equal (@length N)) in H. rewrite firstn_length in H. change (length header) with 16 in H. lia. }
  rewrite firstn_app, firstn_all2 in PF by (change (length header) with 16; lia). change (length header) with 16 in PF.
  destruct (Nat.lt_ge_cases (length f) 20) as [S1|S1].
  { rewrite PF. unfold wbsm4_file2key. rewrite fgets_header. assert (H : list_eqb (cstring header) header = true) by reflexivity. rewrite H. cbn [negb].
    rewrite fread4_short by (rewrite firstn_length; lia). now eexists. }
  rewrite firstn_app, length_int, firstn_all2 in PF by (rewrite length_int; lia).
  destruct (Nat.lt_ge_cases (length f) 24) as [S2|S2].
  { rewrite PF. unfold wbsm4_file2key. rewrite fgets_header. assert (H : list_eqb (cstring header) header = true) by reflexivity. rewrite H. cbn [negb].
    rewrite fread4_app by apply length_int. rewrite fread4_short by (rewrite firstn_length; lia). now eexists. }
  rewrite firstn_app, length_int, firstn_all2 in PF by (rewrite length_int; lia).
  rewrite PF. rewrite file2key_parts by apply length_int. rewrite bytes_int_bytes by lia. rewrite Nat2Z.id.
  match goal with |- context [read_entries _ _ ?x _] => destruct (read_entries_short (w_alloc ctx) (file_locs rounds) x (w_mem ctx)) as (m & Em) end.
  - now apply locs_allocated.
  - rewrite firstn_length. lia.
  - rewrite Em. now eexists.
Qed.
Lemma file2key_overflow ctx rounds em mem rest : (N.of_nat rounds < 2 ^ 31)%N -> w_alloc ctx < rounds ->
  wbsm4_file2key ctx (Some (key_file rounds em mem ++ rest)) = Undef.
Proof.
  intros R A. unfold key_file. rewrite <- !app_assoc. rewrite file2key_parts by apply length_int. rewrite bytes_int_bytes by lia. rewrite Nat2Z.id.
  rewrite read_entries_outside; [reflexivity|now apply locs_outside|]. rewrite app_length, length_entries. lia.
Qed.
Lemma file2key_empty ctx (r : Z) em : (- 2 ^ 31 <= r <= 0)%Z -> (- 2 ^ 31 <= em < 2 ^ 31)%Z ->
  wbsm4_file2key ctx (Some (header ++ int_bytes r ++ int_bytes em)) = Ret (true, mkwctx 0 em (w_alloc ctx) (w_mem ctx)).
Proof.
  intros R E. rewrite <- (app_nil_r (int_bytes em)). rewrite file2key_parts by apply length_int. rewrite !bytes_int_bytes by lia.
  replace (Z.to_nat r) with 0 by lia. reflexivity.
Qed.
