(** * Proofs about overlapping buffers *)
From Verif Require Import Base CbcModel CbcSpec GcmModel WbgcmModel OverlapModel.
Local Open Scope nat_scope.

(** ** Memory *)
(** [mem'] is [mem] with [o] at address [a] *)
Definition patched (mem : list N) (a : nat) (o mem' : list N) : Prop :=
  length mem' = length mem /\ forall x, get mem' x = if (a <=? x) && (x <? a + length o) then get o (x - a) else get mem x.
Definition patch (mem : list N) (a : nat) (o : list N) : list N := firstn a mem ++ o ++ skipn (a + length o) mem.
Definition slice (mem : list N) (a n : nat) : list N := firstn n (skipn a mem).
Lemma nth_firstn {A} (l : list A) n i x : nth i (firstn n l) x = if i <? n then nth i l x else x.
Proof.
  revert n i. induction l as [|a l IH]; intros [|n] [|i]; cbn [firstn nth]; try reflexivity; try (destruct (_ <? _); reflexivity).
  rewrite IH. destruct (Nat.ltb_spec i n), (Nat.ltb_spec (S i) (S n)); reflexivity || lia.
Qed.
Lemma list_get_ext (p q : list N) : length p = length q -> (forall j, j < length p -> get p j = get q j) -> p = q.
Proof. intros L H. apply (nth_ext _ _ 0%N 0%N L). exact H. Qed.
Lemma get_slice mem a n j : j < n -> get (slice mem a n) j = get mem (a + j).
Proof.
  intro J. unfold slice, get. rewrite nth_firstn. destruct (Nat.ltb_spec j n); [|lia].
  destruct (Nat.le_gt_cases (length mem) a) as [A|A].
  - rewrite skipn_all2, !nth_overflow by (cbn; lia). reflexivity.
  - rewrite <- (firstn_skipn a mem) at 2. rewrite app_nth2; rewrite firstn_length; [|lia]. f_equal. lia.
Qed.
Lemma length_slice mem a n : a + n <= length mem -> length (slice mem a n) = n.
Proof. intro H. unfold slice. rewrite firstn_length, skipn_length. lia. Qed.
Lemma get_patch mem a o x : a + length o <= length mem ->
  get (patch mem a o) x = if (a <=? x) && (x <? a + length o) then get o (x - a) else get mem x.
Proof.
  intro H. unfold patch, get. destruct (Nat.leb_spec a x) as [A|A].
  - rewrite app_nth2; rewrite firstn_length; [|lia]. rewrite Nat.min_l by lia. cbn [andb]. destruct (Nat.ltb_spec x (a + length o)) as [B|B].
    + rewrite app_nth1 by lia. reflexivity.
    + rewrite app_nth2 by lia. rewrite <- (firstn_skipn (a + length o) mem) at 2. rewrite app_nth2; rewrite firstn_length; [|lia]. f_equal. lia.
  - cbn [andb]. rewrite app_nth1 by (rewrite firstn_length; lia). rewrite nth_firstn. destruct (Nat.ltb_spec x a); [reflexivity|lia].
Qed.
Lemma length_patch mem a o : a + length o <= length mem -> length (patch mem a o) = length mem.
Proof. intro H. unfold patch. rewrite !app_length, firstn_length, skipn_length. lia. Qed.
Lemma patched_patch mem a o mem' : a + length o <= length mem -> patched mem a o mem' -> mem' = patch mem a o.
Proof.
  intros H [L G]. apply list_get_ext; [now rewrite length_patch|]. intros j _. rewrite G. symmetry. now apply get_patch.
Qed.
Lemma patched_nil mem a : patched mem a [] mem.
Proof. split; [reflexivity|]. intro x. cbn [length]. destruct (Nat.leb_spec a x), (Nat.ltb_spec x (a + 0)); cbn [andb]; reflexivity || lia. Qed.
Lemma patched_app mem a o1 o2 m1 m2 : patched mem a o1 m1 -> patched m1 (a + length o1) o2 m2 -> patched mem a (o1 ++ o2) m2.
Proof.
  intros [L1 G1] [L2 G2]. split; [congruence|]. intro x. rewrite G2, G1, app_length.
  destruct (Nat.leb_spec (a + length o1) x) as [A|A], (Nat.ltb_spec x (a + length o1 + length o2)) as [B|B]; cbn [andb].
  - destruct (Nat.leb_spec a x); [|lia]. destruct (Nat.ltb_spec x (a + (length o1 + length o2))); [|lia]. cbn [andb]. unfold get. rewrite app_nth2 by lia. f_equal. lia.
  - destruct (Nat.ltb_spec x (a + length o1)); [lia|]. destruct (Nat.ltb_spec x (a + (length o1 + length o2))); [lia|]. rewrite !andb_false_r. reflexivity.
  - destruct (Nat.leb_spec a x); cbn [andb]; [|reflexivity]. destruct (Nat.ltb_spec x (a + length o1)); [|lia].
    destruct (Nat.ltb_spec x (a + (length o1 + length o2))); [|lia]. unfold get. rewrite app_nth1 by lia. reflexivity.
  - lia.
Qed.
Lemma patched_set mem a v : a < length mem -> patched mem a [v] (set mem a v).
Proof.
  intro A. split; [apply length_set|]. intro x. unfold get. rewrite nth_set. cbn [length].
  destruct (Nat.eqb_spec x a) as [->|Q].
  - destruct (Nat.ltb_spec a (length mem)); [|lia]. rewrite Nat.leb_refl. destruct (Nat.ltb_spec a (a + 1)); [|lia]. cbn [andb]. now rewrite Nat.sub_diag.
  - cbn [andb]. destruct (Nat.leb_spec a x), (Nat.ltb_spec x (a + 1)); cbn [andb]; reflexivity || lia.
Qed.
Lemma rd_get mem a : a < length mem -> rd mem a = Some (get mem a).
Proof. intro A. unfold rd, get. now apply nth_error_nth'. Qed.
Lemma wr_set mem a v : a < length mem -> wr mem a v = Some (set mem a v).
Proof. intro A. unfold wr. destruct (Nat.ltb_spec a (length mem)); [reflexivity|lia]. Qed.

(** ** GCM *)
Lemma xor_into_snoc buf o z : length o < length buf ->
  xor_into buf (o ++ [z]) = set (xor_into buf o) (length o) (N.lxor (get (xor_into buf o) (length o)) z).
Proof.
  intro L. destruct (nth_split buf 0%N L) as (b1 & b2 & E & L1). set (x := nth (length o) buf 0%N) in *. clearbody x. subst buf.
  assert (A : xor_into (b1 ++ x :: b2) o = xorl b1 o ++ x :: b2).
  { unfold xor_into. rewrite <- L1, firstn_app, skipn_app, Nat.sub_diag, firstn_all, skipn_all. cbn [firstn skipn]. now rewrite app_nil_r. }
  assert (B : xor_into (b1 ++ x :: b2) (o ++ [z]) = (xorl b1 o ++ [N.lxor x z]) ++ b2).
  { unfold xor_into. rewrite app_length. cbn [length].
    replace (firstn (length o + 1) (b1 ++ x :: b2)) with (b1 ++ [x]).
    2:{ rewrite <- L1, firstn_app, firstn_all2 by lia. replace (length b1 + 1 - length b1) with 1 by lia. reflexivity. }
    replace (skipn (length o + 1) (b1 ++ x :: b2)) with b2.
    2:{ rewrite <- L1, skipn_app, skipn_all2 by lia. replace (length b1 + 1 - length b1) with 1 by lia. reflexivity. }
    f_equal. clear - L1. revert o L1. induction b1 as [|a b1 IH]; intros [|c o] L1; try discriminate; [reflexivity|].
    cbn [app xorl]. f_equal. apply IH. now injection L1. }
  assert (Lx : length (xorl b1 o) = length o).
  { clear - L1. revert o L1. induction b1 as [|a b1 IH]; intros [|c o] L1; try discriminate; [reflexivity|]. cbn. f_equal. apply IH. now injection L1. }
  rewrite A, B. unfold get. rewrite <- Lx at 1 2. rewrite app_nth2, Nat.sub_diag by lia. cbn [nth].
  generalize (xorl b1 o). intro w. rewrite <- app_assoc. cbn [app]. induction w as [|a w IH]; [reflexivity|]. cbn. now rewrite <- IH.
Qed.
Lemma length_xor_into buf o : length o <= length buf -> length (xor_into buf o) = length buf.
Proof.
  revert buf. induction o as [|x o IH] using rev_ind; intros buf L; [reflexivity|]. rewrite app_length in L. cbn in L.
  rewrite xor_into_snoc by lia. rewrite length_set. apply IH. lia.
Qed.

(** what the loop reads at place j, when it has written [o] so far *)
Definition seen (mem : list N) (pin pout : nat) (o : list N) (j : nat) : N :=
  if (pin <? pout) && (pout <=? pin + j) && (pin + j - pout <? length o) then get o (pin + j - pout) else get mem (pin + j).

Section Loop.
  Context (stream : list N -> option (list N)) (comb : nat -> N -> N -> N) (mult : list N -> list N) (d : dir).
  Context (mult16 : forall b, length b = 16 -> length (mult b) = 16).
  Notation byte_loop := (byte_loop comb d).
  Notation mem_loop := (mem_loop stream comb mult d).
  Definition combined (ectr p : list N) : list N := map (fun i => comb i (get ectr i) (get p i)) (seq 0 (length p)).
  Definition hashed (p o : list N) : list N := match d with Enc => o | Dec => p end.

  Lemma byte_loop_app ectr pin pout is js mem buf :
    byte_loop ectr pin pout (is ++ js) mem buf = bind (byte_loop ectr pin pout is mem buf) (fun r => byte_loop ectr pin pout js (fst r) (snd r)).
  Proof.
    revert mem buf. induction is as [|i is IH]; intros mem buf; [reflexivity|]. cbn [app OverlapModel.byte_loop]. destruct d.
    - destruct (rd mem (pin + i)); [|reflexivity]. cbn [bind]. destruct (wr mem _ _) as [m|]; [|reflexivity]. cbn [bind].
      destruct (rd m (pout + i)); [|reflexivity]. cbn [bind]. apply IH.
    - destruct (rd mem (pin + i)); [|reflexivity]. cbn [bind]. destruct (wr mem _ _) as [m|]; [|reflexivity]. cbn [bind]. apply IH.
  Qed.
  Lemma combined_snoc ectr p z : combined ectr (p ++ [z]) = combined ectr p ++ [comb (length p) (get ectr (length p)) z].
  Proof.
    unfold combined. rewrite app_length. cbn [length]. rewrite Nat.add_1_r, seq_S, map_app. cbn [map Nat.add]. f_equal.
    - apply map_ext_in. intros i I. apply in_seq in I. unfold get. rewrite (app_nth1 p) by lia. reflexivity.
    - unfold get. rewrite (app_nth2 p), Nat.sub_diag by lia. reflexivity.
  Qed.
  Lemma length_combined ectr p : length (combined ectr p) = length p.
  Proof. unfold combined. now rewrite map_length, seq_length. Qed.

  Lemma byte_loop_spec ectr pin pout mem buf : length buf = 16 -> forall k, k <= 16 -> pin + k <= length mem -> pout + k <= length mem ->
    exists p mem', length p = k /\
      byte_loop ectr pin pout (seq 0 k) mem buf = Some (mem', xor_into buf (hashed p (combined ectr p))) /\
      patched mem pout (combined ectr p) mem' /\ forall j, j < k -> get p j = seen mem pin pout (combined ectr p) j.
  Proof.
    intros B. induction k as [|k IH]; intros K I O.
    - exists [], mem. split; [reflexivity|]. split; [|split; [apply patched_nil|lia]].
      cbn [seq OverlapModel.byte_loop]. unfold hashed, combined. cbn [length seq map]. destruct d; reflexivity.
    - destruct IH as (p & m & L & E & P & S); [lia|lia|lia|]. pose proof P as [PL PG].
      set (z := get m (pin + k)). set (o := combined ectr p) in *. set (v := comb k (get ectr k) z).
      assert (Lo : length o = k) by (unfold o; now rewrite length_combined).
      exists (p ++ [z]), (set m (pout + k) v). split; [rewrite app_length; cbn; lia|].
      assert (C : combined ectr (p ++ [z]) = o ++ [v]) by (rewrite combined_snoc, L; reflexivity).
      rewrite C. split; [|split].
      + rewrite seq_S, byte_loop_app, E. cbn [bind fst snd Nat.add OverlapModel.byte_loop].
        assert (Lh : length (hashed p o) = k) by (unfold hashed; destruct d; assumption).
        unfold hashed in *. destruct d.
        * rewrite (rd_get m (pin + k)) by lia. fold z. cbn [bind]. fold v. rewrite (wr_set m (pout + k)) by lia. cbn [bind].
          rewrite rd_get by (rewrite length_set; lia). cbn [bind]. f_equal. f_equal.
          unfold get at 2. rewrite nth_set, Nat.eqb_refl. destruct (Nat.ltb_spec (pout + k) (length m)); [|lia]. cbn [andb].
          rewrite xor_into_snoc by lia. now rewrite Lo.
        * rewrite !(rd_get m (pin + k)) by lia. fold z. cbn [bind]. fold v. rewrite (wr_set m (pout + k)) by lia. cbn [bind].
          f_equal. f_equal. rewrite xor_into_snoc by lia. now rewrite L.
      + apply (patched_app _ _ _ _ m); [exact P|]. rewrite Lo. apply patched_set. lia.
      + intros j J. destruct (Nat.eq_dec j k) as [->|Q].
        * unfold get at 1. rewrite app_nth2, L, Nat.sub_diag by lia. cbn [nth]. unfold z. rewrite PG, Lo. unfold seen. rewrite app_length, Lo. cbn [length].
          destruct (Nat.ltb_spec pin pout) as [A|A], (Nat.leb_spec pout (pin + k)) as [D|D]; cbn [andb].
          -- destruct (Nat.ltb_spec (pin + k) (pout + k)); [|lia]. destruct (Nat.ltb_spec (pin + k - pout) (k + 1)); [|lia].
             unfold get. rewrite app_nth1 by lia. reflexivity.
          -- reflexivity.
          -- destruct (Nat.ltb_spec (pin + k) (pout + k)); [lia|]. reflexivity.
          -- reflexivity.
        * unfold get at 1. rewrite app_nth1 by lia. fold (get p j). rewrite S by lia. unfold seen. rewrite app_length, Lo. cbn [length].
          destruct (Nat.ltb_spec pin pout) as [A|A], (Nat.leb_spec pout (pin + j)) as [D|D]; cbn [andb]; try reflexivity.
          destruct (Nat.ltb_spec (pin + j - pout) k); [|lia]. destruct (Nat.ltb_spec (pin + j - pout) (k + 1)); [|lia].
          unfold get. rewrite app_nth1 by lia. reflexivity.
  Qed.

  (** the loop on the data itself *)
  Fixpoint floop (cs : list (list N)) (y buf : list N) : bool * list N * list N * list N :=
    match cs with
    | [] => (true, y, buf, [])
    | p :: cs =>
      let y := ctr_incr y in
      match stream y with
      | None => (false, y, buf, [])
      | Some e =>
        let '(ok, y', buf', o) := floop cs y (mult (xor_into buf (hashed p (combined e p)))) in (ok, y', buf', combined e p ++ o)
      end
    end.
  Lemma chunks16_cons (p q : list N) : 1 <= length p -> (length p = 16 \/ length p < 16 /\ q = []) -> chunks 16 (p ++ q) = p :: chunks 16 q.
  Proof.
    intros A [B|[B ->]]; [apply chunks_app; [lia|exact B]|]. rewrite app_nil_r, chunks_eq; [|lia|destruct p; [cbn in A; lia|discriminate]].
    rewrite firstn_all2, skipn_all2 by lia. reflexivity.
  Qed.
  Lemma mem_loop_spec : forall fuel len pin pout mem y buf, len < fuel -> length buf = 16 -> pin + len <= length mem -> pout + len <= length mem ->
    exists p ok y' buf' out mem', length p = len /\ floop (chunks 16 p) y buf = (ok, y', buf', out) /\
      mem_loop fuel pin pout len mem y buf = Some (ok, y', buf', mem') /\ length out <= len /\ (ok = true -> length out = len) /\
      patched mem pout out mem' /\ forall j, j < len -> get p j = seen mem pin pout out j.
  Proof.
    induction fuel as [|fuel IH]; intros len pin pout mem y buf F B I O; [lia|]. cbn [OverlapModel.mem_loop].
    destruct (Nat.eqb_spec len 0) as [->|Q].
    - exists [], true, y, buf, [], mem. repeat split; try reflexivity; try lia.
      intro x. cbn [length]. destruct (Nat.leb_spec pout x), (Nat.ltb_spec x (pout + 0)); cbn [andb]; reflexivity || lia.
    - set (u := if len <? 16 then len else 16). assert (U : 1 <= u <= 16 /\ u <= len /\ (u = 16 \/ u < 16 /\ len - u = 0)).
      { unfold u. destruct (Nat.ltb_spec len 16); lia. }
      destruct (stream (ctr_incr y)) as [e|] eqn:Es.
      + destruct (byte_loop_spec e pin pout mem buf B u) as (p1 & m1 & L1 & E1 & P1 & S1); [lia|lia|lia|]. rewrite E1. cbn [bind].
        pose proof P1 as [PL PG]. set (o1 := combined e p1) in *. assert (Lo : length o1 = u) by (unfold o1; now rewrite length_combined).
        destruct (IH (len - u) (pin + u) (pout + u) m1 (ctr_incr y) (mult (xor_into buf (hashed p1 o1)))) as (p2 & ok & y' & b' & o2 & m2 & L2 & F2 & E2 & G2 & H2 & P2 & S2); try lia.
        { apply mult16. rewrite length_xor_into; [exact B|]. unfold hashed. destruct d; lia. }
        exists (p1 ++ p2), ok, y', b', (o1 ++ o2), m2. split; [rewrite app_length; lia|]. split; [|split; [exact E2|split; [rewrite app_length; lia|split]]].
        * rewrite chunks16_cons; [|lia|]. 2:{ destruct U as (_ & _ & [U|[U V]]); [left; lia|right; split; [lia|]]. destruct p2; [reflexivity|cbn in L2; lia]. }
          cbn [floop]. rewrite Es. fold o1. rewrite F2. reflexivity.
        * intro T. rewrite app_length. specialize (H2 T). lia.
        * split; [apply (patched_app _ _ _ _ m1); [exact P1|now rewrite Lo]|]. intros j J. destruct (Nat.lt_ge_cases j u) as [A|A].
          -- unfold get at 1. rewrite app_nth1 by lia. fold (get p1 j). rewrite S1 by exact A. unfold seen. rewrite app_length.
             destruct (Nat.ltb_spec pin pout), (Nat.leb_spec pout (pin + j)); cbn [andb]; try reflexivity.
             destruct (Nat.ltb_spec (pin + j - pout) (length o1)); [|lia]. destruct (Nat.ltb_spec (pin + j - pout) (length o1 + length o2)); [|lia].
             unfold get. rewrite app_nth1 by lia. reflexivity.
          -- unfold get at 1. rewrite app_nth2 by lia. fold (get p2 (j - length p1)). rewrite L1, S2 by lia. unfold seen. rewrite app_length.
             rewrite PG. replace (pin + u + (j - u)) with (pin + j) by lia.
             destruct (Nat.ltb_spec (pin + u) (pout + u)) as [C|C], (Nat.ltb_spec pin pout) as [C'|C']; try lia; cbn [andb].
             ++ destruct (Nat.leb_spec (pout + u) (pin + j)) as [D|D]; cbn [andb].
                ** destruct (Nat.leb_spec pout (pin + j)); [|lia]. cbn [andb].
                   destruct (Nat.ltb_spec (pin + j - (pout + u)) (length o2)) as [G|G], (Nat.ltb_spec (pin + j - pout) (length o1 + length o2)) as [G'|G']; try lia.
                   --- unfold get. rewrite app_nth2 by lia. f_equal. lia.
                   --- destruct (Nat.ltb_spec (pin + j) (pout + length o1)); [lia|]. reflexivity.
                ** destruct (Nat.leb_spec pout (pin + j)) as [G|G]; cbn [andb]; [|reflexivity].
                   destruct (Nat.ltb_spec (pin + j) (pout + length o1)); [|lia]. destruct (Nat.ltb_spec (pin + j - pout) (length o1 + length o2)); [|lia].
                   unfold get. rewrite app_nth1 by lia. reflexivity.
             ++ destruct (Nat.ltb_spec (pin + j) (pout + length o1)); [lia|]. now rewrite andb_false_r.
      + exists (slice mem pin len), false, (ctr_incr y), buf, [], mem. split; [now apply length_slice|].
        split; [|split; [reflexivity|split; [cbn; lia|split; [discriminate|split; [apply patched_nil|]]]]].
        * rewrite chunks_eq; [|lia|].
          2:{ intro Z. apply (f_equal (@length N)) in Z. rewrite length_slice in Z by exact I. cbn in Z. lia. }
          cbn [floop]. now rewrite Es.
        * intros j J. rewrite get_slice by exact J. unfold seen. cbn [length]. destruct (Nat.ltb_spec (pin + j - pout) 0); [lia|]. now rewrite !andb_false_r.
  Qed.
  Lemma floop_len : forall cs y buf, let '(ok, _, _, o) := floop cs y buf in length o <= length (concat cs) /\ (ok = true -> length o = length (concat cs)).
  Proof.
    induction cs as [|p cs IH]; intros y buf; cbn [floop]; [split; reflexivity|]. destruct (stream (ctr_incr y)) as [e|]; [|split; [cbn; lia|discriminate]].
    specialize (IH (ctr_incr y) (mult (xor_into buf (hashed p (combined e p))))).
    destruct (floop cs _ _) as [[[ok y'] b'] o]. destruct IH as [A B]. cbn [concat]. rewrite !app_length, length_combined. split; [lia|]. intro T. specialize (B T). lia.
  Qed.
End Loop.
