(** * Proofs about overlapping buffers: GCM *)
From Verif Require Import Base CbcModel CbcSpec GcmModel WbgcmModel CbcProofs OverlapModel OverlapProofs FileExact.
Local Open Scope nat_scope.

Definition xcomb : nat -> N -> N -> N := fun _ e x => N.lxor e x.
Lemma combined_xor e p : length p <= length e -> combined xcomb e p = xorl (firstn (length p) e) p.
Proof.
  intro L. assert (F : length (firstn (length p) e) = length p) by (rewrite firstn_length; lia).
  apply list_get_ext; [rewrite length_combined, length_xorl, F; lia|]. intros j J. rewrite length_combined in J. rewrite get_xorl by exact F.
  unfold combined, get. rewrite (nth_indep _ 0%N (xcomb 0 (nth 0 e 0%N) (nth 0 p 0%N))) by (rewrite map_length, seq_length; exact J).
  rewrite (map_nth (fun i => xcomb i (nth i e 0%N) (nth i p 0%N)) (seq 0 (length p)) 0 j), seq_nth by exact J. cbn [Nat.add]. unfold xcomb.
  rewrite nth_firstn. destruct (Nat.ltb_spec j (length p)); [reflexivity|lia].
Qed.
Lemma length_incr y : length y = 16 -> length (ctr_incr y) = 16.
Proof. intro L. unfold ctr_incr, ctr_incr_from. repeat (cbn [ctr_incr_from]; rewrite ?length_set; try destruct (_ =? _)%N). all: trivial. Qed.
Lemma crypt_loop_floop blk HH HL d : (forall b e, length b = 16 -> blk b = Some e -> length e = 16) -> forall cs y buf out, length y = 16 -> Forall (fun p : list N => length p <= 16) cs ->
  crypt_loop blk HH HL d cs y buf out = (let '(ok, y', b', o) := floop blk xcomb (gcm_mult HH HL) d cs y buf in (ok, y', b', out ++ o)).
Proof.
  intros B. induction cs as [|p cs IH]; intros y buf out Y F; cbn [crypt_loop floop]; [now rewrite app_nil_r|].
  apply Forall_cons_iff in F. destruct F as [F1 F2]. destruct (blk (ctr_incr y)) as [e|] eqn:E; [|now rewrite app_nil_r].
  rewrite combined_xor by (rewrite (B _ _ (length_incr _ Y) E); exact F1). unfold hashed. rewrite IH by (exact F2 || now apply length_incr).
  destruct (floop _ _ _ _ cs _ _) as [[[ok y'] b'] o]. now rewrite app_assoc.
Qed.
Lemma wbgcm_loop_floop k HH HL d : forall cs y buf out,
  wbgcm_loop k HH HL d cs y buf out = (let '(_, y', b', o) := floop (fun y => Some (wb_ectr k y)) (k_x k) (gcm_mult HH HL) d cs y buf in (y', b', out ++ o)).
Proof.
  induction cs as [|p cs IH]; intros y buf out; cbn [wbgcm_loop floop]; [now rewrite app_nil_r|].
  unfold hashed, combined. rewrite IH. destruct (floop _ _ _ _ cs _ _) as [[[ok y'] b'] o]. now rewrite app_assoc.
Qed.
Lemma chunks16_le (l : list N) : Forall (fun p : list N => length p <= 16) (chunks 16 l).
Proof.
  remember (length l) as n eqn:E. revert l E. induction n as [n IH] using lt_wf_ind. intros l E. destruct l as [|x l]; [constructor|].
  rewrite chunks_eq by (discriminate || lia). constructor; [rewrite firstn_length; lia|]. apply (IH (length (skipn 16 (x :: l)))); [|reflexivity].
  rewrite skipn_length. subst n. cbn [length]. lia.
Qed.
Local Opaque gcm_mult.

Lemma gcm_mem_general d blk c mem pin n pout outlen :
  (forall b e, length b = 16 -> blk b = Some e -> length e = 16) -> length (g_y c) = 16 -> length (g_buf c) = 16 -> n <= outlen -> (N.of_nat n <= 2147483647)%N ->
  pin + n <= length mem -> pout + n <= length mem ->
  exists m, length m = n /\
    let '(ok, c', out) := gcm_crypt d blk c m outlen in
    gcm_crypt_mem d blk c mem pin n pout outlen = Some (ok, c', patch mem pout out) /\
    length out <= n /\ forall j, j < n -> get m j = seen mem pin pout out j.
Proof.
  intros B Y G O I A A'. unfold gcm_crypt_mem.
  assert (C : c_int (N.of_nat n) = Z.of_nat n).
  { rewrite c_int_small by exact I. apply nat_N_Z. }
  destruct (mem_loop_spec blk xcomb (gcm_mult (g_HH c) (g_HL c)) d (fun b _ => gcm_mult_len _ _ b) (S n) n pin pout mem (g_y c) (g_buf c))
    as (m & ok & y' & b' & out & mem' & L & F & E & Lo & _ & P & S); try assumption; [lia|].
  exists m. split; [exact L|]. unfold gcm_crypt. rewrite L. destruct (Nat.ltb_spec outlen n); [lia|]. rewrite C, Nat2Z.id. cbv zeta.
  rewrite firstn_all2 by lia. rewrite crypt_loop_floop by (exact B || exact Y || apply chunks16_le). rewrite F. cbn [app].
  fold xcomb. rewrite E. cbn [bind]. split; [|split; [exact Lo|exact S]]. f_equal. f_equal. apply patched_patch; [lia|exact P].
Qed.
Lemma wbgcm_mem_general d k c mem pin n pout outlen :
  length (g_buf c) = 16 -> n <= outlen -> (N.of_nat n <= 2147483647)%N ->
  pin + n <= length mem -> pout + n <= length mem ->
  exists m, length m = n /\
    let '(r, c', out) := wbgcm_crypt d k c m outlen in
    wbgcm_crypt_mem d k c mem pin n pout outlen = Some (r, c', patch mem pout out) /\
    length out <= n /\ forall j, j < n -> get m j = seen mem pin pout out j.
Proof.
  intros G O I A A'. unfold wbgcm_crypt_mem.
  assert (C : c_int (N.of_nat n) = Z.of_nat n).
  { rewrite c_int_small by exact I. apply nat_N_Z. }
  destruct (mem_loop_spec (fun y => Some (wb_ectr k y)) (k_x k) (gcm_mult (g_HH c) (g_HL c)) d (fun b _ => gcm_mult_len _ _ b) (S n) n pin pout mem (g_y c) (g_buf c))
    as (m & ok & y' & b' & out & mem' & L & F & E & Lo & _ & P & S); try assumption; [lia|].
  exists m. split; [exact L|]. unfold wbgcm_crypt. rewrite L. destruct (Nat.ltb_spec outlen n); [lia|]. rewrite C, Nat2Z.id. cbv zeta.
  rewrite firstn_all2 by lia. rewrite wbgcm_loop_floop. rewrite F. cbn [app].
  rewrite E. cbn [bind]. split; [|split; [exact Lo|exact S]]. f_equal. f_equal. apply patched_patch; [lia|exact P].
Qed.
Lemma seen_safe mem pin pout o n m : length m = n -> pin + n <= length mem -> pout <= pin \/ pin + n <= pout ->
  (forall j, j < n -> get m j = seen mem pin pout o j) -> m = slice mem pin n.
Proof.
  intros L A S H. apply list_get_ext; [now rewrite length_slice|]. intros j J. rewrite L in J. rewrite H, get_slice by exact J. unfold seen.
  destruct (Nat.ltb_spec pin pout), (Nat.leb_spec pout (pin + j)); cbn [andb]; reflexivity || lia.
Qed.
Lemma gcm_mem_safe d blk c mem pin n pout outlen :
  (forall b e, length b = 16 -> blk b = Some e -> length e = 16) -> length (g_y c) = 16 -> length (g_buf c) = 16 -> n <= outlen -> (N.of_nat n <= 2147483647)%N ->
  pin + n <= length mem -> pout + n <= length mem -> pout <= pin \/ pin + n <= pout ->
  gcm_crypt_mem d blk c mem pin n pout outlen = (let '(ok, c', out) := gcm_crypt d blk c (slice mem pin n) outlen in Some (ok, c', patch mem pout out)).
Proof.
  intros B Y G O I A A' S. destruct (gcm_mem_general d blk c mem pin n pout outlen B Y G O I A A') as (m & L & H).
  destruct (gcm_crypt d blk c m outlen) as [[ok c'] out] eqn:E. destruct H as (H & _ & K).
  rewrite (seen_safe mem pin pout out n m L A S K) in E. now rewrite E.
Qed.
Lemma wbgcm_mem_safe d k c mem pin n pout outlen :
  length (g_buf c) = 16 -> n <= outlen -> (N.of_nat n <= 2147483647)%N ->
  pin + n <= length mem -> pout + n <= length mem -> pout <= pin \/ pin + n <= pout ->
  wbgcm_crypt_mem d k c mem pin n pout outlen = (let '(r, c', out) := wbgcm_crypt d k c (slice mem pin n) outlen in Some (r, c', patch mem pout out)).
Proof.
  intros G O I A A' S. destruct (wbgcm_mem_general d k c mem pin n pout outlen G O I A A') as (m & L & H).
  destruct (wbgcm_crypt d k c m outlen) as [[ok c'] out] eqn:E. destruct H as (H & _ & K).
  rewrite (seen_safe mem pin pout out n m L A S K) in E. now rewrite E.
Qed.

(** ** When the output starts inside the input *)
(** the key stream does not depend on the data *)
Lemma floop_stream E HH HL d : (forall b, length b = 16 -> length (E b) = 16) -> forall k y, length y = 16 -> exists ks, length ks = 16 * k /\
  forall cs buf, length cs = k -> Forall (fun p : list N => length p <= 16) cs -> Forall (fun p : list N => length p = 16) (removelast cs) ->
  exists y' b', floop (lift E) xcomb (gcm_mult HH HL) d cs y buf = (true, y', b', xorl (firstn (length (concat cs)) ks) (concat cs)).
Proof.
  intro LE. induction k as [|k IH]; intros y Y.
  - exists []. split; [reflexivity|]. intros cs buf L _ _. destruct cs; [|discriminate]. exists y, buf. reflexivity.
  - destruct (IH (ctr_incr y) (length_incr y Y)) as (ks & Lk & H). assert (LEy : length (E (ctr_incr y)) = 16) by now apply LE, length_incr. exists (E (ctr_incr y) ++ ks). split; [rewrite app_length, LEy, Lk; lia|].
    intros cs buf L F R. destruct cs as [|p cs]; [discriminate|]. injection L as L. apply Forall_cons_iff in F. destruct F as [F1 F2].
    cbn [floop]. unfold lift at 1. assert (R2 : Forall (fun p : list N => length p = 16) (removelast cs)).
    { destruct cs as [|q cs]; [constructor|]. change (removelast (p :: q :: cs)) with (p :: removelast (q :: cs)) in R. now apply Forall_cons_iff in R. }
    destruct (H cs (gcm_mult HH HL (xor_into buf (hashed d p (combined xcomb (E (ctr_incr y)) p)))) L F2 R2) as (y' & b' & Q). rewrite Q. exists y', b'. f_equal.
    rewrite combined_xor by (rewrite LEy; exact F1). cbn [concat]. rewrite app_length. destruct cs as [|q cs].
    + cbn [concat length app]. rewrite xorl_nil_r, !app_nil_r, Nat.add_0_r. f_equal. rewrite firstn_app, LEy. replace (length p - 16) with 0 by lia. cbn [firstn]. now rewrite app_nil_r.
    + change (removelast (p :: q :: cs)) with (p :: removelast (q :: cs)) in R. apply Forall_cons_iff in R. destruct R as [R1 _].
      rewrite R1. rewrite (firstn_app (16 + _)), LEy. replace (16 + length (concat (q :: cs)) - 16) with (length (concat (q :: cs))) by lia.
      rewrite (firstn_all2 (n := 16 + _)) by (rewrite LEy; lia). rewrite (firstn_all2 (n := 16)) by (rewrite LEy; lia). rewrite xorl_app by (rewrite LEy; now symmetry). reflexivity.
Qed.
Lemma chunks16_removelast (l : list N) : Forall (fun p : list N => length p = 16) (removelast (chunks 16 l)).
Proof.
  remember (length l) as n eqn:E. revert l E. induction n as [n IH] using lt_wf_ind. intros l E. destruct l as [|x l]; [constructor|].
  rewrite chunks_eq by (discriminate || lia). destruct (Nat.le_gt_cases (length (x :: l)) 16) as [A|A].
  - rewrite skipn_all2 by exact A. constructor.
  - assert (Q : chunks 16 (skipn 16 (x :: l)) <> []).
    { rewrite chunks_eq; [discriminate|lia|]. intro Z. apply (f_equal (@length N)) in Z. rewrite skipn_length in Z. cbn [length] in *. lia. }
    destruct (chunks 16 (skipn 16 (x :: l))) as [|q r] eqn:C; [congruence|].
    change (removelast (firstn 16 (x :: l) :: q :: r)) with (firstn 16 (x :: l) :: removelast (q :: r)). constructor; [rewrite firstn_length; lia|].
    rewrite <- C. apply (IH (length (skipn 16 (x :: l)))); [|reflexivity]. rewrite skipn_length. subst n. cbn [length]. lia.
Qed.
Lemma length_chunks16 (l l' : list N) : length l = length l' -> length (chunks 16 l) = length (chunks 16 l').
Proof.
  remember (length l) as n eqn:E. revert l l' E. induction n as [n IH] using lt_wf_ind. intros l l' E E'.
  destruct l as [|x l], l' as [|x' l']; cbn [length] in *; [reflexivity|lia|lia|]. rewrite (chunks_eq 16 (x :: l)), (chunks_eq 16 (x' :: l')) by (discriminate || lia). cbn [length]. f_equal.
  apply (IH (length (skipn 16 (x :: l)))); [rewrite skipn_length; cbn [length]; lia|reflexivity|rewrite !skipn_length; cbn [length]; lia].
Qed.
Lemma gcm_keystream E d c n : (forall b, length b = 16 -> length (E b) = 16) -> length (g_y c) = 16 -> (N.of_nat n <= 2147483647)%N -> exists ks, length ks = n /\
  forall m outlen, length m = n -> n <= outlen -> exists c', gcm_crypt d (lift E) c m outlen = (true, c', xorl ks m).
Proof.
  intros LE Y I. destruct (floop_stream E (g_HH c) (g_HL c) d LE (length (chunks 16 (repeat 0%N n))) (g_y c) Y) as (ks & Lk & H).
  assert (Ln : n <= length ks).
  { rewrite Lk. pose proof (concat_chunks 16 (repeat 0%N n) ltac:(lia)) as Q. apply (f_equal (@length N)) in Q. rewrite repeat_length in Q.
    rewrite <- Q at 1. pose proof (chunks16_le (repeat 0%N n)) as F. generalize dependent (chunks 16 (repeat 0%N n)). intros cs _ _ _ F.
    induction cs as [|p cs IHc]; [cbn; lia|]. apply Forall_cons_iff in F. destruct F as [F1 F2]. cbn [concat length]. rewrite app_length. specialize (IHc F2). lia. }
  exists (firstn n ks). split; [rewrite firstn_length; lia|]. intros m outlen L O. unfold gcm_crypt. rewrite L. destruct (Nat.ltb_spec outlen n); [lia|].
  assert (C : c_int (N.of_nat n) = Z.of_nat n).
  { rewrite c_int_small by exact I. apply nat_N_Z. }
  rewrite C, Nat2Z.id, firstn_all2 by lia. cbv zeta. rewrite crypt_loop_floop; [|intros b e Lb Q; injection Q as <-; now apply LE|exact Y|apply chunks16_le].
  destruct (H (chunks 16 m) (g_buf c)) as (y' & b' & Q); [apply length_chunks16; now rewrite repeat_length|apply chunks16_le|apply chunks16_removelast|].
  rewrite Q, concat_chunks, L by lia. eexists. reflexivity.
Qed.
(** the result is the one for separate buffers exactly when every byte that is overwritten before it is read already
    held what is written there *)
Lemma patch_inj mem a o o' : length o = length o' -> a + length o <= length mem -> patch mem a o = patch mem a o' -> o = o'.
Proof.
  intros L A E. apply list_get_ext; [exact L|]. intros j J. pose proof (f_equal (fun l => get l (a + j)) E) as H. cbv beta in H.
  rewrite !get_patch in H by lia. destruct (Nat.leb_spec a (a + j)); [|lia]. destruct (Nat.ltb_spec (a + j) (a + length o)); [|lia].
  destruct (Nat.ltb_spec (a + j) (a + length o')); [|lia]. cbn [andb] in H. replace (a + j - a) with j in H by lia. exact H.
Qed.
Lemma xorl_inj ks a b : length ks = length a -> length a = length b -> xorl ks a = xorl ks b -> a = b.
Proof. intros A B E. rewrite <- (xorl_cancel_l ks a), <- (xorl_cancel_l ks b) by lia. now rewrite E. Qed.
Lemma gcm_mem_inside E d c mem pin n pout outlen : (forall b, length b = 16 -> length (E b) = 16) -> length (g_y c) = 16 -> length (g_buf c) = 16 -> n <= outlen -> (N.of_nat n <= 2147483647)%N ->
  pin + n <= length mem -> pout + n <= length mem -> pin < pout ->
  let '(_, _, out) := gcm_crypt d (lift E) c (slice mem pin n) outlen in
  (exists c', gcm_crypt_mem d (lift E) c mem pin n pout outlen = Some (true, c', patch mem pout out)) <->
  (forall j, pout - pin <= j < n -> get mem (pin + j) = get out (j - (pout - pin))).
Proof.
  intros LE Y G O I A A' S. destruct (gcm_keystream E d c n LE Y I) as (ks & Lk & K).
  destruct (K (slice mem pin n) outlen (length_slice _ _ _ A) O) as (c1 & E1). rewrite E1.
  destruct (gcm_mem_general d (lift E) c mem pin n pout outlen) as (m & L & H); try assumption; [intros b e Lb Q; injection Q as <-; now apply LE|].
  destruct (K m outlen L O) as (c2 & E2). rewrite E2 in H. destruct H as (H & Lx & Hs). rewrite H.
  assert (X : forall l, length l = n -> length (xorl ks l) = n) by (intros l Ll; rewrite length_xorl; lia).
  assert (V : forall j, j < n -> get m j = if pout - pin <=? j then get (xorl ks m) (j - (pout - pin)) else get mem (pin + j)).
  { intros j J. rewrite Hs by exact J. unfold seen. destruct (Nat.ltb_spec pin pout); [|lia]. rewrite X by exact L. cbn [andb].
    destruct (Nat.leb_spec pout (pin + j)), (Nat.leb_spec (pout - pin) j); try lia; cbn [andb]; [|reflexivity].
    destruct (Nat.ltb_spec (pin + j - pout) n); [|lia]. f_equal. lia. }
  split.
  - intros (c' & Q) j J. injection Q as _ Q. apply patch_inj in Q; [|rewrite !X by (exact L || now apply length_slice); reflexivity|rewrite X by exact L; exact A'].
    apply xorl_inj in Q; [|lia|rewrite L; symmetry; now apply length_slice]. rewrite <- Q. rewrite <- (get_slice mem pin n j), <- Q by lia. rewrite V by lia.
    destruct (Nat.leb_spec (pout - pin) j); [reflexivity|lia].
  - intro Q. exists c2. assert (M : m = slice mem pin n).
    { apply list_get_ext; [rewrite L; symmetry; now apply length_slice|]. intros j. rewrite L. induction j as [j IH] using lt_wf_ind. intro J.
      rewrite V, get_slice by exact J. destruct (Nat.leb_spec (pout - pin) j) as [B|B]; [|reflexivity]. rewrite Q by lia.
      rewrite !get_xorl by (rewrite ?length_slice; lia). f_equal. apply IH; lia. }
    now rewrite <- M.
Qed.
Lemma gcm_mem_inside_wrong E d c pin n pout outlen L : (forall b, length b = 16 -> length (E b) = 16) -> length (g_y c) = 16 -> length (g_buf c) = 16 -> n <= outlen -> (N.of_nat n <= 2147483647)%N ->
  pin < pout -> pout < pin + n -> pout + n <= L ->
  exists mem, length mem = L /\ bytes mem /\ exists c' mem', gcm_crypt_mem d (lift E) c mem pin n pout outlen = Some (true, c', mem') /\
    let '(ok, _, out) := gcm_crypt d (lift E) c (slice mem pin n) outlen in ok = true /\ mem' <> patch mem pout out.
Proof.
  intros LE Y G O I A B C. destruct (gcm_keystream E d c n LE Y I) as (ks & Lk & K).
  set (v := (if get ks 0 =? 0 then 1 else 0)%N). exists (set (repeat 0%N L) pout v).
  assert (Lm : length (set (repeat 0%N L) pout v) = L) by (rewrite length_set; apply repeat_length).
  assert (Gm : forall x, x < L -> get (set (repeat 0%N L) pout v) x = if x =? pout then v else 0%N).
  { intros x X. unfold get. rewrite nth_set, repeat_length. destruct (Nat.eqb_spec x pout) as [->|]; cbn [andb].
    - destruct (Nat.ltb_spec pout L); [reflexivity|lia].
    - apply nth_repeat. }
  split; [exact Lm|]. split; [apply bytes_set; [apply bytes_repeat; reflexivity|unfold v; destruct (_ =? _)%N; reflexivity]|].
  set (mem := set (repeat 0%N L) pout v) in *. clearbody mem.
  destruct (gcm_mem_general d (lift E) c mem pin n pout outlen) as (m & Lm' & H); try assumption; try lia; [intros b e Lb Q; injection Q as <-; now apply LE|].
  destruct (K m outlen Lm' O) as (c2 & E2). rewrite E2 in H. destruct H as (H & _ & _). exists c2, (patch mem pout (xorl ks m)). split; [exact H|].
  pose proof (gcm_mem_inside E d c mem pin n pout outlen LE Y G O I ltac:(lia) ltac:(lia) A) as J.
  destruct (K (slice mem pin n) outlen ltac:(apply length_slice; lia) O) as (c1 & E1). rewrite E1 in J |- *. split; [reflexivity|]. intro Q.
  rewrite Q in H. destruct J as [J _]. specialize (J (ex_intro _ c2 H) (pout - pin) ltac:(lia)). rewrite Nat.sub_diag in J.
  rewrite get_xorl in J by (rewrite length_slice; lia). rewrite get_slice in J by lia. rewrite !Gm in J by lia.
  replace (pin + (pout - pin)) with pout in J by lia. rewrite Nat.eqb_refl in J. destruct (Nat.eqb_spec (pin + 0) pout); [lia|]. rewrite N.lxor_0_r in J.
  unfold v in J. destruct (N.eqb_spec (get ks 0) 0); congruence.
Qed.
