(** * Proofs about overlapping buffers: CBC *)
From Verif Require Import Base CbcModel CbcSpec CbcProofs GcmModel OverlapModel OverlapProofs.
Local Open Scope nat_scope.

Lemma read_slice mem a n : a + n <= length mem -> read_at mem a n = Some (slice mem a n).
Proof. intro H. unfold read_at. destruct (Nat.leb_spec (a + n) (length mem)); [reflexivity|lia]. Qed.
Lemma write_patch mem a v : a + length v <= length mem -> write_at mem a v = Some (patch mem a v).
Proof. intro H. unfold write_at. destruct (Nat.leb_spec (a + length v) (length mem)); [reflexivity|lia]. Qed.
Lemma slice_other mem a o x n : a + length o <= length mem -> x + n <= length mem -> x + n <= a \/ a + length o <= x -> slice (patch mem a o) x n = slice mem x n.
Proof.
  intros A X D. apply list_get_ext; [rewrite !length_slice by (rewrite ?length_patch; lia); reflexivity|]. intros j J.
  rewrite length_slice in J by (rewrite length_patch; lia). rewrite !get_slice, get_patch by lia.
  destruct (Nat.leb_spec a (x + j)), (Nat.ltb_spec (x + j) (a + length o)); cbn [andb]; reflexivity || lia.
Qed.
Lemma slice_within mem a o k n : a + length o <= length mem -> k + n <= length o -> slice (patch mem a o) (a + k) n = slice o k n.
Proof.
  intros A X. apply list_get_ext; [rewrite !length_slice by (rewrite ?length_patch; lia); reflexivity|]. intros j J.
  rewrite length_slice in J by (rewrite length_patch; lia). rewrite !get_slice, get_patch by lia.
  destruct (Nat.leb_spec a (a + k + j)), (Nat.ltb_spec (a + k + j) (a + length o)); cbn [andb]; try lia. f_equal. lia.
Qed.
Lemma slice_all (o : list N) : slice o 0 (length o) = o.
Proof. unfold slice. cbn [skipn]. apply firstn_all. Qed.
Lemma patch_app mem a o1 o2 : a + length o1 + length o2 <= length mem -> patch (patch mem a o1) (a + length o1) o2 = patch mem a (o1 ++ o2).
Proof.
  intro A. apply list_get_ext; [rewrite !length_patch by (rewrite ?length_patch, ?app_length; lia); reflexivity|]. intros j _.
  rewrite !get_patch, app_length by (rewrite ?length_patch, ?app_length; lia).
  destruct (Nat.leb_spec (a + length o1) j) as [B|B], (Nat.ltb_spec j (a + length o1 + length o2)) as [C|C]; cbn [andb].
  - destruct (Nat.leb_spec a j); [|lia]. destruct (Nat.ltb_spec j (a + (length o1 + length o2))); [|lia]. cbn [andb]. unfold get. rewrite app_nth2 by lia. f_equal. lia.
  - destruct (Nat.ltb_spec j (a + length o1)); [lia|]. destruct (Nat.ltb_spec j (a + (length o1 + length o2))); [lia|]. now rewrite !andb_false_r.
  - destruct (Nat.leb_spec a j); cbn [andb]; [|reflexivity]. destruct (Nat.ltb_spec j (a + length o1)); [|lia].
    destruct (Nat.ltb_spec j (a + (length o1 + length o2))); [|lia]. unfold get. rewrite app_nth1 by lia. reflexivity.
  - lia.
Qed.
Lemma patch_over mem a o o' : length o = length o' -> a + length o <= length mem -> patch (patch mem a o) a o' = patch mem a o'.
Proof.
  intros L A. apply list_get_ext; [rewrite !length_patch by (rewrite ?length_patch; lia); reflexivity|]. intros j _.
  rewrite !get_patch, L by (rewrite ?length_patch; lia). destruct (_ && _); reflexivity.
Qed.
(** the first and the second half of what was written *)
Lemma patch_8 mem a t o : length t = 16 -> length o = 8 -> a + 16 <= length mem -> patch (patch mem a t) a o = patch mem a (o ++ slice t 8 8).
Proof.
  intros T O A. assert (S8 : length (slice t 8 8) = 8) by (apply length_slice; lia).
  apply list_get_ext; [rewrite !length_patch by (rewrite ?length_patch, ?app_length; lia); reflexivity|]. intros j _.
  rewrite !get_patch, app_length, S8, T, O by (rewrite ?length_patch, ?app_length; lia).
  destruct (Nat.leb_spec a j); cbn [andb]; [|reflexivity]. destruct (Nat.ltb_spec j (a + 8)).
  - destruct (Nat.ltb_spec j (a + (8 + 8))); [|lia]. unfold get. rewrite app_nth1 by lia. reflexivity.
  - change (8 + 8) with 16. destruct (Nat.ltb_spec j (a + 16)); [|reflexivity].
    unfold get. rewrite app_nth2 by lia. change (nth (j - a - length o) (slice t 8 8) 0%N) with (get (slice t 8 8) (j - a - length o)). rewrite get_slice by lia. unfold get. f_equal. lia.
Qed.
Lemma patch_8_8 mem a o1 h o2 : length o1 = 8 -> length h = 8 -> length o2 = 8 -> a + 16 <= length mem -> patch (patch mem a (o1 ++ h)) (a + 8) o2 = patch mem a (o1 ++ o2).
Proof.
  intros O1 H O2 A. rewrite <- (patch_app mem a o1 h), <- (patch_app mem a o1 o2) by lia. rewrite O1. apply patch_over; [lia|rewrite length_patch; lia].
Qed.
Lemma slice_split (t : list N) a : a + 16 <= length t -> slice t a 16 = slice t a 8 ++ slice t (a + 8) 8.
Proof.
  intro A. apply list_get_ext; [rewrite app_length, !length_slice by lia; reflexivity|]. intros j J. rewrite length_slice in J by lia. rewrite get_slice by lia. unfold get.
  destruct (Nat.lt_ge_cases j 8).
  - rewrite app_nth1 by (rewrite length_slice; lia). symmetry. apply get_slice. lia.
  - rewrite app_nth2; rewrite length_slice by lia; [|lia]. symmetry. etransitivity; [apply get_slice; lia|]. unfold get. f_equal. lia.
Qed.
Lemma slice_app_l (o h : list N) : slice (o ++ h) 0 (length o) = o.
Proof. unfold slice. cbn [skipn]. now rewrite firstn_app, Nat.sub_diag, firstn_all, app_nil_r. Qed.
Lemma slice_app_r (o h : list N) : slice (o ++ h) (length o) (length h) = h.
Proof. unfold slice. now rewrite skipn_app, Nat.sub_diag, skipn_all, firstn_all. Qed.

(** ** Decryption: the two words of a block *)
Definition zero16 : list N := repeat 0%N 16.
Lemma xorl_self (a : list N) : xorl a a = repeat 0%N (length a).
Proof. induction a as [|x a IH]; [reflexivity|]. cbn. now rewrite N.lxor_nilpotent, <- IH. Qed.
Lemma dec_words_apart mem pout iv t : length t = 16 -> pout + 16 <= length mem -> iv + 16 <= length mem -> iv + 16 <= pout \/ pout + 16 <= iv ->
  bind (dec_word_mem pout iv 0 (patch mem pout t)) (fun m => dec_word_mem pout iv 8 m) = Some (patch mem pout (xorl t (slice mem iv 16))).
Proof.
  intros T A I D. unfold dec_word_mem. rewrite !Nat.add_0_r.
  assert (S0 : length (slice t 0 8) = 8) by (apply length_slice; lia). assert (S8 : length (slice t 8 8) = 8) by (apply length_slice; lia).
  assert (V0 : length (slice mem iv 8) = 8) by (apply length_slice; lia). assert (V8 : length (slice mem (iv + 8) 8) = 8) by (apply length_slice; lia).
  rewrite (read_slice (patch mem pout t) pout 8) by (rewrite length_patch; lia). cbn [bind].
  rewrite (read_slice (patch mem pout t) iv 8) by (rewrite length_patch; lia). cbn [bind].
  pose proof (slice_within mem pout t 0 8 ltac:(lia) ltac:(lia)) as W. rewrite Nat.add_0_r in W. rewrite W. clear W.
  rewrite (slice_other mem pout t iv 8) by lia.
  rewrite write_patch by (rewrite length_patch, length_xorl; lia). cbn [bind]. rewrite patch_8 by (rewrite ?length_xorl; lia).
  assert (X : length (xorl (slice t 0 8) (slice mem iv 8)) = 8) by (rewrite length_xorl; lia).
  set (o := xorl (slice t 0 8) (slice mem iv 8)) in *.
  rewrite (read_slice _ (pout + 8) 8) by (rewrite length_patch; rewrite ?app_length; lia). cbn [bind].
  rewrite (read_slice _ (iv + 8) 8) by (rewrite length_patch; rewrite ?app_length; lia). cbn [bind].
  rewrite slice_within by (rewrite ?app_length; lia). rewrite slice_other by (rewrite ?app_length; lia).
  pose proof (slice_app_r o (slice t 8 8)) as R. rewrite X, S8 in R. rewrite R. clear R.
  rewrite write_patch by (rewrite length_patch, ?length_xorl; rewrite ?app_length; lia).
  rewrite patch_8_8 by (rewrite ?length_xorl; lia). f_equal. f_equal. rewrite (slice_split mem iv) by lia.
  assert (E : t = slice t 0 8 ++ slice t 8 8) by (rewrite <- (slice_all t) at 1; rewrite T; apply (slice_split t 0); lia).
  rewrite E at 2. rewrite xorl_app by lia. reflexivity.
Qed.
Lemma dec_words_same mem pout t : length t = 16 -> pout + 16 <= length mem ->
  bind (dec_word_mem pout pout 0 (patch mem pout t)) (fun m => dec_word_mem pout pout 8 m) = Some (patch mem pout zero16).
Proof.
  intros T A. unfold dec_word_mem. rewrite !Nat.add_0_r.
  assert (S0 : length (slice t 0 8) = 8) by (apply length_slice; lia). assert (S8 : length (slice t 8 8) = 8) by (apply length_slice; lia).
  rewrite (read_slice (patch mem pout t) pout 8) by (rewrite length_patch; lia). cbn [bind].
  pose proof (slice_within mem pout t 0 8 ltac:(lia) ltac:(lia)) as W. rewrite Nat.add_0_r in W. rewrite W. clear W. rewrite xorl_self, S0.
  rewrite write_patch by (rewrite length_patch, repeat_length; lia). cbn [bind]. rewrite patch_8 by (rewrite ?repeat_length; lia).
  rewrite (read_slice _ (pout + 8) 8) by (rewrite length_patch; rewrite ?app_length, ?repeat_length; lia). cbn [bind].
  rewrite slice_within by (rewrite ?app_length, ?repeat_length; lia). rewrite xorl_self, length_slice by (rewrite app_length, repeat_length; lia).
  rewrite write_patch by (rewrite length_patch, repeat_length; rewrite ?app_length, ?repeat_length; lia).
  rewrite patch_8_8 by (rewrite ?repeat_length; lia). reflexivity.
Qed.
(** ** The loops *)
Section Loops.
  Context (D : list N -> list N) (LD : forall b, length b = 16 -> length (D b) = 16).
  Local Notation dec_out iv c := (cbc_decrypt_bytes D iv c).
  Lemma dec_out_step iv c : 16 <= length c -> dec_out iv c = xorl (D (firstn 16 c)) iv ++ dec_out (firstn 16 c) (skipn 16 c).
  Proof.
    intro L. unfold cbc_decrypt_bytes. rewrite (chunks_eq 16 c); [reflexivity|lia|]. intros ->. cbn in L. lia.
  Qed.
  Lemma dec_out_len : forall k iv c, length c = 16 * k -> length iv = 16 -> length (dec_out iv c) = 16 * k.
  Proof.
    induction k as [|k IH]; intros iv c L I; [destruct c; [reflexivity|discriminate]|]. rewrite dec_out_step by lia.
    rewrite app_length, IH by (rewrite ?skipn_length, ?firstn_length; lia). rewrite length_xorl, LD by (rewrite firstn_length; lia). lia.
  Qed.
  Lemma firstn_slice mem a n m : m <= n -> firstn m (slice mem a n) = slice mem a m.
  Proof. intro H. unfold slice. rewrite firstn_firstn. now rewrite Nat.min_l. Qed.
  Lemma skipn_slice mem a n m : m <= n -> skipn m (slice mem a n) = slice mem (a + m) (n - m).
  Proof. intro H. unfold slice. rewrite skipn_firstn_comm, skipn_skipn_add. reflexivity. Qed.
  Lemma dec_loop_apart : forall k fuel pin pout iv mem, 16 * k < fuel -> pin + 16 * k <= length mem -> pout + 16 * k <= length mem -> iv + 16 <= length mem ->
    iv + 16 <= pout \/ pout + 16 <= iv -> pout + 32 <= pin \/ pin + 16 * k <= pout ->
    dec_loop_mem (lift D) fuel pin pout iv (16 * k) mem =
    Some (true, patch mem pout (dec_out (slice mem iv 16) (slice mem pin (16 * k))), if k =? 0 then iv else pin + 16 * k - 16).
  Proof.
    induction k as [|k IH]; intros fuel pin pout iv mem F A B I V SS; (destruct fuel as [|fuel]; [lia|]); cbn [dec_loop_mem].
    - destruct (Nat.leb_spec 16 (16 * 0)); [lia|]. cbn [Nat.eqb]. change (16 * 0) with 0. do 3 f_equal. change (slice mem pin 0) with (@nil N).
      change (dec_out (slice mem iv 16) []) with (@nil N). unfold patch. cbn [length app]. rewrite Nat.add_0_r. symmetry. apply firstn_skipn.
    - destruct (Nat.leb_spec 16 (16 * S k)); [|lia]. rewrite read_slice by lia. cbn [bind]. unfold lift at 1.
      rewrite write_patch by (rewrite LD by (apply length_slice; lia); lia). cbn [bind]. pose proof (dec_words_apart mem pout iv (D (slice mem pin 16)) (LD (slice mem pin 16) ltac:(apply length_slice; lia)) ltac:(lia) I V) as W.
      destruct (dec_word_mem pout iv 0 _) as [m1|]; cbn [bind] in W |- *; [|discriminate]. rewrite W. cbn [bind].
      set (o := xorl (D (slice mem pin 16)) (slice mem iv 16)). assert (Lo : length o = 16) by (unfold o; rewrite length_xorl, LD, length_slice by (rewrite ?length_slice; lia); lia).
      replace (16 * S k - 16) with (16 * k) by lia. rewrite IH; [|lia|rewrite length_patch; lia|rewrite length_patch; lia|rewrite length_patch; lia|destruct SS; lia|destruct SS; lia].
      rewrite (slice_other mem pout o pin 16) by (destruct SS; lia). rewrite (slice_other mem pout o (pin + 16) (16 * k)) by (destruct SS; lia).
      rewrite (dec_out_step (slice mem iv 16)) by (rewrite length_slice; lia). rewrite firstn_slice by lia. rewrite skipn_slice by lia.
      replace (16 * S k - 16) with (16 * k) by lia. fold o. rewrite <- Lo at 1. rewrite patch_app by (rewrite Lo, (dec_out_len k) by (rewrite length_slice; lia); lia).
      f_equal. f_equal. destruct (Nat.eqb_spec k 0), (Nat.eqb_spec (S k) 0); lia.
  Qed.
  Lemma dec_loop_zero : forall k fuel pout mem, 16 * k < fuel -> pout + 16 + 16 * k <= length mem ->
    dec_loop_mem (lift D) fuel (pout + 16) pout pout (16 * k) mem = Some (true, patch mem pout (repeat 0%N (16 * k)), pout + 16 * k).
  Proof.
    induction k as [|k IH]; intros fuel pout mem F A; (destruct fuel as [|fuel]; [lia|]); cbn [dec_loop_mem].
    - destruct (Nat.leb_spec 16 (16 * 0)); [lia|]. change (16 * 0) with 0. rewrite Nat.add_0_r. cbn [repeat]. do 3 f_equal. unfold patch. cbn [length app]. rewrite Nat.add_0_r. symmetry. apply firstn_skipn.
    - destruct (Nat.leb_spec 16 (16 * S k)); [|lia]. rewrite read_slice by lia. cbn [bind]. unfold lift at 1.
      rewrite write_patch by (rewrite LD by (apply length_slice; lia); lia). cbn [bind]. pose proof (dec_words_same mem pout (D (slice mem (pout + 16) 16)) (LD (slice mem (pout + 16) 16) ltac:(apply length_slice; lia)) ltac:(lia)) as W.
      destruct (dec_word_mem pout pout 0 _) as [m1|]; cbn [bind] in W |- *; [|discriminate]. rewrite W. cbn [bind].
      assert (Lz : length zero16 = 16) by reflexivity.
      replace (16 * S k - 16) with (16 * k) by lia. rewrite IH by (rewrite ?length_patch; lia). f_equal. f_equal; [f_equal|lia].
      replace (16 * S k) with (16 + 16 * k) by lia. rewrite repeat_app. fold zero16. rewrite <- Lz at 1. apply patch_app. rewrite repeat_length. lia.
  Qed.
End Loops.
Lemma last_block_slice mem pin k iv : pin + 16 * S k <= length mem -> last_block iv (slice mem pin (16 * S k)) = slice mem (pin + 16 * k) 16.
Proof.
  unfold last_block. revert pin iv. induction k as [|k IH]; intros pin iv A.
  - rewrite chunks_eq; [|lia|intro Z; apply (f_equal (@length N)) in Z; rewrite length_slice in Z by lia; cbn in Z; lia].
    rewrite skipn_all2 by (rewrite length_slice; lia). change (chunks 16 (@nil N)) with (@nil (list N)). cbn [last]. rewrite firstn_slice by lia. now rewrite Nat.mul_0_r, Nat.add_0_r.
  - rewrite chunks_eq; [|lia|intro Z; apply (f_equal (@length N)) in Z; rewrite length_slice in Z by lia; cbn in Z; lia].
    rewrite skipn_slice by lia. replace (16 * S (S k) - 16) with (16 * S k) by lia.
    assert (Q : chunks 16 (slice mem (pin + 16) (16 * S k)) <> []).
    { rewrite chunks_eq; [discriminate|lia|]. intro Z; apply (f_equal (@length N)) in Z; rewrite length_slice in Z by lia; cbn in Z; lia. }
    specialize (IH (pin + 16) iv ltac:(lia)). destruct (chunks 16 (slice mem (pin + 16) (16 * S k))) as [|q r]; [congruence|]. cbn [last] in IH |- *. rewrite IH. f_equal. lia.
Qed.
Lemma cbc_decrypt_mem_safe D mem pin n pout max_olen piv : (forall b, length b = 16 -> length (D b) = 16) -> n mod 16 = 0 -> 0 < n -> n <= max_olen ->
  pin + n <= length mem -> pout + n <= length mem -> piv + 16 <= length mem ->
  pout + 32 <= pin \/ pin + n <= pout -> piv + 16 <= pout \/ pout + n <= piv -> piv + 16 <= pin + n - 16 \/ pin + n <= piv ->
  cbc_decrypt_mem (lift D) mem pin n pout max_olen piv =
  Some (true, patch (patch mem pout (cbc_decrypt_bytes D (slice mem piv 16) (slice mem pin n))) piv (last_block (slice mem piv 16) (slice mem pin n))).
Proof.
  intros LD M P O A B I SS V W. unfold cbc_decrypt_mem. destruct (Nat.ltb_spec max_olen n); [lia|].
  destruct (n / 16) as [|k] eqn:K; [lia|]. assert (N16 : n = 16 * S k) by lia. clear K M P. subst n.
  rewrite (dec_loop_apart D LD) by lia. cbn [bind Nat.eqb]. replace (pin + 16 * S k - 16) with (pin + 16 * k) in * by lia.
  destruct (Nat.ltb_spec (pin + 16 * k) (piv + 16)), (Nat.ltb_spec piv (pin + 16 * k + 16)); try lia; cbn [andb].
  all: assert (Lo : length (cbc_decrypt_bytes D (slice mem piv 16) (slice mem pin (16 * S k))) = 16 * S k) by (apply dec_out_len; [exact LD|apply length_slice; lia|apply length_slice; lia]).
  all: rewrite read_slice by (rewrite length_patch; lia); cbn [bind]; rewrite (slice_other _ _ _ (pin + 16 * k)) by lia;
       rewrite last_block_slice by lia; rewrite write_patch by (rewrite length_patch, length_slice; lia); reflexivity.
Qed.
Lemma cbc_decrypt_mem_prefix D mem n pout max_olen piv : (forall b, length b = 16 -> length (D b) = 16) -> n mod 16 = 0 -> 0 < n -> n <= max_olen ->
  pout + 16 + n <= length mem -> piv + 16 <= length mem -> piv + 16 <= pout \/ pout + 16 + n <= piv ->
  cbc_decrypt_mem (lift D) mem (pout + 16) n pout max_olen piv =
  Some (true, patch (patch mem pout (xorl (D (slice mem (pout + 16) 16)) (slice mem piv 16) ++ repeat 0%N (n - 16))) piv (slice mem (pout + n) 16)).
Proof.
  intros LD M P O A I V. unfold cbc_decrypt_mem. destruct (Nat.ltb_spec max_olen n); [lia|].
  destruct (n / 16) as [|k] eqn:K; [lia|]. assert (N16 : n = 16 * S k) by lia. clear K M P. subst n. cbn [dec_loop_mem].
  destruct (Nat.leb_spec 16 (16 * S k)); [|lia]. rewrite read_slice by lia. cbn [bind]. unfold lift at 1.
  rewrite write_patch by (rewrite LD by (apply length_slice; lia); lia). cbn [bind].
  pose proof (dec_words_apart mem pout piv (D (slice mem (pout + 16) 16)) (LD (slice mem (pout + 16) 16) ltac:(apply length_slice; lia)) ltac:(lia) I ltac:(lia)) as W.
  destruct (dec_word_mem pout piv 0 _) as [m1|]; cbn [bind] in W |- *; [|discriminate]. rewrite W. cbn [bind].
  set (o := xorl (D (slice mem (pout + 16) 16)) (slice mem piv 16)). assert (Lo : length o = 16) by (unfold o; rewrite length_xorl, LD, length_slice by (rewrite ?length_slice; lia); lia).
  replace (16 * S k - 16) with (16 * k) by lia. rewrite (dec_loop_zero D LD) by (rewrite ?length_patch; lia). cbn [bind].
  destruct (Nat.ltb_spec (pout + 16 + 16 * k) (piv + 16)), (Nat.ltb_spec piv (pout + 16 + 16 * k + 16)); try lia; cbn [andb].
  all: pose proof (patch_app mem pout o (repeat 0%N (16 * k)) ltac:(rewrite repeat_length; lia)) as PA; rewrite Lo in PA; rewrite PA; rewrite read_slice by (rewrite length_patch; rewrite ?app_length, ?repeat_length; lia); cbn [bind];
       rewrite slice_other by (rewrite ?app_length, ?repeat_length; lia); replace (pout + 16 * S k) with (pout + 16 + 16 * k) by lia;
       assert (Lq : length (slice mem (pout + 16 + 16 * k) 16) = 16) by (apply length_slice; lia);
       rewrite write_patch by (rewrite Lq, length_patch; rewrite ?app_length, ?repeat_length; lia); reflexivity.
Qed.
Lemma cbc_decrypt_mem_frame D mem n pout max_olen : (forall b, length b = 16 -> length (D b) = 16) -> n mod 16 = 0 -> 0 < n -> n <= max_olen ->
  pout + 16 + n <= length mem ->
  cbc_decrypt_mem (lift D) mem (pout + 16) n pout max_olen pout =
  Some (true, patch mem pout (slice mem (pout + n) 16 ++ repeat 0%N (n - 16))).
Proof.
  intros LD M P O A. unfold cbc_decrypt_mem. destruct (Nat.ltb_spec max_olen n); [lia|].
  destruct (n / 16) as [|k] eqn:K; [lia|]. assert (N16 : n = 16 * S k) by lia. clear K M P. subst n.
  rewrite (dec_loop_zero D LD) by lia. cbn [bind].
  destruct (Nat.ltb_spec (pout + 16 * S k) (pout + 16)); [lia|]. cbn [andb].
  rewrite read_slice by (rewrite length_patch; rewrite ?repeat_length; lia). cbn [bind]. rewrite slice_other by (rewrite ?repeat_length; lia).
  assert (Lq : length (slice mem (pout + 16 * S k) 16) = 16) by (apply length_slice; lia).
  rewrite write_patch by (rewrite Lq, length_patch; rewrite ?repeat_length; lia). clear Lq. cbn [bind]. do 2 f_equal.
  replace (16 * S k) with (16 + 16 * k) by lia. rewrite repeat_app. assert (Lz : length (repeat 0%N 16) = 16) by reflexivity.
  replace (16 + 16 * k - 16) with (16 * k) by lia. set (s := slice mem (pout + (16 + 16 * k)) 16). assert (Ls : length s = 16) by (apply length_slice; lia).
  apply list_get_ext; [rewrite !length_patch by (rewrite ?length_patch; rewrite ?app_length, ?repeat_length; lia); reflexivity|]. intros j _.
  rewrite !get_patch by (rewrite ?length_patch; rewrite ?app_length, ?repeat_length; lia). rewrite !app_length, !repeat_length, Ls.
  destruct (Nat.leb_spec pout j); cbn [andb]; [|reflexivity]. destruct (Nat.ltb_spec j (pout + 16)).
  - destruct (Nat.ltb_spec j (pout + (16 + 16 * k))); [|lia]. unfold get. rewrite app_nth1 by lia. reflexivity.
  - destruct (Nat.ltb_spec j (pout + (16 + 16 * k))); [|reflexivity]. unfold get. rewrite !app_nth2 by (rewrite ?repeat_length; lia). now rewrite Lz, Ls.
Qed.

(** ** Encryption *)
Lemma enc_words mem afin off pout iv : off + 16 <= length afin -> pout + 16 <= length mem -> iv + 16 <= length mem -> iv + 16 <= pout \/ pout + 16 <= iv \/ iv = pout ->
  bind (enc_word_mem afin off pout iv 0 mem) (fun m => enc_word_mem afin off pout iv 8 m) = Some (patch mem pout (xorl (slice afin off 16) (slice mem iv 16))).
Proof.
  intros T A I D. unfold enc_word_mem. rewrite !Nat.add_0_r.
  assert (S0 : length (slice afin off 8) = 8) by (apply length_slice; lia). assert (S8 : length (slice afin (off + 8) 8) = 8) by (apply length_slice; lia).
  assert (V0 : length (slice mem iv 8) = 8) by (apply length_slice; lia). assert (V8 : length (slice mem (iv + 8) 8) = 8) by (apply length_slice; lia).
  rewrite (read_slice afin off 8), (read_slice mem iv 8) by lia. cbn [bind]. rewrite write_patch by (rewrite length_xorl; lia). cbn [bind].
  assert (X : length (xorl (slice afin off 8) (slice mem iv 8)) = 8) by (rewrite length_xorl; lia). set (o := xorl (slice afin off 8) (slice mem iv 8)) in *.
  rewrite (read_slice afin (off + 8) 8) by lia. cbn [bind]. rewrite (read_slice _ (iv + 8) 8) by (rewrite length_patch; lia). cbn [bind].
  rewrite slice_other by lia. rewrite write_patch by (rewrite length_patch, length_xorl; lia). f_equal.
  rewrite <- X at 1. rewrite patch_app by (rewrite length_xorl; lia). f_equal.
  rewrite (slice_split afin off), (slice_split mem iv) by lia. rewrite xorl_app by lia. reflexivity.
Qed.
Section Enc.
  Context (E : list N -> list N) (LE : forall b, length b = 16 -> length (E b) = 16).
  Lemma enc_out_step iv p : 16 <= length p -> cbc_encrypt_bytes E iv p = E (xorl (firstn 16 p) iv) ++ cbc_encrypt_bytes E (E (xorl (firstn 16 p) iv)) (skipn 16 p).
  Proof.
    intro L. unfold cbc_encrypt_bytes. rewrite (chunks_eq 16 p); [reflexivity|lia|]. intros ->. cbn in L. lia.
  Qed.
  Lemma enc_out_len : forall k iv p, length p = 16 * k -> length iv = 16 -> length (cbc_encrypt_bytes E iv p) = 16 * k.
  Proof.
    induction k as [|k IH]; intros iv c L Li; [destruct c; [reflexivity|discriminate]|]. rewrite enc_out_step by lia.
    assert (X : length (E (xorl (firstn 16 c) iv)) = 16) by (apply LE; rewrite length_xorl, firstn_length; lia).
    rewrite app_length, IH by (rewrite ?skipn_length, ?firstn_length; lia). lia.
  Qed.
  Lemma enc_loop_all afin : forall k fuel off pout iv mem, 16 * k < fuel -> off + 16 * k <= length afin -> pout + 16 * k <= length mem -> iv + 16 <= length mem ->
    iv + 16 <= pout \/ pout + 16 <= iv \/ iv = pout ->
    enc_loop_mem (lift E) afin fuel off pout iv (16 * k) mem =
    Some (true, patch mem pout (cbc_encrypt_bytes E (slice mem iv 16) (slice afin off (16 * k)))).
  Proof.
    induction k as [|k IH]; intros fuel off pout iv mem F A B I V; (destruct fuel as [|fuel]; [lia|]); cbn [enc_loop_mem].
    - destruct (Nat.leb_spec 16 (16 * 0)); [lia|]. change (16 * 0) with 0. do 2 f_equal. change (slice afin off 0) with (@nil N).
      change (cbc_encrypt_bytes E (slice mem iv 16) []) with (@nil N). unfold patch. cbn [length app]. rewrite Nat.add_0_r. symmetry. apply firstn_skipn.
    - destruct (Nat.leb_spec 16 (16 * S k)); [|lia]. pose proof (enc_words mem afin off pout iv ltac:(lia) ltac:(lia) I V) as W.
      destruct (enc_word_mem afin off pout iv 0 mem) as [m1|]; cbn [bind] in W |- *; [|discriminate]. rewrite W. cbn [bind].
      set (x := xorl (slice afin off 16) (slice mem iv 16)). assert (Lx : length x = 16) by (unfold x; rewrite length_xorl, !length_slice; lia).
      rewrite read_slice by (rewrite length_patch; lia). cbn [bind].
      assert (Q : slice (patch mem pout x) pout 16 = x).
      { pose proof (slice_within mem pout x 0 16 ltac:(lia) ltac:(lia)) as Q. rewrite Nat.add_0_r in Q. rewrite Q. rewrite <- Lx at 1. apply slice_all. }
      rewrite Q. unfold lift at 1. assert (Le : length (E x) = 16) by now apply LE. rewrite write_patch by (rewrite length_patch; lia). cbn [bind]. rewrite patch_over by lia.
      replace (16 * S k - 16) with (16 * k) by lia.
      rewrite IH by (rewrite ?length_patch; lia). f_equal. f_equal.
      assert (Q2 : slice (patch mem pout (E x)) pout 16 = E x).
      { pose proof (slice_within mem pout (E x) 0 16 ltac:(lia) ltac:(lia)) as Q'. rewrite Nat.add_0_r in Q'. rewrite Q'. rewrite <- Le at 1. apply slice_all. }
      rewrite Q2. rewrite (enc_out_step (slice mem iv 16)) by (rewrite length_slice; lia). rewrite firstn_slice by lia. rewrite skipn_slice by lia.
      replace (16 * S k - 16) with (16 * k) by lia. fold x. rewrite <- Le at 1. apply patch_app. rewrite Le, (enc_out_len k) by (exact Le || apply length_slice; lia). lia.
  Qed.
End Enc.
Lemma cbc_encrypt_mem_any E mem pin n pout max_olen piv : (forall b, length b = 16 -> length (E b) = 16) -> (N.of_nat (merge_length n) <= int_max)%N ->
  merge_length n <= max_olen -> pin + n <= length mem -> pout + merge_length n <= length mem -> piv + 16 <= length mem ->
  piv + 16 <= pout \/ pout + 16 <= piv \/ piv = pout ->
  cbc_encrypt_mem (lift E) mem pin n pout max_olen piv =
  Some (true, Some (merge_length n), patch mem pout (cbc_encrypt_bytes E (slice mem piv 16) (lib_padded (slice mem pin n)))).
Proof.
  intros LE I O A B J V. unfold cbc_encrypt_mem. rewrite read_slice by exact A. cbn [bind].
  assert (L : length (slice mem pin n) = n) by now apply length_slice. rewrite merge_lib_padded by (now rewrite L). cbn [bind].
  assert (Lp : length (lib_padded (slice mem pin n)) = merge_length n) by now rewrite length_lib_padded, L.
  rewrite Lp. destruct (Nat.ltb_spec max_olen (merge_length n)); [lia|]. destruct (merge_length_spec n) as [M _].
  assert (K : merge_length n = 16 * (merge_length n / 16)) by lia. set (p := lib_padded (slice mem pin n)) in *.
  pose proof (enc_loop_all E LE p (merge_length n / 16) (S (merge_length n)) 0 pout piv mem) as Q. rewrite <- K in Q. rewrite Q by lia. cbn [bind].
  rewrite <- Lp at 2. now rewrite slice_all.
Qed.
