From Verif Require Import Base CbcModel CbcSpec Toy.
From Coq Require Import ZifyBool ZifyNat ZifyN.

Ltac by_blocks m := pattern m; apply (aligned_ind 16); [lia | | | assumption].

(** ** buffer access *)
Lemma read_at_mid (a b c : list N) off n :
  length a = off -> length b = n -> read_at (a ++ b ++ c) off n = Some b.
Proof.
  intros <- <-. unfold read_at. rewrite !app_length.
  destruct (Nat.leb_spec (length a + length b) (length a + (length b + length c))); [|lia].
  f_equal. rewrite skipn_app, skipn_all, Nat.sub_diag, app_nil_l. cbn [skipn].
  now rewrite firstn_app, firstn_all, Nat.sub_diag, app_nil_r.
Qed.
Lemma write_at_mid (a b c v : list N) off :
  length a = off -> length v = length b -> write_at (a ++ b ++ c) off v = Some (a ++ v ++ c).
Proof.
  intros <- Hv. unfold write_at. rewrite !app_length, Hv.
  destruct (Nat.leb_spec (length a + length b) (length a + (length b + length c))); [|lia].
  f_equal. rewrite firstn_app, firstn_all, Nat.sub_diag. cbn [firstn]. rewrite app_nil_r.
  f_equal. f_equal. rewrite app_assoc, <- app_length, skipn_app, skipn_all, Nat.sub_diag.
  reflexivity.
Qed.
Lemma read_at_end (a b : list N) off n :
  length a = off -> length b = n -> read_at (a ++ b) off n = Some b.
Proof. intros. pose proof (read_at_mid a b [] off n) as H1. rewrite app_nil_r in H1. auto. Qed.
Lemma write_at_end (a b v : list N) off :
  length a = off -> length v = length b -> write_at (a ++ b) off v = Some (a ++ v).
Proof. intros. pose proof (write_at_mid a b [] v off) as H1. rewrite !app_nil_r in H1. auto. Qed.
Lemma read_at_all l : read_at l 0 (length l) = Some l.
Proof. unfold read_at. cbn [Nat.add]. rewrite Nat.leb_refl. cbn. now rewrite firstn_all. Qed.

(** ** padding *)
Lemma merge_length_spec n : merge_length n mod 16 = 0 /\ n <= merge_length n < n + 16.
Proof.
  unfold merge_length. destruct (Nat.eqb_spec (n mod 16) 0); [lia|].
  split; [apply Nat.mod_mul; lia|]. lia.
Qed.
Lemma merge_lib_padded m : (N.of_nat (merge_length (length m)) <= int_max)%N ->
  padding_merge m = Some (lib_padded m).
Proof.
  intros H. unfold padding_merge, lib_padded, pkcs7.
  destruct (N.ltb_spec int_max (N.of_nat (merge_length (length m)))); [lia|].
  f_equal. unfold merge_length.
  destruct (Nat.eqb_spec (length m mod 16) 0).
  - rewrite Nat.ltb_irrefl. apply app_nil_r.
  - destruct (Nat.ltb_spec (length m) ((length m / 16 + 1) * 16)); [|lia].
    replace ((length m / 16 + 1) * 16 - length m) with (16 - length m mod 16) by lia. reflexivity.
Qed.
Lemma length_lib_padded m : length (lib_padded m) = merge_length (length m).
Proof.
  unfold lib_padded, pkcs7, merge_length. destruct (Nat.eqb_spec (length m mod 16) 0); auto.
  rewrite app_length, repeat_length. lia.
Qed.
Lemma bytes_lib_padded m : bytes m -> bytes (lib_padded m).
Proof.
  intros H. unfold lib_padded, pkcs7. destruct (_ =? 0); auto.
  apply bytes_app; split; auto. apply bytes_repeat. unfold byte. lia.
Qed.
Lemma firstn_lib_padded m : firstn (length m) (lib_padded m) = m.
Proof.
  unfold lib_padded, pkcs7. destruct (_ =? 0); [apply firstn_all|].
  now rewrite firstn_app, firstn_all, Nat.sub_diag, app_nil_r.
Qed.
Lemma last_app_repeat (m : list N) x k d : 0 < k -> last (m ++ repeat x k) d = x.
Proof.
  intros H. destruct k as [|k]; [lia|].
  rewrite <- (Nat.add_1_r k), repeat_app, app_assoc. apply last_last.
Qed.
Lemma last_read l rest : l <> [] -> read_at (l ++ rest) (length l - 1) 1 = Some [last l 0%N].
Proof.
  intros H. destruct (exists_last H) as [l' [x ->]]. rewrite last_last.
  rewrite app_length. cbn [length]. rewrite <- app_assoc.
  apply read_at_mid; [lia|reflexivity].
Qed.
Lemma separate_pad_num_spec l rest : l <> [] ->
  separate_pad_num (l ++ rest) (length l) =
  Some (if (16 <? last l 0)%N then 0%N else last l 0%N).
Proof.
  intros H. unfold separate_pad_num.
  destruct (Nat.eqb_spec (length l) 0) as [E|E]; [destruct l; cbn in *; congruence|].
  now rewrite last_read.
Qed.
Lemma lib_padded_nil_iff m : lib_padded m = [] <-> m = [].
Proof.
  split; intros H.
  - apply length_zero_iff_nil. apply (f_equal (@length N)) in H. rewrite length_lib_padded in H.
    pose proof (merge_length_spec (length m)). cbn in H. lia.
  - subst; reflexivity.
Qed.
Lemma c_int_small n : (n <= int_max)%N -> c_int n = Z.of_N n.
Proof.
  intros H. unfold int_max in H. unfold c_int. rewrite N.mod_small by lia. destruct (N.ltb_spec n (2 ^ 31)); lia.
Qed.
Lemma int_roundtrip z : (0 <= z < 2 ^ 31)%Z -> c_int (size_of_int z) = z /\ size_of_int z = Z.to_N z.
Proof.
  intros H. unfold size_of_int. rewrite Z.mod_small by lia. split; [|reflexivity].
  rewrite c_int_small by (unfold int_max; lia). lia.
Qed.
Lemma int_twice z : (0 <= z < 2 ^ 31)%Z -> size_of_int (c_int (size_of_int z)) = Z.to_N z.
Proof. intros H. destruct (int_roundtrip z H) as [E F]. rewrite E. exact F. Qed.
Lemma separate_length_padded m rest : m <> [] -> (N.of_nat (merge_length (length m)) <= int_max)%N ->
  exists u, separate_length (lib_padded m ++ rest) (length (lib_padded m)) = Some u /\
  (u = N.of_nat (length m) <-> recoverable m).
Proof.
  intros Hm Hmax. unfold separate_length.
  rewrite separate_pad_num_spec by (now rewrite lib_padded_nil_iff). cbn [bind].
  eexists; split; [reflexivity|].
  rewrite length_lib_padded. unfold recoverable, lib_padded, pkcs7.
  unfold merge_length, int_max in *. 
  destruct (Nat.eqb_spec (length m mod 16) 0) as [E|E].
  - assert (16 <= length m) by (destruct m; [congruence|]; cbn [length] in *; lia).
    destruct (N.ltb_spec 16 (last m 0%N)).
    + rewrite int_twice by lia. split; intros; [right; right; auto|]. lia.
    + rewrite int_twice by lia. split; intros; [right; left; lia|]. lia.
  - rewrite last_app_repeat by lia.
    destruct (N.ltb_spec 16 (N.of_nat (16 - length m mod 16))); [lia|].
    rewrite int_twice by lia. split; intros; [left; auto|]. lia.
Qed.
Lemma separate_padded m : m <> [] -> (N.of_nat (length (lib_padded m)) <= int_max)%N ->
  exists r, padding_separate (lib_padded m) = Some r /\ (r = m <-> recoverable m).
Proof.
  intros Hm Hmax. unfold int_max in Hmax. unfold padding_separate.
  pose proof (separate_pad_num_spec (lib_padded m) []) as HS.
  rewrite app_nil_r in HS. rewrite HS by (now rewrite lib_padded_nil_iff). cbn [bind]. clear HS.
  unfold recoverable.
  assert (L16 : 16 <= length (lib_padded m)).
  { rewrite length_lib_padded. pose proof (merge_length_spec (length m)).
    destruct m; [congruence|]; cbn [length] in *; lia. }
  set (p := if (16 <? last (lib_padded m) 0)%N then 0%N else last (lib_padded m) 0%N).
  assert (Hp : (p <= 16)%N) by (unfold p; destruct (N.ltb_spec 16 (last (lib_padded m) 0%N)); lia).
  rewrite (proj1 (int_roundtrip (Z.of_nat (length (lib_padded m)) - Z.of_N p) ltac:(lia))). cbv zeta.
  destruct (Z.ltb_spec (Z.of_nat (length (lib_padded m)) - Z.of_N p) 0); [lia|].
  replace (Z.to_nat (Z.of_nat (length (lib_padded m)) - Z.of_N p)) with (length (lib_padded m) - N.to_nat p) by lia.
  eexists; split; [reflexivity|].
  unfold lib_padded in *. destruct (Nat.eqb_spec (length m mod 16) 0) as [E|E].
  - split.
    + intros Hr. right. apply (f_equal (@length N)) in Hr. rewrite firstn_length in Hr.
      unfold p in *. destruct (N.ltb_spec 16 (last m 0%N)); lia.
    + intros [?|[Hl|Hl]]; [lia| |].
      * unfold p. rewrite Hl. cbn. rewrite Nat.sub_0_r. apply firstn_all.
      * unfold p. destruct (N.ltb_spec 16 (last m 0%N)); [|lia]. rewrite Nat.sub_0_r. apply firstn_all.
  - split; [auto|]. intros _.
    assert (Ep : p = N.of_nat (16 - length m mod 16)).
    { unfold p, pkcs7. rewrite last_app_repeat by lia.
      destruct (N.ltb_spec 16 (N.of_nat (16 - length m mod 16))); lia. }
    rewrite Ep, Nat2N.id. unfold pkcs7. rewrite app_length, repeat_length.
    replace (length m + (16 - length m mod 16) - (16 - length m mod 16)) with (length m) by lia.
    now rewrite firstn_app, firstn_all, Nat.sub_diag, app_nil_r.
Qed.

(** ** CBC encryption loop *)

Lemma cbc_enc_bytes_app E v b m : length b = 16 ->
  cbc_encrypt_bytes E v (b ++ m) = E (xorl b v) ++ cbc_encrypt_bytes E (E (xorl b v)) m.
Proof.
  intros H. unfold cbc_encrypt_bytes. rewrite chunks_app by (auto; lia). reflexivity.
Qed.
Lemma cbc_dec_bytes_app D v b m : length b = 16 ->
  cbc_decrypt_bytes D v (b ++ m) = xorl (D b) v ++ cbc_decrypt_bytes D b m.
Proof.
  intros H. unfold cbc_decrypt_bytes. rewrite chunks_app by (auto; lia). reflexivity.
Qed.
Lemma cbc_enc_bytes_block E v m : block_function E -> block16 v -> bytes m -> length m mod 16 = 0 ->
  bytes (cbc_encrypt_bytes E v m) /\ length (cbc_encrypt_bytes E v m) = length m.
Proof.
  intros HE. intros Hv Hb Hm. revert v Hv Hb. by_blocks m.
  - intros v Hv Hb. split; [constructor|reflexivity].
  - intros b l Lb _ IH v Hv Hb. apply bytes_app in Hb as [Hb Hl].
    rewrite cbc_enc_bytes_app by auto.
    assert (Hc : block16 (E (xorl b v))) by (apply HE, block16_xorl; auto; now split).
    destruct (IH _ Hc Hl) as [IH1 IH2]. destruct Hc as [Lc Bc].
    split; [apply bytes_app; auto|]. rewrite !app_length, IH2. lia.
Qed.

Lemma skipn_skipn_add {A} (n k : nat) (l : list A) : skipn k (skipn n l) = skipn (n + k) l.
Proof. revert l; induction n as [|n IH]; intros [|x l]; cbn; auto. now rewrite skipn_nil. Qed.

Lemma enc_loop_spec E ivec afin : block_function E -> forall m, length m mod 16 = 0 ->
  forall fuel pre o1 o2 ivp v, bytes m -> length m < fuel -> afin = pre ++ m ->
  length o1 = length pre -> length m <= length o2 ->
  (forall o2', iv_read ivec (o1 ++ o2') ivp = Some v) -> block16 v ->
  enc_loop (lift E) ivec afin fuel (o1 ++ o2) (length pre) ivp (length m)
  = Some (true, o1 ++ cbc_encrypt_bytes E v m ++ skipn (length m) o2).
Proof.
  intros HE m Hm. by_blocks m.
  - intros [|f] pre o1 o2 ivp v _ Hf; [cbn in Hf; lia|]. reflexivity.
  - clear m Hm. intros b m Lb Lm IH [|f] pre o1 o2 ivp v Hbm Hf Ha Ho Ho2 Hiv Hv; [lia|].
    apply bytes_app in Hbm as [Hb Hm].
    rewrite app_length in *. cbn [enc_loop].
    destruct (Nat.leb_spec 16 (length b + length m)); [|lia].
    replace (read_at afin (length pre) 16) with (Some b)
      by (rewrite Ha; symmetry; apply read_at_mid; auto). cbn [bind].
    rewrite Hiv. cbn [bind].
    assert (Hx : block16 (xorl b v)) by (apply block16_xorl; auto; now split).
    rewrite <- (firstn_skipn 16 o2).
    assert (L16 : length (firstn 16 o2) = 16) by (rewrite firstn_length; lia).
    rewrite write_at_mid by (auto; destruct Hx; lia). cbn [bind lift].
    assert (Hc : block16 (E (xorl b v))) by (now apply HE).
    rewrite write_at_mid by (auto; destruct Hx, Hc; lia). cbn [bind].
    replace (length b + length m - 16) with (length m) by lia.
    rewrite (app_assoc o1).
    replace (length pre + 16) with (length (pre ++ b)) by (rewrite app_length; lia).
    rewrite (IH f (pre ++ b) (o1 ++ E (xorl b v)) (skipn 16 o2) (Some (length pre)) (E (xorl b v))).
    + f_equal. f_equal. rewrite cbc_enc_bytes_app by auto. rewrite <- !app_assoc. f_equal. f_equal. f_equal.
      rewrite firstn_skipn, skipn_skipn_add. f_equal. lia.
    + auto.
    + lia.
    + now rewrite <- app_assoc.
    + rewrite !app_length. destruct Hc; lia.
    + rewrite skipn_length. lia.
    + intros o2'. cbn [iv_read]. rewrite <- app_assoc. apply read_at_mid; auto. now destruct Hc.
    + auto.
Qed.

Lemma cbc_encrypt_spec E m out cap iv :
  block_function E -> bytes m -> block16 iv ->
  (N.of_nat (merge_length (length m)) <= int_max)%N ->
  merge_length (length m) <= cap -> length out = cap ->
  cbc128_encrypt false (lift E) m out cap iv =
  Some {| cr_ret := true;
          cr_out := cbc_encrypt_bytes E iv (lib_padded m) ++ skipn (merge_length (length m)) out;
          cr_use := Some (N.of_nat (merge_length (length m)));
          cr_iv := iv |}.
Proof.
  intros HE Hb Hiv Hmax Hcap Hout. unfold cbc128_encrypt.
  rewrite merge_lib_padded by auto. cbn [bind]. rewrite length_lib_padded.
  destruct (Nat.ltb_spec cap (merge_length (length m))); [lia|].
  pose proof (enc_loop_spec E iv (lib_padded m) HE (lib_padded m)) as HL.
  rewrite length_lib_padded in HL.
  specialize (HL (proj1 (merge_length_spec _)) (S (merge_length (length m))) [] [] out None iv).
  cbn [app length] in HL. rewrite HL; auto.
  - now apply bytes_lib_padded.
  - lia.
  - intros o2'. cbn [iv_read]. destruct Hiv as [L _]. rewrite <- L. apply read_at_all.
Qed.

Lemma cbc_encrypt_small mv E m out cap iv :
  (N.of_nat (merge_length (length m)) <= int_max)%N -> cap < merge_length (length m) ->
  cbc128_encrypt mv (lift E) m out cap iv =
  Some {| cr_ret := false; cr_out := out; cr_use := None; cr_iv := iv |}.
Proof.
  intros Hmax Hcap. unfold cbc128_encrypt. rewrite merge_lib_padded by auto. cbn [bind].
  rewrite length_lib_padded. destruct (Nat.ltb_spec cap (merge_length (length m))); [auto|lia].
Qed.

Lemma cbc_encrypt_moved blk m out cap iv : m <> [] ->
  (N.of_nat (merge_length (length m)) <= int_max)%N -> merge_length (length m) <= cap ->
  cbc128_encrypt true blk m out cap iv = None.
Proof.
  intros Hm Hmax Hcap. unfold cbc128_encrypt. rewrite merge_lib_padded by auto. cbn [bind].
  rewrite length_lib_padded. destruct (Nat.ltb_spec cap (merge_length (length m))); [lia|].
  cbn [enc_loop]. pose proof (merge_length_spec (length m)).
  assert (16 <= merge_length (length m)) by (destruct m; [congruence|]; cbn [length] in *; lia).
  destruct (Nat.leb_spec 16 (merge_length (length m))); [reflexivity|lia].
Qed.

(** ** CBC decryption loops *)
Lemma last_cons_block (A : Type) (x : A) l d : last (x :: l) d = last l x.
Proof. revert x; induction l as [|y l IH]; intros x; auto. cbn [last] in *. destruct l; auto. Qed.
Lemma last_block_app iv b m : length b = 16 -> last_block iv (b ++ m) = last_block b m.
Proof. intros H. unfold last_block. rewrite chunks_app by (auto; lia). apply last_cons_block. Qed.

Lemma dec_loop_sep_spec D inp tail_len post : block_function D -> tail_len < 16 ->
  forall m, length m mod 16 = 0 -> forall fuel pre o1 o2 v,
  bytes m -> length m < fuel -> inp = pre ++ m ++ post ->
  length o1 = length pre -> length m <= length o2 -> block16 v ->
  dec_loop_sep (lift D) inp fuel (o1 ++ o2) v (length pre) (length m + tail_len)
  = Some (true, o1 ++ cbc_decrypt_bytes D v m ++ skipn (length m) o2, last_block v m,
          length pre + length m, tail_len).
Proof.
  intros HD Ht m Hm. by_blocks m.
  - intros [|f] pre o1 o2 v _ Hf; [cbn in Hf; lia|]. intros. cbn [dec_loop_sep length Nat.add].
    destruct (Nat.leb_spec 16 tail_len); [lia|]. rewrite Nat.add_0_r. reflexivity.
  - clear m Hm. intros b m Lb Lm IH [|f] pre o1 o2 v Hbm Hf Ha Ho Ho2 Hv; [lia|].
    apply bytes_app in Hbm as [Hb Hm]. rewrite app_length in *. cbn [dec_loop_sep].
    destruct (Nat.leb_spec 16 (length b + length m + tail_len)); [|lia].
    assert (Ha' : inp = pre ++ b ++ (m ++ post)) by (rewrite Ha, <- app_assoc; reflexivity).
    replace (read_at inp (length pre) 16) with (Some b)
      by (rewrite Ha'; symmetry; apply read_at_mid; auto). cbn [bind lift].
    assert (Hd : block16 (D b)) by (apply HD; now split).
    rewrite <- (firstn_skipn 16 o2).
    assert (L16 : length (firstn 16 o2) = 16) by (rewrite firstn_length; lia).
    rewrite write_at_mid by (auto; destruct Hd; lia). cbn [bind].
    rewrite read_at_mid by (auto; now destruct Hd). cbn [bind].
    assert (Hx : block16 (xorl (D b) v)) by (apply block16_xorl; auto).
    rewrite write_at_mid by (auto; destruct Hx, Hd; lia). cbn [bind].
    replace (length b + length m + tail_len - 16) with (length m + tail_len) by lia.
    rewrite (app_assoc o1).
    replace (length pre + 16) with (length (pre ++ b)) by (rewrite app_length; lia).
    rewrite (IH f (pre ++ b) (o1 ++ xorl (D b) v) (skipn 16 o2) b).
    + rewrite last_block_app, cbc_dec_bytes_app by auto.
      replace (length (pre ++ b) + length m) with (length pre + (length b + length m))
        by (rewrite app_length; lia).
      rewrite firstn_skipn, skipn_skipn_add, <- !app_assoc, Lb. reflexivity.
    + auto.
    + lia.
    + rewrite Ha', <- !app_assoc. reflexivity.
    + rewrite !app_length. destruct Hx; lia.
    + rewrite skipn_length. lia.
    + now split.
Qed.

Lemma bytes_last_block iv m : block16 iv -> bytes m -> length m mod 16 = 0 -> block16 (last_block iv m).
Proof.
  intros Hiv Hb Hm. revert iv Hiv Hb. by_blocks m; [auto|].
  intros b l Lb _ IH v Hv Hb. apply bytes_app in Hb as [? ?]. rewrite last_block_app by auto.
  apply IH; auto. now split.
Qed.

Lemma cbc_decrypt_spec D c post out cap iv :
  block_function D -> bytes c -> block16 iv -> length c mod 16 = 0 ->
  (N.of_nat (length c) <= int_max)%N -> length c <= cap -> length out = cap ->
  cbc128_decrypt (lift D) (c ++ post) (length c) out cap iv =
  Some {| cr_ret := true;
          cr_out := cbc_decrypt_bytes D iv c ++ skipn (length c) out;
          cr_use := None; cr_iv := last_block iv c |}.
Proof.
  intros HD Hb Hiv Hm Hmax Hcap Hout. unfold cbc128_decrypt, dec_run_sep.
  destruct (Nat.ltb_spec cap (length c)); [lia|].
  destruct (N.ltb_spec int_max (N.of_nat (length c))); [lia|].
  pose proof (dec_loop_sep_spec D (c ++ post) 0 post HD ltac:(lia) c Hm (S (length c)) [] [] out iv Hb)
    as HL.
  rewrite Nat.add_0_r in HL. cbn [app length] in HL. rewrite HL; auto; try lia.
Qed.

Lemma dec_tail_oob blk inp out iv off len : 0 < len -> length inp < off + 16 ->
  dec_tail blk inp out iv off len = None.
Proof.
  intros H1 H2. unfold dec_tail. destruct (Nat.eqb_spec len 0); [lia|].
  unfold read_at. destruct (Nat.leb_spec (off + 16) (length inp)); [lia|]. reflexivity.
Qed.
Lemma dec_tail_ok D inp out iv off len : len < 16 -> off + 16 <= length inp -> off + len <= length out ->
  block_function D -> bytes inp -> block16 iv ->
  exists o v, dec_tail (lift D) inp out iv off len = Some (true, o, v).
Proof.
  intros H1 H2 H3 HD Hb Hiv. unfold dec_tail. destruct (Nat.eqb_spec len 0); [eauto|].
  unfold read_at. destruct (Nat.leb_spec (off + 16) (length inp)); [|lia]. cbn [bind lift].
  assert (Hd : block16 (firstn 16 (skipn off inp))).
  { split; [rewrite firstn_length, skipn_length; lia|]. apply bytes_firstn, bytes_skipn; auto. }
  apply HD in Hd. pose proof (block16_xorl _ _ Hd Hiv) as [Lx _].
  unfold write_at. rewrite firstn_length, Lx.
  destruct (Nat.leb_spec (off + Nat.min len 16) (length out)); [|lia]. cbn [bind]. eauto.
Qed.

(** all accesses in bounds exactly when [inlen] is block-aligned or the caller's buffer happens to
    extend to the next block boundary *)
Lemma cbc_decrypt_bounds D inp inlen out cap iv :
  block_function D -> bytes inp -> block16 iv -> (N.of_nat inlen <= int_max)%N ->
  inlen <= length inp -> inlen <= cap -> length out = cap ->
  (cbc128_decrypt (lift D) inp inlen out cap iv <> None
   <-> inlen mod 16 = 0 \/ merge_length inlen <= length inp).
Proof.
  intros HD Hb Hiv Hmax Hin Hcap Hout.
  set (k := inlen / 16 * 16). set (t := inlen mod 16).
  assert (Ek : inlen = k + t) by (unfold k, t; lia).
  set (m := firstn k inp).
  assert (Lm : length m = k) by (unfold m; rewrite firstn_length; lia).
  unfold cbc128_decrypt, dec_run_sep.
  destruct (Nat.ltb_spec cap inlen); [lia|].
  destruct (N.ltb_spec int_max (N.of_nat inlen)); [lia|].
  pose proof (dec_loop_sep_spec D inp t (skipn k inp) HD ltac:(unfold t; lia) m
     ltac:(rewrite Lm; unfold k; apply Nat.mod_mul; lia) (S inlen) [] [] out iv
     (bytes_firstn _ _ Hb)) as HL.
  rewrite Lm in HL. cbn [app length Nat.add] in HL. rewrite Ek at 2.
  rewrite HL; auto; try lia; [|unfold m; symmetry; apply firstn_skipn].
  cbn [bind]. clear HL.
  assert (HLB : block16 (last_block iv m)).
  { apply bytes_last_block; auto; try (apply bytes_firstn; auto).
    rewrite Lm; unfold k; apply Nat.mod_mul; lia. }
  assert (Ltm : t <> 0 -> merge_length inlen = k + 16).
  { intros. unfold merge_length, k, t in *. destruct (Nat.eqb_spec (inlen mod 16) 0); lia. }
  destruct (Nat.lt_ge_cases (length inp) (k + 16)) as [Hshort|Hlong].
  - destruct (Nat.eq_dec t 0) as [E|E].
    + split; [auto|]. intros _. unfold dec_tail. rewrite E. cbn. discriminate.
    + rewrite dec_tail_oob by lia. cbn [bind]. split; [congruence|].
      intros [HH|HH]; [unfold t in E; lia|]. rewrite Ltm in HH; lia.
  - destruct (dec_tail_ok D inp (cbc_decrypt_bytes D iv m ++ skipn k out) (last_block iv m) k t)
      as [o [v ->]]; auto; try (unfold t; lia).
    + rewrite app_length, skipn_length.
      assert (length (cbc_decrypt_bytes D iv m) = k).
      { rewrite <- Lm. assert (Hm : length m mod 16 = 0) by (rewrite Lm; apply Nat.mod_mul; lia).
        assert (Hbm : bytes m) by (now apply bytes_firstn).
        clear - HD Hm Hiv Hbm. revert iv Hiv Hbm. by_blocks m; [auto|].
        intros b l Lb _ IH v Hv Hbl. apply bytes_app in Hbl as [? ?].
        rewrite cbc_dec_bytes_app, !app_length, length_xorl by auto.
        rewrite IH; auto; [|now split]. assert (block16 (D b)) as [L _] by (apply HD; now split).
        destruct Hv as [Lv _]. rewrite L, Lv. cbn. lia. }
      lia.
    + cbn [bind]. split; [|discriminate]. intros _. destruct (Nat.eq_dec t 0); [left; auto|].
      right. rewrite Ltm; lia.
Qed.

(** ** spec-level round trip *)
Lemma cbc_roundtrip_spec E D v m : block_cipher E D -> block16 v -> bytes m -> length m mod 16 = 0 ->
  cbc_decrypt_bytes D v (cbc_encrypt_bytes E v m) = m.
Proof.
  intros [HE [HD HED]] Hv Hb Hm. revert v Hv Hb. by_blocks m; [auto|].
  intros b l Lb _ IH v Hv Hbl. apply bytes_app in Hbl as [Hb Hl].
  rewrite cbc_enc_bytes_app by auto.
  assert (Hx : block16 (xorl b v)) by (apply block16_xorl; auto; now split).
  pose proof (HE _ Hx) as Hc. rewrite cbc_dec_bytes_app by (now destruct Hc).
  rewrite HED by auto. rewrite xorl_cancel_r by (destruct Hv; lia).
  now rewrite IH.
Qed.

Lemma cbc_roundtrip_full E D m iv out1 cap1 out2 cap2 :
  block_cipher E D -> bytes m -> m <> [] -> block16 iv ->
  (N.of_nat (merge_length (length m)) <= int_max)%N ->
  length out1 = cap1 -> merge_length (length m) <= cap1 ->
  length out2 = cap2 -> merge_length (length m) <= cap2 ->
  exists r d u,
    wrapper_cbc_encrypt false (lift E) m out1 cap1 iv = Some r /\ cr_ret r = true /\
    cr_use r = Some (N.of_nat (merge_length (length m))) /\
    wrapper_cbc_decrypt (lift D) (firstn (merge_length (length m)) (cr_out r))
        (merge_length (length m)) out2 cap2 iv = Some d /\
    cr_ret d = true /\ firstn (length m) (cr_out d) = m /\ cr_use d = Some u /\
    (u = N.of_nat (length m) <-> recoverable m).
Proof.
  intros HC Hb Hne Hiv Hmax Ho1 Hc1 Ho2 Hc2. pose proof HC as [HE [HD _]].
  set (L := merge_length (length m)) in *.
  assert (Halign : length (lib_padded m) mod 16 = 0).
  { rewrite length_lib_padded. apply merge_length_spec. }
  destruct (cbc_enc_bytes_block E iv (lib_padded m) HE Hiv (bytes_lib_padded _ Hb) Halign) as [B1 L1].
  rewrite length_lib_padded in L1. fold L in L1.
  unfold wrapper_cbc_encrypt. rewrite cbc_encrypt_spec by auto. fold L.
  destruct (separate_length_padded m (skipn L out2) Hne Hmax) as [u [Hu Hiff]].
  rewrite length_lib_padded in Hu. fold L in Hu.
  eexists; eexists; exists u. split; [reflexivity|]. split; [reflexivity|]. split; [reflexivity|].
  cbn [cr_out cr_use cr_ret].
  assert (F : firstn L (cbc_encrypt_bytes E iv (lib_padded m) ++ skipn L out1)
              = cbc_encrypt_bytes E iv (lib_padded m)).
  { rewrite firstn_app, L1, Nat.sub_diag. cbn [firstn]. rewrite app_nil_r, <- L1. apply firstn_all. }
  rewrite F. unfold wrapper_cbc_decrypt.
  pose proof (cbc_decrypt_spec D (cbc_encrypt_bytes E iv (lib_padded m)) [] out2 cap2 iv HD B1 Hiv) as HS.
  rewrite app_nil_r, L1 in HS. rewrite HS; auto; [|unfold L; apply merge_length_spec].
  cbn [bind cr_ret cr_out cr_iv].
  rewrite cbc_roundtrip_spec by (auto using bytes_lib_padded).
  rewrite Hu. cbn [bind]. split; [reflexivity|]. cbn [cr_ret cr_out cr_use].
  split; [reflexivity|]. split; [|split; [reflexivity|auto]].
  rewrite firstn_app.
  pose proof (merge_length_spec (length m)) as HM. fold L in HM.
  rewrite length_lib_padded. fold L. replace (length m - L) with 0 by lia. cbn [firstn].
  rewrite app_nil_r. apply firstn_lib_padded.
Qed.

(** ** in place *)
Lemma split8 (l : list N) : length l = 16 -> exists a b, l = a ++ b /\ length a = 8 /\ length b = 8.
Proof.
  intros H. exists (firstn 8 l), (skipn 8 l). rewrite firstn_skipn, firstn_length, skipn_length, H. auto.
Qed.
Lemma dec_loop_inplace_spec D tail_len : block_function D -> tail_len < 16 ->
  forall m, length m mod 16 = 0 -> forall fuel pre post v,
  bytes m -> length m < fuel -> block16 v ->
  dec_loop_inplace (lift D) fuel (pre ++ m ++ post) v (length pre) (length m + tail_len)
  = Some (true, pre ++ cbc_decrypt_bytes D v m ++ post, last_block v m, length pre + length m, tail_len).
Proof.
  intros HD Ht m Hm. by_blocks m.
  - intros [|f] pre post v _ Hf; [cbn in Hf; lia|]. intros. cbn [dec_loop_inplace length Nat.add].
    destruct (Nat.leb_spec 16 tail_len); [lia|]. rewrite Nat.add_0_r. reflexivity.
  - clear m Hm. intros b m Lb Lm IH [|f] pre post v Hbm Hf Hv; [lia|].
    apply bytes_app in Hbm as [Hb Hm]. rewrite app_length in *. cbn [dec_loop_inplace].
    destruct (Nat.leb_spec 16 (length b + length m + tail_len)); [|lia].
    rewrite <- app_assoc. rewrite read_at_mid by auto. cbn [bind lift].
    assert (Hd : block16 (D b)) by (apply HD; now split).
    rewrite (cbc_dec_bytes_app D v b m Lb).
    destruct (split8 b Lb) as [b1 [b2 [Eb [Lb1 Lb2]]]].
    destruct (split8 (D b) (proj1 Hd)) as [d1 [d2 [Ed [Ld1 Ld2]]]].
    destruct (split8 v (proj1 Hv)) as [v1 [v2 [Ev [Lv1 Lv2]]]].
    assert (R1 : read_at (D b) (8 * 0) 8 = Some d1) by (rewrite Ed; apply (read_at_mid [] d1 d2); auto).
    assert (R2 : read_at v (8 * 0) 8 = Some v1) by (rewrite Ev; apply (read_at_mid [] v1 v2); auto).
    assert (W1 : write_at v (8 * 0) b1 = Some (b1 ++ v2)).
    { rewrite Ev. apply (write_at_mid [] v1 v2); cbn; lia. }
    assert (S1 : dec_word_inplace (D b) (length pre) 0 (pre ++ b ++ m ++ post, v)
                 = Some (pre ++ xorl d1 v1 ++ b2 ++ m ++ post, b1 ++ v2)).
    { unfold dec_word_inplace.
      replace (pre ++ b ++ m ++ post) with (pre ++ b1 ++ (b2 ++ m ++ post))
        by (rewrite Eb, <- app_assoc; auto).
      rewrite read_at_mid by lia. cbn [bind]. rewrite R1, R2. cbn [bind].
      rewrite write_at_mid by (rewrite ?length_xorl; lia). cbn [bind].
      rewrite W1. reflexivity. }
    assert (R3 : read_at (D b) (8 * 1) 8 = Some d2).
    { rewrite Ed. apply read_at_end; auto. }
    assert (R4 : read_at (b1 ++ v2) (8 * 1) 8 = Some v2).
    { apply read_at_end; auto. }
    assert (W2 : write_at (b1 ++ v2) (8 * 1) b2 = Some b).
    { rewrite write_at_end by lia. now rewrite Eb. }
    assert (S2 : dec_word_inplace (D b) (length pre) 1 (pre ++ xorl d1 v1 ++ b2 ++ m ++ post, b1 ++ v2)
                 = Some ((pre ++ xorl d1 v1) ++ xorl d2 v2 ++ m ++ post, b)).
    { unfold dec_word_inplace.
      replace (pre ++ xorl d1 v1 ++ b2 ++ m ++ post) with ((pre ++ xorl d1 v1) ++ b2 ++ (m ++ post))
        by (now rewrite <- app_assoc).
      rewrite read_at_mid by (rewrite ?app_length, ?length_xorl; lia). cbn [bind].
      rewrite R3, R4. cbn [bind].
      rewrite write_at_mid by (rewrite ?app_length, ?length_xorl; lia). cbn [bind].
      rewrite W2. reflexivity. }
    rewrite S1. cbn [bind]. rewrite S2. cbn [bind].
    assert (EX : xorl (D b) v = xorl d1 v1 ++ xorl d2 v2).
    { rewrite Ed, Ev at 1. apply xorl_app. lia. }
    replace (length b + length m + tail_len - 16) with (length m + tail_len) by lia.
    replace ((pre ++ xorl d1 v1) ++ xorl d2 v2 ++ m ++ post)
      with ((pre ++ xorl (D b) v) ++ m ++ post) by (rewrite EX, <- !app_assoc; auto).
    replace (length pre + 16) with (length (pre ++ xorl (D b) v))
      by (rewrite app_length, length_xorl; destruct Hd, Hv; lia).
    rewrite IH; auto; [|lia|now split].
    rewrite last_block_app by auto.
    replace (length (pre ++ xorl (D b) v) + length m) with (length pre + (length b + length m))
      by (rewrite app_length, length_xorl; destruct Hd, Hv; lia).
    rewrite <- !app_assoc. reflexivity.
Qed.
Lemma cbc_inplace_spec D c post cap iv :
  block_function D -> bytes c -> block16 iv -> length c mod 16 = 0 ->
  (N.of_nat (length c) <= int_max)%N -> length c <= cap ->
  cbc128_decrypt_inplace (lift D) (c ++ post) (length c) cap iv =
  Some {| cr_ret := true; cr_out := cbc_decrypt_bytes D iv c ++ post;
          cr_use := None; cr_iv := last_block iv c |}.
Proof.
  intros HD Hb Hiv Hm Hmax Hcap. unfold cbc128_decrypt_inplace, dec_run_inplace.
  destruct (Nat.ltb_spec cap (length c)); [lia|].
  destruct (N.ltb_spec int_max (N.of_nat (length c))); [lia|].
  pose proof (dec_loop_inplace_spec D 0 HD ltac:(lia) c Hm (S (length c)) [] post iv Hb) as HL.
  rewrite Nat.add_0_r in HL. cbn [app length] in HL. rewrite HL; auto; try lia.
Qed.

(** ** pieces *)
Lemma cbc_dec_bytes_pieces D a b v : length a mod 16 = 0 ->
  cbc_decrypt_bytes D v (a ++ b) = cbc_decrypt_bytes D v a ++ cbc_decrypt_bytes D (last_block v a) b.
Proof.
  intros Ha. revert v. by_blocks a; [reflexivity|].
  intros c l Lc _ IH v.
  rewrite <- (app_assoc c l b), (cbc_dec_bytes_app D v c (l ++ b)), (cbc_dec_bytes_app D v c l),
    last_block_app by auto.
  rewrite IH. apply app_assoc.
Qed.
Lemma last_block_pieces a b v : length a mod 16 = 0 ->
  last_block v (a ++ b) = last_block (last_block v a) b.
Proof.
  intros Ha. revert v. by_blocks a; [reflexivity|].
  intros c l Lc _ IH v.
  rewrite <- (app_assoc c l b), (last_block_app v c (l ++ b)), (last_block_app v c l) by auto. apply IH.
Qed.

Lemma skipn_repeat_all n (x : N) : skipn n (repeat x n) = [].
Proof. rewrite <- (repeat_length x n) at 1. apply skipn_all. Qed.
Lemma decrypt_pieces_spec D ps iv : block_function D -> block16 iv ->
  Forall (fun p => bytes p /\ length p mod 16 = 0 /\ (N.of_nat (length p) <= int_max)%N) ps ->
  decrypt_pieces (lift D) ps iv = Some (cbc_decrypt_bytes D iv (concat ps), last_block iv (concat ps)).
Proof.
  intros HD Hiv H. revert iv Hiv. induction H as [|p ps [Hb [Hm Hmax]] _ IH]; intros iv Hiv; [reflexivity|].
  cbn [decrypt_pieces concat].
  pose proof (cbc_decrypt_spec D p [] (repeat 0%N (length p)) (length p) iv HD Hb Hiv Hm Hmax
     (le_n _) (repeat_length _ _)) as HS.
  rewrite app_nil_r, skipn_repeat_all, app_nil_r in HS. rewrite HS. cbn [bind cr_ret cr_iv cr_out].
  rewrite IH by (now apply bytes_last_block). cbn [bind fst snd].
  now rewrite cbc_dec_bytes_pieces, last_block_pieces.
Qed.

(** every piece but the first is encrypted under the IV again instead of the last block *)
Lemma encrypt_pieces_spec E ps iv : block_function E -> block16 iv ->
  Forall (fun p => bytes p /\ length p mod 16 = 0 /\ (N.of_nat (length p) <= int_max)%N) ps ->
  encrypt_pieces (lift E) ps iv = Some (concat (map (cbc_encrypt_bytes E iv) ps), iv).
Proof.
  intros HE Hiv H. induction H as [|p ps [Hb [Hm Hmax]] _ IH]; [reflexivity|].
  cbn [encrypt_pieces map concat].
  assert (EL : merge_length (length p) = length p) by (unfold merge_length; now rewrite Hm).
  assert (EP : lib_padded p = p) by (unfold lib_padded; now rewrite Hm).
  pose proof (cbc_encrypt_spec E p (repeat 0%N (length p)) (length p) iv HE Hb Hiv) as HS.
  rewrite EL, EP in HS. specialize (HS Hmax (le_n _) (repeat_length _ _)).
  rewrite skipn_repeat_all, app_nil_r in HS. rewrite HS. cbn [bind cr_ret cr_iv cr_out].
  rewrite IH. reflexivity.
Qed.

Lemma key_padding_length k : length (key_padding_pkcs7 k) = 16.
Proof.
  unfold key_padding_pkcs7. destruct (Nat.ltb_spec 16 (length k)).
  - rewrite firstn_length. lia.
  - rewrite app_length. destruct (Nat.ltb_spec (length k) 16); rewrite ?repeat_length; cbn [length]; lia.
Qed.
Lemma key_padding_bytes k : bytes k -> bytes (key_padding_pkcs7 k).
Proof.
  intros H. unfold key_padding_pkcs7. destruct (Nat.ltb_spec 16 (length k)); [now apply bytes_firstn|].
  apply bytes_app; split; auto. destruct (Nat.ltb_spec (length k) 16); [|constructor].
  apply bytes_repeat. unfold byte. lia.
Qed.

Lemma cbc_decrypt_bounds' D inp inlen out cap iv :
  block_function D -> bytes inp -> block16 iv -> (N.of_nat inlen <= int_max)%N ->
  inlen <= length inp -> inlen <= cap -> length out = cap ->
  (cbc128_decrypt (lift D) inp inlen out cap iv <> None
   <-> inlen mod 16 = 0 \/ (inlen / 16 + 1) * 16 <= length inp).
Proof.
  intros. rewrite cbc_decrypt_bounds by auto. unfold merge_length.
  destruct (Nat.eqb_spec (inlen mod 16) 0); [tauto|]. reflexivity.
Qed.

Lemma length_cbc_dec_bytes D v m : block_function D -> block16 v -> bytes m -> length m mod 16 = 0 ->
  length (cbc_decrypt_bytes D v m) = length m.
Proof.
  intros HD Hv Hb Hm. revert v Hv Hb. by_blocks m; [auto|].
  intros b l Lb _ IH v Hv Hbl. apply bytes_app in Hbl as [? ?].
  rewrite cbc_dec_bytes_app, !app_length, length_xorl by auto.
  rewrite IH; auto; [|now split]. assert (block16 (D b)) as [L _] by (apply HD; now split).
  destruct Hv as [Lv _]. rewrite L, Lv. cbn. lia.
Qed.

Lemma cbc_inplace_agrees D c post out cap iv :
  block_function D -> bytes c -> block16 iv -> length c mod 16 = 0 ->
  (N.of_nat (length c) <= int_max)%N -> length c <= cap -> length out = cap ->
  exists r r',
    cbc128_decrypt (lift D) (c ++ post) (length c) out cap iv = Some r /\
    cbc128_decrypt_inplace (lift D) (c ++ post) (length c) cap iv = Some r' /\
    cr_ret r = true /\ cr_ret r' = true /\
    firstn (length c) (cr_out r') = firstn (length c) (cr_out r) /\
    firstn (length c) (cr_out r) = cbc_decrypt_bytes D iv c /\
    skipn (length c) (cr_out r') = post /\ skipn (length c) (cr_out r) = skipn (length c) out /\
    cr_iv r' = cr_iv r /\ cr_iv r = last_block iv c.
Proof.
  intros HD Hb Hiv Hm Hmax Hcap Hout.
  rewrite cbc_decrypt_spec, cbc_inplace_spec by auto.
  eexists; eexists. split; [reflexivity|]. split; [reflexivity|]. cbn [cr_ret cr_out cr_iv].
  pose proof (length_cbc_dec_bytes D iv c HD Hiv Hb Hm) as L.
  assert (F : forall t, firstn (length c) (cbc_decrypt_bytes D iv c ++ t) = cbc_decrypt_bytes D iv c).
  { intros t. rewrite firstn_app, L, Nat.sub_diag. cbn [firstn]. rewrite app_nil_r, <- L. apply firstn_all. }
  assert (K : forall t, skipn (length c) (cbc_decrypt_bytes D iv c ++ t) = t).
  { intros t. rewrite <- L, skipn_app, Nat.sub_diag, skipn_all. reflexivity. }
  rewrite !F, !K. repeat split; reflexivity.
Qed.

Lemma cbc_roundtrip_partial_lemma : forall E D m iv out1 cap1 out2 cap2,
  block_cipher E D -> bytes m -> m <> [] -> block16 iv ->
  (N.of_nat (length (lib_padded m)) <= int_max)%N ->
  length out1 = cap1 -> length (lib_padded m) <= cap1 ->
  length out2 = cap2 -> length (lib_padded m) <= cap2 ->
  exists r d u,
    wrapper_cbc_encrypt false (lift E) m out1 cap1 iv = Some r /\ cr_ret r = true /\
    cr_use r = Some (N.of_nat (length (lib_padded m))) /\
    wrapper_cbc_decrypt (lift D) (firstn (length (lib_padded m)) (cr_out r))
        (length (lib_padded m)) out2 cap2 iv = Some d /\
    cr_ret d = true /\ firstn (length m) (cr_out d) = m /\ cr_use d = Some u /\
    (u = N.of_nat (length m) <-> recoverable m).
Proof. intros ? ? m. rewrite (length_lib_padded m). apply cbc_roundtrip_full. Qed.

Lemma cbc_roundtrip_refuted_lemma : exists E D m iv r d, block_cipher E D /\ bytes m /\ block16 iv /\ m <> [] /\
    wrapper_cbc_encrypt false (lift E) m (repeat 0%N 32) 32 iv = Some r /\ cr_ret r = true /\
    cr_use r = Some 16%N /\
    wrapper_cbc_decrypt (lift D) (firstn 16 (cr_out r)) 16 (repeat 0%N 32) 32 iv = Some d /\
    cr_ret d = true /\ cr_use d = Some 9%N /\ length m = 16.
Proof.
  exists toyE, toyD, msg_bad, toy_iv. eexists; eexists.
  split; [exact toy_is_block_cipher|]. split; [apply bytes_repeat; reflexivity|].
  split; [split; [reflexivity|apply bytes_N_to_be]|]. split; [discriminate|].
  split; [vm_compute; reflexivity|]. split; [reflexivity|]. split; [reflexivity|].
  split; [vm_compute; reflexivity|]. auto.
Qed.

Lemma padding_roundtrip_partial_lemma : forall m, m <> [] ->
  (N.of_nat (length (lib_padded m)) <= int_max)%N ->
  padding_merge m = Some (lib_padded m) /\
  (exists r, padding_separate (lib_padded m) = Some r /\ (r = m <-> recoverable m)) /\
  (exists u, separate_length (lib_padded m) (length (lib_padded m)) = Some u /\
             (u = N.of_nat (length m) <-> recoverable m)).
Proof.
  intros m Hm Hmax. rewrite length_lib_padded in Hmax.
  split; [now apply merge_lib_padded|]. split; [apply separate_padded; [assumption | rewrite length_lib_padded; assumption]|].
  destruct (separate_length_padded m [] Hm Hmax) as [u Hu]. rewrite app_nil_r in Hu. eauto.
Qed.

Lemma padding_is_pkcs7_iff_lemma : forall m, (N.of_nat (length (lib_padded m)) <= int_max)%N ->
  (padding_merge m = Some (pkcs7 m) <-> length m mod 16 <> 0).
Proof.
  intros m Hmax. rewrite length_lib_padded in Hmax. rewrite merge_lib_padded by auto.
  unfold lib_padded. destruct (Nat.eqb_spec (length m mod 16) 0) as [E|E]; [|tauto].
  split; [|tauto]. intros H _. injection H as H. apply (f_equal (@length N)) in H.
  unfold pkcs7 in H. rewrite app_length, repeat_length in H. lia.
Qed.

Lemma padding_injective_refuted_lemma : exists m1 m2, m1 <> m2 /\ bytes m1 /\ bytes m2 /\
  padding_merge m1 = padding_merge m2 /\ padding_separate (lib_padded m2) <> Some m2.
Proof.
  exists (repeat 7%N 9), (repeat 7%N 16).
  split; [discriminate|]. split; [apply bytes_repeat; reflexivity|].
  split; [apply bytes_repeat; reflexivity|]. split; [reflexivity|]. discriminate.
Qed.

Lemma padding_separate_empty_refuted_lemma : padding_merge [] = Some [] /\
  padding_separate [] = None /\ separate_length [] 0 = None.
Proof. repeat split; reflexivity. Qed.

Lemma cbc_encrypt_conforms_lemma : forall E m out cap iv,
  block_function E -> bytes m -> block16 iv ->
  (N.of_nat (length (lib_padded m)) <= int_max)%N ->
  length (lib_padded m) <= cap -> length out = cap ->
  cbc128_encrypt false (lift E) m out cap iv =
  Some {| cr_ret := true;
          cr_out := cbc_encrypt_bytes E iv (lib_padded m) ++ skipn (length (lib_padded m)) out;
          cr_use := Some (N.of_nat (length (lib_padded m)));
          cr_iv := iv |}.
Proof. intros E m. rewrite (length_lib_padded m). apply cbc_encrypt_spec. Qed.

Lemma cbc_encrypt_rejects_lemma : forall moves E m out cap iv,
  (N.of_nat (length (lib_padded m)) <= int_max)%N -> cap < length (lib_padded m) ->
  cbc128_encrypt moves (lift E) m out cap iv =
  Some {| cr_ret := false; cr_out := out; cr_use := None; cr_iv := iv |}.
Proof. intros moves E m. rewrite (length_lib_padded m). apply cbc_encrypt_small. Qed.

Lemma cbc_encrypt_output_length_lemma : forall E m iv, block_function E -> bytes m -> block16 iv ->
  length (cbc_encrypt_bytes E iv (lib_padded m)) = length (lib_padded m) /\
  length (lib_padded m) mod 16 = 0 /\ length m <= length (lib_padded m) < length m + 16.
Proof.
  intros E m iv HE Hb Hiv. pose proof (merge_length_spec (length m)) as H.
  assert (A : length (lib_padded m) mod 16 = 0) by (rewrite length_lib_padded; tauto).
  split; [apply cbc_enc_bytes_block; auto; now apply bytes_lib_padded|].
  rewrite length_lib_padded; auto.
Qed.

Lemma cbc_encrypt_realloc_refuted_lemma : forall E m out cap iv, m <> [] ->
  (N.of_nat (length (lib_padded m)) <= int_max)%N -> length (lib_padded m) <= cap ->
  cbc128_encrypt true (lift E) m out cap iv = None.
Proof. intros E m out cap iv. rewrite (length_lib_padded m). apply cbc_encrypt_moved. Qed.

Lemma cbc_encrypt_pieces_refuted_lemma : exists E D a b iv, block_cipher E D /\ block16 a /\ block16 b /\ block16 iv /\
  encrypt_pieces (lift E) [a; b] iv <> encrypt_pieces (lift E) [a ++ b] iv /\
  encrypt_pieces (lift E) [a ++ b] iv <> None.
Proof.
  exists toyE, toyD, (repeat 1%N 16), (repeat 2%N 16), toy_iv.
  split; [exact toy_is_block_cipher|].
  assert (forall x, byte x -> block16 (repeat x 16)) as HR
    by (intros; split; [apply repeat_length|now apply bytes_repeat]).
  split; [apply HR; reflexivity|]. split; [apply HR; reflexivity|].
  split; [split; [reflexivity|apply bytes_N_to_be]|]. split; vm_compute; discriminate.
Qed.

Lemma cbc_decrypt_bounds_refuted_lemma : exists inp, bytes inp /\ length inp = 20 /\
  cbc128_decrypt (lift toyD) inp 20 (repeat 0%N 32) 32 toy_iv = None /\
  wrapper_cbc_decrypt (lift toyD) [] 0 (repeat 0%N 32) 32 toy_iv = None.
Proof.
  exists (repeat 5%N 20). split; [apply bytes_repeat; reflexivity|]. repeat split; reflexivity.
Qed.
