(** * CBC on inputs longer than an int (proofs for C91) *)
From Verif Require Import Base CbcModel CbcSpec CbcProofs.
From Coq Require Import ZArith Lia.
Local Open Scope nat_scope.

(** what remains of a length in 32 bits *)
Definition low32 (n : nat) : nat := N.to_nat (N.of_nat n mod 2 ^ 32).

Lemma low32_le n : low32 n <= n.
Proof. unfold low32. pose proof (N.mod_le (N.of_nat n) (2 ^ 32) ltac:(discriminate)). lia. Qed.
Lemma c_int_low n : (N.of_nat (low32 n) <= int_max)%N -> c_int (N.of_nat n) = Z.of_nat (low32 n).
Proof.
  unfold low32, int_max, c_int. rewrite N2Nat.id. intros H. destruct (N.ltb_spec (N.of_nat n mod 2 ^ 32) (2 ^ 31)); lia.
Qed.
Lemma c_int_high n : (int_max < N.of_nat (low32 n))%N -> (c_int (N.of_nat n) < 0)%Z.
Proof.
  unfold low32, int_max, c_int. rewrite N2Nat.id. intros H. pose proof (N.mod_lt (N.of_nat n) (2 ^ 32) ltac:(discriminate)).
  destruct (N.ltb_spec (N.of_nat n mod 2 ^ 32) (2 ^ 31)); lia.
Qed.
Lemma low_small n : (N.of_nat n <= int_max)%N -> low32 n = n.
Proof. unfold low32, int_max. intros H. rewrite N.mod_small by lia. apply Nat2N.id. Qed.
Lemma cbc_decrypt_wraps_lemma : forall blk inp n out cap iv, n <= cap -> (N.of_nat (low32 n) <= int_max)%N ->
  cbc128_decrypt blk inp n out cap iv = cbc128_decrypt blk inp (low32 n) out cap iv /\
  cbc128_decrypt_inplace blk out n cap iv = cbc128_decrypt_inplace blk out (low32 n) cap iv.
Proof.
  intros blk inp n out cap iv Hn Hl. pose proof (low32_le n).
  unfold cbc128_decrypt, cbc128_decrypt_inplace.
  destruct (Nat.ltb_spec cap n); [lia|]. destruct (Nat.ltb_spec cap (low32 n)); [lia|].
  destruct (N.ltb_spec int_max (N.of_nat (low32 n))); [lia|].
  destruct (N.ltb_spec int_max (N.of_nat n)) as [L|L].
  - rewrite (c_int_low n Hl). cbv zeta. destruct (Z.ltb_spec (Z.of_nat (low32 n)) 0); [lia|]. rewrite Nat2Z.id. split; reflexivity.
  - rewrite (low_small n L). split; reflexivity.
Qed.
Lemma cbc_decrypt_one_block_lemma : forall D inp n out cap iv, block_function D -> bytes inp -> n <= length inp -> n <= cap -> length out = cap -> block16 iv ->
  (int_max < N.of_nat (low32 n))%N ->
  cbc128_decrypt (lift D) inp n out cap iv =
    Some {| cr_ret := true; cr_out := xorl (D (firstn 16 inp)) iv ++ skipn 16 out; cr_use := None; cr_iv := firstn 16 inp |} /\
  (n <= length inp -> cbc128_decrypt_inplace (lift D) inp n (length inp) iv =
    Some {| cr_ret := true; cr_out := xorl (D (firstn 16 inp)) iv ++ skipn 16 inp; cr_use := None; cr_iv := firstn 16 inp |}).
Proof.
  intros D inp n out cap iv HD HB Hi Hc Ho Hiv Hl. pose proof (low32_le n). assert (16 < int_max)%N by reflexivity.
  assert (L16 : length (firstn 16 inp) = 16) by (rewrite firstn_length; lia).
  assert (LD : length (xorl (D (firstn 16 inp)) iv) = 16).
  { rewrite length_xorl. destruct (HD (firstn 16 inp)) as [E _]; [split; [exact L16 | apply bytes_firstn; exact HB]|]. rewrite E, (proj1 Hiv). reflexivity. }
  assert (W : forall o, 16 <= length o -> write_at o 0 (xorl (D (firstn 16 inp)) iv) = Some (xorl (D (firstn 16 inp)) iv ++ skipn 16 o)).
  { intros o Lo. unfold write_at. rewrite LD. destruct (Nat.leb_spec (0 + 16) (length o)); [reflexivity | lia]. }
  assert (R : read_at inp 0 16 = Some (firstn 16 inp)).
  { unfold read_at. destruct (Nat.leb_spec (0 + 16) (length inp)); [reflexivity | lia]. }
  pose proof (c_int_high n Hl) as Hneg.
  unfold cbc128_decrypt, cbc128_decrypt_inplace, dec_negative, lift.
  destruct (Nat.ltb_spec cap n); [lia|]. destruct (Nat.ltb_spec (length inp) n); [lia|].
  destruct (N.ltb_spec int_max (N.of_nat n)); [|lia]. cbv zeta. destruct (Z.ltb_spec (c_int (N.of_nat n)) 0); [|lia].
  rewrite R. cbn [bind]. rewrite !W by lia. split; reflexivity.
Qed.
Lemma separate_pad_le buf n p : separate_pad_num buf n = Some p -> (p <= 16)%N.
Proof.
  unfold separate_pad_num. destruct (n =? 0); [discriminate|]. destruct (read_at buf (n - 1) 1) as [b|]; [|discriminate].
  cbn [bind]. destruct (N.ltb_spec 16 (hd 0%N b)); intros [= <-]; lia.
Qed.
Lemma size_minus n p : (p <= 16)%N -> 16 <= n -> (N.of_nat n < 2 ^ 64)%N -> size_of_int (Z.of_nat n - Z.of_N p) = N.of_nat (n - N.to_nat p).
Proof. intros H1 H2 H3. unfold size_of_int. rewrite Z.mod_small by lia. lia. Qed.
Lemma separate_huge buf n : n <= length buf -> (N.of_nat n < 2 ^ 64)%N -> (int_max + 16 < N.of_nat (low32 n))%N ->
  exists u, separate_length buf n = Some u /\ (2 ^ 64 - 2 ^ 31 <= u)%N.
Proof.
  intros Hn H64 Hl. pose proof (low32_le n). unfold separate_length.
  assert (E : exists p, separate_pad_num buf n = Some p).
  { unfold separate_pad_num. destruct (Nat.eqb_spec n 0) as [->|]; [cbn in Hl; unfold int_max in Hl; lia|].
    unfold read_at. destruct (Nat.leb_spec (n - 1 + 1) (length buf)); [|lia]. cbn [bind]. eexists; reflexivity. }
  destruct E as [p E]. rewrite E. cbn [bind]. pose proof (separate_pad_le _ _ _ E) as Hp. eexists. split; [reflexivity|].
  assert (16 < int_max)%N by reflexivity.
  rewrite size_minus by lia.
  assert (L : low32 (n - N.to_nat p) = low32 n - N.to_nat p).
  { unfold low32 in *. unfold int_max in *.
    pose proof (N.div_mod (N.of_nat n) (2 ^ 32) ltac:(discriminate)) as DM.
    pose proof (N.mod_lt (N.of_nat n) (2 ^ 32) ltac:(discriminate)) as ML.
    rewrite <- (N.mod_unique (N.of_nat (n - N.to_nat p)) (2 ^ 32) (N.of_nat n / 2 ^ 32) (N.of_nat n mod 2 ^ 32 - p)) by lia. lia. }
  unfold c_int. rewrite <- (N2Nat.id (N.of_nat (n - N.to_nat p) mod 2 ^ 32)). change (N.to_nat (N.of_nat (n - N.to_nat p) mod 2 ^ 32)) with (low32 (n - N.to_nat p)).
  rewrite L. cbv zeta. unfold int_max in *.
  assert (LL : (N.of_nat (low32 n) < 2 ^ 32)%N) by (unfold low32; rewrite N2Nat.id; apply N.mod_lt; discriminate).
  destruct (N.ltb_spec (N.of_nat (low32 n - N.to_nat p)) (2 ^ 31)); [lia|].
  unfold size_of_int. rewrite <- (Z.mod_add _ 1) by lia. rewrite Z.mod_small by lia. lia.
Qed.
Lemma cbc_decrypt_long_lemma : forall D inp n out iv, block_function D -> bytes inp -> n <= length inp -> n <= length out -> block16 iv ->
  (N.of_nat n < 2 ^ 64)%N -> (int_max + 16 < N.of_nat (low32 n))%N ->
  exists u, wrapper_cbc_decrypt (lift D) inp n out (length out) iv =
    Some {| cr_ret := true; cr_out := xorl (D (firstn 16 inp)) iv ++ skipn 16 out; cr_use := Some u; cr_iv := firstn 16 inp |} /\
    (N.of_nat (length out) < 2 ^ 63 -> N.of_nat (length out) < u)%N.
Proof.
  intros D inp n out iv HD HB Hi Ho Hiv H64 Hl. assert (16 < int_max)%N by reflexivity. pose proof (low32_le n).
  assert (Hl' : (int_max < N.of_nat (low32 n))%N) by lia.
  destruct (cbc_decrypt_one_block_lemma D inp n out (length out) iv HD HB Hi Ho eq_refl Hiv Hl') as [E _].
  assert (LD : length (xorl (D (firstn 16 inp)) iv ++ skipn 16 out) = length out).
  { rewrite app_length, skipn_length, length_xorl. destruct (HD (firstn 16 inp)) as [E1 _].
    - split; [rewrite firstn_length; lia | apply bytes_firstn; exact HB].
    - rewrite E1, (proj1 Hiv). lia. }
  destruct (separate_huge (xorl (D (firstn 16 inp)) iv ++ skipn 16 out) n ltac:(rewrite LD; exact Ho) H64 Hl) as (u & Eu & Lu).
  exists u. split.
  - unfold wrapper_cbc_decrypt. rewrite E. cbn [bind cr_ret cr_out cr_iv]. rewrite Eu. reflexivity.
  - intros L. assert (2 ^ 63 <= 2 ^ 64 - 2 ^ 31)%N by (vm_compute; discriminate). lia.
Qed.
Lemma cbc_encrypt_long_lemma : forall mv blk m out cap iv, (int_max < N.of_nat (length (lib_padded m)))%N ->
  cbc128_encrypt mv blk m out cap iv = None.
Proof.
  intros mv blk m out cap iv H. rewrite length_lib_padded in H. unfold cbc128_encrypt, padding_merge. cbv zeta.
  destruct (N.ltb_spec int_max (N.of_nat (merge_length (length m)))); [reflexivity | lia].
Qed.
(** exactly when encryption is defined *)
Lemma cbc_encrypt_defined_lemma : forall mv E m out cap iv, block_function E -> bytes m -> block16 iv -> length out = cap ->
  cbc128_encrypt mv (lift E) m out cap iv = None <->
  ((int_max < N.of_nat (length (lib_padded m)))%N \/ (mv = true /\ m <> [] /\ length (lib_padded m) <= cap)).
Proof.
  intros mv E m out cap iv HE HB Hiv Ho. destruct (N.lt_ge_cases int_max (N.of_nat (length (lib_padded m)))) as [L|L].
  { split; [auto|]. intros _. now apply cbc_encrypt_long_lemma. }
  destruct (Nat.lt_ge_cases cap (length (lib_padded m))) as [C|C].
  { rewrite (cbc_encrypt_rejects_lemma mv E m out cap iv L C). split; [discriminate|]. intros [H|(_ & _ & H)]; lia. }
  destruct mv.
  - destruct m as [|x m].
    + assert (R : cbc128_encrypt true (lift E) [] out cap iv = Some {| cr_ret := true; cr_out := out; cr_use := Some 0%N; cr_iv := iv |}).
      { unfold cbc128_encrypt, padding_merge. cbn. reflexivity. }
      rewrite R. split; [discriminate|]. intros [H|(_ & H & _)]; [lia|congruence].
    + split; [|intros _; apply cbc_encrypt_realloc_refuted_lemma; [discriminate|exact L|exact C]]. intros _. right. split; [reflexivity|]. split; [discriminate|exact C].
  - rewrite (cbc_encrypt_conforms_lemma E m out cap iv HE HB Hiv L C Ho). split; [discriminate|]. intros [H|(H & _)]; [lia|discriminate].
Qed.
