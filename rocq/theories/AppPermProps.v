(** * Properties: encrypted identifiers stay distinct (C119), their check digits (C120) *)
From Verif Require Import Base CbcSpec FpeModel FpeSpec FpeProofs Sm4Model Sm4Proofs AppModel AppSpec AppProofs CnProofs AppProps AppPerm.
Local Open Scope nat_scope.

(** In all statements [ciph], [clog], the context, [j..] and [after..] are as in AppProps.v. *)

(** ** C119 *)
(** The phone numbers of one length, under one key and one sample, are permuted: no two of them are encrypted to the same
    string, and every string of the format is the encryption of one that agrees with it in the kept characters.  The two
    calls may differ in all uninitialised memory. *)
Theorem phone_permutes : forall ciph clog junk0 key keylen cipher ffx ctx sample n,
  app_init junk0 key keylen cipher ffx = Ret ctx -> block_function (ciph (a_kind ctx) (a_key ctx)) ->
  clog_sane clog 10 n -> ffx_fits ffx (n_starred sample n) (S (n_kept sample n)) ->
  (forall p1 p2 j1 j2 after1 after2 r, app_number p1 sample -> app_number p2 sample -> length p1 = n -> length p2 = n ->
    n <= length after1 -> n <= length after2 ->
    encrypt_phone ciph clog ctx j1 p1 sample after1 = Ret (mkres (r ++ skipn n after1) [0%N]) ->
    encrypt_phone ciph clog ctx j2 p2 sample after2 = Ret (mkres (r ++ skipn n after2) [0%N]) -> p1 = p2) /\
  (forall r j after, app_number r sample -> length r = n -> n <= length after ->
    exists p, app_number p sample /\ same_format sample p r /\
      encrypt_phone ciph clog ctx j p sample after = Ret (mkres (r ++ skipn n after) [0%N])).
Proof. exact phone_permutes_lemma. Qed.
Print Assumptions phone_permutes.
(** ID numbers of n characters, with and without a final X together *)
Theorem idcard_permutes : forall ciph clog junk0 key keylen cipher ffx ctx sample n,
  app_init junk0 key keylen cipher ffx = Ret ctx -> block_function (ciph (a_kind ctx) (a_key ctx)) ->
  (forall m, S m = n \/ m = n -> clog_sane clog 10 m /\ ffx_fits ffx (n_starred sample m) (S (n_kept sample m))) ->
  (forall b1 x1 b2 x2 j1 j2 after1 after2 r, id_number b1 x1 sample -> id_number b2 x2 sample ->
    length (b1 ++ x1) = n -> length (b2 ++ x2) = n -> n <= length after1 -> n <= length after2 ->
    encrypt_idcard ciph clog ctx j1 (b1 ++ x1) sample after1 = Ret (mkres (r ++ skipn n after1) [0%N]) ->
    encrypt_idcard ciph clog ctx j2 (b2 ++ x2) sample after2 = Ret (mkres (r ++ skipn n after2) [0%N]) -> b1 ++ x1 = b2 ++ x2) /\
  (forall b x j after, id_number b x sample -> length (b ++ x) = n -> n <= length after ->
    exists b', id_number b' x sample /\ same_format sample b' b /\
      encrypt_idcard ciph clog ctx j (b' ++ x) sample after = Ret (mkres (b ++ x ++ skipn n after) [0%N])).
Proof. exact idcard_permutes_lemma. Qed.
Print Assumptions idcard_permutes.
(** texts of n Chinese characters *)
Theorem cn_permutes : forall ciph clog junk0 key keylen cipher ffx ctx ms sample n,
  app_init junk0 key keylen cipher ffx = Ret ctx -> block_function (ciph (a_kind ctx) (a_key ctx)) ->
  (N.of_nat n < 2 ^ 26)%N -> clog_sane clog 12 (4 * n) -> 1 <= n_stars ms -> ffx_fits ffx (4 * n_stars ms) (S (4 * n_keeps ms)) ->
  (forall t1 t2 j1 j2 ji1 jt1 ji2 jt2 after1 after2 r, cn_sample t1 ms sample -> cn_sample t2 ms sample -> Forall han t1 -> Forall han t2 ->
    length t1 = n -> length t2 = n -> 3 * n <= length after1 -> 3 * n <= length after2 ->
    encrypt_cn ciph clog ctx j1 ji1 jt1 (utf8 t1) sample after1 = Ret (mkres (r ++ skipn (3 * n) after1) [0%N]) ->
    encrypt_cn ciph clog ctx j2 ji2 jt2 (utf8 t2) sample after2 = Ret (mkres (r ++ skipn (3 * n) after2) [0%N]) -> t1 = t2) /\
  (forall t j ji jt after, cn_sample t ms sample -> Forall han t -> length t = n -> 3 * n <= length after ->
    exists t', cn_sample t' ms sample /\ Forall han t' /\ length t' = n /\ (forall i cp, nth_error ms i = Some (Keep cp) -> get t' i = get t i) /\
      encrypt_cn ciph clog ctx j ji jt (utf8 t') sample after = Ret (mkres (utf8 t ++ skipn (3 * n) after) [0%N])).
Proof. exact cn_permutes_lemma. Qed.
Print Assumptions cn_permutes.
(** the phone number and sample of AppProps.v and the ID number of C120: the hypotheses hold for both *)
Definition id0 : list N := [49; 49; 48; 49; 48; 53; 49; 57; 52; 57; 49; 50; 51; 49; 48; 48; 50]%N.
Definition id_mask : list N := [49; 49; 48; 49; 48; 53; 42; 42; 42; 42; 42; 42; 42; 42; 48; 48; 50; 88]%N.
Example permutes_instance : app_init [] ex_key 16 s_sm4 s_ff1 = Ret (ex_ctx s_ff1) /\ app_number ex_phone ex_sample /\
  ffx_fits s_ff1 (n_starred ex_sample (length ex_phone)) (S (n_kept ex_sample (length ex_phone))) /\
  id_number id0 [88%N] id_mask /\ (forall m, S m = 18 \/ m = 18 -> ffx_fits s_ff1 (n_starred id_mask m) (S (n_kept id_mask m))).
Proof.
  split; [reflexivity|]. split; [apply phone_instance|]. split; [apply phone_instance|]. split.
  - split; [left; reflexivity|]. split; [unfold bytes; repeat (apply Forall_cons; [reflexivity|]); apply Forall_nil|]. split.
    { intros i Hi. assert (i < 17) as Hi' by exact Hi. clear Hi. unfold starred, digit.
      do 17 (destruct i as [|i]; [intros [H|H]; [discriminate H|cbn in H |- *; first [discriminate H|lia]]|]). lia. }
    split; [right; cbn; lia|reflexivity].
  - intros m [H|H]; [assert (m = 17) by lia|]; subst m; (split; [intros _; vm_compute; lia|intros Q; exfalso; apply Q; reflexivity]).
Qed.

(** ** C120: encrypted ID numbers are ID numbers *)
(** GB 11643-1999: eighteen characters, the last a check digit such that the weighted sum of all is 1 modulo 11 (X counts
    ten); characters 11 and 12 are the month of birth. *)
Definition id_value (c : N) : N := if (c =? 88)%N then 10%N else (c - 48)%N.
Definition id_sum (id : list N) : N :=
  fold_right N.add 0%N (map (fun p => fst p * id_value (snd p))%N (combine [7; 9; 10; 5; 8; 4; 2; 1; 6; 3; 7; 9; 10; 5; 8; 4; 2; 1]%N id)).
Definition id_month (id : list N) : N := (10 * id_value (get id 10) + id_value (get id 11))%N.
Definition id_wellformed (id : list N) : Prop := length id = 18 /\ (id_sum id mod 11 = 1)%N /\ (1 <= id_month id <= 12)%N.
(** False of the code: the digits are encrypted as a number.  With SM4 and either mode, a sample that hides the date of birth
    turns the standard's own example into a string with neither a month nor the right check digit. *)
Theorem idcard_wellformed_refuted : forall ffx, ffx = s_ff1 \/ ffx = s_ff3 ->
  exists id sample r, id_wellformed id /\ encrypt_idcard ex_ciph ceil_log (ex_ctx ffx) [] id sample (repeat 0%N 19) = Ret (mkres (r ++ [0%N]) [0%N]) /\
    length r = 18 /\ (id_sum r mod 11 <> 1)%N /\ (12 < id_month r)%N.
Proof.
  assert (W : id_wellformed (id0 ++ [88%N])) by (split; [reflexivity|split; [reflexivity|vm_compute; split; discriminate]]).
  intros ffx [E|E]; subst ffx; exists (id0 ++ [88%N]), id_mask.
  - exists [49; 49; 48; 49; 48; 53; 56; 57; 54; 54; 53; 56; 54; 49; 48; 48; 50; 88]%N. split; [exact W|]. split; [vm_compute; reflexivity|].
    split; [reflexivity|]. split; [vm_compute; discriminate|reflexivity].
  - exists [49; 49; 48; 49; 48; 53; 53; 54; 52; 55; 52; 54; 54; 49; 48; 48; 50; 88]%N. split; [exact W|]. split; [vm_compute; reflexivity|].
    split; [reflexivity|]. split; [vm_compute; discriminate|reflexivity].
Qed.
Print Assumptions idcard_wellformed_refuted.
