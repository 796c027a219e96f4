(** * Properties: what kept characters do, the missing terminator, FF3's related tweaks, FF3-1 (C110-C113) *)
From Verif Require Import Base CbcSpec Toy FpeModel FpeSpec FpeProofs Sm4Model Sm4Proofs AppModel AppSpec AppProofs CnProofs AppProps AppTweak Ff3Slide.
Local Open Scope nat_scope.

(** In all statements [ciph], [clog], the context, [j..] and [after] are as in AppProps.v. *)

(** ** C110 *)
(** The marked digits are encrypted by the standard's algorithm, and its tweak is all kept characters
    and a zero byte; of those, FF3 reads eight ([std_ffx]). *)
Theorem phone_tweak_actual : forall ciph clog junk0 key keylen cipher ffx ctx phone sample after j,
  app_init junk0 key keylen cipher ffx = Ret ctx -> block_function (ciph (a_kind ctx) (a_key ctx)) ->
  app_number phone sample -> clog_sane clog 10 (length phone) ->
  ffx_fits ffx (n_starred sample (length phone)) (S (n_kept sample (length phone))) ->
  ffx_exact clog ffx 10 (n_starred sample (length phone)) -> length phone <= length after ->
  exists phone', encrypt_phone ciph clog ctx j phone sample after = Ret (mkres (phone' ++ skipn (length phone) after) [0%N]) /\
    same_format sample phone phone' /\
    marked sample phone' = map char_of (std_ffx ffx (ciph (a_kind ctx) (a_key ctx)) 10 (unmarked sample phone ++ [0%N]) (map digit_of (marked sample phone))).
Proof. exact phone_value. Qed.
Print Assumptions phone_tweak_actual.
Theorem idcard_tweak_actual : forall ciph clog junk0 key keylen cipher ffx ctx body x sample after j,
  app_init junk0 key keylen cipher ffx = Ret ctx -> block_function (ciph (a_kind ctx) (a_key ctx)) ->
  x = [88%N] \/ (x = [] /\ body <> [] /\ last body 0%N <> 88%N) ->
  bytes body -> (forall i, i < length body -> starred sample i -> digit (get body i)) ->
  sample = [] \/ length body <= length sample -> (N.of_nat (length body) < 2 ^ 28)%N -> clog_sane clog 10 (length body) ->
  ffx_fits ffx (n_starred sample (length body)) (S (n_kept sample (length body))) ->
  ffx_exact clog ffx 10 (n_starred sample (length body)) -> length (body ++ x) <= length after ->
  exists body', encrypt_idcard ciph clog ctx j (body ++ x) sample after = Ret (mkres (body' ++ x ++ skipn (length (body ++ x)) after) [0%N]) /\
    same_format sample body body' /\
    marked sample body' = map char_of (std_ffx ffx (ciph (a_kind ctx) (a_key ctx)) 10 (unmarked sample body ++ [0%N]) (map digit_of (marked sample body))).
Proof. exact idcard_value. Qed.
Print Assumptions idcard_tweak_actual.
(** Of a text, the tweak is four duodecimal numerals per kept character and a zero byte. *)
Theorem cn_tweak_actual : forall ciph clog junk0 key keylen cipher ffx ctx text ms sample after j ji jt,
  app_init junk0 key keylen cipher ffx = Ret ctx -> block_function (ciph (a_kind ctx) (a_key ctx)) ->
  cn_sample text ms sample -> Forall han text -> (N.of_nat (length text) < 2 ^ 26)%N ->
  clog_sane clog 12 (4 * length text) -> 1 <= n_stars ms ->
  ffx_fits ffx (4 * n_stars ms) (S (4 * n_keeps ms)) -> ffx_exact clog ffx 12 (4 * n_stars ms) ->
  length (utf8 text) <= length after ->
  exists text', encrypt_cn ciph clog ctx j ji jt (utf8 text) sample after = Ret (mkres (utf8 text' ++ skipn (length (utf8 text)) after) [0%N]) /\
    length text' = length text /\ Forall han text' /\ cn_unmarked ms text' = cn_unmarked ms text /\
    map char_of (text_numerals (cn_marked ms text')) =
      map char_of (std_ffx ffx (ciph (a_kind ctx) (a_key ctx)) 12 (map char_of (text_numerals (cn_unmarked ms text)) ++ [0%N]) (text_numerals (cn_marked ms text))).
Proof. exact cn_value. Qed.
Print Assumptions cn_tweak_actual.

(** With FF3, kept characters after the eighth change nothing: two numbers, even of different lengths
    and under different samples, that agree in the marked digits and in the first eight kept characters
    are encrypted to the same marked digits. *)
Theorem phone_tweak_refuted : forall ciph clog junk0 key keylen cipher ffx ctx p1 p2 s1 s2 after j1 j2,
  app_init junk0 key keylen cipher ffx = Ret ctx -> block_function (ciph (a_kind ctx) (a_key ctx)) -> ~ is_ff1 ffx ->
  app_number p1 s1 -> app_number p2 s2 -> clog_sane clog 10 (length p1) -> clog_sane clog 10 (length p2) ->
  1 <= n_starred s1 (length p1) <= 56 -> 8 <= n_kept s1 (length p1) -> 8 <= n_kept s2 (length p2) ->
  length p1 <= length after -> length p2 <= length after ->
  marked s1 p1 = marked s2 p2 -> firstn 8 (unmarked s1 p1) = firstn 8 (unmarked s2 p2) ->
  exists r1 r2, encrypt_phone ciph clog ctx j1 p1 s1 after = Ret (mkres (r1 ++ skipn (length p1) after) [0%N]) /\
    encrypt_phone ciph clog ctx j2 p2 s2 after = Ret (mkres (r2 ++ skipn (length p2) after) [0%N]) /\
    same_format s1 p1 r1 /\ same_format s2 p2 r2 /\ marked s1 r1 = marked s2 r2.
Proof. exact phone_tweak_refuted_lemma. Qed.
Print Assumptions phone_tweak_refuted.
(** Chinese text: only the first two kept characters count. *)
Theorem cn_tweak_refuted : forall ciph clog junk0 key keylen cipher ffx ctx t1 t2 m1 m2 s1 s2 after j1 j2 ji1 ji2 jt1 jt2,
  app_init junk0 key keylen cipher ffx = Ret ctx -> block_function (ciph (a_kind ctx) (a_key ctx)) -> ~ is_ff1 ffx ->
  cn_sample t1 m1 s1 -> cn_sample t2 m2 s2 -> Forall han t1 -> Forall han t2 ->
  (N.of_nat (length t1) < 2 ^ 26)%N -> (N.of_nat (length t2) < 2 ^ 26)%N ->
  clog_sane clog 12 (4 * length t1) -> clog_sane clog 12 (4 * length t2) ->
  1 <= n_stars m1 <= 13 -> 2 <= n_keeps m1 -> 2 <= n_keeps m2 ->
  length (utf8 t1) <= length after -> length (utf8 t2) <= length after ->
  cn_marked m1 t1 = cn_marked m2 t2 -> firstn 2 (cn_unmarked m1 t1) = firstn 2 (cn_unmarked m2 t2) ->
  exists r1 r2, encrypt_cn ciph clog ctx j1 ji1 jt1 (utf8 t1) s1 after = Ret (mkres (utf8 r1 ++ skipn (length (utf8 t1)) after) [0%N]) /\
    encrypt_cn ciph clog ctx j2 ji2 jt2 (utf8 t2) s2 after = Ret (mkres (utf8 r2 ++ skipn (length (utf8 t2)) after) [0%N]) /\
    length r1 = length t1 /\ length r2 = length t2 /\
    cn_unmarked m1 r1 = cn_unmarked m1 t1 /\ cn_unmarked m2 r2 = cn_unmarked m2 t2 /\ cn_marked m1 r1 = cn_marked m2 r2.
Proof. exact cn_tweak_refuted_lemma. Qed.
Print Assumptions cn_tweak_refuted.
(** The same of ID numbers. *)
Theorem idcard_tweak_refuted : forall ciph clog junk0 key keylen cipher ffx ctx b1 b2 x s after j1 j2,
  app_init junk0 key keylen cipher ffx = Ret ctx -> block_function (ciph (a_kind ctx) (a_key ctx)) -> ~ is_ff1 ffx ->
  x = [88%N] \/ (x = [] /\ b1 <> [] /\ b2 <> [] /\ last b1 0%N <> 88%N /\ last b2 0%N <> 88%N) ->
  bytes b1 -> bytes b2 -> length b2 = length b1 -> s = [] \/ length b1 <= length s -> (N.of_nat (length b1) < 2 ^ 28)%N ->
  (forall i, i < length b1 -> starred s i -> digit (get b1 i) /\ get b2 i = get b1 i) ->
  clog_sane clog 10 (length b1) -> 1 <= n_starred s (length b1) <= 56 -> 8 <= n_kept s (length b1) ->
  length (b1 ++ x) <= length after -> firstn 8 (unmarked s b1) = firstn 8 (unmarked s b2) ->
  exists r1 r2, encrypt_idcard ciph clog ctx j1 (b1 ++ x) s after = Ret (mkres (r1 ++ x ++ skipn (length (b1 ++ x)) after) [0%N]) /\
    encrypt_idcard ciph clog ctx j2 (b2 ++ x) s after = Ret (mkres (r2 ++ x ++ skipn (length (b2 ++ x)) after) [0%N]) /\
    same_format s b1 r1 /\ same_format s b2 r2 /\ (forall i, i < length b1 -> starred s i -> get r1 i = get r2 i).
Proof. exact idcard_tweak_refuted_lemma. Qed.
Print Assumptions idcard_tweak_refuted.
(** a toy function in every role, a checksum multiplied by 1, 3, 5, .. and added to the bytes: SM4 would be slow to re-check *)
Definition ex_toy (k : cipher_kind) (key b : list N) : list N :=
  let h := fold_left (fun a x => (a * 7 + x * x + 3) mod 256)%N b 1%N in map (fun i => ((h * (2 * N.of_nat i + 1) + get b i) mod 256)%N) (seq 0 16).
Lemma ex_block k key : block_function (ex_toy k key).
Proof.
  intros b _. unfold ex_toy. split; [now rewrite map_length, seq_length|].
  apply Forall_forall. intros x Hx. apply in_map_iff in Hx as (i & <- & _). now apply N.mod_lt.
Qed.
(** "40000000000000000X" and "40000000000000123X" under "**45678901234567": the two marked digits are
    encrypted alike with FF3; with FF1 they are not. *)
Definition ex_many : list N := [42; 42; 52; 53; 54; 55; 56; 57; 48; 49; 50; 51; 52; 53; 54; 55; 56]%N.
Definition ex_id2 : list N := firstn 14 ex_id ++ [49; 50; 51]%N.
Definition ex_stars (ffx id : list N) : option (list N) :=
  match encrypt_idcard ex_toy ceil_log (ex_ctx ffx) [] (id ++ [88%N]) ex_many (repeat 0%N 18) with Ret r => Some (firstn 2 (r_after r)) | _ => None end.
Example tweak_instance : bytes ex_id2 /\ length ex_id2 = length ex_id /\ n_starred ex_many 17 = 2 /\ n_kept ex_many 17 = 15 /\
  firstn 8 (unmarked ex_many ex_id) = firstn 8 (unmarked ex_many ex_id2) /\ unmarked ex_many ex_id <> unmarked ex_many ex_id2 /\
  ex_stars s_ff3 ex_id = ex_stars s_ff3 ex_id2 /\ ex_stars s_ff3 ex_id <> None /\ ex_stars s_ff1 ex_id <> ex_stars s_ff1 ex_id2 /\
  block_function (ex_toy Sm4 ex_key).
Proof.
  split; [apply Forall_forall; intros x Hx; vm_compute in Hx; repeat destruct Hx as [<-|Hx]; try reflexivity; contradiction|].
  do 4 (split; [vm_compute; reflexivity|]). split; [vm_compute; discriminate|]. split; [vm_compute; reflexivity|].
  split; [vm_compute; discriminate|]. split; [vm_compute; discriminate|].
  apply ex_block.
Qed.
Example cn_tweak_instance : let t1 := [0x5E7F; 0x4E1C; 0x7701; 0x5E02]%N in let t2 := [0x5E7F; 0x4E1C; 0x7701; 0x4E00]%N in
  let ms := [Star; Keep 0x4E1C; Keep 0x4E1C; Keep 0x4E1C]%N in
  cn_marked ms t1 = cn_marked ms t2 /\ cn_unmarked ms t1 <> cn_unmarked ms t2 /\ firstn 2 (cn_unmarked ms t1) = firstn 2 (cn_unmarked ms t2) /\
  exists r1 r2, encrypt_cn ex_toy ceil_log (ex_ctx s_ff3) [] [] [] (utf8 t1) (marks_string ms) (repeat 0%N 12) = Ret (mkres r1 [0%N]) /\
    encrypt_cn ex_toy ceil_log (ex_ctx s_ff3) [] [] [] (utf8 t2) (marks_string ms) (repeat 0%N 12) = Ret (mkres r2 [0%N]) /\
    firstn 3 r1 = firstn 3 r2 /\ firstn 3 r1 <> utf8 [0x5E7F%N].
Proof.
  cbv zeta. split; [reflexivity|]. split; [vm_compute; discriminate|]. split; [reflexivity|].
  eexists _, _. split; [vm_compute; reflexivity|]. split; [vm_compute; reflexivity|]. split; [reflexivity|vm_compute; discriminate].
Qed.

(** ** C111 *)
(** Nothing is written after the last character: if the caller's buffer holds no zero byte before the
    call, it holds none after it. *)
Theorem app_terminator_refuted : forall ciph clog junk0 key keylen cipher ffx ctx after,
  app_init junk0 key keylen cipher ffx = Ret ctx -> block_function (ciph (a_kind ctx) (a_key ctx)) ->
  Forall (fun c => c <> 0%N) after ->
  (forall phone sample j, app_number phone sample -> Forall (fun c => c <> 0%N) phone -> clog_sane clog 10 (length phone) ->
     ffx_fits ffx (n_starred sample (length phone)) (S (n_kept sample (length phone))) -> length phone <= length after ->
     exists r, encrypt_phone ciph clog ctx j phone sample after = Ret r /\ length (r_after r) = length after /\ ~ In 0%N (r_after r)) /\
  (forall id sample j, app_number id sample -> Forall (fun c => c <> 0%N) id -> id <> [] -> last id 0%N <> 88%N -> clog_sane clog 10 (length id) ->
     ffx_fits ffx (n_starred sample (length id)) (S (n_kept sample (length id))) -> length id <= length after ->
     exists r, encrypt_idcard ciph clog ctx j id sample after = Ret r /\ length (r_after r) = length after /\ ~ In 0%N (r_after r)) /\
  (forall text ms sample j ji jt, cn_sample text ms sample -> Forall han text -> (N.of_nat (length text) < 2 ^ 26)%N ->
     clog_sane clog 12 (4 * length text) -> 1 <= n_stars ms -> ffx_fits ffx (4 * n_stars ms) (S (4 * n_keeps ms)) ->
     length (utf8 text) <= length after ->
     exists r, encrypt_cn ciph clog ctx j ji jt (utf8 text) sample after = Ret r /\ length (r_after r) = length after /\ ~ In 0%N (r_after r)).
Proof. exact app_terminator_refuted_lemma. Qed.
Print Assumptions app_terminator_refuted.
Example terminator_instance : exists r, encrypt_phone ex_toy ceil_log (ex_ctx s_ff1) [] ex_phone ex_sample (repeat 170%N 12) = Ret (mkres r [0%N]) /\
  length r = 12 /\ last r 0%N = 170%N /\ existsb (N.eqb 0) r = false.
Proof. eexists. split; [vm_compute; reflexivity|]. split; [reflexivity|]. split; reflexivity. Qed.

(** ** C112 *)
(** FF3 under tweaks that differ in bit 2 of the fourth and of the eighth byte is the same permutation
    up to renaming: [G] -- four rounds -- renames strings, and encrypting the renamed string under the
    second tweak gives the renamed ciphertext.  So a fixed point, or a cycle, of the one is one of the other. *)
Theorem ff3_related_refuted : forall E clog radix T T' c c', 
  fpe_init T radix = Some c -> fpe_init T' radix = Some c' -> 8 <= length T -> 8 <= length T' ->
  firstn 8 T' = xorl (firstn 8 T) slide_mask ->
  exists G : list N -> list N,
    (forall s, numeral_string radix s -> numeral_string radix (G s) /\ length (G s) = length s) /\
    forall s, numeral_string radix s -> ff3_limits clog radix T (length s) -> (radix ^ N.of_nat (ceil_div (length s) 2) <= 2 ^ 96)%N ->
      exists ct, ff3_encrypt E clog c s = Ret (ct ++ [0%N]) /\ ff3_encrypt E clog c' (G s) = Ret (G ct ++ [0%N]) /\
        (forall s2, numeral_string radix s2 -> length s2 = length s -> G s2 = G s -> s2 = s).
Proof. exact ff3_related_lemma. Qed.
Print Assumptions ff3_related_refuted.
(** In the applications the tweak is the kept characters, and '0' and '4' differ in that bit. *)
Example related_instance : let T := [49; 51; 56; 48; 56; 56; 56; 48; 0]%N in let T' := [49; 51; 56; 52; 56; 56; 56; 52; 0]%N in
  firstn 8 T' = xorl (firstn 8 T) slide_mask /\ ff3_limits ceil_log 10 T 6 /\ (10 ^ N.of_nat (ceil_div 6 2) <= 2 ^ 96)%N /\
  exists c c' ct ct', fpe_init T 10 = Some c /\ fpe_init T' 10 = Some c' /\
    ff3_encrypt (ex_toy Sm4 ex_key) ceil_log c [49; 50; 51; 52; 53; 54]%N = Ret ct /\
    ff3_encrypt (ex_toy Sm4 ex_key) ceil_log c' [49; 50; 51; 52; 53; 54]%N = Ret ct' /\ ct <> ct'.
Proof.
  cbv zeta. split; [reflexivity|]. split; [repeat split; try (vm_compute; congruence); cbn; lia|]. split; [vm_compute; discriminate|].
  eexists _, _, _, _. split; [reflexivity|]. split; [reflexivity|]. split; [vm_compute; reflexivity|]. split; [vm_compute; reflexivity|discriminate].
Qed.

(** ** C113 *)
(** What FF3-1 needs: pass the eight bytes T_L, T_R instead of the seven bytes of T. *)
Theorem ff3_1_actual : forall E clog radix T7 T c s, bytes T7 -> length T7 = 7 ->
  fpe_init T radix = Some c -> firstn 8 T = FF3_1_tweak T7 ->
  ff3_limits clog radix T (length s) -> (radix ^ N.of_nat (ceil_div (length s) 2) <= 2 ^ 96)%N -> numeral_string radix s ->
  ff3_encrypt E clog c s = Ret (map char_of (FF3_1_Encrypt E radix T7 (map digit_of s)) ++ [0%N]) /\
  ff3_decrypt E clog c s = Ret (map char_of (FF3_1_Decrypt E radix T7 (map digit_of s)) ++ [0%N]).
Proof. exact ff3_1_actual_lemma. Qed.
Print Assumptions ff3_1_actual.
(** The algorithm that the comments call "default: ff3-1" is not FF3-1: a seven-byte tweak is read beyond
    its end, whatever the string; and with an eighth byte the result is another one. *)
Theorem ff3_1_refuted :
  (forall E clog radix T7 c s, length T7 = 7 -> s <> [] -> fpe_init T7 radix = Some c -> ff3_encrypt E clog c s = Undef) /\
  exists E T c s ct, block_function E /\ length T = 8 /\ fpe_init T 10 = Some c /\ ff3_limits ceil_log 10 T (length s) /\ numeral_string 10 s /\
    ff3_encrypt E ceil_log c s = Ret (ct ++ [0%N]) /\ ct <> map char_of (FF3_1_Encrypt E 10 (firstn 7 T) (map digit_of s)).
Proof.
  split; [intros E clog radix T7 c s L; apply ff3_short_tweak; lia|].
  exists (ex_toy Sm4 ex_key), [49; 51; 56; 49; 56; 56; 56; 57]%N. eexists _, [49; 50; 51; 52; 53; 54]%N, [55; 57; 48; 57; 51; 53]%N.
  split; [apply ex_block|]. split; [reflexivity|]. split; [reflexivity|].
  split; [repeat split; try (vm_compute; congruence); cbn; lia|].
  split; [repeat (apply Forall_cons; [vm_compute; tauto|]); apply Forall_nil|].
  split; [vm_compute; reflexivity|vm_compute; discriminate].
Qed.
Print Assumptions ff3_1_refuted.
Example ff3_1_instance : let T7 := [49; 51; 56; 49; 56; 56; 56]%N in
  exists c ct, fpe_init (FF3_1_tweak T7) 10 = Some c /\ ff3_limits ceil_log 10 (FF3_1_tweak T7) 6 /\
    ff3_encrypt (ex_toy Sm4 ex_key) ceil_log c [49; 50; 51; 52; 53; 54]%N = Ret (ct ++ [0%N]) /\
    ct = map char_of (FF3_1_Encrypt (ex_toy Sm4 ex_key) 10 T7 [1; 2; 3; 4; 5; 6]%N).
Proof.
  cbv zeta. eexists _, (map char_of (FF3_1_Encrypt (ex_toy Sm4 ex_key) 10 [49; 51; 56; 49; 56; 56; 56]%N [1; 2; 3; 4; 5; 6]%N)).
  split; [reflexivity|]. split; [repeat split; try (vm_compute; congruence); cbn; lia|].
  split; [|reflexivity]. vm_compute. reflexivity.
Qed.
