(** * Proofs about src/fpe_app/cn_utf8.c *)
From Verif Require Import Base Word32 CbcSpec FpeModel FpeSpec FpeProofs AppModel AppSpec AppProofs.
Local Open Scope nat_scope.

(** the four duodecimal numerals of a character, least significant first *)
Definition duo4 (cp : N) : list N :=
  let v := (cp - 0x4E00)%N in
  map char_of [v mod 12; (v / 12) mod 12; (v / 144) mod 12; (v / 1728) mod 12]%N.
(** the character of four numerals *)
Definition unduo4 (ds : list N) : N :=
  (0x4E00 + digit_of (get ds 0) + 12 * digit_of (get ds 1) + 144 * digit_of (get ds 2) + 1728 * digit_of (get ds 3))%N.

(** the digits *)
Definition digit_check (d : N) : bool :=
  (char_of d =? (if d <? 10 then 48 + d else 97 + d - 10))%N && (digit_of (char_of d) =? d)%N &&
  existsb (N.eqb (char_of d)) (alphabet 12) && (char_to_int (char_of d) =? Z.of_N d)%Z.
Lemma digit_sweep : forallb digit_check (map N.of_nat (seq 0 12)) = true.
Proof. vm_compute. reflexivity. Qed.
Lemma digit_facts d : (d < 12)%N ->
  char_of d = (if d <? 10 then 48 + d else 97 + d - 10)%N /\ digit_of (char_of d) = d /\
  In (char_of d) (alphabet 12) /\ char_to_int (char_of d) = Z.of_N d.
Proof.
  intros H. pose proof digit_sweep as S. rewrite forallb_forall in S.
  specialize (S d). assert (In d (map N.of_nat (seq 0 12))) as I.
  { apply in_map_iff. exists (N.to_nat d). split; [lia|]. apply in_seq. lia. }
  specialize (S I). unfold digit_check in S. rewrite !andb_true_iff in S. destruct S as (((A & B) & C) & D).
  apply N.eqb_eq in A, B. apply Z.eqb_eq in D. apply existsb_exists in C. destruct C as (x & X1 & X2). apply N.eqb_eq in X2. subst x. auto.
Qed.
Lemma char_sweep12 : forallb (fun c => (digit_of c <? 12) && (char_of (digit_of c) =? c))%N (alphabet 12) = true.
Proof. vm_compute. reflexivity. Qed.
Lemma char_facts c : In c (alphabet 12) -> (digit_of c < 12)%N /\ char_of (digit_of c) = c.
Proof.
  intros H. pose proof char_sweep12 as S. rewrite forallb_forall in S. specialize (S c H).
  rewrite andb_true_iff, N.ltb_lt, N.eqb_eq in S. exact S.
Qed.

Lemma mod12_lt x : (x mod 12 < 12)%N. Proof. apply N.mod_lt. discriminate. Qed.
Lemma div12_12 x : (x / 12 / 12 = x / 144)%N.
Proof. rewrite N.div_div by discriminate. reflexivity. Qed.
Lemma div144_12 x : (x / 144 / 12 = x / 1728)%N.
Proof. rewrite N.div_div by discriminate. reflexivity. Qed.

Lemma unduo_duo cp : han cp -> unduo4 (duo4 cp) = cp.
Proof.
  intros [H1 H2]. unfold unduo4, duo4. cbv zeta. cbn [map get nth].
  set (v := (cp - 0x4E00)%N). assert (V : (v < 20736)%N) by (unfold v; lia). assert (E : (cp = 0x4E00 + v)%N) by (unfold v; lia).
  change (get (char_of (v mod 12) :: ?l) 0) with (char_of (v mod 12)).
  rewrite !(proj1 (proj2 (digit_facts _ (mod12_lt _)))).
  pose proof (N.div_mod v 12 ltac:(discriminate)). pose proof (N.div_mod (v / 12) 12 ltac:(discriminate)). pose proof (N.div_mod (v / 144) 12 ltac:(discriminate)).
  rewrite div12_12 in *. rewrite div144_12 in *.
  assert ((v / 1728) < 12)%N by (apply N.div_lt_upper_bound; [discriminate|exact V]). rewrite (N.mod_small (v / 1728)) by assumption.
  lia.
Qed.
Lemma duo_numeral cp : han cp -> numeral_string 12 (duo4 cp).
Proof.
  intros _. unfold duo4. cbv zeta. cbn [map]. unfold numeral_string.
  do 4 (apply Forall_cons; [apply digit_facts, mod12_lt|]). apply Forall_nil.
Qed.
(** every string of four numerals is a character *)
Lemma ds_facts ds : length ds = 4 -> numeral_string 12 ds -> han (unduo4 ds) /\ duo4 (unduo4 ds) = ds.
Proof.
  intros L N. destruct ds as [|a [|b [|c [|d [|e ds]]]]]; try discriminate. unfold numeral_string in N.
  repeat match goal with H : Forall _ (_ :: _) |- _ => inversion H; subst; clear H end.
  destruct (char_facts a ltac:(assumption)) as [A1 A2]. destruct (char_facts b ltac:(assumption)) as [B1 B2].
  destruct (char_facts c ltac:(assumption)) as [C1 C2]. destruct (char_facts d ltac:(assumption)) as [D1 D2].
  unfold unduo4. change (get [a; b; c; d] 0) with a. change (get [a; b; c; d] 1) with b. change (get [a; b; c; d] 2) with c. change (get [a; b; c; d] 3) with d.
  set (x := digit_of a) in *. set (y := digit_of b) in *. set (z := digit_of c) in *. set (t := digit_of d) in *.
  split; [unfold han; lia|]. unfold duo4. cbv zeta.
  replace (0x4E00 + x + 12 * y + 144 * z + 1728 * t - 0x4E00)%N with (x + 12 * (y + 12 * (z + 12 * t)))%N by lia.
  rewrite <- div144_12, <- div12_12.
  assert (Q : forall p q, (p < 12 -> (p + 12 * q) / 12 = q /\ (p + 12 * q) mod 12 = p)%N).
  { intros p q P. split; [symmetry; apply (N.div_unique _ _ _ p)|symmetry; apply (N.mod_unique _ _ q)]; lia. }
  rewrite (proj1 (Q x _ A1)), (proj1 (Q y _ B1)), (proj1 (Q z _ C1)), (proj2 (Q x _ A1)), (proj2 (Q y _ B1)), (proj2 (Q z _ C1)), (N.mod_small t) by assumption.
  cbn [map]. now rewrite A2, B2, C2, D2.
Qed.

Lemma land_63 x : N.land x 0x3f = (x mod 64)%N. Proof. exact (N.land_ones x 6). Qed.
Lemma land_15 x : N.land x 0x0f = (x mod 16)%N. Proof. exact (N.land_ones x 4). Qed.
Lemma han_code cp : han cp -> utf8CharToUint32 (utf8_3 cp) = cp.
Proof.
  intros [H1 H2]. unfold utf8CharToUint32, utf8_3.
  change (get [?a; ?b; ?c] 0) with a. change (get [?a; ?b; ?c] 1) with b. change (get [?a; ?b; ?c] 2) with c.
  rewrite !land_63, land_15.
  assert (Q : (cp / 4096 < 16)%N) by (apply N.div_lt_upper_bound; [discriminate|lia]).
  assert (M1 : ((224 + cp / 4096) mod 16 = cp / 4096)%N).
  { symmetry. apply (N.mod_unique _ _ 14); lia. }
  assert (M2 : forall q, (q < 64 -> (128 + q) mod 64 = q)%N).
  { intros q P. symmetry. apply (N.mod_unique _ _ 2); lia. }
  rewrite M1, !M2 by (apply N.mod_lt; discriminate).
  pose proof (N.mod_lt cp 64 ltac:(discriminate)) as R0. pose proof (N.mod_lt (cp / 64) 64 ltac:(discriminate)) as R1.
  change (N.shiftl (cp / 4096) 12) with (N.shiftl (cp / 4096) (6 + 6)). rewrite <- N.shiftl_shiftl, <- N.shiftl_lor.
  rewrite (Word32.lor_add_shift (cp / 4096)) by exact R1. rewrite Word32.lor_add_shift by exact R0.
  change (2 ^ 6)%N with 64%N. pose proof (N.div_mod cp 64 ltac:(discriminate)). pose proof (N.div_mod (cp / 64) 64 ltac:(discriminate)).
  assert (D : (cp / 64 / 64 = cp / 4096)%N) by (rewrite N.div_div by discriminate; reflexivity). rewrite D in *. lia.
Qed.
Lemma han_read cp : han cp -> utf8Uint32ToInt (utf8CharToUint32 (utf8_3 cp)) = (Z.of_N cp - 0x4E00)%Z.
Proof.
  intros H. rewrite han_code by exact H. destruct H as [H1 H2]. unfold utf8Uint32ToInt, to_int.
  change (2 ^ 32)%N with 4294967296%N. change (2 ^ 31)%N with 2147483648%N.
  assert (E : ((cp + 4294967296 - 0x4E00) mod 4294967296 = cp - 0x4E00)%N) by (symmetry; apply (N.mod_unique _ _ 1); lia).
  rewrite E. destruct (N.ltb_spec (cp - 0x4E00) 2147483648); lia.
Qed.
Lemma han_write cp : han cp -> utf8Uint32ToChar (utf8IntToUint32 (Z.of_N cp - 0x4E00)) = utf8_3 cp.
Proof.
  intros [H1 H2]. unfold utf8IntToUint32. change (2 ^ 32)%Z with 4294967296%Z.
  replace (Z.of_N cp - 0x4E00 + 0x4E00)%Z with (Z.of_N cp) by lia. rewrite Z.mod_small by lia. rewrite N2Z.id.
  unfold utf8Uint32ToChar, utf8_3. rewrite !land_63, !N.shiftr_div_pow2. change (2 ^ 12)%N with 4096%N. change (2 ^ 6)%N with 64%N.
  assert (Q : (cp / 4096 < 16)%N) by (apply N.div_lt_upper_bound; [discriminate|lia]).
  pose proof (N.mod_lt cp 64 ltac:(discriminate)) as R0. pose proof (N.mod_lt (cp / 64) 64 ltac:(discriminate)) as R1.
  rewrite (N.lor_comm _ 0xe0), !(N.lor_comm _ 0x80).
  change (N.lor 0xe0 ?x) with (N.lor (N.shiftl 14 4) x). change (N.lor 0x80 ?x) with (N.lor (N.shiftl 2 6) x).
  rewrite !Word32.lor_add_shift by assumption. change (14 * 2 ^ 4)%N with 224%N. change (2 * 2 ^ 6)%N with 128%N.
  rewrite (N.mod_small (224 + _)), (N.mod_small (128 + (cp / 64) mod 64)), (N.mod_small (128 + cp mod 64)) by lia. reflexivity.
Qed.
Lemma duo_loop_pad fuel : forall v, exists pad, duo_loop fuel (Z.of_N v) ++ repeat 48%N (fuel - length (duo_loop fuel (Z.of_N v))) = pad /\
  forall f', fuel = S f' -> pad = char_of (v mod 12)%N :: duo_loop f' (Z.of_N (v / 12)) ++ repeat 48%N (f' - length (duo_loop f' (Z.of_N (v / 12)))).
Proof.
  intros v. eexists. split; [reflexivity|]. intros f' ->. cbn [duo_loop].
  destruct (Z.ltb_spec 0 (Z.of_N v)) as [P|P].
  - cbv zeta. cbn [app length]. f_equal.
    + rewrite (proj1 (digit_facts _ (mod12_lt v))). change 12%Z with (Z.of_N 12). rewrite <- N2Z.inj_mod, N2Z.id.
      destruct (Z.ltb_spec (Z.of_N (v mod 12)) 10), (N.ltb_spec (v mod 12)%N 10); try reflexivity; lia.
    + change 12%Z with (Z.of_N 12). rewrite <- N2Z.inj_div. reflexivity.
  - assert (v = 0%N) by lia. subst v. cbn [app length]. rewrite Nat.sub_0_r.
    change (0 mod 12)%N with 0%N. change (0 / 12)%N with 0%N. change (Z.of_N 0) with 0%Z.
    assert (N0 : duo_loop f' 0 = []) by (destruct f'; reflexivity). rewrite N0. cbn [app length]. rewrite Nat.sub_0_r. reflexivity.
Qed.
Lemma duo_loop_pad' f v : duo_loop (S f) (Z.of_N v) ++ repeat 48%N (S f - length (duo_loop (S f) (Z.of_N v))) =
  char_of (v mod 12)%N :: duo_loop f (Z.of_N (v / 12)) ++ repeat 48%N (f - length (duo_loop f (Z.of_N (v / 12)))).
Proof. destruct (duo_loop_pad (S f) v) as (pad & E & Q). rewrite E. now apply Q. Qed.
Lemma han_digits cp : han cp -> let ds := duo_loop 5 (Z.of_N cp - 0x4E00) in ds ++ repeat 48%N (5 - length ds) = duo4 cp ++ [48%N].
Proof.
  intros [H1 H2]. cbv zeta. replace (Z.of_N cp - 0x4E00)%Z with (Z.of_N (cp - 0x4E00)) by lia.
  unfold duo4. cbv zeta. set (v := (cp - 0x4E00)%N). assert (V : (v < 20736)%N) by (unfold v; lia). clearbody v. clear H1 H2 cp.
  rewrite !duo_loop_pad'. rewrite div12_12, div144_12. assert (Z4 : (v / 1728 / 12 = 0)%N).
  { rewrite N.div_div by discriminate. apply N.div_small. exact V. }
  rewrite Z4. reflexivity.
Qed.
Lemma duo_value_step c ds r d : (d < 12)%N -> c = char_of d -> duo_value (c :: ds) r = duo_value ds (r * 12 + Z.of_N d)%Z.
Proof.
  intros D ->. cbn [duo_value]. cbv zeta. rewrite (proj2 (proj2 (proj2 (digit_facts d D)))).
  destruct (Z.eqb_spec (Z.of_N d) (-1)); [lia|]. destruct (Z.leb_spec 12 (Z.of_N d)); [lia|]. reflexivity.
Qed.
Lemma duo_value_duo cp : han cp -> duo_value [get (duo4 cp) 3; get (duo4 cp) 2; get (duo4 cp) 1; get (duo4 cp) 0] 0 = (Z.of_N cp - 0x4E00)%Z.
Proof.
  intros H. pose proof (unduo_duo cp H) as U. unfold unduo4 in U.
  pose proof (duo_numeral cp H) as N. unfold duo4 in *. cbv zeta in *. cbn [map] in *.
  set (v := (cp - 0x4E00)%N) in *. clearbody v.
  change (get [?a; ?b; ?c; ?d] 0) with a in *. change (get [?a; ?b; ?c; ?d] 1) with b in *. change (get [?a; ?b; ?c; ?d] 2) with c in *. change (get [?a; ?b; ?c; ?d] 3) with d in *.
  rewrite !(proj1 (proj2 (digit_facts _ (mod12_lt _)))) in U.
  rewrite (duo_value_step _ _ _ _ (mod12_lt (v / 1728)) eq_refl), (duo_value_step _ _ _ _ (mod12_lt (v / 144)) eq_refl),
    (duo_value_step _ _ _ _ (mod12_lt (v / 12)) eq_refl), (duo_value_step _ _ _ _ (mod12_lt v) eq_refl).
  cbn [duo_value]. lia.
Qed.
Lemma duo4_length cp : length (duo4 cp) = 4. Proof. reflexivity. Qed.
Local Opaque duo4 utf8_3 utf8Uint32ToInt utf8CharToUint32 utf8Uint32ToChar utf8IntToUint32 duo_loop.
Lemma utf8_3_length cp : length (utf8_3 cp) = 3.
Proof. Local Transparent utf8_3. reflexivity. Local Opaque utf8_3. Qed.

Definition duos (cps : list N) : list N := concat (map duo4 cps).
Lemma duos_length cps : length (duos cps) = 4 * length cps.
Proof. induction cps as [|cp cps IH]; auto. unfold duos in *. cbn [map concat length]. rewrite app_length, IH, duo4_length. lia. Qed.
Lemma utf8_length cps : length (utf8 cps) = 3 * length cps.
Proof. induction cps as [|cp cps IH]; auto. unfold utf8 in *. cbn [map concat length]. rewrite app_length, IH, utf8_3_length. lia. Qed.
Lemma utf8_app a b : utf8 (a ++ b) = utf8 a ++ utf8 b.
Proof. unfold utf8. now rewrite map_app, concat_app. Qed.
Lemma duos_numeral cps : Forall han cps -> numeral_string 12 (duos cps).
Proof.
  induction 1 as [|cp cps H _ IH]; [constructor|]. unfold duos. cbn [map concat]. apply Forall_app. split; [now apply duo_numeral|exact IH].
Qed.
(** every numeral string of suitable length is the text of some characters *)
Lemma duos_onto : forall n ds, length ds = 4 * n -> numeral_string 12 ds -> exists cps, length cps = n /\ Forall han cps /\ duos cps = ds.
Proof.
  induction n as [|n IH]; intros ds L NS.
  - destruct ds; [|discriminate]. exists []. repeat split; constructor.
  - rewrite <- (firstn_skipn 4 ds) in NS. apply Forall_app in NS as [N1 N2].
    destruct (ds_facts (firstn 4 ds)) as [H1 H2]; [rewrite firstn_length; lia|exact N1|].
    destruct (IH (skipn 4 ds)) as (cps & C1 & C2 & C3); [rewrite skipn_length; lia|exact N2|].
    exists (unduo4 (firstn 4 ds) :: cps). split; [cbn; lia|]. split; [constructor; auto|].
    unfold duos in *. cbn [map concat]. rewrite H2, C3. apply firstn_skipn.
Qed.

Lemma numeral_nonzero radix c : In c (alphabet radix) -> c <> 0%N /\ (c < 256)%N.
Proof.
  intros H. assert (In c alphabet36) as H' by (unfold alphabet in H; rewrite <- (firstn_skipn (N.to_nat radix) alphabet36); apply in_or_app; auto).
  assert (forallb (fun c => negb (c =? 0)%N && (c <? 256)%N) alphabet36 = true) as A by reflexivity.
  rewrite forallb_forall in A. apply A in H'. rewrite andb_true_iff, negb_true_iff, N.eqb_neq, N.ltb_lt in H'. auto.
Qed.
Lemma strz_app s r : Forall (fun c => c <> 0%N) s -> strz (s ++ 0%N :: r) = Some s.
Proof. induction 1 as [|c s H _ IH]; [reflexivity|]. cbn. apply N.eqb_neq in H. now rewrite H, IH. Qed.
Lemma write_at_app pre v rest : length v <= length rest ->
  write_at (pre ++ rest) (length pre) v = Some (pre ++ v ++ skipn (length v) rest).
Proof.
  intros H. unfold write_at. rewrite app_length. destruct (Nat.leb_spec (length pre + length v) (length pre + length rest)); [|lia].
  rewrite firstn_app, Nat.sub_diag, firstn_all, firstn_O, app_nil_r. do 3 f_equal.
  rewrite skipn_app, skipn_all2 by lia. cbn. f_equal. lia.
Qed.
Lemma read_at_app pre v rest : read_at (pre ++ v ++ rest) (length pre) (length v) = Some v.
Proof.
  unfold read_at. rewrite !app_length. destruct (Nat.leb_spec (length pre + length v) (length pre + (length v + length rest))); [|lia].
  rewrite skipn_app, Nat.sub_diag, skipn_all. cbn [app skipn]. rewrite firstn_app, Nat.sub_diag, firstn_all. cbn. now rewrite app_nil_r.
Qed.

Definition stars (mask : list bool) := length (filter (Bool.eqb false) mask).
Definition keeps (mask : list bool) := length (filter (Bool.eqb true) mask).

Lemma cn_split_spec : forall mask text pre ipre irest tpre trest,
  length text = length mask -> Forall han text ->
  4 * stars mask + 1 <= length irest -> 4 * keeps mask + 1 <= length trest ->
  exists ir tr, length ir = length irest - 4 * stars mask /\ length tr = length trest - 4 * keeps mask /\
  cn_split (utf8 (pre ++ text)) (length pre) (map negb mask) (ipre ++ irest, length ipre, tpre ++ trest, length tpre) =
  Ret (ipre ++ duos (select false mask text) ++ ir, length ipre + 4 * stars mask,
       tpre ++ duos (select true mask text) ++ tr, length tpre + 4 * keeps mask).
Proof.
  induction mask as [|m mask IH]; intros [|cp text] pre ipre irest tpre trest L H HI HT; try discriminate.
  - exists irest, trest. unfold stars, keeps. cbn. rewrite !Nat.sub_0_r, !Nat.add_0_r. auto.
  - inversion H as [|? ? Hc Ht]; subst. cbn [map cn_split].
    assert (RD : read_at (utf8 (pre ++ cp :: text) ++ [0%N]) (3 * length pre) 3 = Some (utf8_3 cp)).
    { rewrite utf8_app. unfold utf8 at 2. cbn [map concat]. rewrite <- !app_assoc, <- utf8_length, <- (utf8_3_length cp). apply read_at_app. }
    rewrite RD. cbv zeta. rewrite han_read by auto. unfold utf8IntToCharDuodecimal. 
    replace ((20735 <? Z.of_N cp - 19968)%Z || (Z.of_N cp - 19968 <? 0)%Z) with false.
    2:{ symmetry. apply orb_false_iff. rewrite !Z.ltb_ge. unfold han in Hc. lia. }
    cbv zeta. rewrite han_digits by auto. injection L as L.
    replace (pre ++ cp :: text) with ((pre ++ [cp]) ++ text) by (now rewrite <- app_assoc).
    replace (S (length pre)) with (length (pre ++ [cp])) by (rewrite app_length; cbn; lia).
    destruct m; cbn [negb].
    + assert (stars (true :: mask) = stars mask) as -> by reflexivity. assert (keeps (true :: mask) = S (keeps mask)) as Q by reflexivity. rewrite Q in *.
      rewrite write_at_app by (rewrite app_length, duo4_length; cbn [length]; lia). rewrite <- (app_assoc (duo4 cp) [48%N]). rewrite (app_assoc tpre (duo4 cp)).
      replace (length tpre + 4) with (length (tpre ++ duo4 cp)) by (rewrite app_length, duo4_length; lia).
      destruct (IH text (pre ++ [cp]) ipre irest (tpre ++ duo4 cp) ([48%N] ++ skipn 5 trest)) as (ir & tr & L1 & L2 & R); auto.
      { rewrite app_length; cbn [length]; rewrite skipn_length. lia. }
      exists ir, tr. split; [exact L1|]. split; [rewrite L2, app_length; cbn [length]; rewrite skipn_length; lia|].
      replace (length (duo4 cp ++ [48%N])) with 5 by (rewrite app_length, duo4_length; reflexivity).
      rewrite R. cbn [select Bool.eqb]. unfold duos. cbn [map concat]. rewrite app_length, duo4_length, <- !app_assoc.
      replace (length tpre + 4 + 4 * keeps mask) with (length tpre + 4 * S (keeps mask)) by lia. reflexivity.
    + assert (keeps (false :: mask) = keeps mask) as -> by reflexivity. assert (stars (false :: mask) = S (stars mask)) as Q by reflexivity. rewrite Q in *.
      rewrite write_at_app by (rewrite app_length, duo4_length; cbn [length]; lia). rewrite <- (app_assoc (duo4 cp) [48%N]). rewrite (app_assoc ipre (duo4 cp)).
      replace (length ipre + 4) with (length (ipre ++ duo4 cp)) by (rewrite app_length, duo4_length; lia).
      destruct (IH text (pre ++ [cp]) (ipre ++ duo4 cp) ([48%N] ++ skipn 5 irest) tpre trest) as (ir & tr & L1 & L2 & R); auto.
      { rewrite app_length; cbn [length]; rewrite skipn_length. lia. }
      exists ir, tr. split; [rewrite L1, app_length; cbn [length]; rewrite skipn_length; lia|]. split; [exact L2|].
      replace (length (duo4 cp ++ [48%N])) with 5 by (rewrite app_length, duo4_length; reflexivity).
      rewrite R. cbn [select Bool.eqb]. unfold duos. cbn [map concat]. rewrite app_length, duo4_length, <- !app_assoc.
      replace (length ipre + 4 + 4 * stars mask) with (length ipre + 4 * S (stars mask)) by lia. reflexivity.
Qed.

Lemma duo_read cp rest : han cp -> numeral_string 12 rest -> utf8CharDuodecimalToInt (duo4 cp ++ rest ++ [0%N]) = Ret (Z.of_N cp - 0x4E00)%Z.
Proof.
  intros H NR. unfold utf8CharDuodecimalToInt. rewrite app_assoc.
  rewrite strz_app.
  2:{ apply Forall_app. split; eapply Forall_impl; try apply numeral_nonzero with (radix := 12%N); [now apply duo_numeral|exact NR]. }
  rewrite app_length, duo4_length. cbn [Nat.ltb plus]. change (4 + length rest <? 3) with false. cbn iota.
  rewrite <- app_assoc. pose proof (read_at_app [] (duo4 cp) (rest ++ [0%N])) as R. cbn [app length] in R. rewrite duo4_length in R. rewrite R.
  now rewrite duo_value_duo.
Qed.

Lemma cn_join_spec : forall mask text cts pre mpre apre arest,
  length text = length mask -> length cts = stars mask -> Forall han cts ->
  length apre = 3 * length pre -> 3 * length mask <= length arest ->
  cn_join (utf8 (pre ++ text)) (mpre ++ duos cts ++ [0%N]) (length pre) (length mpre) (map negb mask) (apre ++ arest) =
  Ret (apre ++ utf8 (merge mask text cts) ++ skipn (3 * length mask) arest).
Proof.
  induction mask as [|m mask IH]; intros [|cp text] cts pre mpre apre arest L LC H HA HR; try discriminate.
  - reflexivity.
  - injection L as L. cbn [map cn_join].
    assert (RD : read_at (utf8 (pre ++ cp :: text) ++ [0%N]) (3 * length pre) 3 = Some (utf8_3 cp)).
    { rewrite utf8_app. unfold utf8 at 2. cbn [map concat]. rewrite <- !app_assoc, <- utf8_length, <- (utf8_3_length cp). apply read_at_app. }
    replace (pre ++ cp :: text) with ((pre ++ [cp]) ++ text) in * by (now rewrite <- app_assoc).
    replace (S (length pre)) with (length (pre ++ [cp])) by (rewrite app_length; cbn; lia).
    cbn [length] in HR. destruct m; cbn [negb].
    + rewrite RD. rewrite <- HA, write_at_app by (rewrite utf8_3_length; lia). rewrite utf8_3_length, (app_assoc apre).
      rewrite IH; auto.
      * cbn [merge]. unfold utf8 at 2. cbn [map concat]. fold (utf8 (merge mask text cts)). rewrite <- !app_assoc.
        replace (skipn (3 * length mask) (skipn 3 arest)) with (skipn (3 * length (true :: mask)) arest); [reflexivity|].
        cbn [length]. replace (3 * S (length mask)) with (3 * length mask + 3) by lia.
        clear. generalize (3 * length mask). intros n. revert n. induction arest as [|a l IHl]; intros n; [now rewrite !skipn_nil|].
        replace (n + 3) with (3 + n) by lia. destruct l as [|b [|c l]]; cbn; rewrite ?skipn_nil; auto.
      * rewrite !app_length, utf8_3_length. cbn [length]. lia.
      * rewrite skipn_length. lia.
    + destruct cts as [|ct cts]; [unfold stars in LC; cbn in LC; discriminate|]. inversion H as [|? ? H1 H2]; subst.
      rewrite skipn_app, skipn_all, Nat.sub_diag. cbn [app skipn]. unfold duos. cbn [map concat]. fold (duos cts). rewrite <- (app_assoc (duo4 ct)).
      rewrite duo_read by (auto using duos_numeral). cbn [obind]. rewrite han_write by auto.
      rewrite <- HA, write_at_app by (rewrite utf8_3_length; lia). rewrite utf8_3_length, (app_assoc apre), (app_assoc mpre).
      replace (length mpre + 4) with (length (mpre ++ duo4 ct)) by (rewrite app_length, duo4_length; lia).
      rewrite IH; auto.
      * cbn [merge]. change (skipn 1 (ct :: cts)) with cts. unfold utf8 at 2. cbn [map concat]. change (get (ct :: cts) 0) with ct. fold (utf8 (merge mask text cts)). rewrite <- !app_assoc.
        replace (skipn (3 * length mask) (skipn 3 arest)) with (skipn (3 * length (false :: mask)) arest); [reflexivity|].
        cbn [length]. replace (3 * S (length mask)) with (3 * length mask + 3) by lia.
        clear. generalize (3 * length mask). intros n. revert n. induction arest as [|a l IHl]; intros n; [now rewrite !skipn_nil|].
        replace (n + 3) with (3 + n) by lia. destruct l as [|b [|c l]]; cbn; rewrite ?skipn_nil; auto.
      * rewrite !app_length, utf8_3_length. cbn [length]. lia.
      * rewrite skipn_length. lia.
Qed.

(** ** The whole function *)
Definition kmask (ms : list mark) : list bool := map (fun m => negb (is_star m)) ms.
Lemma kmask_length ms : length (kmask ms) = length ms. Proof. apply map_length. Qed.
Lemma kmask_stars ms : stars (kmask ms) = n_stars ms.
Proof. unfold stars, n_stars, kmask. induction ms as [|[|cp] ms IH]; cbn; auto. Qed.
Lemma kmask_keeps ms : keeps (kmask ms) = n_keeps ms /\ n_stars ms <= length ms.
Proof. unfold keeps, n_keeps, n_stars, kmask. induction ms as [|[|cp] ms IH]; cbn [map filter is_star negb Bool.eqb length] in *; lia. Qed.
Lemma kmask_units ms : map negb (kmask ms) = map is_star ms.
Proof. unfold kmask. rewrite map_map. apply map_ext. intros []; reflexivity. Qed.

Lemma keep_bytes cp : (0x800 <= cp < 0x10000)%N -> exists a b c, utf8_3 cp = [a; b; c] /\ a <> 42%N /\ b <> 42%N /\ c <> 42%N.
Proof. Local Transparent utf8_3. intros H. unfold utf8_3. eexists _, _, _. split; [reflexivity|]. repeat split; lia. Local Opaque utf8_3. Qed.
Lemma marks_units ms : Forall mark_ok ms -> sample_units (marks_string ms) = map is_star ms /\
  length (filter (fun c => (c =? 42)%N) (marks_string ms)) = n_stars ms.
Proof.
  induction 1 as [|m ms H _ [IH1 IH2]]; [split; reflexivity|]. unfold marks_string in *. cbn [map concat].
  destruct m as [|cp]; cbn [mark_string is_star].
  - cbn [app sample_units filter]. rewrite N.eqb_refl, IH1. split; [reflexivity|]. unfold n_stars in *. cbn [filter is_star length]. now rewrite IH2.
  - destruct (keep_bytes cp H) as (a & b & c & -> & Ha & Hb & Hc). apply N.eqb_neq in Ha, Hb, Hc.
    cbn [app sample_units filter]. rewrite Ha, Hb, Hc, IH1. split; [reflexivity|]. rewrite IH2. reflexivity.
Qed.

Lemma last_set (l : list N) n v : length l = S n -> set l n v = firstn n l ++ [v].
Proof. revert n; induction l as [|a l IH]; intros [|n] H; try discriminate; cbn in *; [destruct l; [reflexivity|discriminate]|]. rewrite IH; auto. Qed.

Lemma select_map b (mask : list bool) (P : N -> Prop) : forall s, Forall P s -> Forall P (select b mask s).
Proof. induction mask as [|m mask IH]; intros [|x s] H; cbn; auto. inversion H; subst. destruct (Bool.eqb m b); auto. Qed.

Section Cn.
Variable ciph : cipher_kind -> list N -> list N -> list N.
Variable clog : N -> nat -> nat.

Lemma aux_cn_body ctx junk ji jt block text ms sample after :
  cn_sample text ms sample -> Forall han text -> 1 <= n_stars ms ->
  let mask := kmask ms in
  aux_cn ciph ctx junk ji jt block (utf8 text) sample after =
  obind (call_ffx ciph block ctx junk (duos (select true mask text) ++ [0%N]) 12 (duos (select false mask text))) (fun o =>
  obind (cn_join (utf8 text) o 0 0 (map negb mask) after) (fun after' => Ret (mkres after' (skipn (4 * n_stars ms) o)))).
Proof.
  intros HS HT H1 mask.
  assert (LM : length ms = length text).
  { destruct HS as [[_ ->]|(_ & L & _)]; auto. now rewrite repeat_length. }
  destruct (kmask_keeps ms) as [KK KL]. fold mask in KK.
  pose proof (kmask_stars ms) as KS. fold mask in KS.
  assert (Hlen : length (utf8 text) / 3 = length text) by (rewrite utf8_length, Nat.mul_comm; apply Nat.div_mul; lia).
  unfold aux_cn. rewrite Hlen.
  set (tl := if streq sample [] then _ else _).
  assert (TL : tl = Z.of_nat (n_keeps ms)).
  { unfold tl. destruct HS as [[-> ->]|(-> & L & OK)].
    - cbn. unfold n_keeps, n_stars. rewrite repeat_length.
      assert (length (filter is_star (repeat Star (length text))) = length text) as ->; [|lia].
      generalize (length text). intros n. induction n; cbn; auto.
    - destruct (marks_units ms OK) as [_ M]. destruct (streq_spec (marks_string ms) []) as [E|_].
      + rewrite E in *. cbn in M. unfold n_keeps. lia.
      + rewrite M. unfold n_keeps. lia. }
  set (units := if streq sample [] then _ else _).
  assert (TU : units = map negb mask).
  { unfold units, mask. rewrite kmask_units. rewrite Nat2Z.id. destruct HS as [[-> ->]|(-> & L & OK)].
    - destruct (streq_spec (@nil N) []); [|congruence]. generalize (length text). intros n. induction n as [|n IH]; cbn; auto. now rewrite IH.
    - destruct (marks_units ms OK) as [M1 M]. destruct (streq_spec (marks_string ms) []) as [E|_]; auto.
      rewrite E in *. cbn in M. lia. }
  rewrite TL, TU. cbv zeta.
  replace ((Z.of_nat (length text) - Z.of_nat (n_keeps ms)) * 4 + 1)%Z with (Z.of_nat (4 * n_stars ms + 1)) by (unfold n_keeps; lia).
  replace ((Z.of_nat (length text) - Z.of_nat (n_keeps ms)) * 4)%Z with (Z.of_nat (4 * n_stars ms)) by (unfold n_keeps; lia).
  replace (Z.of_nat (n_keeps ms) * 4 + 1)%Z with (Z.of_nat (4 * n_keeps ms + 1)) by lia.
  replace (Z.of_nat (4 * n_keeps ms + 1) - 1)%Z with (Z.of_nat (4 * n_keeps ms)) by lia.
  rewrite !Nat2Z.id.
  match goal with |- (if ?b then _ else _) = _ => replace b with false end.
  2:{ symmetry. rewrite !orb_false_iff, !Z.leb_gt. lia. }
  set (input0 := firstn (4 * n_stars ms + 1) _). set (tweak0 := firstn (4 * n_keeps ms + 1) _).
  assert (L0 : length input0 = 4 * n_stars ms + 1) by (unfold input0; rewrite firstn_length, app_length, repeat_length; lia).
  assert (L1 : length tweak0 = 4 * n_keeps ms + 1) by (unfold tweak0; rewrite firstn_length, app_length, repeat_length; lia).
  assert (LM' : length text = length mask) by (unfold mask; rewrite kmask_length; auto).
  destruct (cn_split_spec mask text [] [] input0 [] tweak0) as (ir & tr & LI & LT & R); auto; try lia.
  cbn [app length] in R. rewrite R. cbn [obind].
  assert (D0 : length (duos (select false mask text)) = 4 * n_stars ms) by (rewrite duos_length, select_length by auto; fold (stars mask); lia).
  assert (D1 : length (duos (select true mask text)) = 4 * n_keeps ms) by (rewrite duos_length, select_length by auto; fold (keeps mask); lia).
  rewrite (last_set (duos (select false mask text) ++ ir) (4 * n_stars ms)) by (rewrite app_length; lia).
  rewrite (last_set (duos (select true mask text) ++ tr) (4 * n_keeps ms)) by (rewrite app_length; lia).
  replace (firstn (4 * n_stars ms) (duos (select false mask text) ++ ir)) with (duos (select false mask text))
    by (rewrite <- D0, firstn_app, Nat.sub_diag, firstn_all, firstn_O, app_nil_r; reflexivity).
  replace (firstn (4 * n_keeps ms) (duos (select true mask text) ++ tr)) with (duos (select true mask text))
    by (rewrite <- D1, firstn_app, Nat.sub_diag, firstn_all, firstn_O, app_nil_r; reflexivity).
  rewrite strz_app; [reflexivity|].
  eapply Forall_impl; [intros c; apply numeral_nonzero with (radix := 12%N)|]. apply duos_numeral. now apply select_map.
Qed.

Lemma cn_roundtrip junk0 key keylen cipher ffx ctx text ms sample after after' j1 j2 ji1 jt1 ji2 jt2 :
  app_init junk0 key keylen cipher ffx = Ret ctx -> block_function (ciph (a_kind ctx) (a_key ctx)) ->
  cn_sample text ms sample -> Forall han text -> (N.of_nat (length text) < 2 ^ 26)%N ->
  clog_sane clog 12 (4 * length text) -> 1 <= n_stars ms ->
  ffx_fits ffx (4 * n_stars ms) (S (4 * n_keeps ms)) ->
  length (utf8 text) <= length after -> length (utf8 text) <= length after' ->
  exists text', length text' = length text /\ Forall han text' /\
    (forall i cp, nth_error ms i = Some (Keep cp) -> get text' i = get text i) /\
    encrypt_cn ciph clog ctx j1 ji1 jt1 (utf8 text) sample after = Ret (mkres (utf8 text' ++ skipn (length (utf8 text)) after) [0%N]) /\
    decrypt_cn ciph clog ctx j2 ji2 jt2 (utf8 text') sample after' = Ret (mkres (utf8 text ++ skipn (length (utf8 text)) after') [0%N]).
Proof.
  intros HI HE HS HT HL HC H1 HF HA HA'.
  destruct (app_block_init ciph _ _ _ _ _ _ HI) as [AB AF].
  assert (LM : length ms = length text).
  { destruct HS as [[_ ->]|(_ & L & _)]; auto. now rewrite repeat_length. }
  set (mask := kmask ms).
  assert (LM' : length text = length mask) by (unfold mask; rewrite kmask_length; auto).
  destruct (kmask_keeps ms) as [KK KL]. fold mask in KK.
  pose proof (kmask_stars ms) as KS. fold mask in KS.
  set (T := duos (select true mask text) ++ [0%N]). set (s := duos (select false mask text)).
  assert (D0 : length s = 4 * n_stars ms) by (unfold s; rewrite duos_length, select_length by auto; fold (stars mask); lia).
  assert (D1 : length T = S (4 * n_keeps ms)).
  { unfold T. rewrite app_length, duos_length, select_length by auto. fold (keeps mask). cbn. lia. }
  assert (NS : numeral_string 12 s) by (apply duos_numeral; now apply select_map).
  destruct (fpe_init_some T 12) as [c HcI]; [lia|].
  change (2 ^ 26)%N with 67108864%N in HL.
  destruct (ffx_call clog ffx (ciph (a_kind ctx) (a_key ctx)) c 12 T s j1 j2) as (o & E1 & Lo & No & Dd); auto.
  - lia.
  - unfold T. apply Forall_app. split; [|repeat constructor]. eapply Forall_impl; [intros x Hx; apply (numeral_nonzero 12 x Hx)|]. apply duos_numeral. now apply select_map.
  - unfold T. intros H. now apply app_eq_nil in H.
  - intros v Hv. apply HC. lia.
  - change (2 ^ 30)%N with 1073741824%N. lia.
  - change (2 ^ 29)%N with 536870912%N. rewrite D1. unfold n_keeps. lia.
  - now rewrite D0, D1.
  - rewrite D0 in Lo. destruct (duos_onto (n_stars ms) o Lo No) as (cts & LC & HH & <-).
    exists (merge mask text cts).
    assert (LT : length (merge mask text cts) = length text) by (now apply merge_length).
    assert (HT' : Forall han (merge mask text cts)).
    { apply Forall_forall. intros x Hx. apply In_nth with (d := 0%N) in Hx as (i & Hi & <-). rewrite LT in Hi.
      destruct (nth_error mask i) as [[]|] eqn:M.
      - change (han (get (merge mask text cts) i)). rewrite merge_kept by auto. rewrite Forall_forall in HT. apply HT, nth_In. auto.
      - apply (merge_starred han); auto. fold (stars mask). lia.
      - apply nth_error_None in M. lia. }
    split; [exact LT|]. split; [exact HT'|]. split.
    { intros i cp Hi. apply merge_kept; auto. unfold mask, kmask. now rewrite nth_error_map, Hi. }
    assert (HS' : cn_sample (merge mask text cts) ms sample) by (unfold cn_sample in *; now rewrite LT).
    unfold encrypt_cn, decrypt_cn. rewrite !(aux_cn_body _ _ _ _ _ _ ms) by auto. cbv zeta. fold mask.
    rewrite select_merge_kept by auto. rewrite select_merge_starred by (auto; fold (stars mask); lia). fold T. fold s.
    unfold call_ffx. rewrite AB. cbn [obind]. rewrite HcI, AF, E1, Dd. cbn [obind].
    assert (LU : length (utf8 text) = 3 * length mask) by (rewrite utf8_length; lia).
    split.
    + pose proof (cn_join_spec mask text cts [] [] [] after) as J. cbn [app length] in J. rewrite J by (auto; lia). cbn [obind].
      rewrite <- LC. rewrite <- duos_length, skipn_app, Nat.sub_diag, skipn_all. cbn [app skipn]. now rewrite LU.
    + unfold s. pose proof (cn_join_spec mask (merge mask text cts) (select false mask text) [] [] [] after') as J. cbn [app length] in J.
      rewrite J; try lia.
      * cbn [obind]. rewrite merge_merge, merge_select by auto.
        replace (4 * n_stars ms) with (length (duos (select false mask text))) by exact D0.
        rewrite skipn_app, Nat.sub_diag, skipn_all. cbn [app skipn]. now rewrite LU.
      * now rewrite select_length by auto.
      * now apply select_map.
Qed.
End Cn.

Lemma app_overflow_refuted_lemma : forall ciph clog junk0 key keylen cipher ffx ctx,
  app_init junk0 key keylen cipher ffx = Ret ctx -> block_function (ciph (a_kind ctx) (a_key ctx)) ->
  (forall phone sample after j, app_number phone sample -> clog_sane clog 10 (length phone) ->
     ffx_fits ffx (n_starred sample (length phone)) (S (n_kept sample (length phone))) -> length phone <= length after ->
     exists r, encrypt_phone ciph clog ctx j phone sample after = Ret r /\ r_stray r = [0%N]) /\
  (forall id sample after j, app_number id sample -> id <> [] -> last id 0%N <> 88%N -> clog_sane clog 10 (length id) ->
     ffx_fits ffx (n_starred sample (length id)) (S (n_kept sample (length id))) -> length id <= length after ->
     exists r, encrypt_idcard ciph clog ctx j id sample after = Ret r /\ r_stray r = [0%N]) /\
  (forall text ms sample after j ji jt, cn_sample text ms sample -> Forall han text -> (N.of_nat (length text) < 2 ^ 26)%N ->
     clog_sane clog 12 (4 * length text) -> 1 <= n_stars ms -> ffx_fits ffx (4 * n_stars ms) (S (4 * n_keeps ms)) ->
     length (utf8 text) <= length after ->
     exists r, encrypt_cn ciph clog ctx j ji jt (utf8 text) sample after = Ret r /\ r_stray r = [0%N]).
Proof.
  intros ciph clog junk0 key keylen cipher ffx ctx HI HE. split; [|split].
  - intros phone sample after j HN HC HF HA.
    destruct (phone_roundtrip ciph clog junk0 key keylen cipher ffx ctx phone sample after after j j HI HE HN HC HF HA HA) as (p & _ & E & _).
    rewrite E. eexists. split; reflexivity.
  - intros id sample after j (HB & HD & HS & HL) NE NX HC HF HA.
    destruct (idcard_roundtrip ciph clog junk0 key keylen cipher ffx ctx id [] sample after after j j HI HE) as (p & _ & E & _); auto.
    + destruct HS as [HS|HS]; [auto|right; rewrite HS; apply Nat.le_refl].
    + now rewrite app_nil_r.
    + now rewrite app_nil_r.
    + rewrite app_nil_r in E. rewrite E. eexists. split; reflexivity.
  - intros text ms sample after j ji jt HS HT HL HC H1 HF HA.
    destruct (cn_roundtrip ciph clog junk0 key keylen cipher ffx ctx text ms sample after after j j ji jt ji jt HI HE HS HT HL HC H1 HF HA HA)
      as (t & _ & _ & _ & E & _).
    rewrite E. eexists. split; reflexivity.
Qed.
