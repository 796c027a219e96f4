From Verif Require Import Base Word32 CbcModel CbcSpec CbcProofs GcmModel GcmSpec GfProofs GcmProofs CipherExt Sm4Model Sm4Spec.
Local Open Scope N_scope.

(** ** sweeps over one byte *)
Lemma byte_sweep (P : N -> bool) : forallb (fun n => P (N.of_nat n)) (seq 0 256) = true ->
  forall b, byte b -> P b = true.
Proof.
  intros H b Hb. rewrite forallb_forall in H. specialize (H (N.to_nat b)).
  rewrite N2Nat.id in H. apply H. apply in_seq. unfold byte in Hb. lia.
Qed.
Lemma sbox_ok b : byte b -> sm4_s b = std_sbox b.
Proof.
  intros Hb. apply N.eqb_eq. apply (byte_sweep (fun b => N.eqb (sm4_s b) (std_sbox b))); [vm_compute; reflexivity|exact Hb].
Qed.
Lemma sbox_byte b : byte b -> byte (sm4_s b).
Proof.
  intros Hb. apply N.ltb_lt. apply (byte_sweep (fun b => N.ltb (sm4_s b) 256)); [vm_compute; reflexivity|exact Hb].
Qed.

Lemma byte_at_arith X n : byte_at X n = (X / 2 ^ n) mod 256.
Proof. unfold byte_at. rewrite N.shiftr_div_pow2. change 0xff with (N.ones 8). now rewrite N.land_ones. Qed.
Lemma byte_at_byte X n : byte (byte_at X n).
Proof. rewrite byte_at_arith. apply N.mod_lt. discriminate. Qed.
Lemma N_to_be4 X : N_to_be 4 X = [byte_at X 24; byte_at X 16; byte_at X 8; byte_at X 0].
Proof. rewrite !byte_at_arith. reflexivity. Qed.
Lemma word_be4 a b c d : byte a -> byte b -> byte c -> byte d -> word (be_to_N [a; b; c; d]).
Proof. intros. apply (be_to_N_bound [a; b; c; d]). repeat constructor; auto. Qed.

Lemma lor4 a b c d : byte b -> byte c -> byte d ->
  N.lor (N.lor (N.lor (N.shiftl a 24) (N.shiftl b 16)) (N.shiftl c 8)) d = be_to_N [a; b; c; d].
Proof.
  unfold byte. intros Hb Hc Hd. cbn [be_to_N fold_left].
  rewrite <- !N.lor_assoc. rewrite (lor_add_shift c d 8) by exact Hd.
  rewrite (lor_add_shift b _ 16) by (change (2 ^ 8) with 256; change (2 ^ 16) with 65536; lia).
  rewrite (lor_add_shift a _ 24) by (change (2 ^ 8) with 256; change (2 ^ 16) with 65536; change (2 ^ 24) with 16777216; lia).
  change (2 ^ 8) with 256; change (2 ^ 16) with 65536; change (2 ^ 24) with 16777216. lia.
Qed.

Lemma sm4_sub_tau X : sm4_sub X = tau X.
Proof.
  unfold sm4_sub, tau, of_bytes, word_bytes. rewrite N_to_be4. cbn [map].
  rewrite <- !sbox_ok by apply byte_at_byte. apply lor4; apply sbox_byte, byte_at_byte.
Qed.
Lemma tau_word X : word (tau X).
Proof. rewrite <- sm4_sub_tau. unfold sm4_sub. rewrite lor4 by (apply sbox_byte, byte_at_byte). apply word_be4; apply sbox_byte, byte_at_byte. Qed.

Lemma Lin_rotl t : word t -> Lin t =
  N.lxor (N.lxor (N.lxor (N.lxor t (rotl32 t 2)) (rotl32 t 10)) (rotl32 t 18)) (rotl32 t 24).
Proof.
  intros Ht. unfold Lin. cbn [map fold_left]. unfold rol. now rewrite !rotl32_arith by (auto; lia).
Qed.
Lemma Lin'_rotl t : word t -> Lin' t = N.lxor (N.lxor t (rotl32 t 13)) (rotl32 t 23).
Proof. intros Ht. unfold Lin'. cbn [map fold_left]. unfold rol. now rewrite !rotl32_arith by (auto; lia). Qed.
Lemma Lin_lxor a b : word a -> word b -> Lin (N.lxor a b) = N.lxor (Lin a) (Lin b).
Proof.
  intros Ha Hb. rewrite !Lin_rotl by auto using word_lxor. rewrite !rotl32_lxor by (auto; lia).
  apply N.bits_inj. intros i. rewrite !N.lxor_spec.
  repeat match goal with |- context [N.testbit ?a i] => generalize (N.testbit a i); intro end.
  repeat match goal with b : bool |- _ => destruct b end; reflexivity.
Qed.
Lemma Lin_word a : word a -> word (Lin a).
Proof. intros Ha. rewrite Lin_rotl by auto. repeat apply word_lxor; auto; apply word_rotl32; auto; lia. Qed.
Lemma Lin'_word a : word a -> word (Lin' a).
Proof. intros Ha. rewrite Lin'_rotl by auto. repeat apply word_lxor; auto; apply word_rotl32; auto; lia. Qed.
Lemma T_word X : word (T X).
Proof. apply Lin_word, tau_word. Qed.
Lemma T'_word X : word (T' X).
Proof. apply Lin'_word, tau_word. Qed.

Lemma t_slow_T X : sm4_t_slow X = T X.
Proof. unfold sm4_t_slow, T. rewrite sm4_sub_tau, Lin_rotl by apply tau_word. reflexivity. Qed.

Lemma sbox_t_24 b : byte b -> sm4_sbox_t b = Lin (sm4_s b * 2 ^ 24).
Proof. intros Hb. apply N.eqb_eq. apply (byte_sweep (fun b => N.eqb (sm4_sbox_t b) (Lin (sm4_s b * 2 ^ 24)))); [vm_compute; reflexivity|exact Hb]. Qed.
Lemma sbox_t_16 b : byte b -> rotl32 (sm4_sbox_t b) 24 = Lin (sm4_s b * 2 ^ 16).
Proof. intros Hb. apply N.eqb_eq. apply (byte_sweep (fun b => N.eqb (rotl32 (sm4_sbox_t b) 24) (Lin (sm4_s b * 2 ^ 16)))); [vm_compute; reflexivity|exact Hb]. Qed.
Lemma sbox_t_8 b : byte b -> rotl32 (sm4_sbox_t b) 16 = Lin (sm4_s b * 2 ^ 8).
Proof. intros Hb. apply N.eqb_eq. apply (byte_sweep (fun b => N.eqb (rotl32 (sm4_sbox_t b) 16) (Lin (sm4_s b * 2 ^ 8)))); [vm_compute; reflexivity|exact Hb]. Qed.
Lemma sbox_t_0 b : byte b -> rotl32 (sm4_sbox_t b) 8 = Lin (sm4_s b).
Proof. intros Hb. apply N.eqb_eq. apply (byte_sweep (fun b => N.eqb (rotl32 (sm4_sbox_t b) 8) (Lin (sm4_s b)))); [vm_compute; reflexivity|exact Hb]. Qed.

Lemma be4_lxor a b c d : byte a -> byte b -> byte c -> byte d ->
  be_to_N [a; b; c; d] = N.lxor (N.lxor (N.lxor (a * 2 ^ 24) (b * 2 ^ 16)) (c * 2 ^ 8)) d.
Proof.
  unfold byte. intros Ha Hb Hc Hd. cbn [be_to_N fold_left]. rewrite !N.lxor_assoc.
  replace (c * 2 ^ 8) with (N.shiftl c 8) by (now rewrite N.shiftl_mul_pow2).
  rewrite <- (add_shift_lxor c d 8) by exact Hd.
  replace (b * 2 ^ 16) with (N.shiftl b 16) by (now rewrite N.shiftl_mul_pow2).
  rewrite <- (add_shift_lxor b _ 16) by (change (2 ^ 8) with 256; change (2 ^ 16) with 65536; nia).
  replace (a * 2 ^ 24) with (N.shiftl a 24) by (now rewrite N.shiftl_mul_pow2).
  rewrite <- (add_shift_lxor a _ 24) by (change (2 ^ 8) with 256; change (2 ^ 16) with 65536; change (2 ^ 24) with 16777216; nia).
  change (2 ^ 8) with 256; change (2 ^ 16) with 65536; change (2 ^ 24) with 16777216. lia.
Qed.

Lemma sm4_t_T X : sm4_t X = T X.
Proof.
  unfold sm4_t, T. rewrite sbox_t_24, sbox_t_16, sbox_t_8, sbox_t_0 by apply byte_at_byte.
  unfold tau, of_bytes, word_bytes. rewrite N_to_be4. cbn [map]. rewrite <- !sbox_ok by apply byte_at_byte.
  set (a := sm4_s _). set (b := sm4_s (byte_at X 16)). set (c := sm4_s (byte_at X 8)). set (d := sm4_s (byte_at X 0)).
  assert (Ha : byte a) by apply sbox_byte, byte_at_byte. assert (Hb : byte b) by apply sbox_byte, byte_at_byte.
  assert (Hc : byte c) by apply sbox_byte, byte_at_byte. assert (Hd : byte d) by apply sbox_byte, byte_at_byte.
  clearbody a b c d. rewrite be4_lxor by auto. unfold byte in *.
  assert (W1 : word (a * 2 ^ 24)) by (unfold word; change (2 ^ 24) with 16777216; change (2 ^ 32) with 4294967296; nia).
  assert (W2 : word (b * 2 ^ 16)) by (unfold word; change (2 ^ 16) with 65536; change (2 ^ 32) with 4294967296; nia).
  assert (W3 : word (c * 2 ^ 8)) by (unfold word; change (2 ^ 8) with 256; change (2 ^ 32) with 4294967296; nia).
  assert (W4 : word d) by (unfold word; change (2 ^ 32) with 4294967296; lia).
  rewrite !Lin_lxor by auto using word_lxor. reflexivity.
Qed.

(** ** the rounds *)
Lemma rnds_rounds F rk k0 k1 k2 k3 s :
  sm4_rnds F rk k0 k1 k2 k3 s = rounds F [get rk k0; get rk k1; get rk k2; get rk k3] s.
Proof.
  destruct s as [[[x0 x1] x2] x3]. unfold sm4_rnds, rounds. cbn [fold_left round].
  set (y0 := N.lxor x0 (F _)).
  replace (N.lxor (N.lxor x2 x3) y0) with (N.lxor (N.lxor y0 x2) x3) by (clearbody y0; clear; xor_bits).
  set (y1 := N.lxor x1 (F _)).
  replace (N.lxor (N.lxor x3 y0) y1) with (N.lxor (N.lxor y0 y1) x3) by (clearbody y0 y1; clear; xor_bits).
  reflexivity.
Qed.
Lemma rounds_app F a b s : rounds F (a ++ b) s = rounds F b (rounds F a s).
Proof. apply fold_left_app. Qed.
Lemma rounds_ext F G ks s : (forall x, F x = G x) -> rounds F ks s = rounds G ks s.
Proof.
  intros H. revert s. induction ks as [|k ks IH]; intros s; [reflexivity|]. unfold rounds in *. cbn [fold_left]. rewrite IH.
  f_equal. destruct s as [[[x0 x1] x2] x3]. cbn [round]. now rewrite H.
Qed.
(** the Feistel-like structure: rounds with the reversed keys undo the rounds, up to the swap *)
Lemma round_undo F s k : swap (round F (swap (round F s k)) k) = s.
Proof.
  destruct s as [[[x0 x1] x2] x3]. unfold round, swap.
  replace (N.lxor (N.lxor x3 x2) x1) with (N.lxor (N.lxor x1 x2) x3)
    by (clear; xor_bits).
  rewrite N.lxor_assoc, N.lxor_nilpotent, N.lxor_0_r. reflexivity.
Qed.
Lemma swap_swap s : swap (swap s) = s.
Proof. now destruct s as [[[? ?] ?] ?]. Qed.
Lemma rounds_undo F ks s : swap (rounds F (rev ks) (swap (rounds F ks s))) = s.
Proof.
  revert s. induction ks as [|k ks IH]; intros s; [apply swap_swap|].
  cbn [rev]. rewrite rounds_app. change (rounds F (k :: ks) s) with (rounds F ks (round F s k)).
  set (u := rounds F (rev ks) (swap (rounds F ks (round F s k)))).
  assert (U : u = swap (round F s k)) by (unfold u; rewrite <- (swap_swap (rounds F (rev ks) _)), IH; reflexivity).
  rewrite U. unfold rounds. cbn [fold_left]. apply round_undo.
Qed.

(** ** loading and storing *)
Lemma get_u32_be_be l i : bytes l -> get_u32_be l i = be_to_N [get l i; get l (i + 1); get l (i + 2); get l (i + 3)].
Proof. intros Hl. apply lor4; now apply bytes_get. Qed.
Lemma sm4_load_st b : block16 b -> sm4_load b = st_of b.
Proof.
  intros [L B]. unfold sm4_load. rewrite !get_u32_be_be by auto. 
  do 16 (destruct b as [|? b]; [discriminate|]). destruct b; [|discriminate]. reflexivity.
Qed.
Lemma sm4_store_st s : sm4_store s = st_to (swap s).
Proof. destruct s as [[[x0 x1] x2] x3]. unfold sm4_store, st_to, swap, word_bytes. now rewrite !put_u32_be_spec. Qed.
Definition st_word (s : state) : Prop := let '(a, b, c, d) := s in word a /\ word b /\ word c /\ word d.
Lemma be_word l : length l = 4%nat -> bytes l -> word (be_to_N l).
Proof. intros L B. pose proof (be_to_N_bound l B) as H. rewrite L in H. exact H. Qed.
Lemma st_of_word b : block16 b -> st_word (st_of b).
Proof.
  intros [L B]. do 16 (destruct b as [|? b]; [discriminate|]). destruct b; [|discriminate].
  unfold st_of. change (chunks 4 _) with [[n; n0; n1; n2]; [n3; n4; n5; n6]; [n7; n8; n9; n10]; [n11; n12; n13; n14]].
  unfold of_bytes. repeat match goal with H : bytes (_ :: _) |- _ => inversion H; clear H; subst end.
  repeat match goal with H : Forall byte (_ :: _) |- _ => inversion H; clear H; subst end.
  repeat split; apply word_be4; auto.
Qed.
Lemma st_to_of b : block16 b -> st_to (st_of b) = b.
Proof.
  intros [L B]. assert (HC := chunks_Forall_length 4 b ltac:(lia)). rewrite L in HC. specialize (HC eq_refl).
  pose proof (bytes_chunks 4 b ltac:(lia) B) as HB. pose proof (concat_chunks 4 b ltac:(lia)) as CC.
  unfold st_of. destruct (chunks 4 b) as [|w [|x [|y [|z [|]]]]] eqn:EC; 
    (apply (f_equal (@length (list N))) in EC; 
     do 16 (destruct b as [|? b]; [discriminate|]); destruct b; [|discriminate]; try discriminate).
  clear EC. unfold st_to, word_bytes, of_bytes.
  repeat match goal with H : Forall _ (_ :: _) |- _ => inversion H; clear H; subst end.
  repeat match goal with H : length ?w = 4%nat |- context [N_to_be 4 (be_to_N ?w)] => rewrite <- H at 1; rewrite N_to_be_to_N by auto end.
  cbn [concat] in CC. now rewrite app_nil_r in CC.
Qed.
Lemma st_of_to s : st_word s -> st_of (st_to s) = s.
Proof.
  destruct s as [[[x0 x1] x2] x3]. intros (H0 & H1 & H2 & H3). unfold st_of, st_to, word_bytes, of_bytes.
  rewrite !N_to_be4. cbn [app].
  match goal with |- context [chunks 4 ?l] => change (chunks 4 l) with
    [[byte_at x0 24; byte_at x0 16; byte_at x0 8; byte_at x0 0]; [byte_at x1 24; byte_at x1 16; byte_at x1 8; byte_at x1 0];
     [byte_at x2 24; byte_at x2 16; byte_at x2 8; byte_at x2 0]; [byte_at x3 24; byte_at x3 16; byte_at x3 8; byte_at x3 0]] end.
  rewrite <- !N_to_be4. rewrite !be_to_N_to_be by assumption. reflexivity.
Qed.
Lemma st_to_block s : block16 (st_to s).
Proof.
  destruct s as [[[x0 x1] x2] x3]. unfold st_to, word_bytes. split; [rewrite !app_length, !length_N_to_be; reflexivity|].
  repeat (apply bytes_app; split); apply bytes_N_to_be.
Qed.
Lemma round_word F s k : (forall x, word (F x)) -> st_word s -> st_word (round F s k).
Proof. destruct s as [[[x0 x1] x2] x3]. intros HF (H0 & H1 & H2 & H3). repeat split; auto. apply word_lxor; auto. Qed.
Lemma rounds_word F ks s : (forall x, word (F x)) -> st_word s -> st_word (rounds F ks s).
Proof. intros HF. revert s. induction ks as [|k ks IH]; intros s Hs; [exact Hs|]. apply (IH (round F s k)). now apply round_word. Qed.
Lemma swap_word s : st_word s -> st_word (swap s).
Proof. destruct s as [[[x0 x1] x2] x3]. cbn. intuition. Qed.

(** ** encrypt and decrypt on any context *)
Lemma list32 (rk : list N) : length rk = 32%nat -> rk = map (get rk) (seq 0 32).
Proof.
  intros L. do 32 (destruct rk as [|? rk]; [discriminate|]). destruct rk; [reflexivity|discriminate].
Qed.
Lemma encrypt_rounds rk b : length rk = 32%nat -> block16 b ->
  sm4_encrypt rk b = st_to (swap (rounds T rk (st_of b))).
Proof.
  intros L Hb. unfold sm4_encrypt. rewrite sm4_store_st, !rnds_rounds, sm4_load_st by auto.
  do 2 f_equal.
  rewrite !(rounds_ext sm4_t_slow T) by apply t_slow_T. rewrite !(rounds_ext sm4_t T) by apply sm4_t_T.
  rewrite <- !rounds_app. f_equal. cbn [app]. symmetry. now apply list32.
Qed.
Lemma decrypt_rounds rk b : length rk = 32%nat -> block16 b ->
  sm4_decrypt rk b = st_to (swap (rounds T (rev rk) (st_of b))).
Proof.
  intros L Hb. unfold sm4_decrypt. rewrite sm4_store_st, !rnds_rounds, sm4_load_st by auto.
  do 2 f_equal.
  rewrite !(rounds_ext sm4_t_slow T) by apply t_slow_T. rewrite !(rounds_ext sm4_t T) by apply sm4_t_T.
  rewrite <- !rounds_app. f_equal. cbn [app]. rewrite (list32 rk L) at 33. reflexivity.
Qed.
Lemma sm4_inverse rk b : length rk = 32%nat -> block16 b ->
  sm4_decrypt rk (sm4_encrypt rk b) = b /\ sm4_encrypt rk (sm4_decrypt rk b) = b.
Proof.
  intros L Hb. pose proof (st_of_word b Hb) as HW. split.
  - rewrite encrypt_rounds by auto. rewrite decrypt_rounds by (auto using st_to_block).
    rewrite st_of_to by (apply swap_word, rounds_word; auto using T_word).
    rewrite rounds_undo. now apply st_to_of.
  - rewrite decrypt_rounds by auto. rewrite encrypt_rounds by (auto using st_to_block).
    rewrite st_of_to by (apply swap_word, rounds_word; auto using T_word).
    rewrite <- (rev_involutive rk) at 1. rewrite rounds_undo. now apply st_to_of.
Qed.
Lemma sm4_encrypt_block rk b : block16 (sm4_encrypt rk b).
Proof. unfold sm4_encrypt. rewrite sm4_store_st. apply st_to_block. Qed.
Lemma sm4_decrypt_block rk b : block16 (sm4_decrypt rk b).
Proof. unfold sm4_decrypt. rewrite sm4_store_st. apply st_to_block. Qed.
Lemma sm4_block_cipher rk : length rk = 32%nat -> block_cipher (sm4_encrypt rk) (sm4_decrypt rk).
Proof.
  intros L. split; [|split].
  - intros b _. apply sm4_encrypt_block.
  - intros b _. apply sm4_decrypt_block.
  - intros b Hb. exact (proj1 (sm4_inverse rk b L Hb)).
Qed.

(** ** key schedule *)
Lemma ck_ok i : (i < 32)%nat -> get CK i = std_CK i.
Proof.
  intros Hi. apply N.eqb_eq. assert (H : forallb (fun i => N.eqb (get CK i) (std_CK i)) (seq 0 32) = true) by (vm_compute; reflexivity).
  rewrite forallb_forall in H. apply H, in_seq. lia.
Qed.
Lemma T'_def X : T' X = Lin' (tau X).
Proof. reflexivity. Qed.
Local Opaque T T' tau Lin Lin' sm4_sub std_CK.
Definition rotst (K : list N) (i : nat) : state :=
  (get K (i mod 4), get K ((i + 1) mod 4), get K ((i + 2) mod 4), get K ((i + 3) mod 4)).
Lemma ks_step_state m K rk i : length K = 4%nat -> (i < 32)%nat ->
  let K' := fst (sm4_ks_step m (K, rk) i) in
  length K' = 4%nat /\ rotst K' (i + 1) = round T' (rotst K i) (std_CK i) /\
  get K' (i mod 4) = snd (rotst K' (i + 1)).
Proof.
  intros L Hi. cbv zeta. unfold sm4_ks_step. cbn [fst]. rewrite ck_ok by auto.
  set (X := N.lxor (N.lxor (N.lxor _ _) _) _). rewrite sm4_sub_tau, <- Lin'_rotl by apply tau_word.
  rewrite <- T'_def.
  split; [rewrite length_set; exact L|].
  assert (E : ((i + 1 + 3) mod 4 = i mod 4)%nat) by (replace (i + 1 + 3)%nat with (i + 1 * 4)%nat by lia; apply Nat.mod_add; lia).
  split; [|unfold rotst; cbn [snd]; now rewrite E].
  unfold rotst, round. rewrite E.
  replace (i + 1 + 1)%nat with (i + 2)%nat by lia. replace (i + 1 + 2)%nat with (i + 3)%nat by lia.
  pose proof (Nat.mod_upper_bound i 4 ltac:(lia)) as B.
  assert (E1 : ((i + 1) mod 4 = (i mod 4 + 1) mod 4)%nat) by (now rewrite Nat.add_mod_idemp_l).
  assert (E2 : ((i + 2) mod 4 = (i mod 4 + 2) mod 4)%nat) by (now rewrite Nat.add_mod_idemp_l).
  assert (E3 : ((i + 3) mod 4 = (i mod 4 + 3) mod 4)%nat) by (now rewrite Nat.add_mod_idemp_l).
  unfold X. rewrite E1, E2, E3. set (r := (i mod 4)%nat) in *. clearbody r. clear - L B.
  destruct K as [|a [|b [|c [|d [|]]]]]; try discriminate.
  destruct r as [|[|[|[|r]]]]; [| | | |lia]; reflexivity.
Qed.
Lemma firstn_set_next {A} (l : list A) i v : (i < length l)%nat -> firstn (i + 1) (set l i v) = firstn i l ++ [v].
Proof. revert i. induction l as [|a l IH]; intros i Hi; cbn [length] in Hi; [lia|]. destruct i as [|i]; [reflexivity|]. cbn [set Nat.add firstn app]. rewrite IH by lia. reflexivity. Qed.
Lemma skipn_set {A} (l : list A) i k v : (i < k)%nat -> skipn k (set l i v) = skipn k l.
Proof. revert i k. induction l as [|a l IH]; intros i k Hi; [destruct i; reflexivity|]. destruct k; [lia|]. destruct i as [|i]; [reflexivity|]. cbn [set skipn]. apply IH. lia. Qed.
Lemma firstn_set_before {A} (l : list A) i k v : (k <= i)%nat -> firstn k (set l i v) = firstn k l.
Proof. revert i k. induction l as [|a l IH]; intros i k Hi; [destruct i; reflexivity|]. destruct k; [reflexivity|]. destruct i as [|i]; [lia|]. cbn [set firstn]. f_equal. apply IH. lia. Qed.
Lemma skipn_set_at {A} (l : list A) i v : (i < length l)%nat -> skipn i (set l i v) = v :: skipn (S i) l.
Proof. revert i. induction l as [|a l IH]; intros i Hi; cbn [length] in Hi; [lia|]. destruct i as [|i]; [reflexivity|]. cbn [set skipn]. rewrite IH by lia. reflexivity. Qed.
Lemma fold_ks m n : forall a K rk, length K = 4%nat -> (a + n <= 32)%nat -> length rk = 32%nat ->
  snd (fold_left (sm4_ks_step m) (seq a n) (K, rk)) =
  let ks := expand (rotst K a) (map std_CK (seq a n)) in
  if m =? 1 then firstn a rk ++ ks ++ skipn (a + n) rk
  else if m =? 0 then firstn (32 - a - n) rk ++ rev ks ++ skipn (32 - a) rk
  else rk.
Proof.
  induction n as [|n IH]; intros a K rk LK Ha LR; cbn [seq map fold_left expand].
  - cbn [snd rev app]. rewrite Nat.add_0_r, Nat.sub_0_r. rewrite !firstn_skipn.
    destruct (m =? 1); auto. destruct (m =? 0); auto.
  - destruct (ks_step_state m K rk a LK ltac:(lia)) as (L' & R' & G').
    destruct (sm4_ks_step m (K, rk) a) as [K' rk'] eqn:ES. cbn [fst] in *.
    assert (ER : rk' = if m =? 1 then set rk a (get K' (a mod 4)) else if m =? 0 then set rk (31 - a) (get K' (a mod 4)) else rk).
    { unfold sm4_ks_step in ES. cbv zeta in ES. assert (E1 : K' = fst (K', rk')) by reflexivity.
      assert (E2 : rk' = snd (K', rk')) by reflexivity. rewrite <- ES in E1, E2. cbn [fst snd] in E1, E2. rewrite E2.
      rewrite <- E1. reflexivity. }
    rewrite IH by (auto; try lia; subst rk'; destruct (m =? 1), (m =? 0); rewrite ?length_set; auto).
    cbv zeta. replace (S a) with (a + 1)%nat by lia. rewrite R'. rewrite G', R' in ER. clear ES G' R'.
    set (s' := round T' (rotst K a) (std_CK a)) in *. set (ks := expand s' _). subst rk'.
    destruct (m =? 1); [|destruct (m =? 0); [|reflexivity]].
    + rewrite firstn_set_next, skipn_set by lia. rewrite <- app_assoc. cbn [app].
      replace (a + 1 + n)%nat with (a + S n)%nat by lia. reflexivity.
    + cbn [rev]. rewrite firstn_set_before by lia. replace (32 - (a + 1))%nat with (31 - a)%nat by lia.
      rewrite skipn_set_at by lia. replace (S (31 - a)) with (32 - a)%nat by lia.
      replace (32 - (a + 1) - n)%nat with (32 - a - S n)%nat by lia.
      replace (31 - a - n)%nat with (32 - a - S n)%nat by lia.
      rewrite <- app_assoc. reflexivity.
Qed.
Lemma init_key_mode_spec m rk key : length rk = 32%nat -> bytes key ->
  sm4_init_key_mode m rk key =
  let ks := round_keys (key_padding_pkcs7 key) in
  if m =? 1 then ks else if m =? 0 then rev ks else rk.
Proof.
  intros L B. unfold sm4_init_key_mode. rewrite fold_ks by (auto; reflexivity).
  cbn [firstn]. rewrite (skipn_all2 rk) by lia. rewrite (skipn_all2 rk) by lia.
  change (32 - 0 - 32)%nat with 0%nat. cbn [firstn app]. rewrite !app_nil_r. cbv zeta. unfold round_keys.
  pose proof (key_padding_length key) as LP. pose proof (key_padding_bytes key B) as BP.
  set (pk := key_padding_pkcs7 key) in *.
  assert (ES : rotst (map (fun n => N.lxor (get_u32_be pk (4 * n)) (get FK n)) (seq 0 4)) 0 = st_xor (st_of pk) std_FK).
  { rewrite <- sm4_load_st by (split; auto). reflexivity. }
  rewrite ES. reflexivity.
Qed.
Lemma length_expand s l : length (expand s l) = length l.
Proof. revert s. induction l as [|a l IH]; intros s; [reflexivity|]. cbn [expand length]. now rewrite IH. Qed.
Lemma length_round_keys k : length (round_keys k) = 32%nat.
Proof. unfold round_keys. now rewrite length_expand, map_length, seq_length. Qed.

(** ** the checked key copy *)
Lemma copy_loop_spec src dst n : (n <= length src)%nat -> (n <= length dst)%nat ->
  copy_loop src n dst = Some (firstn n src ++ skipn n dst).
Proof.
  unfold copy_loop. induction n as [|n IH]; intros H1 H2; [reflexivity|].
  rewrite seq_S, fold_left_app, IH by lia. cbn [fold_left bind Nat.add].
  destruct (nth_error src n) as [x|] eqn:E; [|apply nth_error_None in E; lia]. cbn [bind]. f_equal.
  assert (EF : firstn (S n) src = firstn n src ++ [x]).
  { apply nth_error_split in E as (l1 & l2 & -> & <-). rewrite !firstn_app, (firstn_all2 l1 (n := length l1)), (firstn_all2 l1) by lia.
    rewrite Nat.sub_diag. replace (S (length l1) - length l1)%nat with 1%nat by lia. cbn [firstn]. now rewrite app_nil_r. }
  rewrite EF, <- app_assoc. cbn [app].
  set (p := firstn n src). assert (LP : length p = n) by (unfold p; rewrite firstn_length; lia). clearbody p. clear - LP H2.
  subst n. revert dst H2. induction p as [|a p IH]; intros dst H2.
  - destruct dst as [|d dst]; [cbn [length] in H2; lia|reflexivity].
  - destruct dst as [|d dst]; [cbn [length] in H2; lia|]. cbn [app length skipn set]. f_equal. rewrite IH; [reflexivity|]. cbn [length] in H2. lia.
Qed.
Lemma copy_loop_oob src dst n : (length src < n)%nat -> copy_loop src n dst = None.
Proof.
  intros H. unfold copy_loop. replace (seq 0 n) with (seq 0 (length src) ++ seq (length src) (n - length src)).
  2:{ rewrite <- seq_app. f_equal. lia. }
  rewrite fold_left_app. destruct (n - length src)%nat as [|k] eqn:E; [lia|]. cbn [seq fold_left].
  assert (G : forall l, fold_left (fun d i => do d <- d; do x <- nth_error src i; Some (set d i x)) l (@None (list N)) = None)
    by (induction l; auto).
  destruct (fold_left _ (seq 0 (length src)) (Some dst)) as [d|]; cbn [bind]; [|apply G].
  destruct (nth_error src (length src)) eqn:EN; [|apply G].
  assert (EN' : nth_error src (length src) <> None) by congruence. apply nth_error_Some in EN'. lia.
Qed.
Lemma fold_set_repeat (v : N) k : forall a d, length d = (a + k)%nat ->
  fold_left (fun d i => set d i v) (seq a k) d = firstn a d ++ repeat v k.
Proof.
  induction k as [|k IH]; intros a d L; cbn [seq fold_left repeat].
  - rewrite app_nil_r, firstn_all2 by lia. reflexivity.
  - rewrite IH by (rewrite length_set; lia). replace (S a) with (a + 1)%nat by lia.
    rewrite firstn_set_next by lia. rewrite <- app_assoc. reflexivity.
Qed.
Lemma key_padding_buf_spec src n : key_padding_buf src n =
  if (length src <? Nat.min n 16)%nat then None else Some (key_padding_pkcs7 (firstn n src)).
Proof.
  unfold key_padding_buf, key_padding_pkcs7. destruct (Nat.ltb_spec 16 n).
  - destruct (Nat.ltb_spec (length src) (Nat.min n 16)).
    + apply copy_loop_oob. lia.
    + rewrite copy_loop_spec by (rewrite ?repeat_length; lia). f_equal.
      rewrite (skipn_all2 (repeat 0 16)) by (rewrite repeat_length; lia). rewrite app_nil_r.
      rewrite firstn_length. destruct (Nat.ltb_spec 16 (Nat.min n (length src))).
      * rewrite firstn_firstn. f_equal. lia.
      * destruct (Nat.ltb_spec (Nat.min n (length src)) 16); [lia|]. rewrite app_nil_r.
        rewrite !firstn_all2 by lia. reflexivity.
  - destruct (Nat.ltb_spec (length src) (Nat.min n 16)).
    + rewrite copy_loop_oob by lia. reflexivity.
    + rewrite copy_loop_spec by (rewrite ?repeat_length; lia). cbn [bind]. f_equal.
      rewrite firstn_length, Nat.min_l by lia. destruct (Nat.ltb_spec 16 n); [lia|].
      destruct (Nat.ltb_spec n 16).
      * rewrite fold_set_repeat by (rewrite app_length, firstn_length, skipn_length, repeat_length; lia).
        f_equal. rewrite firstn_app, firstn_firstn, firstn_length. replace (Nat.min n n) with n by lia.
        replace (n - Nat.min n (length src))%nat with 0%nat by lia. cbn [firstn]. apply app_nil_r.
      * rewrite (skipn_all2 (repeat 0 16)) by (rewrite repeat_length; lia). reflexivity.
Qed.
Lemma key_padding_16 k : length k = 16%nat -> key_padding_pkcs7 k = k.
Proof. intros L. unfold key_padding_pkcs7. rewrite L. cbn. apply app_nil_r. Qed.

Lemma sm4_init_key_rk rk key : length rk = 32%nat -> bytes key -> sm4_init_key rk key = round_keys (key_padding_pkcs7 key).
Proof. intros L B. unfold sm4_init_key. rewrite init_key_mode_spec by auto. reflexivity. Qed.
Lemma normal_key_eq k : normal_key k = key_padding_pkcs7 k.
Proof.
  unfold normal_key, key_padding_pkcs7. destruct (Nat.ltb_spec 16 (length k)), (Nat.ltb_spec (length k) 16); try lia.
  - replace (16 - length k)%nat with 0%nat by lia. cbn [repeat]. now rewrite app_nil_r.
  - now rewrite firstn_all2 by lia.
  - rewrite firstn_all2 by lia. replace (16 - length k)%nat with 0%nat by lia. reflexivity.
Qed.
Lemma sm4_agree key : bytes key ->
  forall b, block16 b -> sm4_encrypt (sm4_init_key sm4_context_init key) b = std_encrypt (normal_key key) b.
Proof.
  intros B b Hb. rewrite normal_key_eq, sm4_init_key_rk by (auto; reflexivity). apply encrypt_rounds; auto using length_round_keys.
Qed.

Local Open Scope nat_scope.
Lemma sm4_conforms_lemma : forall key b, block16 key -> block16 b ->
  let rk := sm4_init_key sm4_context_init key in
  sm4_encrypt rk b = std_encrypt key b /\ sm4_decrypt rk b = std_decrypt key b.
Proof.
  intros key b [LK BK] Hb. cbv zeta. unfold sm4_init_key. rewrite init_key_mode_spec by (auto; reflexivity).
  change (1 =? 1)%N with true. cbv iota zeta. rewrite key_padding_16 by auto.
  split; [apply encrypt_rounds | apply decrypt_rounds]; auto using length_round_keys.
Qed.

Lemma sm4_conforms_decmode_lemma : forall rk0 key b, length rk0 = 32 -> block16 key -> block16 b ->
  let rk := sm4_init_key_mode 0 rk0 key in
  sm4_encrypt rk b = std_decrypt key b /\ sm4_decrypt rk b = std_encrypt key b.
Proof.
  intros rk0 key b L0 [LK BK] Hb. cbv zeta. rewrite init_key_mode_spec by auto.
  change (0 =? 1)%N with false. change (0 =? 0)%N with true. cbv iota zeta. rewrite key_padding_16 by auto.
  assert (LR : length (rev (round_keys key)) = 32) by (rewrite rev_length; apply length_round_keys).
  split; [rewrite encrypt_rounds by auto; reflexivity|].
  rewrite decrypt_rounds by auto. rewrite rev_involutive. reflexivity.
Qed.

Lemma sm4_encrypt_decrypt_lemma : forall key b, bytes key -> block16 b ->
  let rk := sm4_init_key sm4_context_init key in
  sm4_decrypt rk (sm4_encrypt rk b) = b /\ sm4_encrypt rk (sm4_decrypt rk b) = b /\
  block16 (sm4_encrypt rk b) /\ block16 (sm4_decrypt rk b).
Proof.
  intros key b BK Hb. cbv zeta. unfold sm4_init_key. rewrite init_key_mode_spec by (auto; reflexivity).
  change (1 =? 1)%N with true. cbv iota zeta.
  destruct (sm4_inverse _ b (length_round_keys (key_padding_pkcs7 key)) Hb) as [H1 H2].
  auto using sm4_encrypt_block, sm4_decrypt_block.
Qed.

Lemma sm4_key_normalisation_lemma : forall rk buf n, length rk = 32 -> bytes buf -> Nat.min n 16 <= length buf ->
  length (normal_key (firstn n buf)) = 16 /\
  sm4_init_key_buf rk buf n = Some (sm4_init_key sm4_context_init (normal_key (firstn n buf))).
Proof.
  intros rk buf n LR BB H. rewrite normal_key_eq. set (k := firstn n buf). split; [apply key_padding_length|].
  unfold sm4_init_key_buf. rewrite key_padding_buf_spec. destruct (Nat.ltb_spec (length buf) (Nat.min n 16)); [lia|].
  cbn [bind]. fold k. unfold sm4_init_key.
  assert (BK : bytes (key_padding_pkcs7 k)) by (apply key_padding_bytes, bytes_firstn; auto).
  rewrite !init_key_mode_spec by (auto; reflexivity). reflexivity.
Qed.

Lemma sm4_key_reads_lemma : forall rk buf1 buf2 n, 
  firstn (Nat.min n 16) buf1 = firstn (Nat.min n 16) buf2 ->
  sm4_init_key_buf rk buf1 n = sm4_init_key_buf rk buf2 n.
Proof.
  intros rk b1 b2 n H. unfold sm4_init_key_buf. rewrite !key_padding_buf_spec.
  assert (HL := f_equal (@length N) H). rewrite !firstn_length in HL.
  destruct (Nat.ltb_spec (length b1) (Nat.min n 16)), (Nat.ltb_spec (length b2) (Nat.min n 16)); [reflexivity|lia|lia|].
  do 2 f_equal. unfold key_padding_pkcs7. rewrite !firstn_length.
  destruct (Nat.ltb_spec 16 (Nat.min n (length b1))), (Nat.ltb_spec 16 (Nat.min n (length b2))).
  - rewrite !firstn_firstn. rewrite (Nat.min_comm 16 n). now rewrite H.
  - rewrite (Nat.min_r n 16) in H by lia. rewrite (firstn_all2 b2) by lia. rewrite firstn_firstn, (Nat.min_l 16 n) by lia.
    rewrite H. rewrite firstn_all2 by lia. destruct (Nat.ltb_spec (Nat.min n (length b2)) 16); [lia|]. now rewrite app_nil_r.
  - rewrite (Nat.min_r n 16) in H by lia. rewrite (firstn_all2 b1) by lia. rewrite firstn_firstn, (Nat.min_l 16 n) by lia.
    rewrite <- H. rewrite (firstn_all2 b1) by lia. destruct (Nat.ltb_spec (Nat.min n (length b1)) 16); [lia|]. now rewrite app_nil_r.
  - destruct (Nat.ltb_spec 16 n).
    + rewrite (Nat.min_r n 16) in H by lia. rewrite !firstn_all2 in * by lia. subst b2. reflexivity.
    + rewrite (Nat.min_l n 16) in H by lia. rewrite H. rewrite !Nat.min_l by lia. reflexivity.
Qed.

Lemma sm4_key_overread_lemma : forall rk buf n, length buf < Nat.min n 16 -> sm4_init_key_buf rk buf n = None.
Proof.
  intros rk buf n H. unfold sm4_init_key_buf. rewrite key_padding_buf_spec.
  destruct (Nat.ltb_spec (length buf) (Nat.min n 16)); [reflexivity|lia].
Qed.

Lemma sm4_gcm_conforms_lemma : forall d key iv aad p t, bytes key -> bytes iv -> bytes aad -> bytes p ->
  (8 * N.of_nat (length iv) < 2 ^ 32)%N -> (8 * N.of_nat (length aad) < 2 ^ 64)%N ->
  (N.of_nat (length p) <= 2147483647)%N -> t <= 16 ->
  let E := std_encrypt (normal_key key) in
  let o := gctr E (inc32 (J0 E iv)) p in
  gcm_session d (lift (sm4_encrypt (sm4_init_key sm4_context_init key))) iv aad [p] t =
  Some (o, gcm_tag E iv aad (match d with Enc => o | Dec => p end) t).
Proof.
  intros d key iv aad p t Hk Hiv Ha Hp L1 L2 L3 Ht. apply gcm_session_impl; try assumption.
  - exact (sm4_agree key Hk).
  - intros b _. apply st_to_block.
Qed.

Lemma sm4_cbc_conforms_lemma : forall key m out cap iv, bytes key -> bytes m -> block16 iv ->
  (N.of_nat (length (lib_padded m)) <= int_max)%N -> length (lib_padded m) <= cap -> length out = cap ->
  wrapper_cbc_encrypt false (lift (sm4_encrypt (sm4_init_key sm4_context_init key))) m out cap iv =
  Some {| cr_ret := true;
          cr_out := cbc_encrypt_bytes (std_encrypt (normal_key key)) iv (lib_padded m)
                    ++ skipn (length (lib_padded m)) out;
          cr_use := Some (N.of_nat (length (lib_padded m)));
          cr_iv := iv |}.
Proof.
  intros key m out cap iv Hk Hm Hiv L1 L2 L3. apply cbc_encrypt_impl; try assumption.
  - exact (sm4_agree key Hk).
  - intros b _. apply st_to_block.
Qed.

Lemma sm4_cbc_roundtrip_lemma : forall key m iv out1 cap1 out2 cap2, bytes key ->
  bytes m -> m <> [] -> recoverable m -> block16 iv -> (N.of_nat (length (lib_padded m)) <= int_max)%N ->
  length out1 = cap1 -> length (lib_padded m) <= cap1 -> length out2 = cap2 -> length (lib_padded m) <= cap2 ->
  let rk := sm4_init_key sm4_context_init key in
  exists r d,
    wrapper_cbc_encrypt false (lift (sm4_encrypt rk)) m out1 cap1 iv = Some r /\ cr_ret r = true /\
    wrapper_cbc_decrypt (lift (sm4_decrypt rk)) (firstn (length (lib_padded m)) (cr_out r))
      (length (lib_padded m)) out2 cap2 iv = Some d /\ cr_ret d = true /\
    cr_use d = Some (N.of_nat (length m)) /\ firstn (length m) (cr_out d) = m.
Proof.
  intros key m iv out1 cap1 out2 cap2 Hk Hm Hne Hrec Hiv L1 L2 L3 L4 L5. cbv zeta.
  assert (HC : block_cipher (sm4_encrypt (sm4_init_key sm4_context_init key)) (sm4_decrypt (sm4_init_key sm4_context_init key))).
  { rewrite sm4_init_key_rk by (auto; reflexivity). apply sm4_block_cipher, length_round_keys. }
  destruct (cbc_roundtrip_partial_lemma _ _ m iv out1 cap1 out2 cap2 HC Hm Hne Hiv L1 L2 L3 L4 L5)
    as (r & d & u & H1 & H2 & H3 & H4 & H5 & H6 & H7 & H8).
  exists r, d. rewrite (proj2 H8 Hrec) in H7. tauto.
Qed.

Lemma sm4_gcm_roundtrip_lemma : forall key iv aad ps cs t, bytes iv -> bytes aad -> small_pieces ps -> t <= 16 ->
  let blk := lift (sm4_encrypt (sm4_init_key sm4_context_init key)) in
  exists ct tag, gcm_session Enc blk iv aad ps t = Some (ct, tag) /\ length ct = length (concat ps) /\
  (map (@length N) cs = map (@length N) ps -> concat cs = ct ->
   gcm_session Dec blk iv aad cs t = Some (concat ps, tag)).
Proof.
  intros key iv aad ps cs t Hiv Ha Hps Ht. cbv zeta. apply session_inverse; try assumption.
  intros b _. apply sm4_encrypt_block.
Qed.
