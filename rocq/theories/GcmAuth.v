(** * What the tag says about the message: proofs. *)
From Verif Require Import Base CbcModel CbcSpec CbcProofs GcmModel GcmSpec GfProofs GcmProofs GfField GfGhash.
From Coq Require Import ZifyBool ZifyNat ZifyN.
Local Open Scope nat_scope.
#[local] Opaque gf_mul.

(** the string GCM hashes *)
Definition hashed_str (aad c : list N) : list N := pad16 aad ++ pad16 c ++ len64 aad ++ len64 c.
Lemma len64_bytes s : bytes (len64 s).
Proof. apply bytes_N_to_be. Qed.
Lemma len64_length s : length (len64 s) = 8.
Proof. apply length_N_to_be. Qed.
Lemma hashed_str_mod aad c : length (hashed_str aad c) mod 16 = 0.
Proof.
  unfold hashed_str. rewrite !app_length, !len64_length. rewrite Nat.add_mod, pad16_length_mod by lia.
  rewrite (Nat.add_mod (length (pad16 c))), pad16_length_mod by lia. reflexivity.
Qed.
Lemma hashed_str_bytes aad c : bytes aad -> bytes c -> bytes (hashed_str aad c).
Proof. intros Ba Bc. unfold hashed_str. rewrite !bytes_app. auto using bytes_pad16, len64_bytes. Qed.
Lemma tag_full E iv aad c : block_function E -> bytes iv -> gcm_tag E iv aad c 16 = xorl (ghash (hash_key E) (hashed_str aad c)) (E (J0 E iv)).
Proof.
  intros HE Hiv. unfold gcm_tag. fold (hashed_str aad c). apply firstn_all2. rewrite length_xorl.
  destruct (ghash_block16 (hash_key E) (hashed_str aad c) (hashed_str_mod aad c)) as [L _]. rewrite L. lia.
Qed.
Lemma tag_trunc E iv aad c t : block_function E -> bytes iv -> gcm_tag E iv aad c t = firstn t (gcm_tag E iv aad c 16).
Proof. intros HE Hiv. rewrite tag_full by assumption. reflexivity. Qed.
Lemma xorl_inj_l a b x : length a = length x -> length b = length x -> xorl a x = xorl b x -> a = b.
Proof. intros La Lb E. rewrite <- (xorl_cancel_r a x), <- (xorl_cancel_r b x), E by lia. reflexivity. Qed.
Lemma tag_ghash E iv aad c aad' c' : block_function E -> bytes iv -> gcm_tag E iv aad c 16 = gcm_tag E iv aad' c' 16 ->
  ghash (hash_key E) (hashed_str aad c) = ghash (hash_key E) (hashed_str aad' c').
Proof.
  intros HE Hiv EQ. rewrite !tag_full in EQ by assumption. destruct (HE _ (J0_block E iv Hiv)) as [LJ _].
  apply xorl_inj_l in EQ; [exact EQ| |]; rewrite LJ; apply ghash_block16, hashed_str_mod.
Qed.
Lemma hash_key_block E : block_function E -> block16 (hash_key E).
Proof. intros HE. apply HE, block16_zeros. Qed.
Lemma hash_key_nz E : block_function E -> hash_key E <> repeat 0%N 16 -> be_to_N (hash_key E) <> 0%N.
Proof.
  intros HE HN Z. apply HN. destruct (hash_key_block E HE) as [L B]. apply be_to_N_inj; [exact L|exact B|apply block16_zeros|exact Z].
Qed.

(** ** a change inside one block *)
Definition one_block_change (i : nat) (x y : list N) : Prop :=
  length x = length y /\ x <> y /\ forall j, j / 16 <> i -> get x j = get y j.
Lemma get_pad16 s j : get (pad16 s) j = get s j.
Proof.
  unfold pad16, get. destruct (Nat.lt_ge_cases j (length s)) as [L|L]; [now rewrite app_nth1|].
  rewrite app_nth2 by lia. rewrite nth_repeat. symmetry. apply nth_overflow. lia.
Qed.
Lemma get_app x y j : get (x ++ y) j = if j <? length x then get x j else get y (j - length x).
Proof. unfold get. destruct (Nat.ltb_spec j (length x)); [now apply app_nth1|now apply app_nth2]. Qed.
Lemma pad16_len_eq x y : length x = length y -> length (pad16 x) = length (pad16 y).
Proof. intros H. unfold pad16. now rewrite !app_length, !repeat_length, H. Qed.
Lemma len64_eq x y : length x = length y -> len64 x = len64 y.
Proof. intros H. unfold len64. now rewrite H. Qed.
Lemma pad16_inj x y : length x = length y -> pad16 x = pad16 y -> x = y.
Proof.
  intros HL E. apply list_ext_get; [exact HL|]. intros j _. rewrite <- (get_pad16 x), <- (get_pad16 y), E. reflexivity.
Qed.
Lemma change_aad i aad aad' c : one_block_change i aad aad' ->
  exists k, one_block_change k (hashed_str aad c) (hashed_str aad' c).
Proof.
  intros (HL & HN & HA). exists i. unfold hashed_str. rewrite (len64_eq aad aad') by exact HL. pose proof (pad16_len_eq _ _ HL) as HP. split; [|split].
  - rewrite !app_length. now rewrite HP.
  - intros E. apply app_inv_tail in E. apply HN. now apply pad16_inj.
  - intros j Hj. rewrite !get_app, HP. destruct (j <? length (pad16 aad')); [|reflexivity]. rewrite !get_pad16. now apply HA.
Qed.
Lemma change_ct i aad c c' : one_block_change i c c' ->
  exists k, one_block_change k (hashed_str aad c) (hashed_str aad c').
Proof.
  intros (HL & HN & HA). exists (length (pad16 aad) / 16 + i). unfold hashed_str. rewrite (len64_eq c c') by exact HL. pose proof (pad16_len_eq _ _ HL) as HP. split; [|split].
  - rewrite !app_length. now rewrite HP.
  - intros E. apply app_inv_head in E. apply app_inv_tail in E. apply HN. now apply pad16_inj.
  - intros j Hj. rewrite (get_app (pad16 aad) _ j), (get_app (pad16 aad) _ j). destruct (Nat.ltb_spec j (length (pad16 aad))) as [L|L]; [reflexivity|].
    set (k := j - length (pad16 aad)). rewrite !(get_app (pad16 _) _ k), HP. destruct (k <? length (pad16 c')); [|reflexivity]. rewrite !get_pad16. apply HA.
    intros X. apply Hj. pose proof (Nat.div_mod (length (pad16 aad)) 16 ltac:(lia)) as D. rewrite pad16_length_mod in D.
    replace j with (k + (length (pad16 aad) / 16) * 16) by (unfold k; lia). rewrite Nat.div_add by lia. lia.
Qed.
Lemma tag_change E iv aad c aad' c' k : block_function E -> bytes iv -> bytes aad -> bytes c -> bytes aad' -> bytes c' ->
  hash_key E <> repeat 0%N 16 -> one_block_change k (hashed_str aad c) (hashed_str aad' c') ->
  gcm_tag E iv aad c 16 <> gcm_tag E iv aad' c' 16.
Proof.
  intros HE Hiv Ba Bc Ba' Bc' HN (HL & HD & HA) EQ. apply tag_ghash in EQ; [|exact HE|exact Hiv].
  refine (ghash_block_change (hash_key E) k (hashed_str aad c) (hashed_str aad' c') (hash_key_block E HE) (hash_key_nz E HE HN) HL (hashed_str_mod _ _) _ _ HA HD EQ);
    now apply hashed_str_bytes.
Qed.
Definition gcm_limits (iv aad c : list N) : Prop := bytes iv /\ bytes aad /\ bytes c /\
  (8 * N.of_nat (length iv) < 2 ^ 32)%N /\ (8 * N.of_nat (length aad) < 2 ^ 64)%N /\ (N.of_nat (length c) <= 2147483647)%N.
Lemma dec_session E iv aad c t : block_function E -> gcm_limits iv aad c -> t <= 16 ->
  gcm_session Dec (lift E) iv aad [c] t = Some (gctr E (inc32 (J0 E iv)) c, gcm_tag E iv aad c t).
Proof. intros HE (B1 & B2 & B3 & L1 & L2 & L3) Ht. now apply gcm_decrypt_conforms_lemma. Qed.
Lemma gcm_change_lemma : forall E iv aad p ct tag, block_function E -> hash_key E <> repeat 0%N 16 -> gcm_limits iv aad p ->
  gcm_session Enc (lift E) iv aad [p] 16 = Some (ct, tag) ->
  (forall i aad', bytes aad' -> one_block_change i aad aad' -> exists p' tag', gcm_session Dec (lift E) iv aad' [ct] 16 = Some (p', tag') /\ tag' <> tag) /\
  (forall i ct', bytes ct' -> one_block_change i ct ct' -> exists p' tag', gcm_session Dec (lift E) iv aad [ct'] 16 = Some (p', tag') /\ tag' <> tag).
Proof.
  intros E iv aad p ct tag HE HN (B1 & B2 & B3 & L1 & L2 & L3) HS.
  rewrite (gcm_conforms_lemma E iv aad p 16 HE B1 B2 B3 L1 L2 L3 (le_n 16)) in HS. 
  assert (X : gcm_ciphertext E iv p = ct /\ gcm_tag E iv aad (gcm_ciphertext E iv p) 16 = tag) by (inversion HS; auto). clear HS. destruct X as [X1 X2].
  assert (HJ : block16 (inc32 (J0 E iv))) by (apply inc32_block, J0_block, B1).
  assert (Bct : bytes ct) by (rewrite <- X1; now apply gctr_bytes).
  assert (Lct : length ct = length p) by (rewrite <- X1; now apply gctr_length).
  rewrite X1 in X2. split.
  - intros i aad' Ba' HC. rewrite dec_session; [|exact HE| |lia].
    + eexists _, _. split; [reflexivity|]. rewrite <- X2. destruct (change_aad i aad aad' ct HC) as [k HK]. intros EQ. symmetry in EQ. revert EQ. now apply (tag_change E iv _ _ _ _ k).
    + destruct HC as (HL & _). repeat split; try assumption; rewrite <- ?HL, ?Lct; assumption.
  - intros i ct' Bc' HC. rewrite dec_session; [|exact HE| |lia].
    + eexists _, _. split; [reflexivity|]. rewrite <- X2. destruct (change_ct i aad ct ct' HC) as [k HK]. intros EQ. symmetry in EQ. revert EQ. now apply (tag_change E iv _ _ _ _ k).
    + destruct HC as (HL & _). repeat split; try assumption; rewrite <- ?HL, ?Lct; assumption.
Qed.
(** with the zero hash key the tag says nothing *)
Lemma ghash_zero H s : block16 H -> be_to_N H = 0%N -> length s mod 16 = 0 -> bytes s -> be_to_N (ghash H s) = 0%N.
Proof.
  intros HH Z Hm Hb. rewrite ghash_N, Z by assumption. generalize (map be_to_N (chunks 16 s)) as xs. intros xs.
  induction xs as [|x xs IH] using rev_ind; [reflexivity|]. rewrite gfold_app, gfold_cons. apply mul_0_r.
Qed.
Lemma gcm_zero_key_lemma : forall E iv aad c aad' c' t, block_function E -> hash_key E = repeat 0%N 16 -> gcm_limits iv aad c -> gcm_limits iv aad' c' -> t <= 16 ->
  exists p p' tag, gcm_session Dec (lift E) iv aad [c] t = Some (p, tag) /\ gcm_session Dec (lift E) iv aad' [c'] t = Some (p', tag).
Proof.
  intros E iv aad c aad' c' t HE HK HL HL' Ht. rewrite !dec_session by assumption. exists (gctr E (inc32 (J0 E iv)) c), (gctr E (inc32 (J0 E iv)) c'), (gcm_tag E iv aad c t).
  split; [reflexivity|]. do 2 f_equal. destruct HL as (B1 & B2 & B3 & _), HL' as (_ & B2' & B3' & _).
  rewrite (tag_trunc E iv aad c t), (tag_trunc E iv aad' c' t) by assumption. f_equal. rewrite !tag_full by assumption. f_equal.
  assert (Z : be_to_N (hash_key E) = 0%N) by (rewrite HK; reflexivity).
  apply be_to_N_inj; try (apply ghash_block16, hashed_str_mod).
  - destruct (ghash_block16 (hash_key E) _ (hashed_str_mod aad c)) as [-> _]. destruct (ghash_block16 (hash_key E) _ (hashed_str_mod aad' c')) as [-> _]. reflexivity.
  - rewrite !ghash_zero; try reflexivity; try apply hashed_str_mod; try now apply hashed_str_bytes. all: try assumption; now apply hash_key_block.
Qed.

(** ** how many hash keys let a forgery pass *)
Definition coefs (aad c : list N) : list N := rev (map be_to_N (chunks 16 (hashed_str aad c))).
Lemma coefs_bound aad c : bytes aad -> bytes c -> Forall blk128 (coefs aad c).
Proof. intros Ba Bc. apply Forall_rev, chunks_blk; [apply hashed_str_mod|now apply hashed_str_bytes]. Qed.
Lemma pad16_blocks s : length (chunks 16 (pad16 s)) = nblk (length s).
Proof.
  rewrite chunks_count. unfold nblk. pose proof (pad16_length_mod s) as HM. unfold pad16 in *. rewrite app_length, repeat_length in *.
  set (n := length s) in *. pose proof (Nat.div_mod n 16 ltac:(lia)) as D. pose proof (Nat.mod_upper_bound n 16 ltac:(lia)) as U.
  destruct (Nat.eq_dec (n mod 16) 0) as [Z|Z].
  - rewrite Z. change ((16 - 0) mod 16) with 0. now rewrite Nat.add_0_r.
  - rewrite (Nat.mod_small (16 - n mod 16)) by lia. replace (n + (16 - n mod 16) + 15) with (n / 16 * 16 + 31) by lia.
    replace (n + 15) with ((n / 16) * 16 + (n mod 16 + 15)) by lia. rewrite !(Nat.add_comm (n / 16 * 16)), !Nat.div_add by lia. f_equal.
    change (31 / 16) with 1. apply (Nat.div_unique _ _ _ (n mod 16 - 1)); lia.
Qed.
Lemma lens_length aad c : length (len64 aad ++ len64 c) = 16.
Proof. rewrite app_length, !len64_length. reflexivity. Qed.
Lemma coefs_cons aad c : coefs aad c = be_to_N (len64 aad ++ len64 c) :: rev (map be_to_N (chunks 16 (pad16 aad) ++ chunks 16 (pad16 c))).
Proof.
  unfold coefs, hashed_str. rewrite !chunks_app_aligned by apply pad16_length_mod. rewrite app_assoc, map_app, rev_app_distr.
  rewrite (chunks_short (len64 aad ++ len64 c)) by (rewrite lens_length; lia). reflexivity.
Qed.
Lemma coefs_length aad c : length (coefs aad c) = nblk (length aad) + nblk (length c) + 1.
Proof. rewrite coefs_cons. cbn [length]. rewrite rev_length, map_length, app_length, !pad16_blocks. lia. Qed.
Lemma map_be_inj : forall a b : list (list N), Forall (fun x => length x = 16 /\ bytes x) a -> Forall (fun x => length x = 16 /\ bytes x) b ->
  map be_to_N a = map be_to_N b -> a = b.
Proof.
  induction a as [|x a IH]; intros [|y b] Ha Hb E; try discriminate; [reflexivity|]. apply Forall_cons_iff in Ha, Hb. destruct Ha as [[Lx Bx] Ha], Hb as [[Ly By] Hb].
  cbn [map] in E. assert (E1 : be_to_N x = be_to_N y) by congruence. assert (E2 : map be_to_N a = map be_to_N b) by congruence.
  f_equal; [|now apply IH]. apply be_to_N_inj; [lia|assumption|assumption|exact E1].
Qed.
Lemma chunks_good s : length s mod 16 = 0 -> bytes s -> Forall (fun x => length x = 16 /\ bytes x) (chunks 16 s).
Proof.
  intros Hm Hb. pose proof (chunks_Forall_length 16 s ltac:(lia) Hm) as H1. pose proof (bytes_chunks 16 s ltac:(lia) Hb) as H2.
  rewrite Forall_forall in *. auto.
Qed.
Lemma len64_inj x y : (8 * N.of_nat (length x) < 2 ^ 64)%N -> (8 * N.of_nat (length y) < 2 ^ 64)%N -> len64 x = len64 y -> length x = length y.
Proof.
  intros Hx Hy E. unfold len64 in E. apply (f_equal be_to_N) in E. rewrite !be_to_N_to_be in E by (change (256 ^ N.of_nat 8)%N with (2 ^ 64)%N; assumption). lia.
Qed.
Lemma coefs_inj aad c aad' c' : bytes aad -> bytes c -> bytes aad' -> bytes c' ->
  (8 * N.of_nat (length aad) < 2 ^ 64)%N -> (8 * N.of_nat (length c) < 2 ^ 64)%N -> (8 * N.of_nat (length aad') < 2 ^ 64)%N -> (8 * N.of_nat (length c') < 2 ^ 64)%N ->
  Forall (fun x => x = 0%N) (padd (coefs aad c) (coefs aad' c')) -> aad = aad' /\ c = c'.
Proof.
  intros Ba Bc Ba' Bc' La Lc La' Lc' Z.
  assert (HL : length aad = length aad' /\ length c = length c').
  { pose proof Z as Z0. rewrite !coefs_cons in Z0. cbn [padd] in Z0. apply Forall_cons_iff in Z0. destruct Z0 as [Z0 _]. apply N.lxor_eq in Z0.
    apply be_to_N_inj in Z0; [|now rewrite !lens_length|apply bytes_app; split; apply len64_bytes|apply bytes_app; split; apply len64_bytes].
    assert (E1 : len64 aad = len64 aad') by (apply (f_equal (firstn 8)) in Z0; rewrite !firstn_app, !len64_length, Nat.sub_diag, !firstn_O, !app_nil_r, !firstn_all2 in Z0 by (rewrite len64_length; lia); exact Z0).
    rewrite E1 in Z0. apply app_inv_head in Z0. split; now apply len64_inj. }
  destruct HL as [HL1 HL2].
  apply padd_zero in Z; [|rewrite !coefs_length, HL1, HL2; reflexivity].
  unfold coefs in Z. apply (f_equal (@rev N)) in Z. rewrite !rev_involutive in Z.
  apply map_be_inj in Z; [|apply chunks_good; [apply hashed_str_mod|now apply hashed_str_bytes]|apply chunks_good; [apply hashed_str_mod|now apply hashed_str_bytes]].
  apply (f_equal (@concat N)) in Z. rewrite !concat_chunks in Z by lia. unfold hashed_str in Z.
  rewrite (len64_eq aad aad' HL1), (len64_eq c c' HL2) in Z.
  assert (E1 : pad16 aad = pad16 aad').
  { apply (f_equal (firstn (length (pad16 aad)))) in Z. rewrite firstn_app, Nat.sub_diag, firstn_all in Z. cbn [firstn] in Z. rewrite app_nil_r in Z.
    rewrite (pad16_len_eq aad aad' HL1), firstn_app, Nat.sub_diag, firstn_all in Z. cbn [firstn] in Z. now rewrite app_nil_r in Z. }
  rewrite E1 in Z. apply app_inv_head in Z. apply app_inv_tail in Z. split; now apply pad16_inj.
Qed.
Lemma ghash_horner E aad c : block_function E -> bytes aad -> bytes c ->
  be_to_N (ghash (hash_key E) (hashed_str aad c)) = horner (be_to_N (hash_key E)) (0%N :: coefs aad c).
Proof. intros HE Ba Bc. rewrite ghash_N by (apply hashed_str_mod || now apply hash_key_block || now apply hashed_str_bytes). apply gfold_horner. Qed.
Lemma xorl_shared a b x : length a = length x -> length b = length x -> xorl (xorl a x) (xorl b x) = xorl a b.
Proof. intros La Lb. rewrite (xorl_comm b x), xorl_assoc, <- (xorl_assoc x x b). rewrite <- xorl_assoc. rewrite xorl_assoc. f_equal. rewrite xorl_assoc. apply xorl_cancel_l. lia. Qed.
(** the full 16 bytes of the difference of two tags *)
Definition tag_diff (E : list N -> list N) (iv aad c aad' c' : list N) : list N := xorl (gcm_tag E iv aad c 16) (gcm_tag E iv aad' c' 16).
Lemma tag_diff_horner E iv aad c aad' c' : block_function E -> bytes iv -> bytes aad -> bytes c -> bytes aad' -> bytes c' ->
  block16 (tag_diff E iv aad c aad' c') /\
  horner (be_to_N (hash_key E)) (be_to_N (tag_diff E iv aad c aad' c') :: padd (coefs aad c) (coefs aad' c')) = 0%N.
Proof.
  intros HE Hiv Ba Bc Ba' Bc'. destruct (HE _ (J0_block E iv Hiv)) as [LJ BJ].
  pose proof (ghash_block16 (hash_key E) _ (hashed_str_mod aad c)) as [L1 B1]. pose proof (ghash_block16 (hash_key E) _ (hashed_str_mod aad' c')) as [L2 B2].
  assert (ED : tag_diff E iv aad c aad' c' = xorl (ghash (hash_key E) (hashed_str aad c)) (ghash (hash_key E) (hashed_str aad' c'))).
  { unfold tag_diff. rewrite !tag_full by assumption. apply xorl_shared; lia. }
  rewrite ED. split; [apply block16_xorl; now split|]. rewrite be_to_N_xorl by (lia || assumption). rewrite !ghash_horner by assumption.
  rewrite !horner_cons, padd_horner, mul_lxor_l, !N.lxor_0_l. apply N.lxor_nilpotent.
Qed.
Lemma NoDup_map_filter {A B} (f : A -> B) p l : NoDup (map f l) -> NoDup (map f (filter p l)).
Proof.
  induction l as [|x l IH]; intros H; [constructor|]. cbn [map] in H. inversion H as [|? ? NI ND]; subst. cbn [filter]. destruct (p x); [|now apply IH].
  cbn [map]. constructor; [|now apply IH]. intros HI. apply NI. apply in_map_iff in HI. destruct HI as (y & Hy & Hi). apply filter_In in Hi. apply in_map_iff. exists y. tauto.
Qed.
Lemma NoDup_map_be (l : list (list N)) : Forall block16 l -> NoDup l -> NoDup (map be_to_N l).
Proof.
  intros HB. induction 1 as [|x l NI ND IH]; [constructor|]. apply Forall_cons_iff in HB. destruct HB as [[Lx Bx] HB]. cbn [map]. constructor; [|now apply IH].
  intros HI. apply in_map_iff in HI. destruct HI as (y & Hy & Hi). rewrite Forall_forall in HB. destruct (HB y Hi) as [Ly By]. apply be_to_N_inj in Hy; [|lia|assumption|assumption]. congruence.
Qed.
Definition msg_limits (aad c : list N) : Prop := bytes aad /\ bytes c /\ (8 * N.of_nat (length aad) < 2 ^ 64)%N /\ (8 * N.of_nat (length c) < 2 ^ 64)%N.
Definition blocks_of (aad c : list N) : nat := nblk (length aad) + nblk (length c) + 1.
Lemma forgery_full iv aad c aad' c' D Es : bytes iv -> msg_limits aad c -> msg_limits aad' c' -> (aad, c) <> (aad', c') ->
  Forall block_function Es -> NoDup (map hash_key Es) -> Forall (fun E => be_to_N (tag_diff E iv aad c aad' c') = D) Es ->
  length Es <= Nat.max (blocks_of aad c) (blocks_of aad' c').
Proof.
  intros Hiv (Ba & Bc & La & Lc) (Ba' & Bc' & La' & Lc') HN HE HD HT. destruct Es as [|E0 Es0] eqn:EE; [cbn [length]; lia|]. rewrite <- EE in *.
  assert (HDb : blk128 D).
  { rewrite EE in HT, HE. apply Forall_cons_iff in HT, HE. destruct HT as [HT _], HE as [HE _]. rewrite <- HT. apply block16_N. now apply tag_diff_horner. }
  clear EE E0 Es0.
  assert (HB : Forall block16 (map hash_key Es)) by (rewrite Forall_map, Forall_forall in *; intros E Hin; apply hash_key_block; auto).
  pose proof (roots (S (Nat.max (blocks_of aad c) (blocks_of aad' c'))) (D :: padd (coefs aad c) (coefs aad' c')) (map be_to_N (map hash_key Es))) as HR.
  rewrite !map_length in HR. apply Nat.lt_succ_r. apply HR.
  - cbn [length]. rewrite padd_length, !coefs_length. reflexivity.
  - constructor; [exact HDb|]. apply padd_bound; now apply coefs_bound.
  - rewrite Forall_map. rewrite Forall_forall in *. intros b Hb. apply block16_N. auto.
  - now apply NoDup_map_be.
  - rewrite !Forall_map. rewrite Forall_forall in *. intros E Hin. rewrite <- (HT E Hin). apply tag_diff_horner; auto.
  - intros Z. apply Forall_cons_iff in Z. destruct Z as [_ Z]. apply coefs_inj in Z; try assumption. destruct Z as [-> ->]. congruence.
Qed.
(** pigeonhole *)
Lemma fibres {A} (f : A -> N) m : forall K L, (forall x, In x L -> In (f x) K) -> (forall k, length (filter (fun x => (f x =? k)%N) L) <= m) -> length L <= m * length K.
Proof.
  induction K as [|k K IH]; intros L HI HF.
  - destruct L as [|x L]; [cbn; lia|]. destruct (HI x (or_introl eq_refl)).
  - assert (HP : length L = length (filter (fun x => (f x =? k)%N) L) + length (filter (fun x => negb (f x =? k)%N) L)).
    { clear. induction L as [|x L IH]; [reflexivity|]. cbn [filter]. destruct (f x =? k)%N; cbn [negb length]; lia. }
    assert (HK : length (filter (fun x => negb (f x =? k)%N) L) <= m * length K).
    { apply IH.
      - intros x Hx. apply filter_In in Hx. destruct Hx as [Hx Hn]. destruct (HI x Hx) as [E|E]; [|exact E]. subst k. now rewrite N.eqb_refl in Hn.
      - intros k'. etransitivity; [|apply (HF k')]. clear. induction L as [|x L IH]; [cbn; lia|]. cbn [filter].
        destruct (negb (f x =? k)%N); cbn [filter]; destruct (f x =? k')%N; cbn [length]; lia. }
    specialize (HF k). cbn [length]. lia.
Qed.
Lemma gcm_forgery_lemma : forall iv aad c aad' c' t delta Es, gcm_limits iv aad c -> gcm_limits iv aad' c' -> t <= 16 -> (aad, c) <> (aad', c') ->
  Forall block_function Es -> NoDup (map hash_key Es) ->
  Forall (fun E => exists p tag p' tag', gcm_session Dec (lift E) iv aad [c] t = Some (p, tag) /\
    gcm_session Dec (lift E) iv aad' [c'] t = Some (p', tag') /\ xorl tag tag' = delta) Es ->
  (N.of_nat (length Es) <= N.of_nat (Nat.max (blocks_of aad c) (blocks_of aad' c')) * 256 ^ N.of_nat (16 - t))%N.
Proof.
  intros iv aad c aad' c' t delta Es HL HL' Ht HN HE HD HF.
  assert (HM : bytes iv /\ msg_limits aad c /\ msg_limits aad' c').
  { destruct HL as (B1 & B2 & B3 & L1 & L2 & L3), HL' as (_ & B2' & B3' & _ & L2' & L3'). unfold msg_limits. repeat split; try assumption; lia. }
  destruct HM as (Hiv & HM & HM'). set (n := Nat.max (blocks_of aad c) (blocks_of aad' c')).
  assert (HT : forall E, In E Es -> block16 (tag_diff E iv aad c aad' c') /\ firstn t (tag_diff E iv aad c aad' c') = delta).
  { intros E Hin. rewrite Forall_forall in HE, HF. pose proof (HE E Hin) as HEE. destruct (HF E Hin) as (p & tg & p' & tg' & S1 & S2 & SX).
    rewrite dec_session in S1, S2 by assumption.
    assert (E1 : gcm_tag E iv aad c t = tg) by congruence. assert (E2 : gcm_tag E iv aad' c' t = tg') by congruence.
    destruct HM as (Ba & Bc & _), HM' as (Ba' & Bc' & _). split; [now apply tag_diff_horner|].
    rewrite (tag_trunc E iv aad c), (tag_trunc E iv aad' c') in * by assumption. unfold tag_diff. rewrite firstn_xorl, E1, E2. exact SX. }
  set (m := N.to_nat (256 ^ N.of_nat (16 - t))).
  pose proof (fibres (fun E => be_to_N (skipn t (tag_diff E iv aad c aad' c'))) n (map N.of_nat (seq 0 m)) Es) as HB.
  rewrite map_length, seq_length in HB.
  assert (HB' : length Es <= n * m).
  { apply HB.
    - intros E Hin. destruct (HT E Hin) as [[LT BT] _]. apply in_map_iff. exists (N.to_nat (be_to_N (skipn t (tag_diff E iv aad c aad' c')))).
      split; [apply N2Nat.id|]. apply in_seq. pose proof (be_to_N_bound _ (bytes_skipn t _ BT)) as U. rewrite skipn_length, LT in U. unfold m. lia.
    - intros k. apply (forgery_full iv aad c aad' c' (be_to_N delta * 256 ^ N.of_nat (16 - t) + k)%N); try assumption.
      + rewrite Forall_forall in *. intros E Hin. apply filter_In in Hin. apply HE, Hin.
      + now apply NoDup_map_filter.
      + rewrite Forall_forall. intros E Hin. apply filter_In in Hin. destruct Hin as [Hin HK]. apply N.eqb_eq in HK. destruct (HT E Hin) as [[LT _] HX].
        rewrite <- (firstn_skipn t (tag_diff E iv aad c aad' c')) at 1. rewrite be_to_N_app, HX, HK, skipn_length, LT. reflexivity. }
  unfold m in HB'. revert HB'. generalize (256 ^ N.of_nat (16 - t))%N as w. intros w HW. lia.
Qed.
