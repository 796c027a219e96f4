From Verif Require Import Base CbcSpec.
Local Open Scope nat_scope.
(** a toy block cipher used only to exhibit concrete instances: byte i becomes byte (i+1 mod 16)
    xor 0xA5 *)
Definition toyE (b : list N) : list N := map (N.lxor 165) (tl b ++ [hd 0%N b]).
Definition toyD (b : list N) : list N := let c := map (N.lxor 165) b in last c 0%N :: removelast c.
Definition toy_iv : list N := N_to_be 16 (0x000102030405060708090a0b0c0d0e0f)%N.
Definition msg_ok : list N := map N.of_nat (seq 30 20).      (* 20 bytes *)
Definition msg_bad : list N := repeat 7%N 16.                (* 16 bytes, last byte 7 *)

Example toy_is_block_cipher : block_cipher toyE toyD.
Proof.
  assert (HX : forall b, bytes b -> bytes (map (N.lxor 165) b)).
  { intros b Hb. unfold bytes in *. rewrite Forall_map. eapply Forall_impl; [|exact Hb].
    intros x Hx. apply byte_lxor; auto. unfold byte; lia. }
  assert (HC : forall b, map (N.lxor 165) (map (N.lxor 165) b) = b).
  { intros b. rewrite map_map. rewrite <- (map_id b) at 2. apply map_ext. intros x.
    now rewrite <- N.lxor_assoc, N.lxor_nilpotent, N.lxor_0_l. }
  split; [|split].
  - intros b [L B]. destruct b as [|x b]; [discriminate|]. unfold toyE. cbn [tl hd].
    split; [rewrite map_length, app_length; cbn in *; lia|].
    apply HX, bytes_app. inversion B; subst. split; auto. constructor; auto.
  - intros b [L B]. unfold toyD. apply HX in B.
    assert (NE : map (N.lxor 165) b <> []) by (destruct b; discriminate).
    assert (L' : length (map (N.lxor 165) b) = 16) by (now rewrite map_length).
    destruct (exists_last NE) as [c [x E]]. rewrite E in *.
    rewrite last_last, removelast_last. rewrite app_length in L'. cbn in L'.
    apply bytes_app in B as [B1 B2]. inversion B2; subst.
    split; [cbn; lia|]. constructor; auto.
  - intros b [L B]. unfold toyD, toyE. rewrite HC. destruct b as [|x b]; [discriminate|]. cbn [tl hd].
    now rewrite last_last, removelast_last.
Qed.

(** sample data for the GCM examples *)
Definition gcm_iv12 : list N := map N.of_nat (seq 1 12).
Definition gcm_iv20 : list N := map N.of_nat (seq 1 20).
Definition gcm_aad5 : list N := [5; 6; 7; 8; 9]%N.
Definition gcm_msg : list N := map N.of_nat (seq 100 39).
