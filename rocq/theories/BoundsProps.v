(** * The white-box ciphers stay inside their tables (C90) *)
From Verif Require Import Base GcmModel WbaesModel WbgcmModel Wbsm4Model BoundsSpec BoundsProofs.
From Coq Require Import ZArith Lia.
Local Open Scope nat_scope.

(** ** C90 *)
(** Encryption reads only entries inside the declared arrays, whatever the arrays hold: contexts that agree there encrypt
    every block alike.  In particular a context filled from a damaged file leads to no read outside the context. *)
Theorem wbaes_reads_in_bounds : forall c c' b, same_wbaes c c' -> bytes b -> wbaes_encrypt c b = wbaes_encrypt c' b.
Proof. exact wbaes_bounds_lemma. Qed.
Print Assumptions wbaes_reads_in_bounds.
(** The same for sessions of the two white-box GCM variants, in either direction, with any pieces and tag length. *)
Theorem ee_reads_in_bounds : forall c c' d iv aad ps t, same_ee c c' -> bytes iv -> Forall bytes ps ->
  wbgcm_session d (ee_key c) iv aad ps t = wbgcm_session d (ee_key c') iv aad ps t.
Proof. exact ee_bounds_lemma. Qed.
Print Assumptions ee_reads_in_bounds.
Theorem mask_reads_in_bounds : forall c c' d iv aad ps t, same_mask c c' -> bytes iv -> Forall bytes ps ->
  wbgcm_session d (mask_key c) iv aad ps t = wbgcm_session d (mask_key c') iv aad ps t.
Proof. exact mask_bounds_lemma. Qed.
Print Assumptions mask_reads_in_bounds.
(** White-box SM4, for any number of rounds not above that of the allocation. *)
Theorem wbsm4_reads_in_bounds : forall c mem b, w_rounds c <= w_alloc c -> (forall l, in_wbsm4 (w_rounds c) l -> mem l = w_mem c l) ->
  wbsm4_encrypt (mkwctx (w_rounds c) (w_encmode c) (w_alloc c) mem) b = wbsm4_encrypt c b.
Proof. exact wbsm4_bounds_lemma. Qed.
Print Assumptions wbsm4_reads_in_bounds.

(** Two contexts that differ only in what would be TypeII[10] (the first entry of TypeIII in memory). *)
Definition bounds_ctx (v : N) : wbaes_ctx :=
  mkwbaes (mkwbt (fun i j x => if i <? 10 then (x * 0x01010101 + N.of_nat j)%N else v) (fun _ _ x => (x * 0x01010101)%N)
    (fun _ _ _ _ x y => N.lxor x y) (fun _ _ _ _ x y => N.lxor x y) (fun _ x => N.lxor x 0x55)) (fun _ x => x).
Example bounds_instance : same_wbaes (bounds_ctx 1) (bounds_ctx 2) /\ t_II (wb_t (bounds_ctx 1)) 10 0 0%N <> t_II (wb_t (bounds_ctx 2)) 10 0 0%N /\
  wbaes_encrypt (bounds_ctx 1) (map N.of_nat (seq 0 16)) = wbaes_encrypt (bounds_ctx 2) (map N.of_nat (seq 0 16)) /\
  wbaes_encrypt (bounds_ctx 1) (map N.of_nat (seq 0 16)) <> repeat 0%N 16.
Proof.
  split; [|split; [discriminate | split; [vm_compute; reflexivity | vm_compute; discriminate]]].
  split; [|reflexivity]. split; [|split; [|split; [|split]]]; cbn [wb_t bounds_ctx t_II t_III t_IV_II t_IV_III t_Ia]; try reflexivity.
  - intros i j x Hi _ _. rewrite (proj2 (Nat.ltb_lt i 10) Hi). reflexivity.
  - intros i x _ Hx. split; [reflexivity|]. apply lxor_byte; [exact Hx | reflexivity].
Qed.
Example bounds_wbsm4_instance : let c := mkwctx 36 1 36 (fun l => match l with LMM i _ _ x => (x + N.of_nat i)%N | LTable i j x => (x * 3)%N | _ => 5%N end) in
  let mem := fun l => match l with LMM i _ _ x => if i <? 36 then (x + N.of_nat i)%N else 99%N | LTable i j x => (x * 3)%N | _ => 5%N end in
  (forall l, in_wbsm4 36 l -> mem l = w_mem c l) /\ mem (LMM 36 0 0 0) <> w_mem c (LMM 36 0 0 0).
Proof.
  split; [|discriminate]. intros [i k j x|? ? ?|? ? ?|? ? ?|? ? ?|? ? ?]; cbn [in_wbsm4 w_mem]; try reflexivity.
  intros [Hi _]. rewrite (proj2 (Nat.ltb_lt i 36) Hi). reflexivity.
Qed.
