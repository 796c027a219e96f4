(** * Property theorems: parallel GCM (C16, C17) *)
From Verif Require Import Base CbcModel CbcSpec Toy GcmModel GcmSpec GcmProofs ParModel ParProofs.
Local Open Scope nat_scope.

(** ** C16 *)
(** When no thread enters an iteration while another one is inside one, parallel encryption equals
    sequential encryption, whatever the distribution of the iterations. *)
Theorem gcm_parallel_encrypt_partial : forall E c inp outbuf todos sched,
  block_function E -> reachable (lift E) c -> small_pieces [inp] -> inp <> [] -> length inp <= length outbuf ->
  work_split (length inp) todos ->
  exclusive (par_step E (fst (y_arr (len_s (length inp)) (g_y c))) inp) (par_start 16 outbuf todos) sched ->
  exists st, run_sched (par_step E (fst (y_arr (len_s (length inp)) (g_y c))) inp) (par_start 16 outbuf todos) sched = Some st /\
  (region_ended st = true -> gcm_parallel_encrypt E c inp outbuf todos sched = Some (sequential Enc E c inp outbuf)).
Proof. exact gcm_parallel_encrypt_partial_lemma. Qed.
Print Assumptions gcm_parallel_encrypt_partial.

(** With the loop variable j private to each thread (as in a repaired program) the result would be
    the sequential one under every interleaving; so the shared j is the only defect. *)
Theorem gcm_parallel_private : forall E c inp outbuf todos sched,
  block_function E -> reachable (lift E) c -> small_pieces [inp] -> inp <> [] -> length inp <= length outbuf ->
  work_split (length inp) todos ->
  exists st, run_sched (priv_step E (fst (y_arr (len_s (length inp)) (g_y c))) inp) (par_start 16 outbuf todos) sched = Some st /\
  (region_ended st = true -> gcm_parallel_with priv_step E c inp outbuf todos sched = Some (sequential Enc E c inp outbuf)).
Proof. exact gcm_parallel_private_lemma. Qed.
Print Assumptions gcm_parallel_private.

(** three blocks on two workers, worker 1 first; then the hypotheses hold and the run ends *)
Example gcm_parallel_instance : exists c r, par_ctx = Some c /\
  work_split (length gcm_msg) [[0; 1]; [2]] /\
  let sched := [1; 0; 1] ++ repeat 1 23 ++ repeat 0 102 in
  let sched' := steps_of 1 39 2 ++ steps_of 0 39 0 ++ steps_of 0 39 1 in
  gcm_parallel_with priv_step toyE c gcm_msg (repeat 0%N 40) [[0; 1]; [2]] sched = Some r /\
  exclusive (par_step toyE (fst (y_arr (len_s (length gcm_msg)) (g_y c))) gcm_msg) (par_start 16 (repeat 0%N 40) [[0; 1]; [2]]) sched' /\
  gcm_parallel_encrypt toyE c gcm_msg (repeat 0%N 40) [[0; 1]; [2]] sched' = Some r.
Proof.
  eexists; eexists. split; [vm_compute; reflexivity|]. split; [|split; [|split]].
  - split.
    + intros i Hi. change (len_s (length gcm_msg)) with 3 in Hi.
      destruct i as [|[|[|i]]]; [exists [0; 1]| exists [0; 1]| exists [2]|lia]; cbn; intuition lia.
    + change (len_s (length gcm_msg)) with 3. repeat constructor.
  - vm_compute; reflexivity.
  - apply exclusive_b_ok. vm_compute; reflexivity.
  - vm_compute; reflexivity.
Qed.
(** A buffer shorter than the input is refused, in both directions and whatever the run-time would have
    done, with the context and the buffer as they were; sequential GCM refuses the same calls. *)
Theorem gcm_parallel_short_buffer : forall E c inp outbuf todos sched, length outbuf < length inp ->
  gcm_parallel_encrypt E c inp outbuf todos sched = Some (false, c, outbuf) /\
  gcm_parallel_decrypt E c inp outbuf todos sched = Some (false, c, outbuf) /\
  (forall d blk, gcm_crypt d blk c inp (length outbuf) = (false, c, [])).
Proof.
  intros E c inp outbuf todos sched H. unfold gcm_parallel_encrypt, gcm_parallel_decrypt, gcm_parallel_with, gcm_crypt.
  apply Nat.ltb_lt in H. rewrite H. auto.
Qed.
Print Assumptions gcm_parallel_short_buffer.
Example gcm_parallel_short_buffer_instance : exists c, par_ctx = Some c /\
  gcm_parallel_encrypt toyE c gcm_msg (repeat 7%N 30) [[0; 1]; [2]] [0; 1] = Some (false, c, repeat 7%N 30).
Proof. eexists. split; vm_compute; reflexivity. Qed.
(** Up to 16 bytes there is one iteration, and every interleaving is harmless. *)
Theorem gcm_parallel_one_block : forall E c inp outbuf todos sched,
  block_function E -> reachable (lift E) c -> bytes inp -> 0 < length inp <= 16 -> length inp <= length outbuf ->
  work_split (length inp) todos -> NoDup (concat todos) ->
  exists st, run_sched (par_step E (fst (y_arr (len_s (length inp)) (g_y c))) inp) (par_start 16 outbuf todos) sched = Some st /\
  (region_ended st = true -> gcm_parallel_encrypt E c inp outbuf todos sched = Some (sequential Enc E c inp outbuf)).
Proof. exact gcm_parallel_one_block_lemma. Qed.
Print Assumptions gcm_parallel_one_block.
Example gcm_parallel_one_block_instance : exists c r, par_ctx = Some c /\
  work_split 10 [[]; [0]] /\ NoDup (concat [[]; [0]]) /\
  gcm_parallel_encrypt toyE c (firstn 10 gcm_msg) (repeat 0%N 10) [[]; [0]] ([0; 1; 0; 0] ++ repeat 1 32) = Some r.
Proof.
  eexists; eexists. split; [vm_compute; reflexivity|]. split; [|split].
  - split.
    + intros i Hi. change (len_s 10) with 1 in Hi. exists [0]. cbn. intuition lia.
    + change (len_s 10) with 1. repeat constructor.
  - repeat constructor; intuition.
  - vm_compute; reflexivity.
Qed.

(** The property itself is false: with two blocks and two threads an interleaving loses one byte of
    the ciphertext (position 16 keeps what the buffer held), the function still returns 1 and the
    tag is wrong; another interleaving reads beyond the end of the 16-byte key stream block. *)
Theorem gcm_parallel_race_refuted : exists E c inp outbuf todos sched r sched2,
  block_function E /\ reachable (lift E) c /\ small_pieces [inp] /\ length inp = length outbuf /\
  work_split (length inp) todos /\ NoDup (concat todos) /\
  gcm_parallel_encrypt E c inp outbuf todos sched = Some r /\
  fst (fst r) = true /\ snd r <> snd (sequential Enc E c inp outbuf) /\
  snd (fst r) <> snd (fst (sequential Enc E c inp outbuf)) /\
  run_sched (par_step E (fst (y_arr (len_s (length inp)) (g_y c))) inp) (par_start 16 outbuf todos) sched2 = None.
Proof. exact gcm_parallel_race_refuted_lemma. Qed.
Print Assumptions gcm_parallel_race_refuted.
(** and an empty input, which the sequential function accepts, makes it read and write one block
    outside the buffers *)
Theorem gcm_parallel_empty_refuted : forall E c todos sched,
  (g_len c < 2 ^ 64)%N ->
  gcm_parallel_encrypt E c [] [] todos sched = None /\ sequential Enc E c [] [] = (true, c, []).
Proof. exact gcm_parallel_empty_refuted_lemma. Qed.
Print Assumptions gcm_parallel_empty_refuted.

(** ** C17 *)
(** What parallel decryption computes on a harmless schedule: exactly sequential *encryption* of
    its input; so the output is the plaintext but the tag is computed over the plaintext. *)
Theorem gcm_parallel_decrypt_actual : forall E c inp outbuf todos sched,
  block_function E -> reachable (lift E) c -> small_pieces [inp] -> inp <> [] -> length inp <= length outbuf ->
  work_split (length inp) todos ->
  exclusive (par_step E (fst (y_arr (len_s (length inp)) (g_y c))) inp) (par_start 16 outbuf todos) sched ->
  let r := sequential Enc E c inp outbuf in
  exists st, run_sched (par_step E (fst (y_arr (len_s (length inp)) (g_y c))) inp) (par_start 16 outbuf todos) sched = Some st /\
  (region_ended st = true -> gcm_parallel_decrypt E c inp outbuf todos sched = Some r) /\
  snd r = snd (sequential Dec E c inp outbuf) /\
  g_y (snd (fst r)) = g_y (snd (fst (sequential Dec E c inp outbuf))).
Proof. exact gcm_parallel_decrypt_actual_lemma. Qed.
Print Assumptions gcm_parallel_decrypt_actual.
(** Refuted: one block, no race possible, and the tag after parallel decryption differs from the
    tag after sequential decryption (which is the tag the sender computed). *)
Theorem gcm_parallel_decrypt_refuted : exists E c inp outbuf todos sched r,
  block_function E /\ reachable (lift E) c /\ bytes inp /\ length inp = length outbuf /\ length inp <= 16 /\
  work_split (length inp) todos /\ gcm_parallel_decrypt E c inp outbuf todos sched = Some r /\
  fst (fst r) = true /\
  (do t <- gcm_finish (snd (fst r)) 16; Some (snd t)) <>
  (do t <- gcm_finish (snd (fst (sequential Dec E c inp outbuf))) 16; Some (snd t)).
Proof. exact gcm_parallel_decrypt_refuted_lemma. Qed.
Print Assumptions gcm_parallel_decrypt_refuted.
