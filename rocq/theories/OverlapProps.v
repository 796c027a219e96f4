(** * C101: overlapping buffers
    [slice mem a n]: the n bytes of the memory at address a; [patch mem a o]: the memory with o written at address a. *)
From Verif Require Import Base CbcModel CbcSpec CbcProofs GcmModel WbgcmModel WbgcmWit Toy OverlapModel OverlapProofs OverlapGcm OverlapCbc.
Local Open Scope nat_scope.

(** ** GCM *)
(** In place, with the output before the input or with separate buffers: the memory changes by what the function writes
    for separate buffers, and nothing else; return value and context (hence the tag) are the same too.  For every block
    function, also one that fails. *)
Theorem gcm_overlap : forall d blk c mem pin n pout outlen,
  (forall b e, length b = 16 -> blk b = Some e -> length e = 16) -> length (g_y c) = 16 -> length (g_buf c) = 16 -> n <= outlen -> (N.of_nat n <= 2147483647)%N ->
  pin + n <= length mem -> pout + n <= length mem -> pout <= pin \/ pin + n <= pout ->
  gcm_crypt_mem d blk c mem pin n pout outlen = (let '(ok, c', out) := gcm_crypt d blk c (slice mem pin n) outlen in Some (ok, c', patch mem pout out)).
Proof. exact gcm_mem_safe. Qed.
Print Assumptions gcm_overlap.
Theorem wbgcm_overlap : forall d k c mem pin n pout outlen,
  length (g_buf c) = 16 -> n <= outlen -> (N.of_nat n <= 2147483647)%N ->
  pin + n <= length mem -> pout + n <= length mem -> pout <= pin \/ pin + n <= pout ->
  wbgcm_crypt_mem d k c mem pin n pout outlen = (let '(r, c', out) := wbgcm_crypt d k c (slice mem pin n) outlen in Some (r, c', patch mem pout out)).
Proof. exact wbgcm_mem_safe. Qed.
Print Assumptions wbgcm_overlap.
(** With the output inside the input the result is right exactly when the bytes of the message overwritten before they
    are read are those written there. *)
Theorem gcm_output_inside_input_iff : forall E d c mem pin n pout outlen, (forall b, length b = 16 -> length (E b) = 16) ->
  length (g_y c) = 16 -> length (g_buf c) = 16 -> n <= outlen -> (N.of_nat n <= 2147483647)%N ->
  pin + n <= length mem -> pout + n <= length mem -> pin < pout ->
  let '(_, _, out) := gcm_crypt d (lift E) c (slice mem pin n) outlen in
  (exists c', gcm_crypt_mem d (lift E) c mem pin n pout outlen = Some (true, c', patch mem pout out)) <->
  (forall j, pout - pin <= j < n -> get mem (pin + j) = get out (j - (pout - pin))).
Proof. exact gcm_mem_inside. Qed.
Print Assumptions gcm_output_inside_input_iff.
(** For every key, IV and such position there is a memory where 1 is returned and the output is wrong. *)
Theorem gcm_output_inside_input_refuted : forall E d c pin n pout outlen L, (forall b, length b = 16 -> length (E b) = 16) ->
  length (g_y c) = 16 -> length (g_buf c) = 16 -> n <= outlen -> (N.of_nat n <= 2147483647)%N ->
  pin < pout -> pout < pin + n -> pout + n <= L ->
  exists mem, length mem = L /\ bytes mem /\ exists c' mem', gcm_crypt_mem d (lift E) c mem pin n pout outlen = Some (true, c', mem') /\
    let '(ok, _, out) := gcm_crypt d (lift E) c (slice mem pin n) outlen in ok = true /\ mem' <> patch mem pout out.
Proof. exact gcm_mem_inside_wrong. Qed.
Print Assumptions gcm_output_inside_input_refuted.

(** ** CBC *)
(** Encryption takes a copy of the input first: input and output may overlap in any way, and the IV may be the first
    block of the output buffer. *)
Theorem cbc_encrypt_overlap : forall E mem pin n pout max_olen piv, (forall b, length b = 16 -> length (E b) = 16) -> (N.of_nat (merge_length n) <= int_max)%N ->
  merge_length n <= max_olen -> pin + n <= length mem -> pout + merge_length n <= length mem -> piv + 16 <= length mem ->
  piv + 16 <= pout \/ pout + 16 <= piv \/ piv = pout ->
  cbc_encrypt_mem (lift E) mem pin n pout max_olen piv =
  Some (true, Some (merge_length n), patch mem pout (cbc_encrypt_bytes E (slice mem piv 16) (lib_padded (slice mem pin n)))).
Proof. exact cbc_encrypt_mem_any. Qed.
Print Assumptions cbc_encrypt_overlap.
(** Decryption into another place: right when the output starts at least two blocks before the input or after its end
    (for equal addresses see C04), and ivec is neither in the output nor in the last block of the input; ivec then holds
    that block. *)
Theorem cbc_decrypt_overlap_partial : forall D mem pin n pout max_olen piv, (forall b, length b = 16 -> length (D b) = 16) -> n mod 16 = 0 -> 0 < n -> n <= max_olen ->
  pin + n <= length mem -> pout + n <= length mem -> piv + 16 <= length mem ->
  pout + 32 <= pin \/ pin + n <= pout -> piv + 16 <= pout \/ pout + n <= piv -> piv + 16 <= pin + n - 16 \/ pin + n <= piv ->
  cbc_decrypt_mem (lift D) mem pin n pout max_olen piv =
  Some (true, patch (patch mem pout (cbc_decrypt_bytes D (slice mem piv 16) (slice mem pin n))) piv (last_block (slice mem piv 16) (slice mem pin n))).
Proof. exact cbc_decrypt_mem_safe. Qed.
Print Assumptions cbc_decrypt_overlap_partial.
(** One block before it is not enough, for any cipher, key and ciphertext: after the first block the output is zeros, and
    the function returns 1. *)
Theorem cbc_decrypt_one_block_before_refuted : forall D mem n pout max_olen piv, (forall b, length b = 16 -> length (D b) = 16) -> n mod 16 = 0 -> 0 < n -> n <= max_olen ->
  pout + 16 + n <= length mem -> piv + 16 <= length mem -> piv + 16 <= pout \/ pout + 16 + n <= piv ->
  cbc_decrypt_mem (lift D) mem (pout + 16) n pout max_olen piv =
  Some (true, patch (patch mem pout (xorl (D (slice mem (pout + 16) 16)) (slice mem piv 16) ++ repeat 0%N (n - 16))) piv (slice mem (pout + n) 16)).
Proof. exact cbc_decrypt_mem_prefix. Qed.
Print Assumptions cbc_decrypt_one_block_before_refuted.
(** A message stored behind its IV and decrypted to where the IV was: the output is the last ciphertext block and zeros. *)
Theorem cbc_decrypt_over_iv_refuted : forall D mem n pout max_olen, (forall b, length b = 16 -> length (D b) = 16) -> n mod 16 = 0 -> 0 < n -> n <= max_olen ->
  pout + 16 + n <= length mem ->
  cbc_decrypt_mem (lift D) mem (pout + 16) n pout max_olen pout = Some (true, patch mem pout (slice mem (pout + n) 16 ++ repeat 0%N (n - 16))).
Proof. exact cbc_decrypt_mem_frame. Qed.
Print Assumptions cbc_decrypt_over_iv_refuted.

(** ** Instances *)
Definition ov_mem : list N := map N.of_nat (seq 1 80).
Lemma toyE_len b : length b = 16 -> length (toyE b) = 16.
Proof. intro L. unfold toyE. destruct b as [|x b]; [discriminate|]. cbn [tl hd]. rewrite map_length, app_length. cbn in *. lia. Qed.
Lemma toyD_len b : length b = 16 -> length (toyD b) = 16.
Proof.
  intro L. unfold toyD. destruct (exists_last (l := map (N.lxor 165) b)) as (c & x & E); [destruct b; discriminate|].
  assert (Lc : length (map (N.lxor 165) b) = 16) by now rewrite map_length. rewrite E in *. rewrite removelast_last. rewrite app_length in Lc. cbn in *. lia.
Qed.
(** in place and eight bytes to the left, 40 bytes; one byte to the right gives something else *)
Example gcm_overlap_instance : exists c, gcm_init (lift toyE) = Some c /\ length (g_y c) = 16 /\ length (g_buf c) = 16 /\
  let '(_, _, out) := gcm_crypt Enc (lift toyE) c (slice ov_mem 16 40) 40 in
  (exists c', gcm_crypt_mem Enc (lift toyE) c ov_mem 16 40 16 40 = Some (true, c', patch ov_mem 16 out)) /\
  (exists c', gcm_crypt_mem Enc (lift toyE) c ov_mem 16 40 8 40 = Some (true, c', patch ov_mem 8 out)) /\
  (exists c' mem', gcm_crypt_mem Enc (lift toyE) c ov_mem 16 40 17 40 = Some (true, c', mem') /\ mem' <> patch ov_mem 17 out).
Proof.
  eexists. split; [vm_compute; reflexivity|]. split; [reflexivity|]. split; [reflexivity|].
  match goal with |- context [gcm_crypt Enc ?b ?c ?m ?n] => let v := eval vm_compute in (gcm_crypt Enc b c m n) in change (gcm_crypt Enc b c m n) with v end.
  cbv beta iota. split; [eexists; vm_compute; reflexivity|]. split; [eexists; vm_compute; reflexivity|].
  eexists _, _. split; [vm_compute; reflexivity|]. vm_compute. discriminate.
Qed.
Example cbc_overlap_instance :
  cbc_encrypt_mem (lift toyE) ov_mem 20 30 24 32 0 = Some (true, Some 32, patch ov_mem 24 (cbc_encrypt_bytes toyE (slice ov_mem 0 16) (lib_padded (slice ov_mem 20 30)))) /\
  (exists mem', cbc_decrypt_mem (lift toyD) ov_mem 48 32 16 32 0 = Some (true, mem') /\ slice mem' 16 32 = cbc_decrypt_bytes toyD (slice ov_mem 0 16) (slice ov_mem 48 32)) /\
  (exists mem', cbc_decrypt_mem (lift toyD) ov_mem 32 32 16 32 0 = Some (true, mem') /\ slice mem' 16 32 <> cbc_decrypt_bytes toyD (slice ov_mem 0 16) (slice ov_mem 32 32)) /\
  (exists mem', cbc_decrypt_mem (lift toyD) ov_mem 32 32 16 32 16 = Some (true, mem') /\ slice mem' 16 32 = slice ov_mem 48 16 ++ repeat 0%N 16).
Proof.
  split; [vm_compute; reflexivity|]. split; [eexists; split; vm_compute; reflexivity|]. split; [eexists; split; [vm_compute; reflexivity|vm_compute; discriminate]|].
  eexists; split; vm_compute; reflexivity.
Qed.
Definition ov_key : wbkey := mkwk toyE (fun _ h => h) (fun _ e => e) (fun _ e x => N.lxor e x).
Example wbgcm_overlap_instance : length (g_buf (wbgcm_init ov_key)) = 16 /\
  exists c' out, wbgcm_crypt Dec ov_key (wbgcm_init ov_key) (slice ov_mem 16 40) 40 = (1%Z, c', out) /\
  wbgcm_crypt_mem Dec ov_key (wbgcm_init ov_key) ov_mem 16 40 3 40 = Some (1%Z, c', patch ov_mem 3 out).
Proof. split; [reflexivity|]. eexists _, _. split; [vm_compute; reflexivity|]. vm_compute. reflexivity. Qed.
