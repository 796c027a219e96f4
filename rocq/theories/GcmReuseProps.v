(** * Property theorems: one IV for two GCM messages, and altered GCM ciphertexts (C114, C115) *)
From Verif Require Import Base CbcModel CbcSpec Toy GcmModel GcmSpec GcmProofs GcmAuth FileModel FileProofs GcmReuse.
Local Open Scope nat_scope.

(** ** C114: an IV may be used for more than one message *)
(** False of the code.  Nothing remembers an IV (every session below succeeds), and two messages under one IV give away
    the exclusive or of their plaintexts, whatever their lengths and additional data ([xorl] stops with the shorter)... *)
Theorem gcm_iv_reuse_xor_refuted : forall E iv aad1 aad2 p1 p2 c1 t1 c2 t2, block_function E -> gcm_limits iv aad1 p1 -> gcm_limits iv aad2 p2 ->
  gcm_session Enc (lift E) iv aad1 [p1] 16 = Some (c1, t1) -> gcm_session Enc (lift E) iv aad2 [p2] 16 = Some (c2, t2) ->
  xorl c1 c2 = xorl p1 p2.
Proof. exact gcm_iv_reuse_xor_lemma. Qed.
Print Assumptions gcm_iv_reuse_xor_refuted.
(** ... and if they have the same length and additional data and differ in their last block only (complete or not), they
    give away the hash key, that is, the encryption of the zero block, and with it the 16-byte tag of every additional data
    and every ciphertext under that IV: one [recover] and one [forge], chosen before the block cipher and its key, always
    find them. *)
Theorem gcm_iv_reuse_refuted : exists (recover : list N -> list N -> list N -> list N -> list N) (forge : list N -> list N -> list N -> list N -> list N -> list N -> list N),
  forall E iv aad u x1 x2 c1 t1 c2 t2, block_function E -> gcm_limits iv aad (u ++ x1) -> bytes x2 ->
  length u mod 16 = 0 -> 1 <= length x1 <= 16 -> length x2 = length x1 -> x1 <> x2 ->
  gcm_session Enc (lift E) iv aad [u ++ x1] 16 = Some (c1, t1) -> gcm_session Enc (lift E) iv aad [u ++ x2] 16 = Some (c2, t2) ->
  recover c1 t1 c2 t2 = E (repeat 0%N 16) /\ forall aad' c', gcm_limits iv aad' c' ->
    exists p', gcm_session Dec (lift E) iv aad' [c'] 16 = Some (p', forge (recover c1 t1 c2 t2) aad c1 t1 aad' c').
Proof. exact gcm_iv_reuse_lemma. Qed.
Print Assumptions gcm_iv_reuse_refuted.
(** two such messages: a block and four bytes, of which the last differs *)
Definition reuse_u : list N := map N.of_nat (seq 40 16).
Example gcm_iv_reuse_instance :
  block_function toyE /\ gcm_limits [7; 8; 9]%N [1; 2]%N (reuse_u ++ [1; 2; 3; 4]%N) /\ (exists r, gcm_session Enc (lift toyE) [7; 8; 9]%N [1; 2]%N [reuse_u ++ [1; 2; 3; 4]%N] 16 = Some r) /\ (exists r, gcm_session Enc (lift toyE) [7; 8; 9]%N [1; 2]%N [reuse_u ++ [1; 2; 3; 5]%N] 16 = Some r).
Proof.
  split; [apply toy_is_block_cipher|]. assert (G : forall z, byte z -> gcm_limits [7; 8; 9]%N [1; 2]%N (reuse_u ++ [1; 2; 3; z]%N)).
  { intros z Hz. unfold gcm_limits. split; [repeat (constructor; [reflexivity|]); constructor|]. split; [repeat (constructor; [reflexivity|]); constructor|].
    split; [repeat (constructor; [(reflexivity || exact Hz)|]); constructor|]. split; [reflexivity|]. split; [reflexivity|]. discriminate. }
  split; [now apply G|]. split; (eexists; apply enc_session; [apply toy_is_block_cipher|now apply G]).
Qed.

(** ** C115: whoever alters a ciphertext cannot choose what it decrypts to *)
(** False of the code.  The decryption functions take no tag: they deliver the plaintext of whatever they are given, and
    exclusive-oring a mask to the ciphertext exclusive-ors it to the plaintext, under any additional data... *)
Theorem gcm_malleable_refuted : forall E iv aad aad' p mask c t, block_function E -> gcm_limits iv aad p -> gcm_limits iv aad' mask -> length mask = length p ->
  gcm_session Enc (lift E) iv aad [p] 16 = Some (c, t) ->
  exists t', gcm_session Dec (lift E) iv aad' [xorl c mask] 16 = Some (xorl p mask, t').
Proof. exact gcm_malleable_lemma. Qed.
Print Assumptions gcm_malleable_refuted.
(** ... and the file function, which does read the tag, returns 1 and writes the altered file, whatever stands in the tag
    field and whatever additional data it was given. *)
Theorem gcmfile_malleable_refuted : forall E tag0 tag1 iv aad aad' wr fs inf encf decf junk data tag' mask,
  block_function E -> bytes iv -> bytes aad -> bytes aad' -> bytes data -> fs inf = Some data ->
  inf <> encf -> inf <> tmp_path encf -> decf <> encf ->
  (forall p, In p [encf; tmp_path encf; decf] -> wr p = true) -> length junk = 4 -> bytes junk ->
  (N.of_nat (length data) <= 2147483647)%N -> length tag' = 16 -> bytes tag' -> length mask = length data -> bytes mask ->
  exists c c' tag size ct c1 fs1 c2 fs2,
    gcmfile_open (lift E) tag0 iv aad = Some c /\ gcmfile_open (lift E) tag1 iv aad' = Some c' /\
    gcmfile_encrypt (lift E) wr fs c inf encf junk = Some (true, c1, fs1) /\
    fs1 encf = Some (tag ++ size ++ ct) /\ length tag = 16 /\ length size = 8 /\ length ct = length data /\
    gcmfile_decrypt (lift E) wr (upd fs1 encf (Some (tag' ++ size ++ xorl ct mask))) c' encf decf = Some (true, c2, fs2) /\
    fs2 decf = Some (xorl data mask).
Proof. exact gcmfile_malleable_lemma. Qed.
Print Assumptions gcmfile_malleable_refuted.
(** a file of 150 bytes of which the attacker chooses the last *)
Example gcmfile_malleable_instance :
  block_function toyE /\ bytes file_data /\ fs0 path_in = Some file_data /\ path_in <> path_enc /\ path_in <> tmp_path path_enc /\ path_dec' <> path_enc /\ length (repeat 0 149 ++ [255])%N = length file_data /\ xorl file_data (repeat 0 149 ++ [255])%N <> file_data.
Proof.
  split; [apply toy_is_block_cipher|]. split; [apply Forall_forall; intros x Hx; apply in_map_iff in Hx; destruct Hx as (i & <- & _); apply N.mod_lt; discriminate|].
  split; [reflexivity|]. split; [discriminate|]. split; [discriminate|]. split; [discriminate|]. split; [reflexivity|]. vm_compute. discriminate.
Qed.
