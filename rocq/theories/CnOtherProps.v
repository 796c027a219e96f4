(** * Chinese text with other characters at the kept positions (C58) *)
From Verif Require Import Base CbcSpec FpeModel FpeSpec FpeProofs AppModel AppSpec AppProofs CnProofs CnOther AppProps.
Local Open Scope nat_scope.

(** Any three-byte characters at the kept positions.  The text comes back when the bytes of the uninitialised array [tweak] that
    no kept character of U+4E00 .. U+9EFF writes are the same in the two calls; there are none when all kept characters are in
    that range (C35).  Missing: that they are the same. *)
Theorem cn_other_kept_partial : forall ciph clog junk0 key keylen cipher ffx ctx text ms sample after after' j1 j2 ji1 jt1 ji2 jt2,
  app_init junk0 key keylen cipher ffx = Ret ctx -> block_function (ciph (a_kind ctx) (a_key ctx)) ->
  cn_sample text ms sample -> Forall three_byte text -> (forall i, nth_error ms i = Some Star -> han (get text i)) -> (N.of_nat (length text) < 2 ^ 26)%N ->
  clog_sane clog 12 (4 * length text) -> 1 <= n_stars ms ->
  ffx_fits ffx (4 * n_stars ms) (S (4 * n_keeps ms)) ->
  length (utf8 text) <= length after -> length (utf8 text) <= length after' ->
  bytes jt1 -> (forall q, untouched (kept_chars ms text) q -> get jt1 q = get jt2 q) ->
  exists text', length text' = length text /\ Forall three_byte text' /\
    (forall i, nth_error ms i = Some Star -> han (get text' i)) /\
    (forall i cp, nth_error ms i = Some (Keep cp) -> get text' i = get text i) /\
    encrypt_cn ciph clog ctx j1 ji1 jt1 (utf8 text) sample after = Ret (mkres (utf8 text' ++ skipn (length (utf8 text)) after) [0%N]) /\
    decrypt_cn ciph clog ctx j2 ji2 jt2 (utf8 text') sample after' = Ret (mkres (utf8 text ++ skipn (length (utf8 text)) after') [0%N]).
Proof.
  intros. apply (cn_other_roundtrip ciph clog junk0 key keylen cipher ffx ctx text ms sample after after' j1 j2 ji1 jt1 ji2 jt2); auto.
  rewrite kept_chars_select. now apply other_tweak_iff.
Qed.
Print Assumptions cn_other_kept_partial.
(** U+5E7F U+FF08 U+4E1C U+FF09 U+7701, the three in the middle kept: two of the three groups of tweak digits are not written;
    the first byte of the third group is, by the character before it *)
Definition ex_text3 : list N := [0x5E7F; 0xFF08; 0x4E1C; 0xFF09; 0x7701]%N.
Definition ex_marks3 : list mark := [Star; Keep 0x4E1C; Keep 0x4E1C; Keep 0x4E1C; Star]%N.
Example cn_other_instance : cn_sample ex_text3 ex_marks3 (marks_string ex_marks3) /\ Forall three_byte ex_text3 /\
  kept_chars ex_marks3 ex_text3 = [0xFF08; 0x4E1C; 0xFF09]%N /\ untouched (kept_chars ex_marks3 ex_text3) 2 /\ ~ untouched (kept_chars ex_marks3 ex_text3) 5 /\
  ~ untouched (kept_chars ex_marks3 ex_text3) 8 /\ untouched (kept_chars ex_marks3 ex_text3) 9 /\
  encrypt_cn ex_ciph ceil_log (ex_ctx s_ff1) [] [] [1; 2; 3; 4; 5; 6; 7; 8; 9; 10; 11; 12; 13]%N (utf8 ex_text3) (marks_string ex_marks3) (repeat 0%N 15) =
  encrypt_cn ex_ciph ceil_log (ex_ctx s_ff1) [] [] [1; 2; 3; 4; 0; 0; 0; 0; 0; 10; 11; 12; 0]%N (utf8 ex_text3) (marks_string ex_marks3) (repeat 0%N 15).
Proof.
  split; [right; split; [reflexivity|split; [reflexivity|repeat constructor; cbn; lia]]|].
  split; [repeat constructor; unfold three_byte; lia|]. split; [reflexivity|].
  assert (U : forall q, q < 12 -> (untouched (kept_chars ex_marks3 ex_text3) q <-> hanb (get (kept_chars ex_marks3 ex_text3) (q / 4)) = false /\ after_han (kept_chars ex_marks3 ex_text3) q = false))
    by (intros q Q; apply untouched_iff; exact Q).
  split; [apply U; [lia|split; reflexivity]|]. split; [rewrite U by lia; intros [H _]; discriminate H|].
  split; [rewrite U by lia; intros [_ H]; discriminate H|]. split; [apply U; [lia|split; reflexivity]|]. vm_compute. reflexivity.
Qed.
