(** * Properties of the MySQL function fpe() (C50, C59) *)
From Verif Require Import Base FpeModel FpeSpec AppModel AppSpec AppProofs CnProofs UdfModel UdfProofs.
Local Open Scope nat_scope.

(** [passes a s]: the argument [a] is the string [s], and a terminator happens to follow it in memory.
    [errcap], [rescap]: sizes of the arrays behind [error] and [result]; [j..]: uninitialised memory. *)

(** ** C50 *)
Theorem udf_init_accepts : forall types n,
  udf_init types n <> None <-> ((length types = 2 \/ length types = 3) /\ forall i, i < length types -> nth i types false = true).
Proof. exact udf_init_accepts_lemma. Qed.
Print Assumptions udf_init_accepts.
(** phone: the value has the format of the argument, in both versions, and the library's decryption
    under the built-in key restores it *)
Theorem udf_phone : forall clog jk jq ji jt errcap rescap ptr plain p mode sample s, length jk = 16 ->
  passes plain p -> passes mode ascii_phone -> passes_sample sample s -> s = [] \/ length s = 11 ->
  app_number p s -> length p = 11 -> 2 <= n_starred s 11 -> clog_sane clog 10 11 -> 11 < length ptr -> 11 <= rescap ->
  exists v, same_format s p v /\
    udf_fpe8 udf_ciph clog jk jq ji jt errcap rescap ptr plain mode sample = Ret (Value v [0%N]) /\
    udf_fpe5 udf_ciph clog jk jq ji jt errcap rescap ptr plain mode sample = Ret (Value v [0%N]) /\
    forall j after, 11 <= length after ->
      decrypt_phone udf_ciph clog (mkapp s_sm4 s_ff1 Sm4 udf_key) j v s after = Ret (mkres (p ++ skipn 11 after) [0%N]).
Proof. exact udf_phone_ok. Qed.
Print Assumptions udf_phone.
Theorem udf_idcard : forall clog jk jq ji jt errcap rescap ptr plain body x mode sample s, length jk = 16 ->
  passes plain (body ++ x) -> passes mode ascii_idcard -> passes_sample sample s -> s = [] \/ length s = 18 ->
  x = [88%N] \/ (x = [] /\ last body 0%N <> 88%N) -> length (body ++ x) = 18 ->
  bytes body -> (forall i, i < length body -> starred s i -> digit (get body i)) ->
  2 <= n_starred s (length body) -> clog_sane clog 10 18 -> 18 < length ptr -> 18 <= rescap ->
  exists v, same_format s body v /\
    udf_fpe8 udf_ciph clog jk jq ji jt errcap rescap ptr plain mode sample = Ret (Value (v ++ x) [0%N]) /\
    udf_fpe5 udf_ciph clog jk jq ji jt errcap rescap ptr plain mode sample = Ret (Value (v ++ x) [0%N]) /\
    forall j after, 18 <= length after ->
      decrypt_idcard udf_ciph clog (mkapp s_sm4 s_ff1 Sm4 udf_key) j (v ++ x) s after = Ret (mkres (body ++ x ++ skipn 18 after) [0%N]).
Proof. exact udf_idcard_ok. Qed.
Print Assumptions udf_idcard.
Theorem udf_address : forall clog jk jq ji jt errcap rescap ptr plain text ms mode sample s, length jk = 16 ->
  passes plain (utf8 text) -> passes mode ascii_address -> passes_sample sample s -> cn_sample text ms s ->
  Forall han text -> 1 <= n_stars ms -> length (utf8 text) <= rescap -> (N.of_nat rescap < 2 ^ 27)%N ->
  clog_sane clog 12 (4 * length text) -> length (utf8 text) < length ptr ->
  exists text', length text' = length text /\ Forall han text' /\
    (forall i cp, nth_error ms i = Some (Keep cp) -> get text' i = get text i) /\
    udf_fpe8 udf_ciph clog jk jq ji jt errcap rescap ptr plain mode sample = Ret (Value (utf8 text') [0%N]) /\
    udf_fpe5 udf_ciph clog jk jq ji jt errcap rescap ptr plain mode sample = Ret (Value (utf8 text') [0%N]) /\
    forall j ji' jt' after, length (utf8 text) <= length after ->
      decrypt_cn udf_ciph clog (mkapp s_sm4 s_ff1 Sm4 udf_key) j ji' jt' (utf8 text') s after =
      Ret (mkres (utf8 text ++ skipn (length (utf8 text)) after) [0%N]).
Proof. exact udf_address_ok. Qed.
Print Assumptions udf_address.
(** Wrong lengths and modes: NULL is returned if [error] has room for the message.  MySQL passes a
    single byte, and then the message is written past it. *)
Theorem udf_refuses : forall clog jk jq ji jt errcap rescap ptr plain p mode m sample s, length jk = 16 ->
  passes plain p -> passes mode m -> passes_sample sample s ->
  length p < length ptr -> s = [] \/ length s = length p \/ m = ascii_address ->
  (m = ascii_phone /\ length p <> 11) \/ (m = ascii_idcard /\ length p <> 18) \/
  (m <> ascii_phone /\ m <> ascii_idcard /\ m <> ascii_name /\ m <> ascii_address) ->
  (51 <= errcap -> udf_fpe8 udf_ciph clog jk jq ji jt errcap rescap ptr plain mode sample = Ret Null /\
                   udf_fpe5 udf_ciph clog jk jq ji jt errcap rescap ptr plain mode sample = Ret Null) /\
  (errcap < 33 -> udf_fpe8 udf_ciph clog jk jq ji jt errcap rescap ptr plain mode sample = Undef /\
                  udf_fpe5 udf_ciph clog jk jq ji jt errcap rescap ptr plain mode sample = Undef).
Proof. exact udf_refusal. Qed.
Print Assumptions udf_refuses.
(** In the MySQL 8 version a sample of another length is refused, except in mode "address"; the message
    is built in an array of 200 bytes, which long arguments overflow. *)
Theorem udf8_sample_check : forall clog jk jq ji jt errcap rescap ptr plain p mode m a s,
  passes plain p -> passes mode m -> passes a s -> length s <> length p -> m <> ascii_address ->
  (52 + length p + length s < 200 -> 200 <= errcap ->
     udf_fpe8 udf_ciph clog jk jq ji jt errcap rescap ptr plain mode (Some a) = Ret Null) /\
  (200 <= 52 + length p + length s -> udf_fpe8 udf_ciph clog jk jq ji jt errcap rescap ptr plain mode (Some a) = Undef).
Proof. exact udf8_sample_length. Qed.
Print Assumptions udf8_sample_check.
(** As a consequence mode "name" with a sample that marks anything is never accepted: the sample has
    one byte per '*' where the text has three. *)
Theorem udf8_name_sample_refuted : forall clog jk jq ji jt errcap rescap ptr plain text ms mode a,
  passes plain (utf8 text) -> passes mode ascii_name -> passes a (marks_string ms) ->
  length ms = length text -> Forall mark_ok ms -> 1 <= n_stars ms -> length text <= 24 -> 200 <= errcap ->
  udf_fpe8 udf_ciph clog jk jq ji jt errcap rescap ptr plain mode (Some a) = Ret Null.
Proof. exact udf8_name_sample_refuted_lemma. Qed.
Print Assumptions udf8_name_sample_refuted.

(** ** C59 *)
(** MySQL does not promise a terminator.  When one is missing, a longer number is read and the buffer
    is overrun: no value is returned. *)
Theorem udf_unterminated_refuted : forall clog jk jq ji jt errcap rescap ptr plain mode m p,
  u_len plain = 11 -> passes mode ascii_phone -> length ptr = 12 ->
  u_mem plain = Some m -> strz m = Some p -> 12 < length p ->
  forall r, udf_fpe8 udf_ciph clog jk jq ji jt errcap rescap ptr plain mode None <> Ret r /\
            udf_fpe5 udf_ciph clog jk jq ji jt errcap rescap ptr plain mode None <> Ret r.
Proof. exact udf_unterminated_refuted_lemma. Qed.
Print Assumptions udf_unterminated_refuted.
(** The MySQL 5 version does not compare the lengths: a short sample is read past its end. *)
Theorem udf5_short_sample_refuted : forall clog jk jq ji jt errcap rescap ptr plain p mode a s, length jk = 16 ->
  passes plain p -> passes mode ascii_phone -> passes a s ->
  s <> [] -> length p = 11 -> length s < 10 -> 11 < length ptr ->
  udf_fpe5 udf_ciph clog jk jq ji jt errcap rescap ptr plain mode (Some a) = Undef.
Proof. exact udf5_short_sample. Qed.
Print Assumptions udf5_short_sample_refuted.

(** concrete calls: "13888888888" under "138****8888" *)
Definition arg (s : list N) : udf_arg := mkarg (Some (s ++ [0%N])) (length s).
Lemma arg_passes s : forallb (fun c => negb (c =? 0)%N) s = true -> passes (arg s) s.
Proof.
  intros H. split; [exists []; reflexivity|]. split; [|reflexivity]. intros Q. rewrite forallb_forall in H. apply H in Q. discriminate.
Qed.
Definition u_phone : list N := [49; 51; 56; 56; 56; 56; 56; 56; 56; 56; 56]%N.
Definition u_sample : list N := [49; 51; 56; 42; 42; 42; 42; 56; 56; 56; 56]%N.
Example udf_instance :
  passes (arg u_phone) u_phone /\ passes (arg ascii_phone) ascii_phone /\ passes_sample (Some (arg u_sample)) u_sample /\
  n_starred u_sample 11 = 4 /\ udf_init [true; true; true] 11 = Some 12 /\
  (exists v, udf_fpe8 udf_ciph ceil_log (repeat 0%N 16) [] [] [] 1 255 (repeat 0%N 12) (arg u_phone) (arg ascii_phone) (Some (arg u_sample)) =
    Ret (Value v [0%N]) /\ v <> u_phone /\ firstn 3 v = firstn 3 u_phone) /\
  udf_fpe8 udf_ciph ceil_log (repeat 0%N 16) [] [] [] 1 255 (repeat 0%N 12) (arg u_phone) (arg [120%N]) None = Undef /\
  udf_fpe8 udf_ciph ceil_log (repeat 0%N 16) [] [] [] 1 255 (repeat 0%N 12) (mkarg (Some (u_phone ++ [49; 50; 0]%N)) 11) (arg ascii_phone) None = Undef.
Proof.
  split; [apply arg_passes; reflexivity|]. split; [apply arg_passes; reflexivity|].
  split; [split; [apply arg_passes; reflexivity|discriminate]|]. split; [reflexivity|]. split; [reflexivity|].
  split; [eexists; split; [vm_compute; reflexivity|split; [vm_compute; discriminate|reflexivity]]|].
  split; [vm_compute; reflexivity|vm_compute; reflexivity].
Qed.

From Coq Require Import Strings.String Strings.Ascii.
(** the characters of a literal *)
Definition chars (s : string) : list N := map N_of_ascii (list_ascii_of_string s).
(** the modes a query names, and the key every installation shares *)
Example udf_names : [ascii_phone; ascii_idcard; ascii_name; ascii_address] = map chars ["phone"; "idcard"; "name"; "address"]%string.
Proof. reflexivity. Qed.
Example udf_key_value : fold_left (fun a b => 256 * a + b)%N udf_key 0%N = 0x2b7e151628aed2a6abf7158809cf4f3c%N /\ List.length udf_key = 16.
Proof. split; reflexivity. Qed.
