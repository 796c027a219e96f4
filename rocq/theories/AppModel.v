(** * Model of src/fpe_app: phone numbers, ID numbers and Chinese text.

    Simplifications: a string argument is the list of its non-zero characters; [char] is signed, but
    only operations that do not depend on it are used; lengths fit in int; the caller's output buffer
    does not overlap the inputs.  The array [ans] of each function is one byte shorter than what
    WBCRYPTO_ff1_encrypt and its companions write; the model records the bytes written past its end
    ([stray]) and assumes that nothing the function still needs lies there. *)
From Verif Require Import Base FpeModel.
Local Open Scope nat_scope.

(** strcmp(a, b) == 0 *)
Definition streq (a b : list N) : bool := if list_eq_dec N.eq_dec a b then true else false.
(** include/wbcrypto/fpe_app.h:11-17 *)
Definition s_aes : list N := [97; 101; 115]%N.
Definition s_wbaes : list N := [119; 98; 97; 101; 115]%N.
Definition s_sm4 : list N := [115; 109; 52]%N.
Definition s_wbsm4 : list N := [119; 98; 115; 109; 52]%N.
Definition s_ff1 : list N := [102; 102; 49]%N.
Definition s_ff3 : list N := [102; 102; 51]%N.

(** which cipher a context belongs to *)
Inductive cipher_kind := Aes | Sm4 | Wbaes | Wbsm4.
Definition kind_eqb (a b : cipher_kind) : bool :=
  match a, b with Aes, Aes | Sm4, Sm4 | Wbaes, Wbaes | Wbsm4, Wbsm4 => true | _, _ => false end.
(** include/wbcrypto/fpe_app.h:25-29 struct fpe_app_ctx; cipher_ctx is the cipher it was made for and
    the 16-byte key *)
Record app_ctx := mkapp { a_cipher : list N; a_ffx : list N; a_kind : cipher_kind; a_key : list N }.

(** init.c:4-36 WBCRYPTO_fpe_app_init: [junk] is the initial contents of input_key; the return value
    is 1 *)
Definition app_init (junk key : list N) (keylen : nat) (cipher ffx : list N) : outcome app_ctx :=
  let keylen := if 16 <=? keylen then 16 else keylen in
  match read_at key 0 keylen with
  | None => Undef
  | Some k =>
    let input_key := k ++ skipn keylen junk in
    Ret (mkapp cipher ffx
      (if streq cipher s_sm4 then Sm4 else if streq cipher s_wbsm4 then Wbsm4
       else if streq cipher s_aes then Aes else if streq cipher s_wbaes then Wbaes else Aes) input_key)
  end.

Section App.
(** the block function (encryption) of each cipher under a 16-byte key; for the white-box ciphers this
    includes the tables generated by WBCRYPTO_fpe_app_init *)
Variable ciph : cipher_kind -> list N -> list N -> list N.
Variable clog : N -> nat -> nat.

(** phone.c:31-41, idcard.c:37-47, cn_utf8.c:54-64: which fpe_init is called; using the block function
    of one cipher with the context of another is undefined *)
Definition call_kind (cipher : list N) : cipher_kind :=
  if streq cipher s_sm4 then Sm4 else if streq cipher s_wbsm4 then Wbsm4
  else if streq cipher s_aes then Aes else if streq cipher s_wbaes then Wbaes else Aes.
Definition app_block (ctx : app_ctx) : outcome (list N -> list N) :=
  if kind_eqb (call_kind (a_cipher ctx)) (a_kind ctx) then Ret (ciph (a_kind ctx) (a_key ctx)) else Undef.
(** phone.c:68-74, idcard.c:78-84, cn_utf8.c:108-114 and phone.c:80-86, idcard.c:91-97,
    cn_utf8.c:120-126 *)
Definition fpe_fun := (list N -> list N) -> fpe_ctx -> list N -> list N -> outcome (list N).
Definition choose_encrypt (ffx : list N) : fpe_fun :=
  if streq ffx s_ff1 then fun E c junk s => ff1_encrypt E clog c junk s
  else if streq ffx s_ff3 then fun E c _ s => ff3_encrypt E clog c s
  else fun E c _ s => ff3_encrypt E clog c s.
Definition choose_decrypt (ffx : list N) : fpe_fun :=
  if streq ffx s_ff1 then fun E c junk s => ff1_decrypt E clog c junk s
  else if streq ffx s_ff3 then fun E c _ s => ff3_decrypt E clog c s
  else fun E c _ s => ff3_decrypt E clog c s.
(** phone.c:30-42, idcard.c:36-48, cn_utf8.c:53-65: WBCRYPTO_*_fpe_init (sm4_modes.c:42-46,
    aes_modes.c:42-46, wbsm4_modes.c:42-46, wbaes_modes.c:27-31) with the tweak array, then the FFX
    function; a rejected radix would be a null pointer *)
Definition call_ffx (block : fpe_fun) (ctx : app_ctx) (junk tweak : list N) (radix : N) (input : list N) : outcome (list N) :=
  obind (app_block ctx) (fun E =>
  match fpe_init tweak radix with
  | None => Undef
  | Some c => block E c junk input
  end).

(** the caller's buffer after the call, and the bytes written past the end of [ans] *)
Record appres := mkres { r_after : list N; r_stray : list N }.

(** *** phone.c, idcard.c *)
(** phone.c:10-16 and the conditions at :23 and :45 (idcard.c:16-22, :27, :51): is position [i] kept?
    [sample[i]] is in range, terminator included, or the access is undefined (see [sample_ok]) *)
Definition kept (sample : list N) (i : nat) : bool :=
  negb (streq sample []) && negb (get (sample ++ [0%N]) i =? 42)%N.
Definition sample_ok (sample : list N) (len : nat) : bool :=
  streq sample [] || (len <=? S (length sample)).
Definition kept_mask (sample : list N) (len : nat) : list bool := map (kept sample) (seq 0 len).
(** phone.c:17-28 (idcard.c:23-34): the characters that go to [tweak] (b = true) or [input] *)
Fixpoint select (b : bool) (mask : list bool) (s : list N) : list N :=
  match mask, s with
  | m :: mask', c :: s' => if Bool.eqb m b then c :: select b mask' s' else select b mask' s'
  | _, _ => []
  end.
(** phone.c:44-50 (idcard.c:50-56) *)
Fixpoint merge (mask : list bool) (s ans : list N) : list N :=
  match mask, s with
  | m :: mask', c :: s' => if m then c :: merge mask' s' ans
                           else get ans 0 :: merge mask' s' (skipn 1 ans)
  | _, _ => []
  end.
(** phone.c:5-56 aux_fpe_phone; the return value is 1 *)
Definition aux_phone (ctx : app_ctx) (junk : list N) (block : fpe_fun) (phone sample after : list N) : outcome appres :=
  let len := length phone in
  if negb (sample_ok sample len) then Undef
  else
    let mask := kept_mask sample len in
    let tweak := select true mask phone ++ [0%N] in
    let input := select false mask phone in
    let tweak_len := length (filter (fun b => b) mask) in
    obind (call_ffx block ctx junk tweak 10 input) (fun o =>
    let ans := firstn (len - tweak_len) o in
    match write_at after 0 (merge mask phone ans) with
    | None => Undef
    | Some after' => Ret (mkres after' (skipn (len - tweak_len) o))
    end).
(** phone.c:66-88, and :58-64 with sample "" *)
Definition encrypt_phone (ctx : app_ctx) (junk phone sample after : list N) : outcome appres :=
  aux_phone ctx junk (choose_encrypt (a_ffx ctx)) phone sample after.
Definition decrypt_phone (ctx : app_ctx) (junk phone sample after : list N) : outcome appres :=
  aux_phone ctx junk (choose_decrypt (a_ffx ctx)) phone sample after.
(** idcard.c:8-65 aux_fpe_idcard; [idcard[len - 1]] for an empty string is out of bounds *)
Definition aux_idcard (ctx : app_ctx) (junk : list N) (block : fpe_fun) (idcard sample after : list N) : outcome appres :=
  let len0 := length idcard in
  if len0 =? 0 then Undef
  else
    let len := if (get idcard (len0 - 1) =? 88)%N then len0 - 1 else len0 in
    if negb (sample_ok sample len) then Undef
    else
      let mask := kept_mask sample len in
      let tweak := select true mask idcard ++ [0%N] in
      let input := select false mask idcard in
      let tweak_len := length (filter (fun b => b) mask) in
      obind (call_ffx block ctx junk tweak 10 input) (fun o =>
      let ans := firstn (len - tweak_len) o in
      match write_at after 0 (merge mask idcard ans) with
      | None => Undef
      | Some a1 =>
        match (if (get (idcard ++ [0%N]) len =? 88)%N then write_at a1 len [88%N] else Some a1) with
        | None => Undef
        | Some a2 => Ret (mkres a2 (skipn (len - tweak_len) o))
        end
      end).
(** idcard.c:75-99, and :67-73 with sample "" *)
Definition encrypt_idcard (ctx : app_ctx) (junk idcard sample after : list N) : outcome appres :=
  aux_idcard ctx junk (choose_encrypt (a_ffx ctx)) idcard sample after.
Definition decrypt_idcard (ctx : app_ctx) (junk idcard sample after : list N) : outcome appres :=
  aux_idcard ctx junk (choose_decrypt (a_ffx ctx)) idcard sample after.

(** *** utf8_util.c *)
(** utf8_util.c:3-8 utf8CharToUint32 *)
Definition utf8CharToUint32 (b : list N) : N :=
  N.lor (N.lor (N.shiftl (N.land (get b 0) 0x0f) 12) (N.shiftl (N.land (get b 1) 0x3f) 6)) (N.land (get b 2) 0x3f).
(** utf8_util.c:10-15 utf8Uint32ToChar; conversion to char keeps the low 8 bits *)
Definition utf8Uint32ToChar (uc : N) : list N :=
  [(N.lor (N.shiftr uc 12) 0xe0) mod 256;
   (N.lor (N.land (N.shiftr uc 6) 0x3f) 0x80) mod 256;
   (N.lor (N.land uc 0x3f) 0x80) mod 256]%N.
(** utf8_util.c:17-23; uint32_t to int and back *)
Definition to_int (x : N) : Z := if (x <? 2 ^ 31)%N then Z.of_N x else (Z.of_N x - 2 ^ 32)%Z.
Definition utf8Uint32ToInt (uc : N) : Z := to_int ((uc + 2 ^ 32 - 0x4E00) mod 2 ^ 32)%N.
Definition utf8IntToUint32 (uc : Z) : N := Z.to_N ((uc + 0x4E00) mod 2 ^ 32)%Z.
(** utf8_util.c:45-55 char_to_int (C locale) *)
Definition char_to_int (c : N) : Z :=
  if ((48 <=? c) && (c <=? 57))%N then (Z.of_N c - 48)%Z
  else if ((65 <=? c) && (c <=? 90))%N then (Z.of_N c - 65 + 10)%Z
  else if ((97 <=? c) && (c <=? 122))%N then (Z.of_N c - 97 + 10)%Z
  else (-1)%Z.
(** utf8_util.c:57-76 utf8IntToCharDuodecimal; 20735 < 12^4, so four iterations of the first loop *)
Fixpoint duo_loop (fuel : nat) (num : Z) : list N :=
  match fuel with
  | O => []
  | S f => if (0 <? num)%Z then
             let remainder := (num mod 12)%Z in
             (if (remainder <? 10)%Z then (48 + Z.to_N remainder)%N else (97 + Z.to_N remainder - 10)%N)
             :: duo_loop f (num / 12)%Z
           else []
  end.
Definition utf8IntToCharDuodecimal (dec : Z) (buf : list N) (pos : nat) : option (list N) :=
  if (20735 <? dec)%Z || (dec <? 0)%Z then Some buf
  else let ds := duo_loop 5 dec in write_at buf pos (ds ++ repeat 48%N (5 - length ds)).
(** the string a pointer refers to, if it is terminated within the memory modelled *)
Fixpoint strz (mem : list N) : option (list N) :=
  match mem with
  | [] => None
  | c :: mem' => if (c =? 0)%N then Some [] else match strz mem' with Some s => Some (c :: s) | None => None end
  end.
(** utf8_util.c:78-95 utf8CharDuodecimalToInt *)
Fixpoint duo_value (ds : list N) (result : Z) : Z :=
  match ds with
  | [] => result
  | d :: ds' => let value := char_to_int d in
                if (value =? -1)%Z || (12 <=? value)%Z then 0%Z else duo_value ds' (result * 12 + value)%Z
  end.
Definition utf8CharDuodecimalToInt (mem : list N) : outcome Z :=
  match strz mem with
  | None => Undef
  | Some s => if length s <? 3 then Ret 0%Z
              else match read_at mem 0 4 with
                   | None => Undef
                   | Some d => Ret (duo_value [get d 3; get d 2; get d 1; get d 0] 0%Z)
                   end
  end.

(** *** cn_utf8.c *)
(** the steps of the loops at cn_utf8.c:36-48 and :78-89: true for a '*' (one byte of the sample),
    false for anything else (three bytes) *)
Fixpoint sample_units (s : list N) : list bool :=
  match s with
  | [] => []
  | c :: s1 => if (c =? 42)%N then true :: sample_units s1
               else false :: match s1 with _ :: _ :: s3 => sample_units s3 | _ => [] end
  end.
(** cn_utf8.c:28-49: [k] counts characters; state: input, input_p, tweak, tweak_p *)
Definition cn_state := (list N * nat * list N * nat)%type.
Fixpoint cn_split (cn : list N) (k : nat) (units : list bool) (st : cn_state) : outcome cn_state :=
  match units with
  | [] => Ret st
  | star :: units' =>
    match read_at (cn ++ [0%N]) (3 * k) 3 with
    | None => Undef
    | Some ch =>
      let uc_int := utf8Uint32ToInt (utf8CharToUint32 ch) in
      let '(input, ip, tweak, tp) := st in
      if star then
        match utf8IntToCharDuodecimal uc_int input ip with
        | None => Undef | Some input' => cn_split cn (S k) units' (input', ip + 4, tweak, tp)
        end
      else
        match utf8IntToCharDuodecimal uc_int tweak tp with
        | None => Undef | Some tweak' => cn_split cn (S k) units' (input, ip, tweak', tp + 4)
        end
    end
  end.
(** cn_utf8.c:67-90; [mem] is [ans] and what was written after it *)
Fixpoint cn_join (cn mem : list N) (k ap : nat) (units : list bool) (after : list N) : outcome (list N) :=
  match units with
  | [] => Ret after
  | star :: units' =>
    if star then
      obind (utf8CharDuodecimalToInt (skipn ap mem)) (fun uc_int =>
      match write_at after (3 * k) (utf8Uint32ToChar (utf8IntToUint32 uc_int)) with
      | None => Undef | Some after' => cn_join cn mem (S k) (ap + 4) units' after'
      end)
    else
      match read_at (cn ++ [0%N]) (3 * k) 3 with
      | None => Undef
      | Some ch => match write_at after (3 * k) ch with
                   | None => Undef | Some after' => cn_join cn mem (S k) ap units' after'
                   end
      end
  end.
(** cn_utf8.c:9-96 aux_fpe_cn; [ji], [jt]: initial contents of input and tweak.  Array sizes of zero or
    less are undefined. *)
Definition aux_cn (ctx : app_ctx) (junk ji jt : list N) (block : fpe_fun) (cn sample after : list N) : outcome appres :=
  let len := Z.of_nat (length cn / 3) in
  let stars := Z.of_nat (length (filter (fun c => (c =? 42)%N) sample)) in
  let tweak_len := if streq sample [] then stars else (len - stars)%Z in
  let isize := ((len - tweak_len) * 4 + 1)%Z in
  let tsize := (tweak_len * 4 + 1)%Z in
  let asize := ((len - tweak_len) * 4)%Z in
  if (isize <=? 0)%Z || (tsize <=? 0)%Z || (asize <=? 0)%Z then Undef
  else
    let input0 := firstn (Z.to_nat isize) (ji ++ repeat 0%N (Z.to_nat isize)) in
    let tweak0 := firstn (Z.to_nat tsize) (jt ++ repeat 0%N (Z.to_nat tsize)) in
    let units := if streq sample [] then repeat true (Z.to_nat len) else sample_units sample in
    obind (cn_split cn 0 units (input0, 0, tweak0, 0)) (fun st =>
    let '(input1, _, tweak1, _) := st in
    let input := set input1 (Z.to_nat asize) 0%N in
    let tweak := set tweak1 (Z.to_nat (tsize - 1)) 0%N in
    match strz input with
    | None => Undef
    | Some s =>
      obind (call_ffx block ctx junk tweak 12 s) (fun o =>
      obind (cn_join cn o 0 0 units after) (fun after' =>
      Ret (mkres after' (skipn (Z.to_nat asize) o))))
    end).
(** cn_utf8.c:106-128, and :98-104 with sample "" *)
Definition encrypt_cn (ctx : app_ctx) (junk ji jt cn sample after : list N) : outcome appres :=
  aux_cn ctx junk ji jt (choose_encrypt (a_ffx ctx)) cn sample after.
Definition decrypt_cn (ctx : app_ctx) (junk ji jt cn sample after : list N) : outcome appres :=
  aux_cn ctx junk ji jt (choose_decrypt (a_ffx ctx)) cn sample after.
End App.
