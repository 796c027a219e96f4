(** * Model of the MySQL user-defined function fpe() in udf/mysql8.cpp and udf/mysql5.cpp.

    A string argument is the memory at the pointer, up to the end of the accessible region, and the
    length MySQL passes; nothing guarantees a terminator.  A null pointer (SQL NULL) is [None].
    malloc succeeds.  [errcap] is the size of the array behind [error], [rescap] that of [result]. *)
From Verif Require Import Base FpeModel Sm4Model AppModel.
Local Open Scope nat_scope.

Definition ascii_phone : list N := [112; 104; 111; 110; 101]%N.
Definition ascii_idcard : list N := [105; 100; 99; 97; 114; 100]%N.
Definition ascii_name : list N := [110; 97; 109; 101]%N.
Definition ascii_address : list N := [97; 100; 100; 114; 101; 115; 115]%N.

(** mysql8.cpp:24-51, mysql5.cpp:24-51 fpe_init: argument types ([true]: STRING_RESULT), one per
    argument; the result is the size of the buffer allocated at initid->ptr, or a refusal *)
Definition udf_init (types : list bool) (length0 : nat) : option nat :=
  let count := length types in
  if (count <? 2) || (3 <? count) then None
  else if negb (nth 0 types false) || negb (nth 1 types false) then None
  else if (count =? 3) && negb (nth 2 types false) then None
  else Some (length0 + 1).

Record udf_arg := mkarg { u_mem : option (list N); u_len : nat }.
(** what fpe() returns: a value with its length, or NULL; and the bytes the FPE function wrote past
    the end of its local array *)
Inductive udf_res := Value (v stray : list N) | Null.

(** mysql8.cpp:8-11, mysql5.cpp:8-11 *)
Definition udf_key : list N :=
  [0x2b; 0x7e; 0x15; 0x16; 0x28; 0xae; 0xd2; 0xa6; 0xab; 0xf7; 0x15; 0x88; 0x09; 0xcf; 0x4f; 0x3c]%N.

(** the string a pointer refers to: a null pointer or no terminator is undefined *)
Definition cstring (a : udf_arg) : outcome (list N) :=
  match u_mem a with
  | None => Undef
  | Some m => match strz m with None => Undef | Some s => Ret s end
  end.
(** strcpy(error, ...) of a message of [n] characters, then return NULL *)
Definition refuse (errcap n : nat) : outcome udf_res := if errcap <? n + 1 then Undef else Ret Null.

Section Udf.
Variable ciph : cipher_kind -> list N -> list N -> list N.
Variable clog : N -> nat -> nat.
(** uninitialised memory: input_key, Q, input, tweak, the buffer at initid->ptr *)
Variable jk jq ji jt : list N.
Variable errcap rescap : nat.

(** mysql8.cpp:79-116, mysql5.cpp:73-110: after the checks; [ptr] is the buffer at initid->ptr *)
Definition udf_run (ptr : list N) (plain mode : udf_arg) (sample : option udf_arg) : outcome udf_res :=
  match (match u_mem plain with None => None | Some m => read_at m 0 (u_len plain) end) with
  | None => Undef
  | Some p0 =>
  match write_at ptr 0 (p0 ++ [0%N]) with
  | None => Undef
  | Some ptr1 =>
    obind (app_init jk udf_key 16 s_sm4 s_ff1) (fun ctx =>
    let str s := match s with None => Ret [] | Some a => cstring a end in
    let finish o := obind o (fun r =>
      match read_at (r_after r) 0 (u_len plain) with
      | None => Undef
      | Some v => if rescap <? length v then Undef else Ret (Value v (r_stray r))
      end) in
    obind (cstring mode) (fun m =>
    if streq m ascii_phone then
      if negb (u_len plain =? 11) then refuse errcap 32
      else obind (cstring plain) (fun p => obind (str sample) (fun s => finish (encrypt_phone ciph clog ctx jq p s ptr1)))
    else if streq m ascii_idcard then
      if negb (u_len plain =? 18) then refuse errcap 34
      else obind (cstring plain) (fun p => obind (str sample) (fun s => finish (encrypt_idcard ciph clog ctx jq p s ptr1)))
    else if streq m ascii_name || streq m ascii_address then
      obind (cstring plain) (fun p => obind (str sample) (fun s => finish (encrypt_cn ciph clog ctx jq ji jt p s ptr1)))
    else refuse errcap 50))
  end end.
(** mysql8.cpp:57-117: first the sample length check; the message is built in an array of 200 *)
Definition udf_fpe8 (ptr : list N) (plain mode : udf_arg) (sample : option udf_arg) : outcome udf_res :=
  match sample with
  | None => udf_run ptr plain mode sample
  | Some a =>
    if u_len plain =? u_len a then udf_run ptr plain mode sample
    else obind (cstring mode) (fun m =>
      if streq m ascii_address then udf_run ptr plain mode sample
      else obind (cstring plain) (fun p => obind (cstring a) (fun s =>
        let n := 52 + length p + length s in
        if 200 <? n + 1 then Undef else refuse errcap n)))
  end.
(** mysql5.cpp:57-111: no check *)
Definition udf_fpe5 (ptr : list N) (plain mode : udf_arg) (sample : option udf_arg) : outcome udf_res :=
  udf_run ptr plain mode sample.
End Udf.
(** the cipher the function uses *)
Definition udf_ciph (k : cipher_kind) (key b : list N) : list N := sm4_encrypt (sm4_init_key sm4_context_init key) b.
