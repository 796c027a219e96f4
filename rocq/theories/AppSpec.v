(** * What the FPE application functions are for, in user terms *)
From Verif Require Import Base FpeSpec.
Local Open Scope nat_scope.

Definition digit (c : N) : Prop := (48 <= c <= 57)%N.
(** A sample marks the positions to encrypt with '*'; an empty sample marks all of them. *)
Definition starred (sample : list N) (i : nat) : Prop := sample = [] \/ get sample i = 42%N.
Definition starredb (sample : list N) (i : nat) : bool :=
  match sample with [] => true | _ => (get sample i =? 42)%N end.
Definition n_starred (sample : list N) (n : nat) : nat := length (filter (starredb sample) (seq 0 n)).
Definition n_kept (sample : list N) (n : nat) : nat := n - n_starred sample n.
(** a number that can be encrypted under a sample: C characters, digits at the marked positions; the
    sample is empty or as long as the number *)
Definition app_number (num sample : list N) : Prop :=
  bytes num /\ (forall i, i < length num -> starred sample i -> digit (get num i)) /\
  (sample = [] \/ length sample = length num) /\ (N.of_nat (length num) < 2 ^ 28)%N.
(** the C library's ceil(n * log2(radix)): not below the exact value, at most 8 bits per numeral *)
Definition clog_sane (clog : N -> nat -> nat) (radix : N) (n : nat) : Prop :=
  forall v, v <= n -> ceil_log radix v <= clog radix v <= 8 * v.
(** What the FFX functions need: FF1 at least two numerals; FF3, which every other name selects, a
    tweak of eight bytes.  The tweak is the kept part and a terminator. *)
Definition is_ff1 (ffx : list N) : Prop := ffx = [102; 102; 49]%N.
Definition ffx_fits (ffx : list N) (numerals tweak : nat) : Prop :=
  (is_ff1 ffx -> 2 <= numerals) /\ (~ is_ff1 ffx -> 1 <= numerals /\ 8 <= tweak).
(** [num'] is [num] with other digits at the marked positions *)
Definition same_format (sample num num' : list N) : Prop :=
  length num' = length num /\
  (forall i, i < length num -> starred sample i -> digit (get num' i)) /\
  (forall i, i < length num -> ~ starred sample i -> get num' i = get num i).

(** ** Chinese text *)
(** the UTF-8 encoding of U+0800 .. U+FFFF *)
Definition utf8_3 (cp : N) : list N := [224 + cp / 4096; 128 + (cp / 64) mod 64; 128 + cp mod 64]%N.
Definition utf8 (text : list N) : list N := concat (map utf8_3 text).
Definition han (cp : N) : Prop := (0x4E00 <= cp <= 0x9EFF)%N.
(** one mark per character of the text: '*', or any three-byte character, which means "keep" *)
Inductive mark := Star | Keep (cp : N).
Definition mark_ok (m : mark) : Prop := match m with Star => True | Keep cp => (0x800 <= cp < 0x10000)%N end.
Definition mark_string (m : mark) : list N := match m with Star => [42%N] | Keep cp => utf8_3 cp end.
Definition is_star (m : mark) : bool := match m with Star => true | Keep _ => false end.
Definition marks_string (ms : list mark) : list N := concat (map mark_string ms).
Definition n_stars (ms : list mark) : nat := length (filter is_star ms).
Definition n_keeps (ms : list mark) : nat := length ms - n_stars ms.
(** the sample string and the marks it stands for; the empty string marks every character *)
Definition cn_sample (text : list N) (ms : list mark) (sample : list N) : Prop :=
  (sample = [] /\ ms = repeat Star (length text)) \/
  (sample = marks_string ms /\ length ms = length text /\ Forall mark_ok ms).
