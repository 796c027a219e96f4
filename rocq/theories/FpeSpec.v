(** * NIST SP 800-38G, written from the standard, and the user-level vocabulary *)
From Verif Require Import Base GcmSpec.
Local Open Scope nat_scope.

(** the numerals of radix [r] as characters: 0..9 then a..z *)
Definition alphabet36 : list N :=
  [48; 49; 50; 51; 52; 53; 54; 55; 56; 57;
   97; 98; 99; 100; 101; 102; 103; 104; 105; 106; 107; 108; 109; 110; 111; 112; 113; 114; 115; 116; 117; 118;
   119; 120; 121; 122]%N.
Definition alphabet (radix : N) : list N := firstn (N.to_nat radix) alphabet36.
(** a string over the radix *)
Definition numeral_string (radix : N) (s : list N) : Prop := Forall (fun c => In c (alphabet radix)) s.
(** the value of a numeral, and the numeral of a value *)
Definition digit_of (c : N) : N := if (c <? 97)%N then (c - 48)%N else (c - 87)%N.
Definition char_of (d : N) : N := get alphabet36 (N.to_nat d).

(** ceil(n * LOG(radix)), LOG to the base 2 *)
Definition ceil_log (radix : N) (n : nat) : nat := N.to_nat (N.log2_up (radix ^ N.of_nat n)).
Definition ceil_div (a b : nat) : nat := (a + b - 1) / b.

(** NUM_radix(X): the number whose base-radix numerals are X, most significant first *)
Fixpoint NUM (radix : N) (X : list N) : N :=
  match X with [] => 0 | d :: X' => d * radix ^ N.of_nat (length X') + NUM radix X' end%N.
(** STR^m_radix(x) *)
Definition STR (radix : N) (m : nat) (x : N) : list N :=
  map (fun i => ((x / radix ^ N.of_nat (m - 1 - i)) mod radix)%N) (seq 0 m).

Section Std.
Variable CIPH : list N -> list N.
(** Algorithm 6 PRF *)
Definition PRF (X : list N) : list N := fold_left (fun Y Xj => CIPH (xorl Y Xj)) (chunks 16 X) (repeat 0%N 16).
(** Algorithm 7 FF1.Encrypt, Algorithm 8 FF1.Decrypt; X are numerals, T the tweak *)
Definition std_P (radix : N) (n t u : nat) : list N :=
  [1; 2; 1]%N ++ N_to_be 3 radix ++ [10%N] ++ N_to_be 1 (N.of_nat u) ++ N_to_be 4 (N.of_nat n) ++ N_to_be 4 (N.of_nat t).
Definition std_F1 (radix : N) (T : list N) (n i : nat) (X : list N) : N :=
  let t := length T in
  let u := n / 2 in
  let v := n - u in
  let b := ceil_div (ceil_log radix v) 8 in
  let d := 4 * ceil_div b 4 + 4 in
  let Q := T ++ repeat 0%N (Z.to_nat ((- Z.of_nat t - Z.of_nat b - 1) mod 16)) ++ [N.of_nat i] ++ N_to_be b (NUM radix X) in
  let R := PRF (std_P radix n t u ++ Q) in
  let S := R ++ concat (map (fun j => CIPH (xorl R (N_to_be 16 (N.of_nat j)))) (seq 1 (ceil_div d 16 - 1))) in
  be_to_N (firstn d S).
Definition FF1_enc_step (radix : N) (T : list N) (n : nat) (s : list N * list N) (i : nat) : list N * list N :=
  let '(A, B) := s in
  let m := if Nat.even i then n / 2 else n - n / 2 in
  let c := ((NUM radix A + std_F1 radix T n i B) mod radix ^ N.of_nat m)%N in
  (B, STR radix m c).
Definition FF1_dec_step (radix : N) (T : list N) (n : nat) (s : list N * list N) (i : nat) : list N * list N :=
  let '(A, B) := s in
  let m := if Nat.even i then n / 2 else n - n / 2 in
  let c := Z.to_N ((Z.of_N (NUM radix B) - Z.of_N (std_F1 radix T n i A)) mod Z.of_N (radix ^ N.of_nat m)) in
  (STR radix m c, A).
Definition FF1_Encrypt (radix : N) (T X : list N) : list N :=
  let n := length X in
  let '(A, B) := fold_left (FF1_enc_step radix T n) [0;1;2;3;4;5;6;7;8;9] (firstn (n / 2) X, skipn (n / 2) X) in A ++ B.
Definition FF1_Decrypt (radix : N) (T X : list N) : list N :=
  let n := length X in
  let '(A, B) := fold_left (FF1_dec_step radix T n) [9;8;7;6;5;4;3;2;1;0] (firstn (n / 2) X, skipn (n / 2) X) in A ++ B.

(** Algorithm 9 FF3.Encrypt, Algorithm 10 FF3.Decrypt; the tweak is 8 bytes, CIPH is the block cipher
    under the byte-reversed key *)
Definition std_S3 (radix : N) (T : list N) (i : nat) (X : list N) : list N :=
  let W := if Nat.even i then skipn 4 T else firstn 4 T in
  let P := xorl W (N_to_be 4 (N.of_nat i)) ++ N_to_be 12 (NUM radix (rev X)) in
  rev (CIPH (rev P)).
Definition std_F3 (radix : N) (T : list N) (i : nat) (X : list N) : N := be_to_N (std_S3 radix T i X).
Definition FF3_enc_step (radix : N) (T : list N) (n : nat) (s : list N * list N) (i : nat) : list N * list N :=
  let '(A, B) := s in
  let m := if Nat.even i then ceil_div n 2 else n - ceil_div n 2 in
  let c := ((NUM radix (rev A) + std_F3 radix T i B) mod radix ^ N.of_nat m)%N in
  (B, rev (STR radix m c)).
Definition FF3_dec_step (radix : N) (T : list N) (n : nat) (s : list N * list N) (i : nat) : list N * list N :=
  let '(A, B) := s in
  let m := if Nat.even i then ceil_div n 2 else n - ceil_div n 2 in
  let c := Z.to_N ((Z.of_N (NUM radix (rev B)) - Z.of_N (std_F3 radix T i A)) mod Z.of_N (radix ^ N.of_nat m)) in
  (rev (STR radix m c), A).
Definition FF3_Encrypt (radix : N) (T X : list N) : list N :=
  let n := length X in
  let u := ceil_div n 2 in
  let '(A, B) := fold_left (FF3_enc_step radix T n) [0;1;2;3;4;5;6;7] (firstn u X, skipn u X) in A ++ B.
Definition FF3_Decrypt (radix : N) (T X : list N) : list N :=
  let n := length X in
  let u := ceil_div n 2 in
  let '(A, B) := fold_left (FF3_dec_step radix T n) [7;6;5;4;3;2;1;0] (firstn u X, skipn u X) in A ++ B.
(** The tag FF3-GMAC attaches (no standard defines it): with H = CIPH(0^128), the sum of H * T, T being
    the first 16 bytes of the tweak, and of H * S over the 16-byte strings S of the eight FF3 rounds. *)
Definition FF3_GMAC_tag (radix : N) (T X : list N) : list N :=
  let n := length X in
  let u := ceil_div n 2 in
  let H := CIPH (repeat 0%N 16) in
  snd (fold_left (fun s i => (FF3_enc_step radix (firstn 8 T) n (fst s) i,
                              xorl (snd s) (block_mul (std_S3 radix (firstn 8 T) i (snd (fst s))) H)))
                 [0;1;2;3;4;5;6;7] ((firstn u X, skipn u X), block_mul (firstn 16 T) H)).
(** The tag FF1-CMAC attaches (no standard defines it).  K1 is the first CMAC subkey (SP 800-38B): twice
    CIPH(0^128) in GF(2^128).  In round i the byte number i of the CBC-MAC of P || Q is added to byte i of
    the chaining value before the last block; the resulting byte is added to all bytes of K1, that block
    is enciphered, and the ten results are summed. *)
Definition cmac_subkey : list N :=
  let L := be_to_N (CIPH (repeat 0%N 16)) in
  N_to_be 16 (N.lxor ((2 * L) mod 2 ^ 128) (if 2 ^ 127 <=? L then 0x87 else 0))%N.
Definition cmac_byte_part (x : N) : list N := CIPH (map (N.lxor x) cmac_subkey).
Definition std_Q1 (radix : N) (T : list N) (n i : nat) (X : list N) : list N :=
  let t := length T in
  let b := ceil_div (ceil_log radix (n - n / 2)) 8 in
  T ++ repeat 0%N (Z.to_nat ((- Z.of_nat t - Z.of_nat b - 1) mod 16)) ++ [N.of_nat i] ++ N_to_be b (NUM radix X).
Definition cmac_byte (radix : N) (T : list N) (n i : nat) (X : list N) : N :=
  let M := std_P radix n (length T) (n / 2) ++ std_Q1 radix T n i X in
  N.lxor (get (PRF M) i) (get (PRF (firstn (length M - 16) M)) i).
Definition FF1_CMAC_tag (radix : N) (T X : list N) : list N :=
  let n := length X in
  snd (fold_left (fun s i => (FF1_enc_step radix T n (fst s) i,
                              xorl (snd s) (cmac_byte_part (cmac_byte radix T n i (snd (fst s))))))
                 [0;1;2;3;4;5;6;7;8;9] ((firstn (n / 2) X, skipn (n / 2) X), repeat 0%N 16)).
End Std.

(** ** Arguments within the library's limits *)
(** [clog radix n] stands for the C expression ceil(n * log2(radix)); it must not be below the exact
    value, and the sizes must fit the int and unsigned int variables used. *)
Definition ff1_limits (clog : N -> nat -> nat) (radix : N) (T : list N) (len : nat) : Prop :=
  let v := len - len / 2 in
  (2 <= radix <= 36)%N /\ bytes T /\ 2 <= len /\ (N.of_nat len < 2 ^ 30)%N /\
  ceil_log radix v <= clog radix v /\
  (N.of_nat (length T) + N.of_nat (ceil_div (clog radix v) 8) < 2 ^ 31 - 32)%N.
(** the combination on which an assertion of the library fails *)
Definition ff1_bad_tweak (clog : N -> nat -> nat) (radix : N) (T : list N) (len : nat) : Prop :=
  T = [] /\ ceil_div (clog radix (len - len / 2)) 8 mod 16 = 15.
Definition ff3_limits (clog : N -> nat -> nat) (radix : N) (T : list N) (len : nat) : Prop :=
  let u := ceil_div len 2 in
  (2 <= radix <= 36)%N /\ 8 <= length T /\ 1 <= len /\ (N.of_nat len < 2 ^ 30)%N /\ ceil_log radix u <= clog radix u.
