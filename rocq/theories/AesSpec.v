(** * FIPS 197 (AES-128), written from the standard *)
From Verif Require Import Base Sm4Spec.
Local Open Scope nat_scope.

(** 4.2: GF(2^8) modulo x^8 + x^4 + x^3 + x + 1 *)
Definition aes_poly : N := 0x11b.
Definition gmul (a b : N) : N := gf8_mul aes_poly a b.
(** 5.1.1 SubBytes: the inverse, then b'_i = b_i + b_(i+4) + b_(i+5) + b_(i+6) + b_(i+7) + c_i *)
Definition bit_of (b : N) (i : nat) : bool := N.testbit b (N.of_nat (i mod 8)).
Definition from_bits (f : nat -> bool) : N := fold_right (fun i acc => N.lor (if f i then 2 ^ N.of_nat i else 0) acc)%N 0%N (seq 0 8).
Definition sub_affine (b : N) : N := from_bits (fun i =>
  xorb (xorb (xorb (xorb (xorb (bit_of b i) (bit_of b (i + 4))) (bit_of b (i + 5))) (bit_of b (i + 6))) (bit_of b (i + 7))) (bit_of 0x63 i)).
Definition aes_sbox (x : N) : N := sub_affine (gf8_inv aes_poly x).
(** 5.3.2 InvSubBytes: the inverse affine transformation (b'_i = b_(i+2) + b_(i+5) + b_(i+7) + d_i, d = 0x05), then the inverse *)
Definition inv_sub_affine (b : N) : N := from_bits (fun i =>
  xorb (xorb (xorb (bit_of b (i + 2)) (bit_of b (i + 5))) (bit_of b (i + 7))) (bit_of 0x05 i)).
Definition aes_inv_sbox (x : N) : N := gf8_inv aes_poly (inv_sub_affine x).

(** 3.4: the state s[r, c] is byte r + 4c of a 16-byte block *)
Definition sub_bytes (s : list N) : list N := map aes_sbox s.
Definition inv_sub_bytes (s : list N) : list N := map aes_inv_sbox s.
(** 5.1.2: s'[r, c] = s[r, (c + r) mod 4]; 5.3.1: s'[r, (c + r) mod 4] = s[r, c] *)
Definition shift_rows (s : list N) : list N := map (fun i => let r := i mod 4 in let c := i / 4 in nth (r + 4 * ((c + r) mod 4)) s 0%N) (seq 0 16).
Definition inv_shift_rows (s : list N) : list N := map (fun i => let r := i mod 4 in let c := i / 4 in nth (r + 4 * ((c + 4 - r) mod 4)) s 0%N) (seq 0 16).
(** 5.1.3, 5.3.3: every column is multiplied by a circulant matrix with the given first row *)
Definition mix_column (row col : list N) : list N :=
  map (fun r => fold_left N.lxor (map (fun k => gmul (nth ((k + 4 - r) mod 4) row 0%N) (nth k col 0%N)) (seq 0 4)) 0%N) (seq 0 4).
Definition mix_with (row s : list N) : list N := flat_map (mix_column row) (chunks 4 s).
Definition mix_columns : list N -> list N := mix_with [0x02; 0x03; 0x01; 0x01]%N.
Definition inv_mix_columns : list N -> list N := mix_with [0x0e; 0x0b; 0x0d; 0x09]%N.
(** 5.1.4 AddRoundKey *)
Definition add_round_key (s k : list N) : list N := xorl s k.

(** 5.2 key expansion for Nk = 4, words of four bytes *)
Definition rot_word (w : list N) : list N := match w with [a; b; c; d] => [b; c; d; a] | _ => w end.
Fixpoint gpow (x : N) (k : nat) : N := match k with O => 1%N | S k' => gmul x (gpow x k') end.
Definition rcon (i : nat) : list N := [gpow 2 (i - 1); 0; 0; 0]%N.
Definition next_word (ws : list (list N)) : list N :=
  let i := length ws in
  let temp := nth (i - 1) ws [] in
  let temp := if i mod 4 =? 0 then xorl (map aes_sbox (rot_word temp)) (rcon (i / 4)) else temp in
  xorl (nth (i - 4) ws []) temp.
Fixpoint extend_words (n : nat) (ws : list (list N)) : list (list N) :=
  match n with O => ws | S n' => extend_words n' (ws ++ [next_word ws]) end.
Definition key_words (key : list N) : list (list N) := extend_words 40 (chunks 4 key).
Definition aes_round_key (key : list N) (r : nat) : list N := concat (firstn 4 (skipn (4 * r) (key_words key))).

(** 5.1 Cipher, 5.3 InvCipher, 5.3.5 EqInvCipher, for given round keys *)
Definition full_round (s k : list N) : list N := add_round_key (mix_columns (shift_rows (sub_bytes s))) k.
Definition last_round (s k : list N) : list N := add_round_key (shift_rows (sub_bytes s)) k.
Definition cipher (rk : nat -> list N) (s : list N) : list N :=
  last_round (fold_left full_round (map rk (seq 1 9)) (add_round_key s (rk 0))) (rk 10).
Definition inv_full_round (s k : list N) : list N := inv_mix_columns (add_round_key (inv_sub_bytes (inv_shift_rows s)) k).
Definition inv_cipher (rk : nat -> list N) (s : list N) : list N :=
  add_round_key (inv_sub_bytes (inv_shift_rows (fold_left inv_full_round (map rk [9; 8; 7; 6; 5; 4; 3; 2; 1]) (add_round_key s (rk 10))))) (rk 0).
Definition eq_inv_round (s k : list N) : list N := add_round_key (inv_mix_columns (inv_shift_rows (inv_sub_bytes s))) k.
Definition eq_inv_cipher (dk : nat -> list N) (s : list N) : list N :=
  add_round_key (inv_shift_rows (inv_sub_bytes (fold_left eq_inv_round (map dk [9; 8; 7; 6; 5; 4; 3; 2; 1]) (add_round_key s (dk 10))))) (dk 0).
(** the key schedule of the equivalent inverse cipher *)
Definition inv_round_key (rk : nat -> list N) (r : nat) : list N := if (r =? 0) || (r =? 10) then rk r else inv_mix_columns (rk r).

Definition aes_encrypt (key b : list N) : list N := cipher (aes_round_key key) b.
Definition aes_decrypt (key b : list N) : list N := inv_cipher (aes_round_key key) b.
