(** * GM/T 0002-2012 (SM4), written from the standard *)
From Verif Require Import Base.
Local Open Scope nat_scope.

(** The S-box in its algebraic form: S(x) = A(inv(A(x) + c)) + c over GF(2^8) with the polynomial
    x^8 + x^7 + x^6 + x^5 + x^4 + x^2 + 1, A the circulant matrix with first row 0xa7, c = 0xd3. *)
Definition gf8_double (p a : N) : N := let d := (2 * a)%N in if N.testbit d 8 then N.lxor d p else d.
Fixpoint gf8_mul_loop (p : N) (n : nat) (a b : N) : N :=
  match n with
  | O => 0
  | S n' => N.lxor (if N.odd b then a else 0) (gf8_mul_loop p n' (gf8_double p a) (N.div2 b))
  end%N.
Definition gf8_mul (p a b : N) : N := gf8_mul_loop p 8 a b.
(** a^254 *)
Definition gf8_inv (p a : N) : N :=
  let a2 := gf8_mul p a a in let a4 := gf8_mul p a2 a2 in let a8 := gf8_mul p a4 a4 in
  let a16 := gf8_mul p a8 a8 in let a32 := gf8_mul p a16 a16 in let a64 := gf8_mul p a32 a32 in
  let a128 := gf8_mul p a64 a64 in
  gf8_mul p a2 (gf8_mul p a4 (gf8_mul p a8 (gf8_mul p a16 (gf8_mul p a32 (gf8_mul p a64 a128))))).
Fixpoint parity_upto (n : nat) (x : N) : bool :=
  match n with O => false | S n' => xorb (N.testbit x (N.of_nat n')) (parity_upto n' x) end.
Definition rot8 (x : N) (n : nat) : N := N.lor (N.shiftl x (N.of_nat n) mod 256) (N.shiftr x (8 - N.of_nat n)).
Definition sm4_A (x : N) : N :=
  fold_right (fun i acc => N.lor (if parity_upto 8 (N.land (rot8 0xa7 i) x) then 2 ^ N.of_nat i else 0) acc)%N 0%N (seq 0 8).
Definition std_sbox (x : N) : N := N.lxor (sm4_A (gf8_inv 0x1f5 (N.lxor (sm4_A x) 0xd3))) 0xd3.

(** words: 32-bit numbers; their four bytes, most significant first *)
Definition word_bytes (x : N) : list N := N_to_be 4 x.
Definition of_bytes (l : list N) : N := be_to_N l.
(** left rotation of a 32-bit word, as arithmetic *)
Definition rol (x n : N) : N := ((x * 2 ^ n) mod 2 ^ 32 + x / 2 ^ (32 - n))%N.
(** tau, L, L', T, T' *)
Definition tau (x : N) : N := of_bytes (map std_sbox (word_bytes x)).
Definition Lin (b : N) : N := fold_left N.lxor (map (rol b) [2; 10; 18; 24]%N) b.
Definition Lin' (b : N) : N := fold_left N.lxor (map (rol b) [13; 23]%N) b.
Definition T (x : N) : N := Lin (tau x).
Definition T' (x : N) : N := Lin' (tau x).
(** round function F(X0,X1,X2,X3,rk) = X0 + T(X1+X2+X3+rk); the state slides by one word *)
Definition state := (N * N * N * N)%type.
Definition round (TT : N -> N) (s : state) (rk : N) : state :=
  let '(x0, x1, x2, x3) := s in
  (x1, x2, x3, N.lxor x0 (TT (N.lxor (N.lxor (N.lxor x1 x2) x3) rk))).
Definition rounds (TT : N -> N) (rks : list N) (s : state) : state := fold_left (round TT) rks s.
(** reverse transform R *)
Definition swap (s : state) : state := let '(x0, x1, x2, x3) := s in (x3, x2, x1, x0).
Definition st_of (b : list N) : state :=
  match chunks 4 b with
  | [w; x; y; z] => (of_bytes w, of_bytes x, of_bytes y, of_bytes z)
  | _ => (0, 0, 0, 0)%N
  end.
Definition st_to (s : state) : list N :=
  let '(x0, x1, x2, x3) := s in word_bytes x0 ++ word_bytes x1 ++ word_bytes x2 ++ word_bytes x3.
(** key expansion: K_i = MK_i + FK_i, rk_i = K_{i+4} = K_i + T'(K_{i+1}+K_{i+2}+K_{i+3}+CK_i),
    CK_i has bytes (4i+j)*7 mod 256 *)
Definition std_FK : state := (0xA3B1BAC6, 0x56AA3350, 0x677D9197, 0xB27022DC)%N.
Definition std_CK (i : nat) : N := of_bytes (map (fun j => (N.of_nat (4 * i + j) * 7) mod 256)%N (seq 0 4)).
Definition st_xor (a b : state) : state :=
  let '(a0, a1, a2, a3) := a in let '(b0, b1, b2, b3) := b in
  (N.lxor a0 b0, N.lxor a1 b1, N.lxor a2 b2, N.lxor a3 b3).
Fixpoint expand (s : state) (cks : list N) : list N :=
  match cks with
  | [] => []
  | ck :: cks' => let s' := round T' s ck in snd s' :: expand s' cks'
  end.
Definition round_keys (key : list N) : list N := expand (st_xor (st_of key) std_FK) (map std_CK (seq 0 32)).
(** encryption and decryption of one block *)
Definition std_encrypt (key b : list N) : list N := st_to (swap (rounds T (round_keys key) (st_of b))).
Definition std_decrypt (key b : list N) : list N := st_to (swap (rounds T (rev (round_keys key)) (st_of b))).

(** the 16-byte key a key of any length stands for (the library's rule, stated in the API documentation
    of padding.c: truncate, or extend with the number of missing bytes) *)
Definition normal_key (k : list N) : list N :=
  firstn 16 k ++ repeat (N.of_nat (16 - length k)) (16 - length k).
