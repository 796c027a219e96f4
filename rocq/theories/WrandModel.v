(** * src/utils/wrandom.c: the random numbers of the shuffle *)
From Verif Require Import Base MatModel.
Local Open Scope nat_scope.

(** ** One process
    [G] are the states of the C library's generator, [srand] sets it, [rand] draws; nothing else in /repo calls them.
    [clk n] is what the n-th call of time(0) in this file returns. *)
Section Process.
  Context {G : Type} (srand : N -> G) (rand : G -> N * G) (clk : nat -> N).
  (** wrandom.c:15 (inited), the library's state, and the number of calls of time(0) so far *)
  Record wstate := mkws { ws_inited : bool; ws_gen : G; ws_calls : nat }.
  (** wrandom.c:17-23 wRand31; rand's result, an int that is not negative, is converted to uint32_t *)
  Definition wRand31 (s : wstate) : N * wstate :=
    let s := if ws_inited s then s else mkws true (srand (clk (ws_calls s) mod 4294967296)%N) (S (ws_calls s)) in
    let '(r, g) := rand (ws_gen s) in (r, mkws (ws_inited s) g (ws_calls s)).
  (** wrandom.c:46-55 wRandomList on a list of [len] places ([len] not negative; list not NULL) *)
  Fixpoint wRandomList (len : nat) (s : wstate) : list N * wstate :=
    match len with
    | O => ([], s)
    | S len => let '(r, s) := wRand31 s in let '(l, s) := wRandomList len s in (r :: l, s)
    end.
  (** wrandom.c:57-74 wRandomShuffleU8 *)
  Definition s_shuffle (l : list N) (s : wstate) : list N * wstate :=
    let '(rs, s) := wRandomList (length l) s in (wRandomShuffleU8 rs l, s).
End Process.
Arguments mkws {G}.
Arguments ws_inited {G}.
Arguments ws_gen {G}.
Arguments ws_calls {G}.

(** ** The wider numbers, from the results of the calls of wRand31 *)
(** wrandom.c:25-28 wRand32; which of the two calls comes first is not specified in C *)
Definition wRand32 (r r' : N) : N := N.lxor r (N.shiftl r' 1 mod 4294967296)%N.
(** wrandom.c:30-37 wRand64 *)
Definition wRand64 (a b c : N) : N :=
  (N.lxor (N.lxor a (N.shiftl b 21 mod 18446744073709551616)) (N.shiftl c 42 mod 18446744073709551616))%N.
