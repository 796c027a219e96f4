(** * wrandom.c (C99, C100) *)
From Verif Require Import Base Word32 FpeModel MatModel MatSpec RandModel WrandModel Few Wbsm4Model.
Local Open Scope nat_scope.

(** ** C99: which matrices can come out *)
(** With the library's own generator, seeded with 32 bits for every matrix, some invertible matrix of each size
    above 4 is never generated, whatever randseed is and whenever the program runs. *)
Theorem every_matrix_generated_refuted : forall n, size n -> n <> 4 ->
  exists A, invertible n A /\ forall clk s B t, s_genMatpair n clk s <> Ret (A, B, t).
Proof. exact some_matrix_never. Qed.
Print Assumptions every_matrix_generated_refuted.
(** and the matrix is the same whenever the seed is: the number of the call in the process, combined with the second *)
Theorem matrix_from_seed : forall n clk s A B t clk' s' A' B' t',
  s_genMatpair n clk s = Ret (A, B, t) -> s_genMatpair n clk' s' = Ret (A', B', t') ->
  N.lxor (w32 (r_seed s + 1)) (w32 (clk (S (r_calls s)))) = N.lxor (w32 (r_seed s' + 1)) (w32 (clk' (S (r_calls s')))) -> A = A' /\ B = B'.
Proof. exact same_seed_same_matrix. Qed.
Print Assumptions matrix_from_seed.
Example matrix_from_seed_case : N.lxor (w32 (r_seed rng0 + 1)) (w32 (1700000000 + 1)) = N.lxor (w32 (r_seed (SetRandSeed 1700000000 rng0) + 1)) (w32 1).
Proof. vm_compute. reflexivity. Qed.

(** ** C100 *)
(** rand() is seeded once: all numbers, and so all orders of dummy rounds, that a process draws follow from the second
    of its first draw; the library's generator, its state before and the clock later do not matter *)
Fixpoint shuffles {G} (srand : N -> G) (rand : G -> N * G) (clk : nat -> N) (ls : list (list N)) (s : wstate) : list (list N) :=
  match ls with
  | [] => []
  | l :: ls => let '(l', s) := s_shuffle srand rand clk l s in l' :: shuffles srand rand clk ls s
  end.
Theorem shuffles_follow_first_second_refuted : forall G (srand : N -> G) rand clk clk' g g' c c' ls,
  (clk c mod 2 ^ 32 = clk' c' mod 2 ^ 32)%N ->
  shuffles srand rand clk ls (mkws false g c) = shuffles srand rand clk' ls (mkws false g' c').
Proof.
  intros G srand rand clk clk' g g' c c' ls E.
  assert (L : forall n g c c', fst (wRandomList srand rand clk n (mkws true g c)) = fst (wRandomList srand rand clk' n (mkws true g c')) /\
    exists h, snd (wRandomList srand rand clk n (mkws true g c)) = mkws true h c /\ snd (wRandomList srand rand clk' n (mkws true g c')) = mkws true h c').
  { induction n as [|n IH]; intros h d d'; [split; [reflexivity|exists h; split; reflexivity]|]. cbn [wRandomList].
    unfold wRand31. cbn [ws_inited ws_gen ws_calls]. destruct (rand h) as [r h1]. destruct (IH h1 d d') as (F & k & A & B).
    destruct (wRandomList srand rand clk n (mkws true h1 d)) as [u x], (wRandomList srand rand clk' n (mkws true h1 d')) as [v y].
    cbn [fst snd] in *. split; [now rewrite F|]. exists k. split; assumption. }
  assert (M : forall ls g c c', shuffles srand rand clk ls (mkws true g c) = shuffles srand rand clk' ls (mkws true g c')).
  { induction ls0 as [|l ls0 IH]; intros h d d'; [reflexivity|]. cbn [shuffles]. unfold s_shuffle. destruct (L (length l) h d d') as (F & k & A & B).
    destruct (wRandomList srand rand clk (length l) (mkws true h d)) as [u x], (wRandomList srand rand clk' (length l) (mkws true h d')) as [v y].
    cbn [fst snd] in *. subst. f_equal. apply IH. }
  induction ls as [|l ls IH]; [reflexivity|]. cbn [shuffles]. unfold s_shuffle. destruct l as [|a l].
  - cbn [length wRandomList]. now f_equal.
  - cbn [length wRandomList]. unfold wRand31. cbn [ws_inited ws_gen ws_calls]. change (2 ^ 32)%N with 4294967296%N in E. rewrite E.
    destruct (rand (srand (clk' c' mod 4294967296)%N)) as [r h]. destruct (L (length l) h (S c) (S c')) as (F & k & A & B).
    destruct (wRandomList srand rand clk (length l) (mkws true h (S c))) as [u x], (wRandomList srand rand clk' (length l) (mkws true h (S c'))) as [v y].
    cbn [fst snd] in *. subst. f_equal. apply M.
Qed.
Print Assumptions shuffles_follow_first_second_refuted.
(** a generator, two shuffles in one process, the clock moving on or not *)
Example shuffles_case : let srand (x : N) := x in let rand g := ((g * 5 + 3) mod 1000, g * 5 + 3)%N in let l := [1; 2; 3; 4; 5]%N in
  shuffles srand rand (fun n => 7 + N.of_nat n)%N [l; l] (mkws false 0%N 0) = [[2; 4; 5; 3; 1]; [5; 3; 4; 2; 1]]%N /\
  shuffles srand rand (fun n => 7)%N [l; l] (mkws false 99%N 4) = [[2; 4; 5; 3; 1]; [5; 3; 4; 2; 1]]%N.
Proof. vm_compute. split; reflexivity. Qed.

(** from numbers of 31 bits each, every number of 32 bits comes from exactly 2^30 pairs, every number of 64 bits from
    exactly 2^29 triples: uniform inputs give uniform results *)
Theorem wRand32_uniform : forall v f, (v < 2 ^ 32)%N -> (f < 2 ^ 30)%N ->
  exists! p : N * N, (fst p < 2 ^ 31)%N /\ (snd p < 2 ^ 31)%N /\ (fst p / 2 = f)%N /\ wRand32 (fst p) (snd p) = v.
Proof. exact wRand32_lemma. Qed.
Print Assumptions wRand32_uniform.
Theorem wRand64_uniform : forall v f g h, (v < 2 ^ 64)%N -> (f < 2 ^ 10)%N -> (g < 2 ^ 10)%N -> (h < 2 ^ 9)%N ->
  exists! p : N * N * N, let '(a, b, c) := p in (a < 2 ^ 31)%N /\ (b < 2 ^ 31)%N /\ (c < 2 ^ 31)%N /\
    (a / 2 ^ 21 = f)%N /\ (b / 2 ^ 21 = g)%N /\ (c / 2 ^ 22 = h)%N /\ wRand64 a b c = v.
Proof. exact wRand64_lemma. Qed.
Print Assumptions wRand64_uniform.
(** Where RAND_MAX is the least the C standard allows, 2^15 - 1, neither function fills its type. *)
Theorem wRand_full_refuted : forall a b c, (a < 2 ^ 15)%N -> (b < 2 ^ 15)%N -> (c < 2 ^ 15)%N ->
  (wRand32 a b < 2 ^ 16)%N /\ (wRand64 a b c < 2 ^ 57)%N.
Proof. exact wRand_small_lemma. Qed.
Print Assumptions wRand_full_refuted.
Example wRand_case : wRand32 1804289383 846930886 = 259850987%N /\ wRand64 1804289383 846930886 1681692777 = 0xf267eb64134b4567%N.
Proof. vm_compute. split; reflexivity. Qed.
