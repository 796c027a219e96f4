(** * Model of src/modes/gcm_parallel.c *)
From Verif Require Import Base CbcModel GcmModel.
Local Open Scope nat_scope.

(** [len_s = (len - 1) / 16 + 1] in int arithmetic (gcm_parallel.c:19, :86); C division truncates,
    so len = 0 gives 1 *)
Definition len_s (n : nat) : nat := if n =? 0 then 1 else (n - 1) / 16 + 1.
(** gcm_parallel.c:40-44, :107-111 (and :55-59, :122-126) *)
Definition use_len (n i : nat) : nat :=
  if i =? len_s n - 1 then (if n mod 16 =? 0 then 16 else n mod 16) else 16.
(** gcm_parallel.c:22-30, :89-97: the counter blocks, and ctx->y afterwards *)
Fixpoint y_arr (k : nat) (y : list N) : list (list N) * list N :=
  match k with
  | O => ([], y)
  | S k' => let y' := ctr_incr y in let '(a, z) := y_arr k' y' in (y' :: a, z)
  end.

(** The parallel region (gcm_parallel.c:34-51, :101-118).  A worker runs the iterations assigned to
    it by [omp for]; one step is one of: fetch the next iteration (this includes the pure
    computation of use_len and ectr), j = 0, the test j < use_len, the assignment to out, j++.
    Simplification: each of these is atomic (real interleavings are finer, so this is a subset of
    the real ones); the return value of the block function is ignored by the code, so the block
    function is taken to be total. *)
Inductive phase := PInit | PTest | PBody | PInc.
Record thr := mkthr { t_todo : list nat; t_run : option (nat * phase); t_j : nat }.

Section Region.
  Variable E : list N -> list N.     (* block function *)
  Variable ys : list (list N).       (* y_arr *)
  Variable inp : list N.
  (** one step of a worker on (worker, value of j, out); [None]: access outside in, out or ectr *)
  Definition local_step (t : thr) (j : nat) (out : list N) : option (thr * nat * list N) :=
    match t_run t with
    | None => match t_todo t with
              | [] => Some (t, j, out)
              | i :: r => Some (mkthr r (Some (i, PInit)) (t_j t), j, out)
              end
    | Some (i, PInit) => Some (mkthr (t_todo t) (Some (i, PTest)) (t_j t), 0, out)
    | Some (i, PTest) =>
        if j <? use_len (length inp) i
        then Some (mkthr (t_todo t) (Some (i, PBody)) (t_j t), j, out)
        else Some (mkthr (t_todo t) None (t_j t), j, out)
    | Some (i, PBody) =>
        do e <- nth_error (E (nth i ys [])) j;
        do x <- nth_error inp (16 * i + j);
        if 16 * i + j <? length out
        then Some (mkthr (t_todo t) (Some (i, PInc)) (t_j t), j, set out (16 * i + j) (N.lxor e x))
        else None
    | Some (i, PInc) => Some (mkthr (t_todo t) (Some (i, PTest)) (t_j t), j + 1, out)
    end.

  (** the program as written: j is declared outside the region (gcm_parallel.c:13, :80), so all
      workers share it *)
  Record pstate := mkps { s_j : nat; s_out : list N; s_thr : list thr }.
  Definition set_j (t : thr) (j : nat) : thr := mkthr (t_todo t) (t_run t) j.
  Definition par_step (st : pstate) (tid : nat) : option pstate :=
    match nth_error (s_thr st) tid with
    | None => Some st
    | Some t => do r <- local_step t (s_j st) (s_out st);
                let '(t', j', out') := r in Some (mkps j' out' (set (s_thr st) tid t'))
    end.
  (** hypothetical program with j private to each worker (for comparison; not in /repo) *)
  Definition priv_step (st : pstate) (tid : nat) : option pstate :=
    match nth_error (s_thr st) tid with
    | None => Some st
    | Some t => do r <- local_step t (t_j t) (s_out st);
                let '(t', j', out') := r in Some (mkps (s_j st) out' (set (s_thr st) tid (set_j t' j')))
    end.
  (** a schedule is the list of worker numbers in the order in which they take a step *)
  Fixpoint run_sched (step : pstate -> nat -> option pstate) (st : pstate) (sched : list nat) : option pstate :=
    match sched with [] => Some st | tid :: s' => do st' <- step st tid; run_sched step st' s' end.
  Definition par_done (st : pstate) : Prop :=
    Forall (fun t => t_todo t = [] /\ t_run t = None) (s_thr st).
End Region.

(** [todos]: the iterations assigned to each worker *)
Definition par_start (j0 : nat) (out : list N) (todos : list (list nat)) : pstate :=
  mkps j0 out (map (fun td => mkthr td None 0) todos).

(** the sequential tail: GHASH of the first len bytes of out, in len_s slices
    (gcm_parallel.c:53-65, :120-132) *)
Definition par_hash (HH HL : list N) (n : nat) (out acc : list N) : list N :=
  fold_left (fun a i => gcm_mult HH HL (xor_into a (firstn (use_len n i) (skipn (16 * i) out))))
            (seq 0 (len_s n)) acc.

(** src/modes/gcm_parallel.c:4-69 WBCRYPTO_gcm_parallel_encrypt and, with the same text except for the
    error message, :71-136 WBCRYPTO_gcm_parallel_decrypt.  [outbuf] is the caller's buffer (outlen bytes),
    [step] the semantics of the region, [todos]/[sched] the run-time's choices, [j0] the value left
    in j by the loop of lines 28-29 (16).  Result: return value, context, whole output buffer.
    [None]: out-of-bounds access, an input longer than INT_MAX, or a schedule that does not run
    the region to its end. *)
Definition region_ended (st : pstate) : bool :=
  forallb (fun t => match t_todo t, t_run t with [], None => true | _, _ => false end) (s_thr st).
Definition gcm_parallel_with
  (step : (list N -> list N) -> list (list N) -> list N -> pstate -> nat -> option pstate)
  (E : list N -> list N) (c : gcm_ctx) (inp outbuf : list N)
  (todos : list (list nat)) (sched : list nat) : option (bool * gcm_ctx * list N) :=
  if length outbuf <? length inp then Some (false, c, outbuf)
  else if (int_max <? N.of_nat (length inp))%N then None
  else
    let '(ys, y') := y_arr (len_s (length inp)) (g_y c) in
    do st <- run_sched (step E ys inp) (par_start 16 outbuf todos) sched;
    if region_ended st then
      let out := s_out st in
      if length out <? 16 * (len_s (length inp) - 1) + use_len (length inp) (len_s (length inp) - 1) then None
      else
      Some (true, mkgcm (w64 (g_len c + N.of_nat (length inp))) (g_add_len c) (g_HL c) (g_HH c) (g_base c) y'
                    (par_hash (g_HH c) (g_HL c) (length inp) out (g_buf c)), out)
    else None.
Definition gcm_parallel_encrypt := gcm_parallel_with par_step.
Definition gcm_parallel_decrypt := gcm_parallel_with par_step.

(** every iteration is assigned to some worker (what [omp for] guarantees; it also assigns none
    twice, which the theorems do not need), and none out of range *)
Definition work_split (n : nat) (todos : list (list nat)) : Prop :=
  (forall i, i < len_s n -> exists td, In td todos /\ In i td) /\
  Forall (Forall (fun i => i < len_s n)) todos.
(** schedules in which no worker is in the middle of an iteration while another one takes a step *)
Fixpoint exclusive (step : pstate -> nat -> option pstate) (st : pstate) (sched : list nat) : Prop :=
  match sched with
  | [] => True
  | tid :: s' =>
    (forall k t, nth_error (s_thr st) k = Some t -> k <> tid -> t_run t = None) /\
    match step st tid with None => True | Some st' => exclusive step st' s' end
  end.

(** ** Client-side views used to state the properties (not code of /repo) *)
(** The result of WBCRYPTO_gcm_encrypt (gcm_crypt Enc) as the caller sees it: return value,
    context, whole output buffer. *)
Definition sequential (d : dir) (E : list N -> list N) (c : gcm_ctx) (inp outbuf : list N) : bool * gcm_ctx * list N :=
  let '(ok, c', o) := gcm_crypt d (lift E) c inp (length outbuf) in (ok, c', o ++ skipn (length o) outbuf).

