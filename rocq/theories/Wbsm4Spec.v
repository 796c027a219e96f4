(** * What the properties of white-box SM4 refer to *)
From Verif Require Import Base Word32 CbcSpec Sm4Spec FpeModel MatModel Wbsm4Model.
From Coq Require Import ZArith.
Local Open Scope nat_scope.

(** the cipher a mode of encryption asks for: SM4, or its inverse when the mode is 0 *)
Definition sm4_for (em : Z) (key b : list N) : list N := if (em =? 0)%Z then std_decrypt (normal_key key) b else std_encrypt (normal_key key) b.
(** memory: one uint32_t per entry *)
Definition memory (junk : loc -> N) : Prop := forall l, word (junk l).
(** [wbsm4_encrypt] as a block function (its failure branch is not reached for generated contexts, by C41) *)
Definition wb_run (ctx : wctx) (b : list N) : list N := match wbsm4_encrypt ctx b with Ret c => c | _ => [] end.
(** a context that holds tables for the key: C41 and C42 give such contexts *)
Definition holds (ctx : wctx) (em : Z) (key : list N) : Prop := forall b, block16 b -> wbsm4_encrypt ctx b = Ret (sm4_for em key b).
