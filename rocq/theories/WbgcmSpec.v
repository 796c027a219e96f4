(** * What the white-box GCM variants are to compute *)
From Verif Require Import Base GcmSpec.
Local Open Scope nat_scope.

(** a string whose bytes go through functions that depend on their position within a block *)
Definition bytewise (F : nat -> N -> N) (x : list N) : list N := map (fun n => F (n mod 16) (get x n)) (seq 0 (length x)).
(** the value hashed for the tag (SP 800-38D, 7.1 steps 4-5) *)
Definition gcm_hash (E : list N -> list N) (aad c : list N) : list N :=
  ghash (hash_key E) (pad16 aad ++ pad16 c ++ len64 aad ++ len64 c).
(** no additional data and no message *)
Definition nothing (aad : list N) (ps : list (list N)) : bool := (length aad =? 0) && (length (concat ps) =? 0).
