(** * CBC and counter mode over a block function that may fail. *)
From Verif Require Import Base GcmSpec.

(** The modes take the block function from the caller (block128_f); 0 means that it failed.  [None] is such a failure.
    When it does not fail it turns 16 bytes into 16 bytes. *)
Definition partial_block (blk : list N -> option (list N)) : Prop := forall b c, block16 b -> blk b = Some c -> block16 c.

(** SP 800-38A CBC up to the first failure: the ciphertext blocks produced and the argument of the call that failed *)
Fixpoint cbc_enc_until (blk : list N -> option (list N)) (prev : list N) (ps : list (list N)) : list (list N) * option (list N) :=
  match ps with
  | [] => ([], None)
  | p :: ps' =>
    match blk (xorl p prev) with
    | None => ([], Some (xorl p prev))
    | Some c => let '(cs, f) := cbc_enc_until blk c ps' in (c :: cs, f)
    end
  end.
(** CBC decryption up to the first failure: the plaintext blocks, the last ciphertext block deciphered (the IV if there
    is none), and whether all were deciphered *)
Fixpoint cbc_dec_until (blk : list N -> option (list N)) (prev : list N) (cs : list (list N)) : list (list N) * list N * bool :=
  match cs with
  | [] => ([], prev, true)
  | c :: cs' =>
    match blk c with
    | None => ([], prev, false)
    | Some d => let '(ps, w, ok) := cbc_dec_until blk c cs' in (xorl d prev :: ps, w, ok)
    end
  end.
(** SP 800-38D GCTR up to the first failure *)
Fixpoint gctr_until (blk : list N -> option (list N)) (cb : list N) (xs : list (list N)) : list (list N) * bool :=
  match xs with
  | [] => ([], true)
  | x :: xs' =>
    match blk cb with
    | None => ([], false)
    | Some e => let '(os, ok) := gctr_until blk (inc32 cb) xs' in (xorl x (firstn (length x) e) :: os, ok)
    end
  end.
(** a block function that fails always *)
Definition blk_down : list N -> option (list N) := fun _ => None.
