(** * What the properties about the life of heap objects speak of *)
From Verif Require Import Base LifeModel Sm4Spec.
Local Open Scope nat_scope.

(** the blocks handed out and not released *)
Definition live_blocks (m : mem) : nat := length (filter b_live (m_blocks m)).
(** block [a] is live and its contents are the numbers [vs] *)
Definition holds (m : mem) (a : nat) (vs : list N) : Prop :=
  nth_error (m_blocks m) a = Some (mkblk true (map Num vs)).
(** following pointers stored in live blocks, starting from the addresses [roots] the program still has *)
Inductive reaches (m : mem) (roots : list nat) : nat -> Prop :=
| r_root a : In a roots -> reaches m roots a
| r_step a cs b : reaches m roots a -> nth_error (m_blocks m) a = Some (mkblk true cs) -> In (Ptr b) cs -> reaches m roots b.
(** a heap without pointers to blocks that were never handed out *)
Definition closed (m : mem) : Prop :=
  forall a b c, nth_error (m_blocks m) a = Some b -> In (Ptr c) (b_cells b) -> c < length (m_blocks m).
(** the allocator always has memory, and shrinks or keeps a block in place *)
Definition plenty (al : nat -> answer) : Prop := forall n, al n = Stay.

(** ** The SM4 key schedule backwards: the key from its last four round keys *)
Definition unround (TT : N -> N) (s : state) (rk : N) : state :=
  let '(x1, x2, x3, x4) := s in (N.lxor x4 (TT (N.lxor (N.lxor (N.lxor x1 x2) x3) rk)), x1, x2, x3).
Definition sm4_key_of_round_keys (rks : list N) : list N :=
  st_to (st_xor (fold_left (unround T') (rev (map std_CK (seq 0 32)))
                           (get rks 28, get rks 29, get rks 30, get rks 31)) std_FK).

(** after a call that led from [m] to [m'], a live block holds round keys from which [key] can be computed (in the order
    of encryption or of decryption), and no address handed out before the call leads to that block *)
Definition keeps_key (m m' : mem) (key : list N) : Prop :=
  exists a rks, holds m' a rks /\
    (forall roots, (forall x, In x roots -> x < length (m_blocks m)) -> ~ reaches m' roots a) /\
    (sm4_key_of_round_keys rks = normal_key key \/ sm4_key_of_round_keys (rev rks) = normal_key key).
