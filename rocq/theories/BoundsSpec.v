(** * Contexts that agree inside the declared arrays (for C90)

    The model's tables are functions of their indices.  That the code reads an array only inside its bounds is stated as:
    two contexts that agree inside the bounds, whatever they hold there and however they differ outside, give the same
    results.  The bounds are those of the declarations in /repo. *)
From Verif Require Import Base WbaesModel WbgcmModel Wbsm4Model.
Local Open Scope nat_scope.

(** include/wbcrypto/wbaes.h:14-18: TypeII[10][16][256], TypeIII[9][16][256], TypeIV_II and TypeIV_III
    [9][4][3][8][16][16], TypeIa[16][256] *)
Definition same_tables (t t' : wbtables) : Prop :=
  (forall i j x, i < 10 -> j < 16 -> byte x -> t_II t i j x = t_II t' i j x) /\
  (forall i j x, i < 9 -> j < 16 -> byte x -> t_III t i j x = t_III t' i j x) /\
  (forall i j m k x y, i < 9 -> j < 4 -> m < 3 -> k < 8 -> (x < 16)%N -> (y < 16)%N -> t_IV_II t i j m k x y = t_IV_II t' i j m k x y) /\
  (forall i j m k x y, i < 9 -> j < 4 -> m < 3 -> k < 8 -> (x < 16)%N -> (y < 16)%N -> t_IV_III t i j m k x y = t_IV_III t' i j m k x y) /\
  (forall i x, i < 16 -> byte x -> t_Ia t i x = t_Ia t' i x /\ byte (t_Ia t i x)).
(** wbaes.h:13-20 struct wbaes_context: also TypeIb[16][256] *)
Definition same_wbaes (c c' : wbaes_ctx) : Prop :=
  same_tables (wb_t c) (wb_t c') /\ (forall i x, i < 16 -> byte x -> wb_Ib c i x = wb_Ib c' i x).
(** wbaes_wbgcm_ee.h:15-23: also GBOX_TypeI[16][256], GBOX_TypeIII[16][256][256] *)
Definition same_ee (c c' : ee_ctx) : Prop :=
  same_tables (ee_t c) (ee_t c') /\
  (forall i x, i < 16 -> byte x -> ee_I c i x = ee_I c' i x /\ byte (ee_I c i x)) /\
  (forall i x y, i < 16 -> byte x -> byte y -> ee_III c i x y = ee_III c' i x y /\ byte (ee_III c i x y)).
(** wbaes_wbgcm_mask.h:15-27: also TypeIb[16][256], GBOX_TypeI[16][256], GBOX_TypeII[16][256], GBOX_TypeIII[16][256][256]
    and L1[16] *)
Definition same_mask (c c' : mask_ctx) : Prop :=
  mk_enc c = mk_enc c' /\ same_tables (mk_t c) (mk_t c') /\
  (forall i x, i < 16 -> byte x -> mk_Ib c i x = mk_Ib c' i x /\ byte (mk_Ib c i x)) /\
  (forall i x, i < 16 -> byte x -> mk_I c i x = mk_I c' i x /\ byte (mk_I c i x)) /\
  (forall i x, i < 16 -> byte x -> mk_II c i x = mk_II c' i x /\ byte (mk_II c i x)) /\
  (forall i x y, i < 16 -> byte x -> byte y -> mk_III c i x y = mk_III c' i x y /\ byte (mk_III c i x y)) /\
  (forall i, i < 16 -> mk_L1 c i = mk_L1 c' i).
(** include/wbcrypto/wbsm4.h: SE[4][4][256], FE[4][4][256]; src/wbsm4/wbsm4.c:9-39: MM of rounds times 3 times 4 times 256
    entries, CC, DD and Table of rounds times 4 times 256 *)
Definition in_wbsm4 (rounds : nat) (l : loc) : Prop :=
  match l with
  | LMM i k j x => i < rounds /\ k < 3 /\ j < 4 /\ byte x
  | LCC i j x | LDD i j x | LTable i j x => i < rounds /\ j < 4 /\ byte x
  | LSE i j x | LFE i j x => i < 4 /\ j < 4 /\ byte x
  end.
