(** * Programs that use the library by its rules *)
From Verif Require Import Base CbcModel GcmModel FpeModel Sm4Model ParModel LifeModel LifeSpec.
Local Open Scope nat_scope.

(** what a caller holds: the objects it was given, and whether it has released them.  Nothing here models code of
    the library; a caller is a list of calls, each made on objects obtained earlier in the list. *)
Inductive kind :=
| KCtx (n : nat)        (* a cipher context in one block: AES, SM4 (n = 32), white-box AES, se_wbsm4 *)
| KWb (d : nat)         (* a white-box SM4 context with d dummy rounds *)
| KGcm | KFile | KWbgcm (* GCM, GCM for files, white-box GCM *)
| KFpe | KMac.
Definition cipher (k : kind) : bool := match k with KCtx _ | KWb _ => true | _ => false end.
Record handle := mkh { h_kind : kind; h_ptr : cell; h_released : bool }.

Inductive call :=
| Context (n : nat) | SeContext (encmode : N) | WbContext (encmode : N) (d : nat)
| Sm4Key (h : nat) (encmode : N) (key : list N) | SeGen (h : nat) (key maps : list N) | WbGen (h : nat) (key : list N)
| Gcm (h f : nat) | GcmFile (h f : nat) | WbGcm (h f : nat) | GcmUse (h : nat) (b : list N)
| Fpe (h : nat) (tweak : list N) (radix : N) (f : nat) | Mac (h : nat) (tweak : list N) (radix : N) (f : nat)
| Scratch (sizes : list nat) | AppCall (h f : nat) (tweak : list N) (radix : N) (sizes : list nat)
| Parallel (n : nat) (ctr : nat -> list N) | CbcEncrypt (inp padded : list N)
| Release (h : nat).

Section Play.
Variables (al : nat -> answer) (blk : nat -> mem -> cell -> list N -> outcome (option (list N)))
          (tab : nat -> nat -> nat -> nat -> N) (dummy : nat -> bool).
Definition state := (list handle * mem)%type.

Definition get_h (env : list handle) (h : nat) : option handle :=
  match nth_error env h with Some x => if h_released x || is_null (h_ptr x) then None else Some x | None => None end.
(** a cipher context the caller may pass on *)
Definition get_key (env : list handle) (h : nat) : option cell :=
  match get_h env h with Some x => if cipher (h_kind x) then Some (h_ptr x) else None | None => None end.
Definition create (k : kind) (f : M cell) (st : state) : outcome state :=
  obind (f (snd st)) (fun r => Ret (fst st ++ [mkh k (fst r) false], snd r)).
Definition use {A} (f : M A) (st : state) : outcome state := obind (f (snd st)) (fun r => Ret (fst st, snd r)).
(** a release function may also be given NULL where it allows that *)
Definition release (h : nat) (x : handle) (f : M unit) (st : state) : outcome state :=
  obind (f (snd st)) (fun r => Ret (set (fst st) h (mkh (h_kind x) (h_ptr x) true), snd r)).

(** one call; Abort stands for a caller that breaks the rules: it uses an object of another kind, one it has already
    released, or NULL, or sizes that do not belong to the data *)
Definition make (c : call) (st : state) : outcome state :=
  let env := fst st in
  match c with
  | Context n => create (KCtx n) (context_init al n) st
  | SeContext e => create (KCtx se_cells) (life_se_init al e) st
  | WbContext e d => create (KWb d) (life_wbsm4_init al e d) st
  | Sm4Key h e key => match get_h env h with
      | Some (mkh (KCtx 32) p _) => use (life_sm4_key al e p key) st
      | _ => Abort end
  | SeGen h key maps => match get_h env h with
      | Some (mkh (KCtx n) p _) => if (n =? se_cells) && (length maps =? se_cells - 1) then use (life_se_gen al p key maps) st else Abort
      | _ => Abort end
  | WbGen h key => match get_h env h with
      | Some (mkh (KWb d) p _) => use (life_wbsm4_gen al tab dummy p d key) st
      | _ => Abort end
  | Gcm h f => match get_key env h with Some p => create KGcm (life_gcm_init al blk p f) st | None => Abort end
  | GcmFile h f => match get_key env h with Some p => create KFile (life_gcmfile_init al blk p f) st | None => Abort end
  | WbGcm h f => match get_key env h with Some p => create KWbgcm (life_wbgcm_init al blk p f) st | None => Abort end
  | GcmUse h b => match get_h env h with
      | Some (mkh KGcm p _) | Some (mkh KWbgcm p _) => use (life_gcm_block blk p b) st
      | Some (mkh KFile p _) => use (life_gcmfile_block blk p b) st
      | _ => Abort end
  | Fpe h tweak radix f => match get_key env h with Some p => create KFpe (life_fpe_init al tweak radix p f) st | None => Abort end
  | Mac h tweak radix f => match get_key env h with Some p => create KMac (life_mac_init al tweak radix p f) st | None => Abort end
  | Scratch sizes => use (life_scratch al sizes) st
  | AppCall h f tweak radix sizes => match get_key env h with Some p => use (life_app_call al p f tweak radix sizes) st | None => Abort end
  | Parallel n ctr => if forallb (fun i => length (ctr i) =? 16) (seq 0 (len_s n)) then use (life_parallel al n ctr) st else Abort
  | CbcEncrypt inp padded => if length inp <=? length padded then use (life_cbc_encrypt al inp padded) st else Abort
  | Release h => match nth_error env h with
      | Some (mkh k p false) =>
          let x := mkh k p false in
          match k with
          | KCtx _ | KWb _ | KGcm | KFile => if is_null p then Abort else release h x (context_free p) st
          | KWbgcm => if is_null p then Abort else release h x (life_wbgcm_free p) st
          | KFpe => release h x (life_fpe_free p) st
          | KMac => release h x (life_mac_free p) st
          end
      | _ => Abort end
  end.
Definition play (cs : list call) (st : state) : outcome state := fold_left (fun s c => obind s (make c)) cs (Ret st).
End Play.

(** ** What stays behind *)
(** the blocks an object still occupies: only the FPE, FF1-CMAC and white-box GCM contexts are ever given back, and a
    failed FPE initialisation keeps one block *)
Definition occupies (x : handle) : nat :=
  match h_kind x with
  | KCtx _ | KGcm => 1
  | KWb d => 5 + 31 * (32 + 4 * d)
  | KFile => 2
  | KWbgcm => if h_released x then 0 else 1
  | KFpe => if is_null (h_ptr x) then 1 else if h_released x then 0 else 2
  | KMac => if is_null (h_ptr x) then 1 else if h_released x then 0 else 3
  end.
(** the blocks a call obtains and no one can release *)
Definition leaves (c : call) : nat :=
  match c with
  | SeGen _ _ _ | WbGen _ _ | CbcEncrypt _ _ => 1
  | Parallel n _ => 1 + len_s n
  | AppCall _ _ _ radix _ => if (radix <? 2)%N || (36 <? radix)%N then 1 else 0
  | _ => 0
  end.
Definition total (l : list nat) : nat := fold_right Nat.add 0 l.

(** ** Whom a call is about *)
Definition subject (c : call) : option nat :=
  match c with Sm4Key h _ _ | SeGen h _ _ | WbGen h _ | GcmUse h _ | Release h => Some h | _ => None end.
(** the blocks of an object: so many, from its address on *)
Definition span (k : kind) : nat :=
  match k with KCtx _ | KGcm | KWbgcm => 1 | KWb d => 5 + 31 * (32 + 4 * d) | KFile | KFpe => 2 | KMac => 3 end.
Definition untouched (j : nat) (st st' : state) : Prop :=
  forall x lo a, nth_error (fst st) j = Some x -> h_ptr x = Ptr lo -> lo <= a < lo + span (h_kind x) ->
  nth_error (m_blocks (snd st')) a = nth_error (m_blocks (snd st)) a.
