(** * How far the AES S-box is from linear: what reading the key off white-box tables rests on *)
From Verif Require Import Base Word32 GcmModel FpeModel MatModel MatSpec MatProofs ComProofs AesSpec AesModel AesProofs WbaesModel WbaesProofs Span.
From Coq Require Import ZifyBool ZifyNat ZifyN.
Local Open Scope nat_scope.

(** ** The S-box *)
(** what supposing a key byte that is wrong by [e] does to the S-box output *)
Definition shifted_sbox (e s : N) : N := sbox (N.lxor (aes_inv_sbox s) e).
Definition inv_tab : list N := map aes_inv_sbox (map N.of_nat (seq 0 64)).
Definition sigma (e : N) : list N := map (fun y => sbox (N.lxor y e)) inv_tab.
(** its differences for S-box outputs below 64 *)
Definition derivs_on (l : list nat) (tab : list N) (d : nat) : list N :=
  map (fun s => N.lxor (get tab s) (get tab (N.to_nat (N.lxor (N.of_nat s) (N.of_nat d))))) (filter (fun s => s <? N.to_nat (N.lxor (N.of_nat s) (N.of_nat d))) l).
Lemma in_derivs_on l tab d x : In x (derivs_on l tab d) -> exists s, In s l /\ x = N.lxor (get tab s) (get tab (N.to_nat (N.lxor (N.of_nat s) (N.of_nat d)))).
Proof. intros IX. unfold derivs_on in IX. apply in_map_iff in IX. destruct IX as (s & <- & IS). apply filter_In in IS. exists s. now split. Qed.
Definition derivs (tab : list N) (d : nat) : list N := derivs_on (seq 0 64) tab d.
Definition wide (tab : list N) (d : nat) : bool := spans 8 (firstn 12 (derivs tab d)) || spans 8 (derivs tab d).
Definition row (e : nat) : bool := (fun tab => forallb (wide tab) (seq 1 31)) (sigma (N.of_nat e)).
Definition sweep : bool := forallb row (seq 1 255).
Lemma sweep_true : sweep = true.
Proof. vm_compute. reflexivity. Qed.
#[local] Opaque aes_inv_sbox sbox spans.
Lemma forallb_in {A} (f : A -> bool) l x : forallb f l = true -> In x l -> f x = true.
Proof. intros F. now apply forallb_forall. Qed.
Lemma sweep_at e d : 1 <= e < 256 -> 1 <= d < 32 -> wide (sigma (N.of_nat e)) d = true.
Proof.
  intros E D. assert (R : row e = true) by (apply (forallb_in row (seq 1 255)); [exact sweep_true|apply in_seq; lia]).
  apply (forallb_in (wide (sigma (N.of_nat e))) (seq 1 31)); [exact R|apply in_seq; lia].
Qed.
#[local] Opaque sweep row.
Lemma get_sigma e s : s < 64 -> get (sigma e) s = shifted_sbox e (N.of_nat s).
Proof. intros L. unfold sigma, inv_tab. rewrite !map_map. rewrite get_map_seq by exact L. reflexivity. Qed.
Lemma xor_small s d : s < 64 -> d < 64 -> N.to_nat (N.lxor (N.of_nat s) (N.of_nat d)) < 64.
Proof. intros S D. assert (N.lxor (N.of_nat s) (N.of_nat d) < 2 ^ 6)%N by (apply lxor_lt; change (2 ^ 6)%N with 64%N; lia). change (2 ^ 6)%N with 64%N in *. lia. Qed.
Lemma in_firstn {A} n (l : list A) x : In x (firstn n l) -> In x l.
Proof. intros I. rewrite <- (firstn_skipn n l). apply in_or_app. now left. Qed.
Lemma spans8_zero f l : (forall x y, byte x -> byte y -> f (N.lxor x y) = N.lxor (f x) (f y)) ->
  (forall x, In x l -> byte x /\ f x = 0%N) -> spans 8 l = true -> forall x, byte x -> f x = 0%N.
Proof. exact (spans_zero f 8 l). Qed.
(** an additive function that cannot see the derivative in one direction is zero *)
Lemma derivs_zero (f : N -> N) tab d l : (forall x y, byte x -> byte y -> f (N.lxor x y) = N.lxor (f x) (f y)) -> (forall s, byte (get tab s)) ->
  (forall s, In s l -> f (get tab s) = f (get tab (N.to_nat (N.lxor (N.of_nat s) (N.of_nat d))))) ->
  forall x, In x (derivs_on l tab d) -> byte x /\ f x = 0%N.
Proof.
  intros A BT H x IX. apply in_derivs_on in IX. destruct IX as (s & IS & ->). split; [apply byte_lxor; apply BT|].
  rewrite A by apply BT. rewrite <- H by exact IS. apply N.lxor_nilpotent.
Qed.
Lemma wide_zero (f : N -> N) l n : (forall x y, byte x -> byte y -> f (N.lxor x y) = N.lxor (f x) (f y)) ->
  spans 8 (firstn n l) || spans 8 l = true -> (forall x, In x l -> byte x /\ f x = 0%N) -> forall x, byte x -> f x = 0%N.
Proof.
  intros A W Z. apply orb_prop in W. destruct W as [W|W].
  - apply (spans8_zero f (firstn n l)); [exact A| |exact W]. intros x IX. apply Z. exact (in_firstn n _ _ IX).
  - apply (spans8_zero f l); [exact A|exact Z|exact W].
Qed.
Lemma bytes_all (l : list N) : bytes l -> forall s, byte (get l s).
Proof. intros B s. now apply bytes_get. Qed.
Lemma bytes_sigma e : bytes (sigma e).
Proof. apply Forall_forall. intros x I. apply in_map_iff in I. destruct I as (y & <- & _). apply wsbox_byte. Qed.
Lemma no_structure_tab (f : N -> N) tab d l : (forall x y, byte x -> byte y -> f (N.lxor x y) = N.lxor (f x) (f y)) ->
  spans 8 (firstn 12 (derivs_on l tab d)) || spans 8 (derivs_on l tab d) = true -> bytes tab ->
  (forall s, In s l -> f (get tab s) = f (get tab (N.to_nat (N.lxor (N.of_nat s) (N.of_nat d))))) -> forall x, byte x -> f x = 0%N.
Proof.
  intros A W B H. apply (wide_zero f (derivs_on l tab d) 12 A W). exact (derivs_zero f tab d l A (bytes_all tab B) H).
Qed.
#[local] Opaque sigma derivs_on.
Lemma no_structure (f : N -> N) e d : (forall x y, byte x -> byte y -> f (N.lxor x y) = N.lxor (f x) (f y)) ->
  1 <= e < 256 -> 1 <= d < 32 ->
  (forall s, byte s -> f (shifted_sbox (N.of_nat e) s) = f (shifted_sbox (N.of_nat e) (N.lxor s (N.of_nat d)))) -> forall x, byte x -> f x = 0%N.
Proof.
  intros A E D H. apply (no_structure_tab f (sigma (N.of_nat e)) d (seq 0 64) A (sweep_at e d E D) (bytes_sigma _)).
  intros s L. apply in_seq in L. rewrite !get_sigma by (try apply xor_small; lia). rewrite N2Nat.id. apply H. unfold byte. lia.
Qed.

Lemma NoDup_map_in {A B} (f : A -> B) l : (forall a b, In a l -> In b l -> f a = f b -> a = b) -> NoDup l -> NoDup (map f l).
Proof.
  induction l as [|x l IH]; intros I ND; [constructor|]. apply NoDup_cons_iff in ND. destruct ND as [NI ND]. cbn [map]. constructor.
  - intros IX. apply in_map_iff in IX. destruct IX as (y & E & IY). apply NI. rewrite <- (I y x); [exact IY|now right|now left|exact E].
  - apply IH; [|exact ND]. intros a b IA IB. apply I; now right.
Qed.

(** ** Two differences out of 32 look alike to a nibble *)
Lemma nibble_kernel (f : N -> N) : (forall x y, byte x -> byte y -> f (N.lxor x y) = N.lxor (f x) (f y)) -> (forall x, byte x -> nibble (f x)) ->
  exists d, 1 <= d < 32 /\ f (N.of_nat d) = 0%N.
Proof.
  intros A NB. destruct (existsb (fun d => f (N.of_nat d) =? 0)%N (seq 1 31)) eqn:X.
  - apply existsb_exists in X. destruct X as (d & ID & E). apply in_seq in ID. apply N.eqb_eq in E. exists d. split; [lia|exact E].
  - exfalso. assert (NZ : forall d, 1 <= d < 32 -> f (N.of_nat d) <> 0%N).
    { intros d D E. assert (T : existsb (fun d => f (N.of_nat d) =? 0)%N (seq 1 31) = true); [|congruence]. apply existsb_exists. exists d. split; [apply in_seq; lia|]. now apply N.eqb_eq. }
    assert (ND : NoDup (map (fun d => f (N.of_nat d)) (seq 0 32))).
    { apply NoDup_map_in; [|apply seq_NoDup]. intros a b IA IB E. apply in_seq in IA. apply in_seq in IB.
      destruct (Nat.eq_dec a b) as [|NE]; [assumption|exfalso].
      assert (BX : (N.lxor (N.of_nat a) (N.of_nat b) < 2 ^ 5)%N) by (apply lxor_lt; change (2 ^ 5)%N with 32%N; lia). change (2 ^ 5)%N with 32%N in BX.
      apply (NZ (N.to_nat (N.lxor (N.of_nat a) (N.of_nat b)))).
      - split; [|lia]. assert (N.lxor (N.of_nat a) (N.of_nat b) <> 0%N) by (intros Q; apply N.lxor_eq in Q; lia). lia.
      - rewrite N2Nat.id, A by (unfold byte; lia). rewrite E. apply N.lxor_nilpotent. }
    assert (IN : incl (map (fun d => f (N.of_nat d)) (seq 0 32)) (map N.of_nat (seq 0 16))).
    { intros y IY. apply in_map_iff in IY. destruct IY as (d & <- & ID). apply in_seq in ID. specialize (NB (N.of_nat d) ltac:(unfold byte; lia)). unfold nibble in NB.
      apply in_map_iff. exists (N.to_nat (f (N.of_nat d))). split; [apply N2Nat.id|]. apply in_seq. lia. }
    pose proof (NoDup_incl_length ND IN) as L. rewrite !map_length, !seq_length in L. lia.
Qed.
