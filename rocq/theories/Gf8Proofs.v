(** * GF(2^8): the multiplication of Sm4Spec is bilinear, commutative and associative *)
From Verif Require Import Base Word32 Sm4Spec MatModel MatSpec MatProofs Wbsm4Proofs.
Local Open Scope N_scope.

Lemma double_lxor p a b : gf8_double p (N.lxor a b) = N.lxor (gf8_double p a) (gf8_double p b).
Proof.
  unfold gf8_double. cbv zeta. replace (2 * N.lxor a b) with (N.lxor (2 * a) (2 * b)).
  - rewrite N.lxor_spec. destruct (N.testbit (2 * a) 8), (N.testbit (2 * b) 8); cbn [xorb]; xors.
  - apply N.bits_inj. intros i. rewrite N.lxor_spec. destruct (N.eq_dec i 0) as [->|I].
    + now rewrite !N.testbit_even_0.
    + replace i with (N.succ (N.pred i)) by lia. rewrite !N.testbit_even_succ by lia. now rewrite N.lxor_spec.
Qed.
Lemma mul_loop_lxor_l p n : forall a a' b, gf8_mul_loop p n (N.lxor a a') b = N.lxor (gf8_mul_loop p n a b) (gf8_mul_loop p n a' b).
Proof.
  induction n as [|n IH]; intros a a' b; cbn [gf8_mul_loop]; [reflexivity|]. rewrite double_lxor, IH.
  destruct (N.odd b); xors.
Qed.
Lemma mul_loop_lxor_r p n : forall a b b', gf8_mul_loop p n a (N.lxor b b') = N.lxor (gf8_mul_loop p n a b) (gf8_mul_loop p n a b').
Proof.
  induction n as [|n IH]; intros a b b'; cbn [gf8_mul_loop]; [reflexivity|].
  rewrite !N.div2_spec, N.shiftr_lxor, <- !N.div2_spec, IH. rewrite <- !N.bit0_odd, N.lxor_spec.
  destruct (N.testbit b 0), (N.testbit b' 0); cbn [xorb]; xors.
Qed.
Lemma mul_lxor_l p a a' b : gf8_mul p (N.lxor a a') b = N.lxor (gf8_mul p a b) (gf8_mul p a' b).
Proof. apply mul_loop_lxor_l. Qed.
Lemma mul_lxor_r p a b b' : gf8_mul p a (N.lxor b b') = N.lxor (gf8_mul p a b) (gf8_mul p a b').
Proof. apply mul_loop_lxor_r. Qed.

(** polynomials of degree 8 *)
Definition degree8 (p : N) : Prop := p < 512 /\ N.testbit p 8 = true.
Lemma double_byte p a : degree8 p -> byte a -> byte (gf8_double p a).
Proof.
  intros [P T] A. unfold gf8_double, byte in *. cbv zeta. destruct (N.testbit (2 * a) 8) eqn:B.
  - assert (H : vector 8 (N.lxor (2 * a) p)).
    { apply vector_bits. intros i I. rewrite N.lxor_spec. change (N.of_nat 8) with 8 in I. destruct (N.eq_dec i 8) as [->|J]; [now rewrite B, T|].
      rewrite (testbit_high (2 * a) 9), (testbit_high p 9) by (change (2 ^ 9) with 512; lia). reflexivity. }
    exact H.
  - assert (H : vector 8 (2 * a)).
    { apply vector_bits. intros i I. change (N.of_nat 8) with 8 in I. destruct (N.eq_dec i 8) as [->|J]; [exact B|].
      apply (testbit_high _ 9); [change (2 ^ 9) with 512; lia|lia]. }
    exact H.
Qed.
Lemma mul_loop_byte p n : degree8 p -> forall a b, byte a -> byte (gf8_mul_loop p n a b).
Proof.
  intros P. induction n as [|n IH]; intros a b A; cbn [gf8_mul_loop]; [reflexivity|].
  apply byte_lxor; [destruct (N.odd b); [exact A|reflexivity]|]. apply IH. now apply double_byte.
Qed.
Lemma mul_byte p a b : degree8 p -> byte a -> byte (gf8_mul p a b).
Proof. intros. now apply mul_loop_byte. Qed.

Lemma basis_sweep (P : N -> bool) : forallb P (map (fun k => 2 ^ N.of_nat k) (seq 0 8)) = true -> forall k, (k < 8)%nat -> P (2 ^ N.of_nat k) = true.
Proof. intros H k K. rewrite forallb_forall in H. apply H. apply (in_map (fun k => 2 ^ N.of_nat k)). apply in_seq. lia. Qed.

Definition basis : list N := [1; 2; 4; 8; 16; 32; 64; 128].
Lemma in_basis k : (k < 8)%nat -> In (2 ^ N.of_nat k) basis.
Proof. intros K. do 8 (destruct k as [|k]; [cbn; tauto|]). lia. Qed.
Lemma basis_byte x : In x basis -> byte x.
Proof. cbn. unfold byte. intuition lia. Qed.
Definition additive8 (f : N -> N) : Prop := forall a b, byte a -> byte b -> f (N.lxor a b) = N.lxor (f a) (f b).
Lemma byte_ext f g : additive8 f -> additive8 g -> (forall x, In x basis -> f x = g x) -> forall x, byte x -> f x = g x.
Proof. intros F G H x X. apply (linear_ext 8 f g F G); [|exact X]. intros k K. apply H, in_basis, K. Qed.

Definition polys : list N := [0x1f5; 0x11b].
Section Field.
Variable p : N.
Hypothesis POLY : In p polys.
Let m := gf8_mul p.
Lemma poly_degree : degree8 p.
Proof. destruct POLY as [<-|[<-|[]]]; split; reflexivity. Qed.
Lemma m_byte a b : byte a -> byte (m a b).
Proof. apply mul_byte, poly_degree. Qed.

Lemma comm_sweep : forallb (fun a => forallb (fun b => gf8_mul p a b =? gf8_mul p b a) basis) basis = true.
Proof. destruct POLY as [<-|[<-|[]]]; vm_compute; reflexivity. Qed.
Lemma m_comm a b : byte a -> byte b -> m a b = m b a.
Proof.
  intros A B. unfold m. apply (byte_ext (fun a => gf8_mul p a b) (fun a => gf8_mul p b a)); auto.
  - intros x y _ _. apply mul_lxor_l.
  - intros x y _ _. apply mul_lxor_r.
  - intros x X. apply (byte_ext (fun b => gf8_mul p x b) (fun b => gf8_mul p b x)); auto.
    + intros ? ? _ _. apply mul_lxor_r.
    + intros ? ? _ _. apply mul_lxor_l.
    + intros y Y. apply N.eqb_eq. pose proof comm_sweep as S. rewrite forallb_forall in S. specialize (S x X). rewrite forallb_forall in S. exact (S y Y).
Qed.
Lemma assoc_sweep : forallb (fun a => forallb (fun b => forallb (fun c => gf8_mul p (gf8_mul p a b) c =? gf8_mul p a (gf8_mul p b c)) basis) basis) basis = true.
Proof. destruct POLY as [<-|[<-|[]]]; vm_compute; reflexivity. Qed.
Lemma m_assoc a b c : byte a -> byte b -> byte c -> m (m a b) c = m a (m b c).
Proof.
  intros A B C. unfold m. apply (byte_ext (fun a => gf8_mul p (gf8_mul p a b) c) (fun a => gf8_mul p a (gf8_mul p b c))); auto.
  - intros x y _ _. now rewrite !mul_lxor_l.
  - intros x y _ _. apply mul_lxor_l.
  - intros x X. apply (byte_ext (fun b => gf8_mul p (gf8_mul p x b) c) (fun b => gf8_mul p x (gf8_mul p b c))); auto.
    + intros ? ? _ _. now rewrite mul_lxor_r, mul_lxor_l.
    + intros ? ? _ _. now rewrite mul_lxor_l, mul_lxor_r.
    + intros y Y. apply (byte_ext (fun c => gf8_mul p (gf8_mul p x y) c) (fun c => gf8_mul p x (gf8_mul p y c))); auto.
      * intros ? ? _ _. apply mul_lxor_r.
      * intros ? ? _ _. now rewrite !mul_lxor_r.
      * intros z Z. apply N.eqb_eq. pose proof assoc_sweep as S. rewrite forallb_forall in S. specialize (S x X). rewrite forallb_forall in S. specialize (S y Y).
        rewrite forallb_forall in S. exact (S z Z).
Qed.
Lemma m_one_l a : byte a -> m 1 a = a.
Proof.
  intros A. apply (byte_ext (fun a => m 1 a) (fun a => a)); auto.
  - intros ? ? _ _. apply mul_lxor_r.
  - intros ? ? _ _. reflexivity.
  - intros x X. unfold m. destruct POLY as [<-|[<-|[]]]; cbn [In basis] in X; repeat (destruct X as [<-|X]; [vm_compute; reflexivity|]); destruct X.
Qed.
Lemma m_swap a b c d : byte a -> byte b -> byte c -> byte d -> m (m a b) (m c d) = m (m a c) (m b d).
Proof.
  intros A B C D. rewrite (m_assoc a b (m c d)) by auto using m_byte. rewrite <- (m_assoc b c d) by auto. rewrite (m_comm b c) by auto.
  rewrite (m_assoc c b d) by auto. now rewrite <- (m_assoc a c (m b d)) by auto using m_byte.
Qed.
Lemma inv_byte a : byte a -> byte (gf8_inv p a).
Proof. intros A. unfold gf8_inv. cbv zeta. change (gf8_mul p) with m. auto 20 using m_byte. Qed.
Lemma inv_mul a b : byte a -> byte b -> gf8_inv p (m a b) = m (gf8_inv p a) (gf8_inv p b).
Proof.
  intros A B. unfold gf8_inv. cbv zeta. change (gf8_mul p) with m. rewrite (m_swap a b a b) by assumption.
  pose proof (m_byte a a A) as A2. pose proof (m_byte b b B) as B2. set (a2 := m a a) in *. set (b2 := m b b) in *. clearbody a2 b2.
  rewrite (m_swap a2 b2 a2 b2) by assumption.
  pose proof (m_byte a2 a2 A2) as A4. pose proof (m_byte b2 b2 B2) as B4. set (a4 := m a2 a2) in *. set (b4 := m b2 b2) in *. clearbody a4 b4.
  rewrite (m_swap a4 b4 a4 b4) by assumption.
  pose proof (m_byte a4 a4 A4) as A8. pose proof (m_byte b4 b4 B4) as B8. set (a8 := m a4 a4) in *. set (b8 := m b4 b4) in *. clearbody a8 b8.
  rewrite (m_swap a8 b8 a8 b8) by assumption.
  pose proof (m_byte a8 a8 A8) as A16. pose proof (m_byte b8 b8 B8) as B16. set (a16 := m a8 a8) in *. set (b16 := m b8 b8) in *. clearbody a16 b16.
  rewrite (m_swap a16 b16 a16 b16) by assumption.
  pose proof (m_byte a16 a16 A16) as A32. pose proof (m_byte b16 b16 B16) as B32. set (a32 := m a16 a16) in *. set (b32 := m b16 b16) in *. clearbody a32 b32.
  rewrite (m_swap a32 b32 a32 b32) by assumption.
  pose proof (m_byte a32 a32 A32) as A64. pose proof (m_byte b32 b32 B32) as B64. set (a64 := m a32 a32) in *. set (b64 := m b32 b32) in *. clearbody a64 b64.
  rewrite (m_swap a64 b64 a64 b64) by assumption.
  pose proof (m_byte a64 a64 A64) as A128. pose proof (m_byte b64 b64 B64) as B128. set (a128 := m a64 a64) in *. set (b128 := m b64 b64) in *. clearbody a128 b128.
  rewrite (m_swap a64 b64 a128 b128) by assumption.
  rewrite (m_swap a32 b32) by auto using m_byte. rewrite (m_swap a16 b16) by auto using m_byte. rewrite (m_swap a8 b8) by auto 10 using m_byte.
  rewrite (m_swap a4 b4) by auto 10 using m_byte. rewrite (m_swap a2 b2) by auto 20 using m_byte. reflexivity.
Qed.
Lemma inv_sweep : forallb (fun i => gf8_mul p (N.of_nat i) (gf8_inv p (N.of_nat i)) =? 1) (seq 1 255) = true.
Proof. destruct POLY as [<-|[<-|[]]]; vm_compute; reflexivity. Qed.
Lemma m_inv a : byte a -> a <> 0 -> m a (gf8_inv p a) = 1.
Proof.
  intros A Z. pose proof inv_sweep as S. rewrite forallb_forall in S. unfold byte in A. specialize (S (N.to_nat a) ltac:(apply in_seq; lia)).
  rewrite N2Nat.id in S. now apply N.eqb_eq in S.
Qed.
(** x^(2^k) *)
Definition frob (k : nat) (x : N) : N := Nat.iter k (fun y => m y y) x.
Lemma frob_S k x : frob (S k) x = m (frob k x) (frob k x).
Proof. reflexivity. Qed.
Lemma frob_byte k x : byte x -> byte (frob k x).
Proof. intros X. induction k; [exact X|]. rewrite frob_S. now apply m_byte. Qed.
Lemma frob_lxor k x y : byte x -> byte y -> frob k (N.lxor x y) = N.lxor (frob k x) (frob k y).
Proof.
  intros X Y. induction k as [|k IH]; [reflexivity|]. rewrite !frob_S, IH. unfold m. rewrite mul_lxor_r, !mul_lxor_l. change (gf8_mul p) with m.
  rewrite (m_comm (frob k y) (frob k x)) by auto using frob_byte. set (u := m (frob k x) (frob k y)). xors.
Qed.
Lemma frob_mul k x y : byte x -> byte y -> frob k (m x y) = m (frob k x) (frob k y).
Proof. intros X Y. induction k as [|k IH]; [reflexivity|]. rewrite !frob_S, IH. apply m_swap; auto using frob_byte. Qed.
Lemma frob_add j k x : frob j (frob k x) = frob (j + k) x.
Proof. induction j as [|j IH]; [reflexivity|]. cbn [plus]. now rewrite !frob_S, IH. Qed.
Lemma frob_8 x : byte x -> frob 8 x = x.
Proof.
  intros X. apply (byte_ext (frob 8) (fun x => x)); auto.
  - intros a b A B. now apply frob_lxor.
  - intros ? ? _ _. reflexivity.
  - intros b B. unfold frob, m. destruct POLY as [<-|[<-|[]]]; cbn [In basis] in B; repeat (destruct B as [<-|B]; [vm_compute; reflexivity|]); destruct B.
Qed.
Lemma inv_frob k x : byte x -> gf8_inv p (frob k x) = frob k (gf8_inv p x).
Proof. intros X. induction k as [|k IH]; [unfold frob; cbn [Nat.iter nat_rect]; reflexivity|]. rewrite (frob_S k x), (frob_S k (gf8_inv p x)). pose proof (frob_byte k x X) as F. rewrite (inv_mul _ _ F F). rewrite IH. reflexivity. Qed.
End Field.
