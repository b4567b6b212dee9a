(* Scalars of the model: any commutative ring with conjugation and decidable equality stands
   for the complex floating-point types of the project (exact arithmetic; see DESIGN.md). *)
From Verif Require Import Base.
From Coq Require Import Ring Ring_theory Permutation.

Record scalar := Scal {
  K :> Type;
  k0 : K; k1 : K;
  kadd : K -> K -> K; kmul : K -> K -> K; ksub : K -> K -> K; kopp : K -> K;
  kconj : K -> K;
  keqb : K -> K -> bool;
  k_ring : ring_theory k0 k1 kadd kmul ksub kopp (@eq K);
  kconj_add : forall x y, kconj (kadd x y) = kadd (kconj x) (kconj y);
  kconj_mul : forall x y, kconj (kmul x y) = kmul (kconj x) (kconj y);
  kconj_conj : forall x, kconj (kconj x) = x;
  keqb_eq : forall x y, keqb x y = true <-> x = y
}.
Arguments k0 {s}. Arguments k1 {s}. Arguments kadd {s}. Arguments kmul {s}. Arguments ksub {s}.
Arguments kopp {s}. Arguments kconj {s}. Arguments keqb {s}.

Declare Scope k_scope.
Delimit Scope k_scope with k.
Infix "+" := kadd : k_scope.
Infix "*" := kmul : k_scope.
Infix "-" := ksub : k_scope.

Section Basics.
  Variable R : scalar.
  Add Ring Rring : (k_ring R).
  Local Open Scope k_scope.

  Lemma kadd_0_l : forall x : R, k0 + x = x. Proof. intros; ring. Qed.
  Lemma kadd_0_r : forall x : R, x + k0 = x. Proof. intros; ring. Qed.
  Lemma kadd_comm : forall x y : R, x + y = y + x. Proof. intros; ring. Qed.
  Lemma kadd_assoc : forall x y z : R, x + (y + z) = x + y + z. Proof. intros; ring. Qed.
  Lemma kmul_0_l : forall x : R, k0 * x = k0. Proof. intros; ring. Qed.
  Lemma kmul_0_r : forall x : R, x * k0 = k0. Proof. intros; ring. Qed.
  Lemma kmul_comm : forall x y : R, x * y = y * x. Proof. intros; ring. Qed.

  Lemma kconj_0 : kconj (@k0 R) = k0.
  Proof.
    assert (H : kconj (@k0 R) + kconj k0 = kconj k0) by (rewrite <- kconj_add; f_equal; ring).
    transitivity (kconj (@k0 R) + kconj k0 - kconj k0); [ring|rewrite H; ring].
  Qed.

  Lemma kconj_opp : forall x : R, kconj (kopp x) = kopp (kconj x).
  Proof.
    intros x. assert (H : kconj (kopp x) + kconj x = k0) by (rewrite <- kconj_add; rewrite <- kconj_0; f_equal; ring).
    transitivity (kconj (kopp x) + kconj x - kconj x); [ring|rewrite H; ring].
  Qed.

  Lemma kconj_sub : forall x y : R, kconj (x - y) = kconj x - kconj y.
  Proof. intros. replace (x - y) with (x + kopp y) by ring. rewrite kconj_add, kconj_opp. ring. Qed.

  Lemma kconj_1 : kconj (@k1 R) = k1.
  Proof.
    transitivity (kconj (@k1 R) * kconj (kconj k1)).
    - rewrite kconj_conj. ring.
    - rewrite <- kconj_mul. transitivity (kconj (kconj (@k1 R))); [f_equal; ring|apply kconj_conj].
  Qed.

  (** Finite sums. *)
  Definition ksum {A} (f : A -> R) (l : list A) : R := fold_right (fun a s => f a + s) k0 l.

  Lemma ksum_nil : forall {A} (f : A -> R), ksum f [] = k0. Proof. reflexivity. Qed.
  Lemma ksum_cons : forall {A} (f : A -> R) a l, ksum f (a :: l) = f a + ksum f l. Proof. reflexivity. Qed.
  Lemma ksum_app : forall {A} (f : A -> R) l1 l2, ksum f (l1 ++ l2) = ksum f l1 + ksum f l2.
  Proof. intros A f l1 l2. induction l1 as [|a l1 IH]; cbn [app]; [rewrite ksum_nil; ring|]. rewrite !ksum_cons, IH. ring. Qed.
  Lemma ksum_ext : forall {A} (f g : A -> R) l, (forall a, In a l -> f a = g a) -> ksum f l = ksum g l.
  Proof.
    intros A f g l. induction l as [|a l IH]; intros H; [reflexivity|]. rewrite !ksum_cons.
    rewrite H by (left; auto). rewrite IH by (intros; apply H; right; auto). reflexivity.
  Qed.
  Lemma ksum_0 : forall {A} (f : A -> R) l, (forall a, In a l -> f a = k0) -> ksum f l = k0.
  Proof.
    intros A f l. induction l as [|a l IH]; intros H; [reflexivity|]. rewrite ksum_cons.
    rewrite H by (left; auto). rewrite IH by (intros; apply H; right; auto). ring.
  Qed.
  Lemma ksum_add : forall {A} (f g : A -> R) l, ksum (fun a => f a + g a) l = ksum f l + ksum g l.
  Proof. intros A f g l. induction l as [|a l IH]; [rewrite !ksum_nil; ring|]. rewrite !ksum_cons, IH. ring. Qed.
  Lemma ksum_mul_l : forall {A} (c : R) (f : A -> R) l, ksum (fun a => c * f a) l = c * ksum f l.
  Proof. intros A c f l. induction l as [|a l IH]; [rewrite !ksum_nil; ring|]. rewrite !ksum_cons, IH. ring. Qed.
  Lemma ksum_mul_r : forall {A} (c : R) (f : A -> R) l, ksum (fun a => f a * c) l = ksum f l * c.
  Proof. intros A c f l. induction l as [|a l IH]; [rewrite !ksum_nil; ring|]. rewrite !ksum_cons, IH. ring. Qed.
  Lemma ksum_map : forall {A B} (g : B -> A) (f : A -> R) l, ksum f (map g l) = ksum (fun b => f (g b)) l.
  Proof. intros A B g f l. induction l as [|a l IH]; [reflexivity|]. cbn [map]. rewrite !ksum_cons, IH. reflexivity. Qed.
  Lemma ksum_flat_map : forall {A B} (g : B -> list A) (f : A -> R) l, ksum f (flat_map g l) = ksum (fun b => ksum f (g b)) l.
  Proof. intros A B g f l. induction l as [|a l IH]; [reflexivity|]. cbn [flat_map]. rewrite ksum_app, ksum_cons, IH. reflexivity. Qed.
  Lemma ksum_swap : forall {A B} (f : A -> B -> R) la lb,
    ksum (fun a => ksum (f a) lb) la = ksum (fun b => ksum (fun a => f a b) la) lb.
  Proof.
    intros A B f la lb. induction la as [|a la IH].
    - symmetry. apply ksum_0. reflexivity.
    - rewrite ksum_cons, IH, <- ksum_add. apply ksum_ext. intros b _. rewrite ksum_cons. reflexivity.
  Qed.
  Lemma ksum_conj : forall {A} (f : A -> R) l, kconj (ksum f l) = ksum (fun a => kconj (f a)) l.
  Proof. intros A f l. induction l as [|a l IH]; [apply kconj_0|]. rewrite !ksum_cons, kconj_add, IH. reflexivity. Qed.
  Lemma ksum_perm : forall {A} (f : A -> R) l1 l2, Permutation l1 l2 -> ksum f l1 = ksum f l2.
  Proof.
    intros A f l1 l2 H. induction H; [reflexivity|rewrite !ksum_cons; congruence|rewrite !ksum_cons; ring|congruence].
  Qed.
  (** Only one index contributes. *)
  Lemma ksum_single : forall (f : nat -> R) n i, i < n -> (forall j, j < n -> j <> i -> f j = k0) -> ksum f (seq 0 n) = f i.
  Proof.
    intros f n i Hi H. assert (E : seq 0 n = seq 0 i ++ i :: seq (S i) (n - S i)).
    { replace n with (i + (1 + (n - S i)))%nat at 1 by lia. rewrite seq_app. reflexivity. }
    rewrite E, ksum_app, ksum_cons. rewrite !ksum_0; [ring| |].
    - intros a Ha. apply in_seq in Ha. apply H; lia.
    - intros a Ha. apply in_seq in Ha. apply H; lia.
  Qed.
End Basics.
Arguments ksum {R A} f l.

(** Dense matrix block (Eigen MatrixXcd): dimensions and entries.  Entries outside the
    dimensions are never read by the model. *)
Record mat (R : scalar) := Mat { m_rows : nat; m_cols : nat; m_at : nat -> nat -> R }.
Arguments Mat {R}. Arguments m_rows {R}. Arguments m_cols {R}. Arguments m_at {R}.

Definition mat_eqb {R : scalar} (a b : mat R) : bool :=
  (m_rows a =? m_rows b) && (m_cols a =? m_cols b)
  && forallb (fun i => forallb (fun j => keqb (m_at a i j) (m_at b i j)) (seq 0 (m_cols a))) (seq 0 (m_rows a)).

Lemma mat_eqb_spec : forall (R : scalar) (a b : mat R), mat_eqb a b = true <->
  m_rows a = m_rows b /\ m_cols a = m_cols b /\
  (forall i j, i < m_rows a -> j < m_cols a -> m_at a i j = m_at b i j).
Proof.
  intros R a b. unfold mat_eqb. rewrite !andb_true_iff, !Nat.eqb_eq, forallb_forall.
  split.
  - intros ((H1 & H2) & H3). repeat split; auto. intros i j Hi Hj.
    specialize (H3 i ltac:(apply in_seq; lia)). rewrite forallb_forall in H3.
    apply (keqb_eq R). apply H3. apply in_seq; lia.
  - intros (H1 & H2 & H3). repeat split; auto. intros i Hi. apply in_seq in Hi.
    apply forallb_forall. intros j Hj. apply in_seq in Hj. apply (keqb_eq R). apply H3; lia.
Qed.

(** Concrete instance for examples: Gaussian integers. *)
Definition gi := (Z * Z)%type.
Definition gi_add (a b : gi) : gi := (fst a + fst b, snd a + snd b)%Z.
Definition gi_mul (a b : gi) : gi := (fst a * fst b - snd a * snd b, fst a * snd b + snd a * fst b)%Z.
Definition gi_opp (a : gi) : gi := (- fst a, - snd a)%Z.
Definition gi_sub (a b : gi) : gi := gi_add a (gi_opp b).
Definition gi_conj (a : gi) : gi := (fst a, - snd a)%Z.
Definition gi_eqb (a b : gi) : bool := ((fst a =? fst b) && (snd a =? snd b))%Z.

Lemma gi_ring : ring_theory (0, 0)%Z (1, 0)%Z gi_add gi_mul gi_sub gi_opp (@eq gi).
Proof.
  constructor; intros; unfold gi_sub, gi_add, gi_mul, gi_opp;
  repeat match goal with x : (Z * Z)%type |- _ => destruct x as [? ?] end; cbn [fst snd]; try reflexivity; apply f_equal2; ring.
Qed.

Definition GI : scalar.
Proof.
  refine (Scal gi (0, 0)%Z (1, 0)%Z gi_add gi_mul gi_sub gi_opp gi_conj gi_eqb gi_ring _ _ _ _).
  - intros [a b] [c d]. unfold gi_conj, gi_add. cbn [fst snd]. f_equal; ring.
  - intros [a b] [c d]. unfold gi_conj, gi_mul. cbn [fst snd]. f_equal; ring.
  - intros [a b]. unfold gi_conj. cbn [fst snd]. f_equal; ring.
  - intros [a b] [c d]. unfold gi_eqb. cbn [fst snd]. rewrite andb_true_iff, !Z.eqb_eq. split; [intros []; congruence|injection 1; auto].
Defined.
