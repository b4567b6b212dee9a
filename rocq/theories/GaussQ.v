(* Complex rationals: a concrete scalar with one half, for the examples of the kernel polynomial
   method. *)
From Verif Require Import Base Scalar.
From Coq Require Import QArith Qcanon Ring.

Definition gq : Type := (Qc * Qc)%type.
Local Open Scope Qc_scope.
Definition gq_add (x y : gq) : gq := (fst x + fst y, snd x + snd y).
Definition gq_mul (x y : gq) : gq := (fst x * fst y - snd x * snd y, fst x * snd y + snd x * fst y).
Definition gq_opp (x : gq) : gq := (- fst x, - snd x).
Definition gq_sub (x y : gq) : gq := gq_add x (gq_opp y).
Definition gq_conj (x : gq) : gq := (fst x, - snd x).
Definition gq_eqb (x y : gq) : bool := Qc_eq_bool (fst x) (fst y) && Qc_eq_bool (snd x) (snd y).

Lemma gq_ring : ring_theory (0, 0) (1, 0) gq_add gq_mul gq_sub gq_opp (@eq gq).
Proof.
  constructor; intros; unfold gq_add, gq_mul, gq_sub, gq_opp; repeat match goal with x : (Qc * Qc)%type |- _ => destruct x | x : gq |- _ => destruct x end;
    cbn [fst snd]; unfold gq_add, gq_opp; cbn [fst snd]; try reflexivity; apply f_equal2; ring.
Qed.
Lemma gq_conj_add : forall x y, gq_conj (gq_add x y) = gq_add (gq_conj x) (gq_conj y).
Proof. intros [a b] [c d]. unfold gq_conj, gq_add. cbn [fst snd]. f_equal. ring. Qed.
Lemma gq_conj_mul : forall x y, gq_conj (gq_mul x y) = gq_mul (gq_conj x) (gq_conj y).
Proof. intros [a b] [c d]. unfold gq_conj, gq_mul. cbn [fst snd]. f_equal; ring. Qed.
Lemma gq_conj_conj : forall x, gq_conj (gq_conj x) = x.
Proof. intros [a b]. unfold gq_conj. cbn [fst snd]. f_equal. ring. Qed.
Lemma qc_eqb_refl : forall x, Qc_eq_bool x x = true.
Proof. intros x. unfold Qc_eq_bool. destruct (Qc_eq_dec x x); congruence. Qed.
Lemma gq_eqb_eq : forall x y, gq_eqb x y = true <-> x = y.
Proof.
  intros [a b] [c d]. unfold gq_eqb. cbn [fst snd]. rewrite andb_true_iff. split.
  - intros (H1 & H2). apply Qc_eq_bool_correct in H1, H2. congruence.
  - intros E. injection E as -> ->. split; apply qc_eqb_refl.
Qed.

Definition GQ : scalar :=
  Scal gq (0, 0) (1, 0) gq_add gq_mul gq_sub gq_opp gq_conj gq_eqb gq_ring gq_conj_add gq_conj_mul gq_conj_conj gq_eqb_eq.

Definition gq_half : gq := (Q2Qc (1 # 2), 0).
Lemma gq_half_ok : kadd (s := GQ) gq_half gq_half = @k1 GQ.
Proof. cbn. unfold gq_add, gq_half. cbn [fst snd]. apply f_equal2; [apply Qc_is_canon; reflexivity|ring]. Qed.

(** Plain numbers in and out: [(p, q)] is p + q i; results are shown as rationals. *)
Definition gq_z (p q : Z) : gq := (Q2Qc (inject_Z p), Q2Qc (inject_Z q)).
Definition see (x : gq) : Q * Q := (this (fst x), this (snd x)).
