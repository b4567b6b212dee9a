(* Complex numbers over the real numbers of the standard library as a scalar, for the statements
   about kernels and spectra. *)
From Verif Require Import Base Scalar RSum.
From Coq Require Import Reals Lra Ring.
Local Open Scope R_scope.

Definition cx : Type := (R * R)%type.
Definition cx_add (x y : cx) : cx := (fst x + fst y, snd x + snd y).
Definition cx_mul (x y : cx) : cx := (fst x * fst y - snd x * snd y, fst x * snd y + snd x * fst y).
Definition cx_opp (x : cx) : cx := (- fst x, - snd x).
Definition cx_sub (x y : cx) : cx := cx_add x (cx_opp y).
Definition cx_conj (x : cx) : cx := (fst x, - snd x).
Definition r_eqb (x y : R) : bool := if Req_EM_T x y then true else false.
Definition cx_eqb (x y : cx) : bool := r_eqb (fst x) (fst y) && r_eqb (snd x) (snd y).

Lemma cx_ring : ring_theory (0, 0) (1, 0) cx_add cx_mul cx_sub cx_opp (@eq cx).
Proof.
  constructor; intros; unfold cx_add, cx_mul, cx_sub, cx_opp; repeat match goal with x : cx |- _ => destruct x | x : (R * R)%type |- _ => destruct x end;
    cbn [fst snd]; unfold cx_add, cx_opp; cbn [fst snd]; try reflexivity; apply f_equal2; ring.
Qed.
Lemma cx_conj_add : forall x y, cx_conj (cx_add x y) = cx_add (cx_conj x) (cx_conj y).
Proof. intros [a b] [c d]. unfold cx_conj, cx_add. cbn [fst snd]. f_equal. ring. Qed.
Lemma cx_conj_mul : forall x y, cx_conj (cx_mul x y) = cx_mul (cx_conj x) (cx_conj y).
Proof. intros [a b] [c d]. unfold cx_conj, cx_mul. cbn [fst snd]. f_equal; ring. Qed.
Lemma cx_conj_conj : forall x, cx_conj (cx_conj x) = x.
Proof. intros [a b]. unfold cx_conj. cbn [fst snd]. f_equal. ring. Qed.
Lemma r_eqb_eq : forall x y, r_eqb x y = true <-> x = y.
Proof. intros x y. unfold r_eqb. destruct (Req_EM_T x y); split; congruence. Qed.
Lemma cx_eqb_eq : forall x y, cx_eqb x y = true <-> x = y.
Proof.
  intros [a b] [c d]. unfold cx_eqb. cbn [fst snd]. rewrite andb_true_iff, !r_eqb_eq. split; [intros (-> & ->)|intros E; injection E]; auto.
Qed.
Definition CX : scalar :=
  Scal cx (0, 0) (1, 0) cx_add cx_mul cx_sub cx_opp cx_conj cx_eqb cx_ring cx_conj_add cx_conj_mul cx_conj_conj cx_eqb_eq.

Definition mk (x y : R) : CX := (x, y).
(** Real numbers as complex ones. *)
Definition re (x : R) : CX := (x, 0).
Definition cx_half : CX := re (/ 2).
Lemma cx_half_ok : kadd cx_half cx_half = @k1 CX.
Proof. cbn. unfold cx_add. cbn. f_equal; lra. Qed.

Lemma fst_add : forall x y : CX, fst (kadd x y) = fst x + fst y. Proof. reflexivity. Qed.
Lemma snd_add : forall x y : CX, snd (kadd x y) = snd x + snd y. Proof. reflexivity. Qed.
Lemma fst_sub : forall x y : CX, fst (ksub x y) = fst x - fst y. Proof. reflexivity. Qed.
Lemma fst_re_mul : forall a (x : CX), fst (kmul (re a) x) = a * fst x. Proof. intros a [x y]. cbn. ring. Qed.
Lemma fst_mul_re : forall a (x : CX), fst (kmul x (re a)) = fst x * a. Proof. intros a [x y]. cbn. ring. Qed.
Lemma fst_sum : forall (f : nat -> CX) n, fst (ksum f (seq 0 n)) = rsum (fun i => fst (f i)) n.
Proof.
  intros f n. induction n as [|n IH]; [reflexivity|]. rewrite seq_S, ksum_app, fst_add, IH. cbn. lra.
Qed.
Lemma snd_sum : forall (f : nat -> CX) n, snd (ksum f (seq 0 n)) = rsum (fun i => snd (f i)) n.
Proof.
  intros f n. induction n as [|n IH]; [reflexivity|]. rewrite seq_S, ksum_app, snd_add, IH. cbn. lra.
Qed.
Lemma re_mul : forall a b, kmul (re a) (re b) = re (a * b). Proof. intros. cbn. unfold cx_mul, re. cbn. f_equal; ring. Qed.
Lemma re_conj : forall a, kconj (re a) = re a. Proof. intros. cbn. unfold cx_conj, re. cbn. f_equal. ring. Qed.
(** |x|^2 *)
Definition abs2 (x : CX) : R := fst x * fst x + snd x * snd x.
Lemma abs2_conj : forall x : CX, kmul (kconj x) x = re (abs2 x).
Proof. intros [x y]. cbn. unfold cx_mul, cx_conj, re, abs2. cbn. f_equal; ring. Qed.
Lemma abs2_nonneg : forall x, 0 <= abs2 x. Proof. intros [x y]. unfold abs2. cbn. nra. Qed.
