(* Bipartite Hamiltonians: chiral symmetry and the gap of a staggered potential. *)
From Coq Require Import Reals Lra Lia.
From Verif Require Import Base Rle Blocks TablesSpec Scalar Foundation Lattice Hamiltonian HamiltonianSpec HamCor RSum Cplx Spectral Materials MaterialsSpec GrapheneModifiers.
Local Open Scope R_scope.

(** [v] is an eigenvector of the first [N] rows and columns of [M] with eigenvalue [E]. *)
Definition eigen (N : nat) (M : nat -> nat -> CX) (E : R) (v : nat -> CX) : Prop :=
  forall s, (s < N)%nat -> ksum (fun t => kmul (M s t) (v t)) (seq 0 N) = kmul (re E) (v s).
(** Weight of a vector on the sites of one colour. *)
Definition weight (N : nat) (col : nat -> bool) (b : bool) (v : nat -> CX) : R :=
  rsum (fun s => if Bool.eqb (col s) b then abs2 (v s) else 0) N.

Section Chiral.
  Variable N : nat.
  Variable H : nat -> nat -> CX.
  Variable col : nat -> bool.
  Hypothesis herm : forall s t, (s < N)%nat -> (t < N)%nat -> H t s = kconj (H s t).
  Hypothesis bip : forall s t, (s < N)%nat -> (t < N)%nat -> col s = col t -> H s t = k0.
  Add Ring CXr : (k_ring CX).

  Lemma chiral : forall E v, eigen N H E v -> eigen N H (- E) (fun s => if col s then v s else kopp (v s)).
  Proof.
    intros E v Hv s Hs. specialize (Hv s Hs).
    transitivity (if col s then kopp (ksum (fun t => kmul (H s t) (v t)) (seq 0 N)) else ksum (fun t => kmul (H s t) (v t)) (seq 0 N)).
    - assert (O : forall l, kopp (ksum (fun t => kmul (H s t) (v t)) l) = ksum (fun t => kmul (kopp k1) (kmul (H s t) (v t))) l).
      { intros l. rewrite ksum_mul_l. ring. }
      rewrite O. destruct (col s) eqn:C; apply ksum_ext; intros t Ht; apply in_seq in Ht; destruct (col t) eqn:C'; try ring;
        rewrite (bip s t) by (try lia; congruence); ring.
    - rewrite Hv. replace (re (- E)) with (kopp (re E)); [|cbn; unfold cx_opp, re; cbn [fst snd]; f_equal; ring]. destruct (col s); ring.
  Qed.

  Definition part (b : bool) (v : nat -> CX) : CX :=
    ksum (fun s => if Bool.eqb (col s) b then kmul (kconj (v s)) (ksum (fun t => kmul (H s t) (v t)) (seq 0 N)) else k0) (seq 0 N).

  Lemma part_conj : forall v, kconj (part true v) = part false v.
  Proof.
    intros v. unfold part.
    transitivity (ksum (fun s => ksum (fun t => if Bool.eqb (col s) true then kmul (kmul (v s) (kconj (H s t))) (kconj (v t)) else k0) (seq 0 N)) (seq 0 N)).
    { rewrite ksum_conj. apply ksum_ext. intros s _. destruct (Bool.eqb (col s) true).
      - rewrite kconj_mul, kconj_conj, ksum_conj, <- ksum_mul_l. apply ksum_ext. intros t _. rewrite kconj_mul. ring.
      - rewrite kconj_0. symmetry. apply ksum_0. reflexivity. }
    rewrite ksum_swap. apply ksum_ext. intros t Ht. apply in_seq in Ht. destruct (Bool.eqb (col t) false) eqn:C; apply eqb_prop in C || apply eqb_false_iff in C.
    - rewrite <- ksum_mul_l. apply ksum_ext. intros s Hs. apply in_seq in Hs. rewrite <- herm by lia.
      destruct (Bool.eqb (col s) true) eqn:D; [ring|]. apply eqb_false_iff in D.
      rewrite (bip t s) by (try lia; destruct (col s), (col t); congruence). ring.
    - apply ksum_0. intros s Hs. apply in_seq in Hs. destruct (Bool.eqb (col s) true) eqn:D; [|reflexivity]. apply eqb_prop in D.
      rewrite <- herm by lia. rewrite (bip t s) by (try lia; destruct (col s), (col t); congruence). ring.
  Qed.

  Definition massive (d : R) (s t : nat) : CX := kadd (H s t) (if (s =? t)%nat then re (if col s then d else - d) else k0).

  Lemma massive_part : forall d E v b, eigen N (massive d) E v ->
    part b v = re ((E - (if b then d else - d)) * weight N col b v).
  Proof.
    intros d E v b Hv. unfold part, weight.
    transitivity (ksum (fun s => re ((E - (if b then d else - d)) * (if Bool.eqb (col s) b then abs2 (v s) else 0))) (seq 0 N)).
    - apply ksum_ext. intros s Hs. apply in_seq in Hs. destruct (Bool.eqb (col s) b) eqn:C.
      2: { rewrite Rmult_0_r. reflexivity. }
      apply eqb_prop in C.
      assert (S1 : ksum (fun t => kmul (H s t) (v t)) (seq 0 N) = kmul (re (E - (if b then d else - d))) (v s)).
      { assert (X : ksum (fun t => kmul (massive d s t) (v t)) (seq 0 N) = kadd (ksum (fun t => kmul (H s t) (v t)) (seq 0 N)) (kmul (re (if col s then d else - d)) (v s))).
        { unfold massive. rewrite (ksum_ext CX _ (fun t => kadd (kmul (H s t) (v t)) (if (s =? t)%nat then kmul (re (if col s then d else - d)) (v t) else k0))).
          2: { intros t _. destruct (s =? t)%nat; ring. }
          rewrite ksum_add. f_equal. rewrite (ksum_single CX _ N s); [rewrite Nat.eqb_refl; reflexivity|lia|].
          intros j Hj Hne. destruct (Nat.eqb_spec s j); [lia|reflexivity]. }
        rewrite (Hv s) in X by lia. rewrite C in X.
        replace (re (E - (if b then d else - d))) with (ksub (re E) (re (if b then d else - d))) by (cbn; unfold cx_sub, cx_add, cx_opp, re; cbn [fst snd]; f_equal; ring).
        transitivity (ksub (kmul (re E) (v s)) (kmul (re (if b then d else - d)) (v s))); [rewrite X; ring|ring]. }
      rewrite S1. rewrite <- re_mul, <- abs2_conj. ring.
    - cbn [K CX] in *. apply injective_projections.
      + rewrite fst_sum. cbn [fst re]. rewrite <- rsum_scal. reflexivity.
      + rewrite snd_sum. cbn [snd re]. apply rsum_0. reflexivity.
  Qed.

  Lemma mass_polarisation : forall d E v, eigen N (massive d) E v ->
    E * (weight N col true v - weight N col false v) = d * (weight N col true v + weight N col false v).
  Proof.
    intros d E v Hv. pose proof (part_conj v) as P. rewrite !(massive_part d E v _ Hv) in P. rewrite re_conj in P.
    apply (f_equal fst) in P. cbn [fst re] in P. lra.
  Qed.

  Lemma weight_nonneg : forall b v, 0 <= weight N col b v.
  Proof. intros. apply rsum_nonneg. intros i _. destruct (Bool.eqb _ _); [apply abs2_nonneg|lra]. Qed.
  Lemma weight_split : forall v, weight N col true v + weight N col false v = rsum (fun s => abs2 (v s)) N.
  Proof. intros. unfold weight. rewrite <- rsum_add. apply rsum_ext. intros i _. destruct (col i); cbn; ring. Qed.
End Chiral.
