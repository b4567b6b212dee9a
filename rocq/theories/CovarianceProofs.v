(* Chebyshev polynomials of matrices that differ by numbering, phases, sign or complex conjugation. *)
From Verif Require Import Base Scalar Kpm KpmSpec KpmVec KpmOptimized KpmCheb KpmGram KpmCore KpmEll KpmFinal RSum Cplx Spectral SpectralProofs SpectralLine ConductivityProofs.
From Coq Require Import Reals Lra Ring.
Local Open Scope R_scope.
Add Ring CXcov : (k_ring CX).
Local Notation dm := (nat -> nat -> CX).

Fixpoint power (c : CX) (n : nat) : CX := match n with O => k1 | S m => kmul c (power c m) end.
Lemma power_re : forall c n, power (re c) n = re (c ^ n).
Proof. intros c n. induction n as [|n IH]; [reflexivity|]. cbn [power pow]. rewrite IH, re_mul. reflexivity. Qed.
Lemma power_conj : forall c n, kconj c = c -> kconj (power c n) = power c n.
Proof. intros c n E. induction n as [|n IH]; [apply kconj_1|]. cbn [power]. rewrite (kconj_mul CX), IH, E. reflexivity. Qed.

Section Carried.
  Variable N : nat.
  Variables X Y : dm.
  Variable pi : nat -> nat.
  Variable u : nat -> CX.
  Variable c : CX.
  Hypothesis Hpi : renumbering N pi.
  Hypothesis Hu : forall i, (i < N)%nat -> kmul (u i) (kconj (u i)) = k1.
  Hypothesis Hc : kmul c c = k1.
  Hypothesis HY : forall i j, (i < N)%nat -> (j < N)%nat -> Y (pi i) (pi j) = kmul c (kmul (kmul (u i) (X i j)) (kconj (u j))).

  Lemma cheb_carried : forall n i j, (i < N)%nat -> (j < N)%nat ->
    cheb N Y n (pi i) (pi j) = kmul (power c n) (kmul (kmul (u i) (cheb N X n i j)) (kconj (u j))).
  Proof using Hpi Hu Hc HY.
    assert (G : forall n, (forall i j, (i < N)%nat -> (j < N)%nat -> cheb N Y n (pi i) (pi j) = kmul (power c n) (kmul (kmul (u i) (cheb N X n i j)) (kconj (u j)))) /\
      (forall i j, (i < N)%nat -> (j < N)%nat -> cheb N Y (S n) (pi i) (pi j) = kmul (power c (S n)) (kmul (kmul (u i) (cheb N X (S n) i j)) (kconj (u j))))).
    { induction n as [|n (IH0 & IH1)].
      - split.
        + intros i j Hi Hj. cbn [cheb power]. unfold delta. destruct (Nat.eqb_spec i j) as [->|D].
          * rewrite Nat.eqb_refl. transitivity (kmul (u j) (kconj (u j))); [symmetry; apply Hu; exact Hj|ring].
          * destruct (Nat.eqb_spec (pi i) (pi j)) as [E|_]; [apply Hpi in E; auto; contradiction|]. ring.
        + intros i j Hi Hj. cbn [cheb power]. rewrite HY by assumption. ring.
      - split; [exact IH1|]. intros i j Hi Hj.
        change (cheb N Y (S (S n)) (pi i) (pi j)) with (ksub (kmul (kadd k1 k1) (dmul N Y (cheb N Y (S n)) (pi i) (pi j))) (cheb N Y n (pi i) (pi j))).
        change (cheb N X (S (S n)) i j) with (ksub (kmul (kadd k1 k1) (dmul N X (cheb N X (S n)) i j)) (cheb N X n i j)).
        rewrite IH0 by assumption. unfold dmul at 1. rewrite (ksum_renumber CX N pi _ Hpi).
        rewrite (ksum_ext CX _ (fun k => kmul (kmul (kmul c (power c (S n))) (kmul (u i) (kconj (u j)))) (kmul (X i k) (cheb N X (S n) k j)))).
        2: { intros k Hk. apply in_seq in Hk. rewrite HY, IH1 by lia.
             transitivity (kmul (kmul (kmul (kmul c (power c (S n))) (kmul (u i) (kconj (u j)))) (kmul (X i k) (cheb N X (S n) k j))) (kmul (u k) (kconj (u k)))); [ring|].
             rewrite (Hu k) by lia. ring. }
        rewrite ksum_mul_l. unfold dmul. cbn [power]. 
        set (S1 := ksum _ (seq 0 N)). set (p := power c n). set (T := cheb N X n i j).
        transitivity (ksub (kmul (kadd k1 k1) (kmul (kmul (kmul c (kmul c p)) (kmul (u i) (kconj (u j)))) S1)) (kmul (kmul c c) (kmul p (kmul (kmul (u i) T) (kconj (u j)))))).
        + rewrite Hc. ring.
        + ring. }
    intros n. apply G.
  Qed.

  Lemma braket_carried : forall v w n, (forall i, (i < N)%nat -> w (pi i) = kmul (u i) (v i)) ->
    braket N w (cheb N Y n) w = kmul (power c n) (braket N v (cheb N X n) v).
  Proof using Hpi Hu Hc HY.
    intros v w n W. unfold braket. rewrite (ksum_renumber CX N pi _ Hpi), <- ksum_mul_l. apply ksum_ext. intros i Hi. apply in_seq in Hi.
    rewrite (ksum_renumber CX N pi _ Hpi), <- ksum_mul_l. apply ksum_ext. intros j Hj. apply in_seq in Hj.
    rewrite !W, cheb_carried, (kconj_mul CX) by lia.
    transitivity (kmul (kmul (power c n) (kmul (kmul (kconj (v i)) (cheb N X n i j)) (v j))) (kmul (kmul (u i) (kconj (u i))) (kmul (u j) (kconj (u j))))); [ring|].
    rewrite !Hu by lia. ring.
  Qed.
End Carried.

Lemma cheb_opposite_cos : forall x n, -1 <= x <= 1 -> tcos (- x) n = (-1) ^ n * tcos x n.
Proof.
  intros x n Hx. revert n. assert (G : forall n, tcos (- x) n = (-1) ^ n * tcos x n /\ tcos (- x) (S n) = (-1) ^ S n * tcos x (S n)).
  { induction n as [|n (IH0 & IH1)].
    - split; [rewrite !tcos_0; cbn; ring|]. rewrite !tcos_1 by lra. cbn. ring.
    - split; [exact IH1|]. rewrite !tcos_SS, IH0, IH1 by lra. cbn [pow]. ring. }
  intros n. apply G.
Qed.
Lemma sign_square : forall n, (-1) ^ n * (-1) ^ n = 1.
Proof. intros n. rewrite <- Rpow_mult_distr. replace (-1 * -1) with 1 by ring. apply pow1. Qed.
