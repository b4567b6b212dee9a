(* Lists of states of a Hermitian matrix: sums over whole levels do not depend on the states chosen. *)
From Verif Require Import Base Scalar Kpm KpmSpec KpmCheb KpmGram RSum Cplx Spectral SpectralProofs SpectralLine SpectralTheorem.
From Coq Require Import Reals Lra Ring.
Local Open Scope R_scope.
Local Notation dm := (nat -> nat -> CX).
Add Ring CXring4 : (k_ring CX).

Section Levels.
  Variable N : nat.
  Variable H : dm.
  Hypothesis HH : hermitian N H.
  Notation ip := (inner CX N).
  (** [m] states, [psi i n] at site [i] *)
  Definition col (psi : dm) (n : nat) : nat -> CX := fun i => psi i n.

  Section Two.
    Variables (m m' : nat) (psi psi' : dm) (en en' : nat -> R).
    Hypothesis E1 : forall n i, (n < m)%nat -> (i < N)%nat -> ap CX N H (col psi n) i = kmul (re (en n)) (psi i n).
    Hypothesis E2 : forall n i, (n < m')%nat -> (i < N)%nat -> ap CX N H (col psi' n) i = kmul (re (en' n)) (psi' i n).
    Lemma overlap_energy : forall k l (f : R -> R), (k < m)%nat -> (l < m')%nat ->
      kmul (re (f (en k))) (ip (col psi k) (col psi' l)) = kmul (re (f (en' l))) (ip (col psi k) (col psi' l)).
    Proof.
      intros k l f Hk Hl.
      assert (A : kmul (re (en k)) (ip (col psi k) (col psi' l)) = kmul (re (en' l)) (ip (col psi k) (col psi' l))).
      { rewrite <- (ip_scal_r N (re (en' l))). rewrite <- (re_conj (en k)), <- (ip_scal_l N (re (en k))).
        transitivity (ip (ap CX N H (col psi k)) (col psi' l)).
        - apply inner_ext; [|auto]. intros i Hi. symmetry. apply E1; assumption.
        - rewrite (self CX N H HH). apply inner_ext; [auto|]. intros i Hi. apply E2; assumption. }
      destruct (Req_EM_T (en k) (en' l)) as [->|D]; [reflexivity|]. destruct (ip (col psi k) (col psi' l)) as [a b].
      cbn in A. unfold cx_mul, re in A. cbn in A. injection A as A1 A2. assert (a = 0) by nra. assert (b = 0) by nra. subst. cbn. unfold cx_mul, re. cbn. f_equal; ring.
    Qed.
    (** each set is spanned by the other one *)
    Hypothesis S1 : forall k i, (k < m)%nat -> (i < N)%nat -> psi i k = ksum (fun l => kmul (ip (col psi' l) (col psi k)) (psi' i l)) (seq 0 m').
    Hypothesis S2 : forall l i, (l < m')%nat -> (i < N)%nat -> psi' i l = ksum (fun k => kmul (ip (col psi k) (col psi' l)) (psi i k)) (seq 0 m).
    Lemma same_function : forall f i j, (i < N)%nat -> (j < N)%nat ->
      ksum (fun k => kmul (re (f (en k))) (kmul (psi i k) (kconj (psi j k)))) (seq 0 m) =
      ksum (fun l => kmul (re (f (en' l))) (kmul (psi' i l) (kconj (psi' j l)))) (seq 0 m').
    Proof.
      intros f i j Hi Hj.
      transitivity (ksum (fun k => ksum (fun l => kmul (kmul (re (f (en k))) (ip (col psi k) (col psi' l))) (kmul (psi i k) (kconj (psi' j l)))) (seq 0 m')) (seq 0 m)).
      - apply ksum_ext. intros k Hk. apply in_seq in Hk. rewrite (S1 k j) by lia. rewrite ksum_conj, <- !ksum_mul_l. apply ksum_ext. intros l _. rewrite kconj_mul, inner_conj. ring.
      - rewrite ksum_swap. apply ksum_ext. intros l Hl. apply in_seq in Hl. rewrite (S2 l i) by lia. rewrite <- ksum_mul_r, <- ksum_mul_l. apply ksum_ext. intros k Hk. apply in_seq in Hk.
        rewrite overlap_energy by lia. ring.
    Qed.
    Lemma same_weights : forall f i, (i < N)%nat ->
      rsum (fun k => f (en k) * abs2 (psi i k)) m = rsum (fun l => f (en' l) * abs2 (psi' i l)) m'.
    Proof.
      intros f i Hi. pose proof (f_equal fst (same_function f i i Hi Hi)) as Q. rewrite !fst_sum in Q.
      rewrite (rsum_ext (fun k => f (en k) * abs2 (psi i k)) (fun k => fst (kmul (re (f (en k))) (kmul (psi i k) (kconj (psi i k)))))).
      - rewrite Q. apply rsum_ext. intros l _. rewrite fst_re_mul. f_equal. destruct (psi' i l). unfold abs2. cbn. ring.
      - intros k _. rewrite fst_re_mul. f_equal. destruct (psi i k). unfold abs2. cbn. ring.
    Qed.
  End Two.

  (** Coordinates with respect to an orthonormal set *)
  Lemma coordinates : forall m (psi : dm) x, (forall k l, (k < m)%nat -> (l < m)%nat -> ip (col psi k) (col psi l) = delta k l) ->
    (exists c, forall i, (i < N)%nat -> x i = ksum (fun n => kmul (c n) (psi i n)) (seq 0 m)) ->
    forall i, (i < N)%nat -> x i = ksum (fun n => kmul (ip (col psi n) x) (psi i n)) (seq 0 m).
  Proof.
    intros m psi x O (c & Hc) i Hi. rewrite Hc by exact Hi. apply ksum_ext. intros n Hn. apply in_seq in Hn. f_equal.
    rewrite (inner_ext CX N (col psi n) x (col psi n) (fun i => ksum (fun n => kmul (c n) (psi i n)) (seq 0 m))) by auto.
    unfold inner. rewrite (ksum_ext CX _ (fun i => ksum (fun l => kmul (c l) (kmul (kconj (col psi n i)) (psi i l))) (seq 0 m))).
    - rewrite ksum_swap. rewrite (ksum_ext CX _ (fun l => kmul (c l) (delta n l))).
      + assert (Hm : (n < m)%nat) by lia. rewrite (ksum_single CX _ m n Hm).
        * unfold delta. rewrite Nat.eqb_refl. ring.
        * intros l _ Nl. unfold delta. destruct (Nat.eqb_spec n l); [congruence|ring].
      + intros l Hl. apply in_seq in Hl. rewrite ksum_mul_l. f_equal. rewrite <- (O n l) by lia. reflexivity.
    - intros i' _. rewrite <- ksum_mul_l. apply ksum_ext. intros l _. ring.
  Qed.
  (** [N] orthonormal states span everything *)
  Lemma all_spanned : forall (psi : dm) x, (forall k l, (k < N)%nat -> (l < N)%nat -> ip (col psi k) (col psi l) = delta k l) ->
    forall i, (i < N)%nat -> x i = ksum (fun n => kmul (ip (col psi n) x) (psi i n)) (seq 0 N).
  Proof.
    intros psi x O i Hi. pose proof (complete N (col psi) O) as C.
    transitivity (ap CX N delta x i); [symmetry; apply ap_delta; exact Hi|]. unfold ap.
    rewrite (ksum_ext CX _ (fun j => ksum (fun k => kmul (kmul (kconj (col psi k j)) (x j)) (psi i k)) (seq 0 N))).
    - rewrite ksum_swap. apply ksum_ext. intros k _. rewrite ksum_mul_r. reflexivity.
    - intros j Hj. apply in_seq in Hj. rewrite <- (C i j) by lia. rewrite <- ksum_mul_r. apply ksum_ext. intros k _. unfold col. ring.
  Qed.
End Levels.
