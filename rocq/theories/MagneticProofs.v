(* The Peierls phase of the magnetic field modifier. *)
From Coq Require Import Reals Lra Lia.
From Verif Require Import Base Rle Blocks TablesSpec Scalar Foundation Lattice Hamiltonian HamiltonianSpec HamCor Cplx Spectral Materials MaterialsSpec GrapheneModifiers.
From Verif Require Import HamFacts.
Local Open Scope R_scope.

Lemma expi_add : forall a b, kmul (expi a) (expi b) = expi (a + b).
Proof. intros. unfold expi, mk. cbn. unfold cx_mul. cbn [fst snd]. rewrite cos_plus, sin_plus. f_equal; ring. Qed.
Lemma expi_0 : expi 0 = k1.
Proof. unfold expi, mk. rewrite cos_0, sin_0. reflexivity. Qed.
Lemma expi_neg : forall a, expi (- a) = kconj (expi a).
Proof. intros. unfold expi, mk. cbn. unfold cx_conj. cbn [fst snd]. rewrite cos_neg, sin_neg. reflexivity. Qed.

Lemma nth_mod_elem : forall rows cols n i j k, (i < rows)%nat -> (j < cols)%nat -> (k < n)%nat ->
  (((i * cols + j) * n + k < rows * cols * n) /\ ((i * cols + j) * n + k) mod n = k)%nat.
Proof.
  intros rows cols n i j k Hi Hj Hk. split.
  { assert (i * cols + j + 1 <= rows * cols)%nat by nia. assert ((i * cols + j + 1) * n <= rows * cols * n)%nat by (apply Nat.mul_le_mono_r; assumption). lia. }
  rewrite Nat.add_comm, Nat.mod_add by lia. apply Nat.mod_small. exact Hk.
Qed.

Lemma each_hopping_follows : forall f, hop_follows (each_hopping f)
  (fun _ p q A => Mat (m_rows A) (m_cols A) (fun i j => f p q (m_at A i j))).
Proof.
  intros f. split.
  - intros nm p q A B (H1 & H2 & H3). cbn. repeat split; auto. intros i j Hi Hj. cbn in *. rewrite H3 by auto. reflexivity.
  - intros rows cols ps qs nm buf L1 L2. eexists. split; [reflexivity|]. split; [rewrite map_length, seq_length; reflexivity|].
    intros i j k p q Hi Hj Hp Hq.
    assert (Hk : (k < length ps)%nat) by (apply nth_error_Some; congruence).
    destruct (nth_mod_elem rows cols (length ps) i j k Hi Hj Hk) as [E1 E2].
    unfold elem at 1. cbn [m_at m_rows m_cols].
    set (g := fun r : nat => f (nth (r mod length ps) ps v0) (nth (r mod length ps) qs v0) (nth r buf k0)).
    rewrite (nth_indep _ k0 (g 0%nat)) by (rewrite map_length, seq_length; lia).
    rewrite map_nth, seq_nth by lia. unfold g. rewrite Nat.add_0_l, E2.
    rewrite (nth_error_nth ps k v0 Hp), (nth_error_nth qs k v0 Hq). reflexivity.
Qed.

(** Multiplying the hoppings by numbers that are conjugate for opposite directions multiplies the
    matrix elements. *)
Section Scaled.
  Variable sys : hsys CX vec3.
  Variable og : list (os_rule CX vec3).
  Variable hg : list (hop_rule CX vec3).
  Variable f : vec3 -> vec3 -> CX.
  Variable g : vec3 -> vec3 -> CX -> CX.
  Hypothesis g_mul : forall p q x, g p q x = kmul x (f p q).
  Hypothesis f_back : forall p q, f q p = kconj (f p q).
  Let rule : hop_rule CX vec3 := fun _ p q A => Mat (m_rows A) (m_cols A) (fun i j => g p q (m_at A i j)).
  Add Ring CXr : (k_ring CX).

  Lemma hop_matrix_scaled : forall fam c p q i j, nth_error (hs_pos sys) (fst c) = Some p -> nth_error (hs_pos sys) (snd c) = Some q ->
    m_at (hop_matrix complex_type sys (hg ++ [rule]) (fun p => p) fam c) i j
    = kmul (m_at (hop_matrix complex_type sys hg (fun p => p) fam c) i j) (f p q).
  Proof.
    intros fam c p q i j Hp Hq. unfold hop_matrix. rewrite Hp, Hq, fold_left_app. cbn [fold_left]. unfold rule at 1. cbn [m_at]. apply g_mul.
  Qed.

  Lemma hop_part_scaled : forall fam c s t p q i j, nth_error (hs_pos sys) s = Some p -> nth_error (hs_pos sys) t = Some q ->
    hop_part complex_type (m_at (hop_matrix complex_type sys (hg ++ [rule]) (fun p => p) fam c)) c s i t j
    = kmul (hop_part complex_type (m_at (hop_matrix complex_type sys hg (fun p => p) fam c)) c s i t j) (f p q).
  Proof.
    intros fam c s t p q i j Hp Hq. unfold hop_part.
    assert (E1 : (if ((fst c =? s) && (snd c =? t))%nat then m_at (hop_matrix complex_type sys (hg ++ [rule]) (fun p => p) fam c) i j else k0)
      = kmul (if ((fst c =? s) && (snd c =? t))%nat then m_at (hop_matrix complex_type sys hg (fun p => p) fam c) i j else k0) (f p q)).
    { destruct ((fst c =? s)%nat && (snd c =? t)%nat) eqn:E; [|ring]. apply andb_true_iff in E. destruct E as [A B].
      apply Nat.eqb_eq in A. apply Nat.eqb_eq in B. subst. apply hop_matrix_scaled; assumption. }
    assert (E2 : (if ((fst c =? t) && (snd c =? s))%nat then nt_conj (complex_type) (m_at (hop_matrix complex_type sys (hg ++ [rule]) (fun p => p) fam c) j i) else k0)
      = kmul (if ((fst c =? t) && (snd c =? s))%nat then nt_conj complex_type (m_at (hop_matrix complex_type sys hg (fun p => p) fam c) j i) else k0) (f p q)).
    { destruct ((fst c =? t)%nat && (snd c =? s)%nat) eqn:E; [|ring]. apply andb_true_iff in E. destruct E as [A B].
      apply Nat.eqb_eq in A. apply Nat.eqb_eq in B. subst. rewrite (hop_matrix_scaled fam c q p j i) by assumption.
      unfold nt_conj at 1 2, complex_type at 1 3. rewrite kconj_mul, <- f_back. reflexivity. }
    rewrite E1, E2. ring.
  Qed.

  Lemma element_scaled : forall un ph s t p q i j, hs_bounds sys = [] -> (s = t -> f p q = k1) ->
    nth_error (hs_pos sys) s = Some p -> nth_error (hs_pos sys) t = Some q ->
    element complex_type sys og (hg ++ [rule]) un ph s i t j = kmul (element complex_type sys og hg un ph s i t j) (f p q).
  Proof.
    intros un ph s t p q i j HB H1 Hp Hq. unfold element. rewrite HB. cbn [ksum fold_right].
    rewrite (ksum_ext CX (fun fc : nat * (nat * nat) => hop_part complex_type (m_at (hop_matrix complex_type sys (hg ++ [rule]) (fun p => p) (fst fc) (snd fc))) (snd fc) s i t j)
      (fun fc => kmul (hop_part complex_type (m_at (hop_matrix complex_type sys hg (fun p => p) (fst fc) (snd fc))) (snd fc) s i t j) (f p q))).
    2: { intros fc _. apply hop_part_scaled; assumption. }
    rewrite ksum_mul_r.
    destruct (Nat.eqb_spec s t) as [E|E]; [rewrite (H1 E); ring|ring].
  Qed.
End Scaled.
