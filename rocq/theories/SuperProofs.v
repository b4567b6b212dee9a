(* The graphene lattices with other unit cells: accepted calls and matrix elements. *)
From Coq Require Import Reals Lra Lia ZArith Permutation.
From Verif Require Import Base Scalar Foundation Lattice FoundationSpec Hamiltonian BulkSpec Materials MaterialsSpec MaterialsProofs GrapheneProofs.

Section Super.
  Variable K : scalar.
  Add Ring Ksp : (k_ring K).
  Variable oo : vec3 -> bool.
  Variable order : list (Lattice.family K) -> list (Lattice.family K).
  Hypothesis Hord : forall l, Permutation (order l) l.

  Lemma order_nil : order [] = [].
  Proof. apply Permutation_nil. apply Permutation_sym. apply Hord. Qed.
  Lemma order_one : forall f, order [f] = [f].
  Proof. intros f. apply Permutation_length_1_inv. apply Permutation_sym. apply Hord. Qed.
  Lemma mat_eqb_refl : forall e : mat K, mat_eqb e e = true.
  Proof. intros e. apply mat_eqb_spec. auto. Qed.

  Lemma run_first : forall l rel a b (t : K), l_fams l = [] ->
    run_call oo order (Some l) (AddHoppingEnergy rel a b (single t)) =
    run_call oo order (Some (Lat (l_subs l) [Fam (Anon 0) (single t) 0 []] (l_offset l) (l_min l))) (AddHopping rel a b (Anon 0)).
  Proof.
    intros l rel a b t E. cbn [run_call call]. unfold add_hopping_energy. rewrite E, order_nil. cbn [find length]. unfold register_hopping_energy.
    cbn [name_eqb]. unfold hopping_ok, single. cbn [m_rows m_cols Nat.eqb orb negb]. unfold find_fam. rewrite E. cbn [find app length ok]. reflexivity.
  Qed.
  Lemma run_next : forall l rel a b (t : K) ts, l_fams l = [Fam (Anon 0) (single t) 0 ts] ->
    run_call oo order (Some l) (AddHoppingEnergy rel a b (single t)) = run_call oo order (Some l) (AddHopping rel a b (Anon 0)).
  Proof. intros l rel a b t ts E. cbn [run_call call]. unfold add_hopping_energy. rewrite E, order_one. cbn [find fm_energy]. rewrite mat_eqb_refl. reflexivity. Qed.

  Ltac one_step := match goal with |- context [run_call ?o1 ?o2 (Some ?l) ?c] =>
    let x := constr:(run_call o1 o2 (Some l) c) in let v := eval lazy -[vec3] in x in change x with v end.
  Definition alt_fams (t : K) := [Fam (Anon 0) (single t) 0 [Term (I3 0 0 0) 0 1; Term (I3 0 1 0) 0 1; Term (I3 (-1) 0 0) 0 1]].
  Lemma alt_run : forall onA onB t, real_energy onA -> real_energy onB ->
    run oo order (mt_calls (monolayer_alt onA onB t)) = Some (Lat
      [Sub (Nm 0) (0, 0, 0)%R (hermitian_view (single onA)) 0 0; Sub (Nm 1) (0, g_acc, 0)%R (hermitian_view (single onB)) 1 1] (alt_fams t) None 2).
  Proof.
    intros onA onB t HA HB. unfold monolayer_alt, mt_calls. rewrite run_app, add_two by assumption.
    generalize ((0, 0, 0)%R : vec3) as pA. generalize ((0, g_acc, 0)%R : vec3) as pB. intros pB pA. unfold hops_energy. cbn [map app fold_left].
    rewrite run_first by reflexivity. one_step.
    erewrite run_next by reflexivity. one_step.
    erewrite run_next by reflexivity. one_step. reflexivity.
  Qed.
  Definition four_fams (t : K) := [Fam (Anon 0) (single t) 0 [Term (I3 0 0 0) 0 1; Term (I3 0 0 0) 1 2; Term (I3 0 0 0) 2 3;
    Term (I3 (-1) (-1) 0) 0 3; Term (I3 0 (-1) 0) 0 3; Term (I3 (-1) 0 0) 1 2]].
  Lemma four_run : forall onA onB t, real_energy onA -> real_energy onB ->
    run oo order (mt_calls (monolayer_4atom onA onB t)) = Some (Lat
      [Sub (Nm 0) (0, - g_acc / 2, 0)%R (hermitian_view (single onA)) 0 0; Sub (Nm 1) (0, g_acc / 2, 0)%R (hermitian_view (single onB)) 1 1;
       Sub (Nm 2) (g_a / 2, g_acc, 0)%R (hermitian_view (single onA)) 2 0; Sub (Nm 3) (g_a / 2, 2 * g_acc, 0)%R (hermitian_view (single onB)) 3 1] (four_fams t) None 2).
  Proof.
    intros onA onB t HA HB. unfold monolayer_4atom, mt_calls. rewrite run_app, add_two by assumption.
    generalize ((0, - g_acc / 2, 0)%R : vec3) as pA. generalize ((0, g_acc / 2, 0)%R : vec3) as pB. generalize ((g_a / 2, g_acc, 0)%R : vec3) as pC. generalize ((g_a / 2, 2 * g_acc, 0)%R : vec3) as pD.
    intros pD pC pB pA. unfold hops_energy. cbn [map app fold_left].
    one_step. one_step.
    rewrite run_first by reflexivity. one_step.
    erewrite run_next by reflexivity. one_step.
    erewrite run_next by reflexivity. one_step.
    erewrite run_next by reflexivity. one_step.
    erewrite run_next by reflexivity. one_step.
    erewrite run_next by reflexivity. one_step. reflexivity.
  Qed.
End Super.
