(* C113: the matrix does not depend on the scalar type it is stored in, nor on the unit of energy. *)
From Verif Require Import Base Rle Blocks Scalar GaussQ Foundation Lattice Hamiltonian ScalarType ScalarTypeProofs.
From Coq Require Import QArith Qcanon Lia.
Local Open Scope nat_scope.

(** ** What is meant *)
(** Real part and Eigen's tests, for any scalars in which they make sense. *)
Record real_part (R : scalar) (re : R -> R) : Prop := { rp_conj : forall x, re x = x -> kconj x = x; rp_0 : re k0 = k0 }.
(** The energies of a registry are told from zero, and from real numbers, by the tests. *)
Definition told (R : scalar) (re : R -> R) (small small_im : R -> bool) (reg : list (name * mat R)) : Prop :=
  forall e i j, In e reg -> i < m_rows (snd e) -> j < m_cols (snd e) ->
    (small (m_at (snd e) i j) = true <-> m_at (snd e) i j = k0) /\ (small_im (m_at (snd e) i j) = true <-> re (m_at (snd e) i j) = m_at (snd e) i j).
(** Boundaries belong to models with a translational symmetry. *)
Definition boundaries_need_symmetry {R V} (sys : hsys R V) (symmetry : bool) : Prop := symmetry = false -> hs_bounds sys = [].

(** Meant: the matrix is the one which complex numbers would give. *)
Definition C113_type_claim (R : scalar) (V : Type) (re : R -> R) (small small_im : R -> bool) : Prop :=
  forall cap sys om hm symmetry unshift phase simple, boundaries_need_symmetry (V := V) sys symmetry ->
    make_hamiltonian re small small_im cap sys om hm symmetry unshift phase simple = ham_make cap complex_type sys (map snd om) (map snd hm) unshift phase simple.
(** Meant: multiplying all energies by a factor multiplies the matrix by it; modifiers do the same in both units. *)
Definition same_modifiers {M} (scales : M -> M -> Prop) (ms ms' : list (bool * M)) : Prop := Forall2 (fun a b => scales (snd a) (snd b)) ms ms'.
Definition C113_unit_claim (R : scalar) (V : Type) (re : R -> R) (small small_im : R -> bool) : Prop :=
  forall c d, kmul d c = k1 -> kconj c = c -> forall cap sys om om' hm hm' symmetry unshift phase simple, boundaries_need_symmetry (V := V) sys symmetry ->
    same_modifiers (onsite_scales R V c) om om' -> same_modifiers (hopping_scales R V c) hm hm' ->
    make_hamiltonian re small small_im cap (scale_sys R V c sys) om' hm' symmetry unshift phase simple
    = omap (map (scale_entry R c)) (make_hamiltonian re small small_im cap sys om hm symmetry unshift phase simple).

(** ** Proofs *)
Lemma told_exact : forall R re small small_im reg, told R re small small_im reg -> tests_exact R re small small_im reg.
Proof.
  intros R re small small_im reg H e v He Hv. unfold mat_vals in Hv. apply in_flat_map in Hv. destruct Hv as (i & Hi & Hv). apply in_map_iff in Hv. destruct Hv as (j & <- & Hj).
  apply in_seq in Hi, Hj. apply H; [exact He|lia|lia].
Qed.
(** True as long as the tests tell the energies from zero and from real numbers. *)
Theorem C113_type_partial : forall R V re small small_im, real_part R re ->
  forall cap (sys : hsys R V) om hm symmetry unshift phase simple, boundaries_need_symmetry sys symmetry -> told R re small small_im (hs_site sys) -> told R re small small_im (hs_hop sys) ->
    make_hamiltonian re small small_im cap sys om hm symmetry unshift phase simple = ham_make cap complex_type sys (map snd om) (map snd hm) unshift phase simple.
Proof. intros R V re small small_im [Hc H0] cap sys om hm symmetry unshift phase simple Hb Ts Th. apply make_exact; auto; apply told_exact; assumption. Qed.
Print Assumptions C113_type_partial.
Theorem C113_unit_partial : forall R V re small small_im, real_part R re -> forall c d, kmul d c = k1 -> kconj c = c ->
  forall cap (sys : hsys R V) om om' hm hm' symmetry unshift phase simple, boundaries_need_symmetry sys symmetry ->
    same_modifiers (onsite_scales R V c) om om' -> same_modifiers (hopping_scales R V c) hm hm' ->
    told R re small small_im (hs_site sys) -> told R re small small_im (hs_hop sys) ->
    told R re small small_im (hs_site (scale_sys R V c sys)) -> told R re small small_im (hs_hop (scale_sys R V c sys)) ->
    make_hamiltonian re small small_im cap (scale_sys R V c sys) om' hm' symmetry unshift phase simple
    = omap (map (scale_entry R c)) (make_hamiltonian re small small_im cap sys om hm symmetry unshift phase simple).
Proof.
  intros R V re small small_im RP c d Hd Hc cap sys om om' hm hm' symmetry unshift phase simple Hb Fo Fh T1 T2 T3 T4.
  rewrite (C113_type_partial R V re small small_im RP cap sys) by assumption.
  rewrite (C113_type_partial R V re small small_im RP cap (scale_sys R V c sys)) by assumption.
  apply (make_scale_energy R V c d Hd Hc).
  - clear -Fo. induction Fo; constructor; assumption.
  - clear -Fh. induction Fh; constructor; assumption.
Qed.
Print Assumptions C113_unit_partial.

(** ** Complex rationals with the limit 1e-12 *)
Definition limit : Q := 1 # 1000000000000.
Definition gq_re (x : GQ) : GQ := (fst x, 0%Qc).
Definition gq_small (x : GQ) : bool := Qle_bool (this (fst x) * this (fst x) + this (snd x) * this (snd x)) (limit * limit).
Definition gq_small_im (x : GQ) : bool := Qle_bool (this (snd x) * this (snd x)) (limit * limit).
Lemma gq_real_part : real_part GQ gq_re.
Proof.
  constructor; [|reflexivity]. intros [a b] E. unfold gq_re in E. cbn [fst] in E. injection E as <-. cbn. unfold gq_conj. cbn [fst snd]. f_equal.
Qed.
Definition gmat1 (x : GQ) : mat GQ := Mat 1 1 (fun _ _ => x).
(** Two sites with onsite energy [e] and a hopping [t]. *)
Definition pair_sys (e t : GQ) : hsys GQ nat := HSys [Elem 0 2 1] [0; 1] [(Nm 1, gmat1 e)] [(Nm 2, gmat1 t)] (HB 2 [[(0, 1)]]) [].
Definition pair_ham (e t : GQ) : outcome (sparse GQ) := make_hamiltonian gq_re gq_small gq_small_im 100 (pair_sys e t) [] [] false (fun p _ => p) (fun _ => k1) true.
Definition show (r : outcome (sparse GQ)) : outcome (list (coo * (Q * Q))) := omap (map (fun e => (fst e, see (snd e)))) r.
Definition tiny : GQ := (Q2Qc (1 # 10000000000000), 0%Qc).
Definition huge : GQ := (Q2Qc (10000000000000 # 1), 0%Qc).
Definition gi : GQ := (0%Qc, 1%Qc).
(** With energies of order one the matrix is right, real or complex; in a unit in which they are 1e-13 the onsite energies and the imaginary part are lost. *)
Example C113_example : show (pair_ham (gq_z 2 0) gi) = Ok [((0%nat, 0%nat), (2 # 1, 0)); ((1%nat, 1%nat), (2 # 1, 0)); ((0%nat, 1%nat), (0, 1)); ((1%nat, 0%nat), (0, (-1)%Q))]%Q /\
  show (pair_ham (gq_z 2 0) (gq_z 3 0)) = Ok [((0%nat, 0%nat), (2 # 1, 0)); ((1%nat, 1%nat), (2 # 1, 0)); ((0%nat, 1%nat), (3 # 1, 0)); ((1%nat, 0%nat), (3 # 1, 0))]%Q /\
  show (pair_ham (kmul tiny k1) (kmul tiny gi)) = Ok [((0%nat, 1%nat), (0, 0)); ((1%nat, 0%nat), (0, 0))]%Q.
Proof. repeat split. Qed.
Lemma pair_told : told GQ gq_re gq_small gq_small_im (hs_site (pair_sys (gq_z 2 0) gi)) /\ told GQ gq_re gq_small gq_small_im (hs_hop (pair_sys (gq_z 2 0) gi)).
Proof.
  split; intros e i j [<-|[]] _ _; cbn [snd gmat1 m_at]; split; split; intros E; try (vm_compute in E; discriminate E); reflexivity.
Qed.
Theorem C113_type_refuted : ~ C113_type_claim GQ nat gq_re gq_small gq_small_im.
Proof.
  intros H. specialize (H 100 (pair_sys (kmul tiny k1) (kmul tiny gi)) [] [] false (fun p _ => p) (fun _ => k1) true (fun _ => eq_refl)).
  apply (f_equal (fun r => match r with Ok l => length l | _ => 0 end)) in H. vm_compute in H. discriminate H.
Qed.
Print Assumptions C113_type_refuted.
Lemma tiny_huge : kmul huge tiny = @k1 GQ.
Proof. cbn. unfold gq_mul, huge, tiny. cbn [fst snd]. apply f_equal2; apply Qc_is_canon; reflexivity. Qed.
Theorem C113_unit_refuted : ~ C113_unit_claim GQ nat gq_re gq_small gq_small_im.
Proof.
  intros H. specialize (H tiny huge tiny_huge). assert (E : kconj tiny = tiny) by (cbn; unfold gq_conj, tiny; cbn [fst snd]; f_equal).
  specialize (H E 100 (pair_sys k1 gi) [] [] [] [] false (fun p _ => p) (fun _ => k1) true (fun _ => eq_refl) (Forall2_nil _) (Forall2_nil _)).
  apply (f_equal (fun r => match r with Ok l => length l | _ => 0 end)) in H. vm_compute in H. discriminate H.
Qed.
Print Assumptions C113_unit_refuted.

(** ** Lattice vectors and the unit of length *)
Definition vec := (Q * Q * Q)%type.
Definition vec_zero (a : vec) : bool := let '(x, y, z) := a in Qeq_bool x 0 && Qeq_bool y 0 && Qeq_bool z 0.
Definition float_limit : Q := 1 # 100000.
(** isZero on three floats *)
Definition float_small (x : Q) : bool := Qle_bool (- float_limit) x && Qle_bool x float_limit.
Definition vec_small (a : vec) : bool := let '(x, y, z) := a in float_small x && float_small y && float_small z.
(** Meant: every vector other than zero is a vector of the lattice. *)
Definition C113_vectors_claim : Prop := forall a1 a2 a3, lattice_vectors vec_small a1 a2 a3 = a1 :: filter (fun a => negb (vec_zero a)) [a2; a3].
Theorem C113_vectors_partial : forall a1 a2 a3, (vec_small a2 = true -> vec_zero a2 = true) -> (vec_small a3 = true -> vec_zero a3 = true) ->
  lattice_vectors vec_small a1 a2 a3 = a1 :: filter (fun a => negb (vec_zero a)) [a2; a3].
Proof.
  assert (Z : forall a, vec_zero a = true -> vec_small a = true).
  { intros [[x y] z] H. unfold vec_zero, vec_small in *. apply andb_true_iff in H. destruct H as (H & Hz). apply andb_true_iff in H. destruct H as (Hx & Hy).
    assert (F : forall q, Qeq_bool q 0 = true -> float_small q = true).
    { intros q Hq. apply Qeq_bool_eq in Hq. unfold float_small. rewrite andb_true_iff, !Qle_bool_iff, Hq. split; discriminate. }
    rewrite !F by assumption. reflexivity. }
  intros a1 a2 a3 H2 H3. unfold lattice_vectors. cbn [filter]. f_equal.
  assert (E : forall a, (vec_small a = true -> vec_zero a = true) -> vec_zero a = vec_small a) by (intros a H; apply eq_true_iff_eq; split; auto).
  rewrite (E a2 H2), (E a3 H3). destruct (vec_small a2), (vec_small a3); reflexivity.
Qed.
Print Assumptions C113_vectors_partial.
(** Graphene in nanometres has two vectors, in metres only one. *)
Example C113_vectors_example :
  length (lattice_vectors vec_small (246 # 1000, 0, 0)%Q (123 # 1000, 213 # 1000, 0)%Q (0, 0, 0)%Q) = 2 /\
  length (lattice_vectors vec_small (246 # 1000000000000, 0, 0)%Q (123 # 1000000000000, 213 # 1000000000000, 0)%Q (0, 0, 0)%Q) = 1.
Proof. split; reflexivity. Qed.
Theorem C113_vectors_refuted : ~ C113_vectors_claim.
Proof. intros H. specialize (H (246 # 1000000000000, 0, 0)%Q (123 # 1000000000000, 213 # 1000000000000, 0)%Q (0, 0, 0)%Q). discriminate H. Qed.
Print Assumptions C113_vectors_refuted.
