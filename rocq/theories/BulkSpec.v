(* Independent specification of the infinite lattice: the matrix element between two orbitals
   of the bulk, straight from the hopping terms (C35, C43). *)
From Verif Require Import Base Rle Blocks Scalar Foundation FoundationSpec Lattice LatticeSpec Symmetry SymmetrySpec Hamiltonian HamiltonianSpec.

Section Bulk.
  Variable R : scalar.
  Variable nt : ntype R.
  Local Open Scope k_scope.

  (** The term leads from [x] to [y]; a site of the lattice is a cell and the unique id of a sublattice. *)
  Definition leads_to (t : term) (x y : idx3 * nat) : bool :=
    ((snd x =? t_from t) && (snd y =? t_to t))%nat && eqb3 (fst y) (shifted_cell (fst x) (t_rel t)).

  (** Sum of the energies of all terms from [x] to [y]. *)
  Definition hops_to (fams : list (family R)) (x : idx3 * nat) (p : nat) (y : idx3 * nat) (q : nat) : R :=
    ksum (fun f => ksum (fun t => if leads_to t x y then nt_cast nt (m_at (fm_energy f) p q) else k0) (fm_terms f)) fams.

  (** Hopping element of the bulk Hamiltonian: the terms and their Hermitian conjugates. *)
  Definition bulk (fams : list (family R)) (x : idx3 * nat) (p : nat) (y : idx3 * nat) (q : nat) : R :=
    hops_to fams x p y q + nt_conj nt (hops_to fams y q x p).

  (** A hopping energy that equals its conjugate transpose. *)
  Definition self_adjoint (E : mat R) : Prop :=
    m_rows E = m_cols E /\ forall p q, (p < m_rows E)%nat -> (q < m_cols E)%nat ->
      nt_cast nt (m_at E p q) = nt_conj nt (nt_cast nt (m_at E q p)).
End Bulk.
Arguments hops_to {R}. Arguments bulk {R}. Arguments self_adjoint {R}.

(** Site number [n] of the system is the site [x] of the lattice (cell and unique id of the sublattice). *)
Definition site_at {P} (size : idx3) (uc : list (usite P)) (valid : list bool) (n : nat) (x : idx3 * nat) : Prop :=
  exists a, cell_of size (fst x) /\ uid_at uc a = Some (snd x) /\ flagged size valid (fst x, a) = true /\
    n = number valid (place size (fst x) a).

(** A list of non-zero translations by whole periods, among them all that bond the two sites or their images. *)
Definition translations_of {R} (s : sym) (fams : list (family R)) (x y : idx3 * nat) (Ts : list idx3) : Prop :=
  NoDup Ts /\ (forall T, In T Ts -> whole_periods s T) /\
  forall T fam t, whole_periods s T -> In fam fams -> In t (fm_terms fam) ->
    (leads_to t (shifted_cell (fst x) T, snd x) y = true \/ leads_to t (shifted_cell (fst y) T, snd y) x = true) -> In T Ts.
