(* Independent specification of the infinite crystal: the action of the tight-binding operator on a
   wave over all lattice sites, straight from the declared energies and hopping terms (C102, C103). *)
From Verif Require Import Base Rle Blocks Scalar Foundation FoundationSpec Lattice LatticeSpec Symmetry SymmetrySpec Hamiltonian HamiltonianSpec HamFacts HamCor BulkSpec.
From Coq Require Import Permutation.

Section Crystal.
  Context {R : scalar} {P : Type}.
  Local Open Scope k_scope.
  (** A site of the infinite crystal is a cell and the unique id of a sublattice; a wave gives a value
      to every orbital of every site. *)
  Definition wave := idx3 * nat -> nat -> R.
  (** The translated site *)
  Definition moved_site (x : idx3 * nat) (T : idx3) : idx3 * nat := (shifted_cell (fst x) T, snd x).

  (** Value of the tight-binding operator at orbital [p] of site [x]: the onsite energy matrix, the
      terms that start at the sublattice, and the conjugates of those that end there. *)
  Definition onsite_action (subs : list (sublattice R P)) (psi : wave) (x : idx3 * nat) (p : nat) : R :=
    ksum (fun s => if (sb_uid s =? snd x)%nat then ksum (fun q => m_at (sb_energy s) p q * psi x q) (seq 0 (m_rows (sb_energy s))) else k0) subs.
  Definition forward_action (E : mat R) (t : term) (psi : wave) (x : idx3 * nat) (p : nat) : R :=
    if (snd x =? t_from t)%nat then ksum (fun q => m_at E p q * psi (shifted_cell (fst x) (t_rel t), t_to t) q) (seq 0 (m_cols E)) else k0.
  Definition backward_action (E : mat R) (t : term) (psi : wave) (x : idx3 * nat) (p : nat) : R :=
    if (snd x =? t_to t)%nat then ksum (fun q => kconj (m_at E q p) * psi (shifted_cell (fst x) (opposite (t_rel t)), t_from t) q) (seq 0 (m_rows E)) else k0.
  Definition crystal (subs : list (sublattice R P)) (fams : list (family R)) (psi : wave) (x : idx3 * nat) (p : nat) : R :=
    onsite_action subs psi x p
    + ksum (fun f => ksum (fun t => forward_action (fm_energy f) t psi x p + backward_action (fm_energy f) t psi x p) (fm_terms f)) fams.

  (** Bloch condition: whole periods multiply the wave by a phase. *)
  Definition repeats (s : sym) (ph : idx3 -> R) (psi : wave) : Prop :=
    forall x T q, whole_periods s T -> psi (moved_site x T) q = kconj (ph T) * psi x q.
  (** The site or one of its periodic images is site number [n] of the system. *)
  Definition image_site (s : sym) (size : idx3) (uc : list (usite P)) (valid : list bool) (n : nat) (x : idx3 * nat) : Prop :=
    exists T, (T = zero3 \/ whole_periods s T) /\ site_at size uc valid n (moved_site x T).
  (** [psi] is the wave with the values [v] at the orbitals of the sites of the system, numbered by [d], and their periodic images, and zero elsewhere. *)
  Record wave_of (s : sym) (ph : idx3 -> R) (size : idx3) (uc : list (usite P)) (valid : list bool) (d : rle) (v : nat -> R) (psi : wave) : Prop := {
    wv_repeats : repeats s ph psi;
    wv_values : forall n x q, site_at size uc valid n x -> (q < norb_at d n)%nat -> psi x q = v (row_of d n q);
    wv_empty : forall x q, (forall n, ~ image_site s size uc valid n x) -> psi x q = k0
  }.
  (** Phases of translations: a unit number for every translation, products for sums. *)
  Definition phases (ph : idx3 -> R) : Prop :=
    ph zero3 = k1 /\ (forall S T, ph (shifted_cell S T) = ph S * ph T) /\ forall T, kconj (ph T) = ph (opposite T).
End Crystal.
Arguments wave : clear implicits.

(** Number of orbitals of a site *)
Definition orbitals {R : scalar} {P : Type} (subs : list (sublattice R P)) (x : idx3 * nat) : nat :=
  match find (fun s => sb_uid s =? snd x) subs with Some s => m_rows (sb_energy s) | None => 0 end.

(** Everything the builder is given for a periodic system: any iteration order of the lattice's maps,
    any block that holds the period, any set of its sites within one period, and bonds that reach at
    most one cell unless the period is one cell. *)
Record periodic_system {R : scalar} {P : Type} (l : lattice R P) subs fams uc reg hreg size s (valid : list bool) (fpos : list P) cap : Prop := {
  ps_subs : Permutation subs (l_subs l);
  ps_fams : Permutation fams (l_fams l);
  ps_uc : unit_cell subs fams = Ok uc;
  ps_reg : site_registry subs = Ok reg;
  ps_hreg : hopping_registry fams = Ok hreg;
  ps_primary : forall x o, In x (l_subs l) -> In o (l_subs l) -> sb_uid o = sb_alias x -> primary o;
  ps_size : positive_block size;
  ps_holds : block_holds_period size s;
  ps_valid : length valid = num_block_sites size (length uc);
  ps_in : forall i a, cell_of size i -> a < length uc -> flagged size valid (i, a) = true -> in_period size s i;
  ps_fpos : length fpos = num_block_sites size (length uc);
  ps_short : forall fam t, In fam (l_fams l) -> In t (fm_terms fam) -> short_range s (t_rel t);
  ps_buffer : fits_buffer R (l_fams l) cap
}.

(** [E] is an eigenvalue of the first [N] rows and columns of a matrix. *)
Definition matrix_energy {R : scalar} (N : nat) (M : nat -> nat -> R) (E : R) : Prop :=
  exists v : nat -> R, (exists i, i < N /\ v i <> k0) /\ forall i, i < N -> ksum (fun j => kmul (M i j) (v j)) (seq 0 N) = kmul E (v i).

(** A stationary state of energy [E] of a crystal with the sites [here]: a wave on these sites, with
    the given phases for whole periods, that solves the tight-binding equation at each of them. *)
Record bloch_state {R : scalar} {P : Type} (subs : list (sublattice R P)) (fams : list (family R)) (s : sym) (ph : idx3 -> R)
  (here : idx3 * nat -> Prop) (E : R) (psi : wave R) : Prop := {
  bs_repeats : repeats s ph psi;
  bs_nonzero : exists x p, here x /\ p < orbitals subs x /\ psi x p <> k0;
  bs_outside : forall x p, ~ here x -> psi x p = k0;
  bs_equation : forall x p, here x -> p < orbitals subs x -> crystal subs fams psi x p = kmul E (psi x p)
}.

(** The cell lies in the block in all directions without a period. *)
Definition in_slab (size : idx3) (s : sym) (i : idx3) : Prop :=
  (sy1 s = None -> 0 <= ix i < ix size)%Z /\ (sy2 s = None -> 0 <= iy i < iy size)%Z /\ (sy3 s = None -> 0 <= iz i < iz size)%Z.
(** All sites of one period *)
Definition all_sites {P} (size : idx3) (s : sym) (uc : list (usite P)) (valid : list bool) : Prop :=
  forall i a, cell_of size i -> a < length uc -> in_period size s i -> flagged size valid (i, a) = true.
