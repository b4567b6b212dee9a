(* Model of the kwant layer: pybinding/support/kwant.py, KwantFiniteSystem. *)
From Verif Require Import Base Rle.

(** numpy indexing of an array with an array of integers: IndexError past the end *)
Fixpoint take_at {X} (a : list X) (idx : list nat) : outcome (list X) :=
  match idx with
  | [] => Ok []
  | i :: t => match nth_error a i with Some x => omap (cons x) (take_at a t) | None => Throw end
  end.

(** kwant.py:62-66, the orbitals per site in [hamiltonian_submatrix(return_norb=True)]: the sublattice (alias)
    ids of the sites (system.py:43, CompressedSublattices.cpp:76-82) index the list of orbital counts of the
    compressed entries (CompressedSublattices.cpp:98-103). *)
Definition to_norb (d : rle) : outcome (list nat) := take_at (orbital_counts d) (decompressed d).

(** kwant.py:47-49 [hamiltonian(i, j)]: [i] and [j] are numbers of sites for kwant; the element of the matrix
    with these indices is returned (IndexError outside). *)
Definition kwant_hamiltonian {X} (size : nat) (ham : nat -> nat -> X) (i j : nat) : outcome (list (list X)) :=
  if (i <? size) && (j <? size) then Ok [[ham i j]] else Throw.
