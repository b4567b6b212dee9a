(* The matrix handed to the solvers: one stored element per position, rows sorted by column.
   cppcore/include/hamiltonian/Hamiltonian.hpp:74-132, 163-175: elements are written with [insert], [coeffRef +=]
   or [setFromTriplets] into a row-major Eigen matrix, then [makeCompressed]; cppcore/src/KPM.cpp:7-13 hands the
   compressed arrays to the KPM core.  [insert] and [coeffRef] put a new element at its place in the row,
   contributions to a stored position are added to it. *)
From Verif Require Import Base Scalar Blocks Hamiltonian.

Section Compress.
  Variable R : scalar.
  Local Open Scope k_scope.
  Fixpoint row_add (c : nat) (v : R) (row : list (nat * R)) : list (nat * R) :=
    match row with
    | [] => [(c, v)]
    | e :: t => if c =? fst e then (fst e, snd e + v) :: t
                else if c <? fst e then (c, v) :: row
                else e :: row_add c v t
    end.
  Definition compressed_row (m : sparse R) (i : nat) : list (nat * R) :=
    fold_left (fun row e => if fst (fst e) =? i then row_add (snd (fst e)) (snd e) row else row) m [].
  Definition compress (size : nat) (m : sparse R) : list (list (nat * R)) := map (compressed_row m) (seq 0 size).
End Compress.
Arguments row_add {R}. Arguments compressed_row {R}. Arguments compress {R}.
