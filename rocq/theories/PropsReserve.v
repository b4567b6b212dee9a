(* Property theorem C56: the space reserved for matrix elements.  Model: SystemMods.v, Hamiltonian.v; proofs: ReserveProofs.v. *)
From Verif Require Import Base Rle Blocks Scalar Lattice Symmetry Foundation SystemBuild Hamiltonian SystemMods ReserveProofs PropsLattice PropsHamiltonian PropsSystem.

(** Hamiltonian.hpp:98-115: [triplets] is given room for [hamiltonian_nnz()] elements.  For every
    system, registry, list of modifiers, buffer size and either path, a build that succeeds hands
    over at most that many elements, so the vector never has to grow. *)
Theorem C56 : forall (R : scalar) (P : Type) cap nt (reg hreg : list (name * mat R)) (s : sysdata P P) om hm simple m room,
  hamiltonian_nnz hreg s = Ok room -> build_main cap nt (hsys_of reg hreg s) om hm simple = Ok m -> length m <= room.
Proof. exact build_le. Qed.
Print Assumptions C56.

(** The bound is reached: two sites with two orbitals each and a full energy matrix, one hopping
    family with a 2x2 matrix, one bond, and no zero anywhere: 2 * 4 + 2 * 4 elements. *)
Definition full2 : mat GI := gmat 2 2 (fun i j => (1, Z.of_nat (i + j))%Z).
Definition pair_sys : sysdata nat nat := SysData [10; 20] [Elem 0 2 2] (HB 2 [[(0, 1)]]) [] [].
Example C56_example :
  hamiltonian_nnz [(Nm 5, full2)] pair_sys = Ok 16 /\
  omap (@length _) (build_main 100 complex_type (hsys_of [(Nm 1, full2)] [(Nm 5, full2)] pair_sys) [] [] false) = Ok 16 /\
  omap (@length _) (build_main 100 complex_type (hsys_of [(Nm 1, gmat 2 2 (fun _ _ => (0, 0)%Z))] [(Nm 5, full2)] pair_sys) [] [] false) = Ok 8.
Proof. vm_compute. repeat split. Qed.
