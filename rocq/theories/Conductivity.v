(* The conductivity from random vectors to the returned number.
   cppcore/src/KPM.cpp:131-148, cppcore/src/kpm/Core.cpp:119-150, cppcore/include/kpm/Kernel.hpp:48-56.
   Coordinates are given per row of the Hamiltonian (KPM.cpp:139-141); the check of the direction string is in
   KpmCore.v ([direction_rejected]); moments are in Random.v and the energy integral in Spectral.v. *)
From Verif Require Import Base Scalar Kpm KpmCore KpmEll KpmFinal RSum Cplx Spectral Random.
From Coq Require Import Reals.
Local Open Scope R_scope.
Local Notation csr := (list (list (nat * CX))).

(** Kernel.hpp:48-56: element (m, n) is multiplied with the coefficients of its row and of its column *)
Definition damped_matrix (kn : kernel_def) (num : nat) (mu : list (list CX)) (m n : nat) : CX :=
  kmul (nth n (nth m mu []) k0) (re (kn_g kn num m * kn_g kn num n)).

Section Conductivity.
  Variable f : format.
  Variable al : algorithm.
  Variables lo hi : R.
  Variable h : csr.
  Variable is_real : bool.
  Variable next : nat -> R.

  (** Core.cpp:119-150, one chemical potential; [kbt]: Boltzmann constant times temperature *)
  Definition core_conductivity (kn : kernel_def) (left_coords right_coords : list R) (chem broadening kbt : R) (num_random num_points : nat) : outcome CX :=
    obind (kn_required kn (broadening / s_a (make_scale lo hi))) (fun num =>
    obind (velocity CX h (map re left_coords)) (fun left =>
    obind (velocity CX h (map re right_coords)) (fun right =>
    obind (conductivity_moments f al lo hi h is_real next num num_random left right) (fun mu =>
    kubo_bastin lo hi num_points num (damped_matrix kn num mu) kbt chem)))).
  (** KPM.cpp:144-147 *)
  Definition calc_conductivity (kn : kernel_def) (left_coords right_coords : list R) (chem broadening kbt : R) (num_random num_points : nat) : outcome R :=
    omap fst (core_conductivity kn left_coords right_coords chem broadening kbt num_random num_points).
End Conductivity.
