(* Modifiers of the material repository: pybinding/repository/graphene/modifiers.py, with
   pybinding/constants.py, graphene/constants.py and the array handling of pybinding/modifier.py.
   Real arithmetic, complex model type. *)
From Coq Require Import Reals.
From Verif Require Import Base Scalar Foundation Lattice Hamiltonian Cplx Spectral Materials MaterialsSpec.
Local Open Scope R_scope.

(** constants.py:11-12 *)
Definition hbar : R := 658211899 / 10 ^ 24.
Definition phi0 : R := 2 * PI * hbar.

(** modifier.py:24-62: the energies of [n] hoppings are seen with the hopping index first, the
    coordinates have extent one along the orbital axes; numpy repeats them over the orbitals.
    In memory (axes moved back, 108-113) element r belongs to hopping r mod n. *)
Definition each_hopping (f : vec3 -> vec3 -> CX -> CX) : hopping_mod CX vec3 := fun _ _ p1 p2 _ buf =>
  Ok (map (fun r => f (nth (r mod length p1) p1 v0) (nth (r mod length p1) p2 v0) (nth r buf k0)) (seq 0 (length buf))).

(** modifiers.py:54-73 [constant_magnetic_field]: [func] *)
Definition magnetic_const : R := 1 / 10 ^ 18 * 2 * PI / phi0.
Definition magnetic_func (magnitude : R) (p1 p2 : vec3) (energy : CX) : CX :=
  let vp_x := 1 / 2 * magnitude * (vy p1 + vy p2) in
  let peierls := vp_x * (vx p1 - vx p2) in
  kmul energy (expi (magnetic_const * peierls)).
Definition constant_magnetic_field (magnitude : R) : hopping_mod CX vec3 := each_hopping (magnetic_func magnitude).

(** modifiers.py:9-25 [mass_term].  [energy[sub_id == "A"]] indexes with a mask of shape (n, 1, 1)
    when there are several orbitals, which numpy refuses (IndexError).  A and B are Nm 0 and Nm 1. *)
Definition mass_shift (delta : R) (sub_id : name) (e : CX) : CX :=
  let e1 := if name_eqb sub_id (Nm 0) then kadd e (re delta) else e in
  if name_eqb sub_id (Nm 1) then ksub e1 (re delta) else e1.
Definition mass_term (delta : R) : onsite_mod CX vec3 := fun norb _ sub_id buf =>
  if (norb =? 1)%nat then Ok (map (mass_shift delta sub_id) buf) else Throw.
