(* The other modifiers of the material repository: pybinding/repository/graphene/modifiers.py
   (coulomb_potential, strained_hopping, triaxial_strain, gaussian_bump) with graphene/constants.py.
   Real arithmetic, complex model type. *)
From Coq Require Import Reals.
From Verif Require Import Base Scalar Foundation Lattice Hamiltonian Cplx Spectral Materials MaterialsSpec GrapheneModifiers.
Local Open Scope R_scope.

(** graphene/constants.py:5-8; [a_cc] is [g_acc] of Materials.v *)
Definition g_t : R := - (28 / 10).
Definition g_beta : R := 337 / 100.
Definition g_vf : R := 3 / (2 * hbar) * Rabs g_t * g_acc.

(** modifiers.py:76-82 [strained_hopping] *)
Definition strained_func (p1 p2 : vec3) (energy : CX) : CX :=
  let l := sqrt ((vx p1 - vx p2) ^ 2 + (vy p1 - vy p2) ^ 2 + (vz p1 - vz p2) ^ 2) in
  let w := l / g_acc - 1 in
  kmul energy (re (exp (- g_beta * w))).
Definition strained_hopping : hopping_mod CX vec3 := each_hopping strained_func.

(** modifiers.py:85-115 [triaxial_strain]: [field_to_strain] and [displacement] of one site
    ([zigzag_direction] is always False) *)
Definition field_to_strain (field : R) : R := field * g_acc / (4 * hbar * g_beta) * / 10 ^ 18.
Definition triaxial (c : R) (p : vec3) : vec3 :=
  let ux := 2 * c * vx p * vy p in
  let uy := c * (vx p ^ 2 - vy p ^ 2) in
  (vx p + ux, vy p + uy, vz p).
Definition triaxial_strain (magnetic_field : R) : (list vec3 -> list vec3) * hopping_mod CX vec3 :=
  (map (triaxial (field_to_strain magnetic_field)), strained_hopping).

(** modifiers.py:118-137 [gaussian_bump]: [displacement] of one site.  The old z is not an argument. *)
Definition bump (height sigma : R) (center : R * R) (p : vec3) : vec3 :=
  let r2 := (vx p - fst center) ^ 2 + (vy p - snd center) ^ 2 in
  (vx p, vy p, height * exp (- r2 / sigma ^ 2)).
Definition gaussian_bump (height sigma : R) (center : R * R) : (list vec3 -> list vec3) * hopping_mod CX vec3 :=
  (map (bump height sigma center), strained_hopping).

(** modifiers.py:28-51 [coulomb_potential].  [r] has extent one along the orbital axes and is repeated
    over them (see [each_hopping]).  A division by zero gives an infinite energy, which has no
    counterpart in the reals: UB. *)
Definition coulomb_radius (cutoff_radius : R) (offset p : vec3) : R :=
  let r := sqrt ((vx p - vx offset) ^ 2 + (vy p - vy offset) ^ 2 + (vz p - vz offset) ^ 2) in
  if Rlt_dec r cutoff_radius then cutoff_radius else r.
Definition coulomb_func (beta cutoff_radius : R) (offset p : vec3) (energy : CX) : CX :=
  let scaled_beta := beta * hbar * g_vf in
  ksub energy (re (scaled_beta / coulomb_radius cutoff_radius offset p)).
Definition each_site (f : vec3 -> CX -> CX) (ps : list vec3) (buf : list CX) : list CX :=
  map (fun r => f (nth (r mod length ps) ps v0) (nth r buf k0)) (seq 0 (length buf)).
Definition coulomb_potential (beta cutoff_radius : R) (offset : vec3) : onsite_mod CX vec3 := fun _ ps _ buf =>
  if forallb (fun p => if Req_EM_T (coulomb_radius cutoff_radius offset p) 0 then false else true) ps
  then Ok (each_site (coulomb_func beta cutoff_radius offset) ps buf) else UB.
