(* What C69 says about phosphorene. *)
From Coq Require Import Reals ZArith.
From Verif Require Import Base Scalar Foundation Lattice LatticeSpec FoundationSpec Hamiltonian BulkSpec Materials MaterialsSpec MaterialsProofs.
Local Open Scope R_scope.

(** A, B, C, D are 0..3; A and D lie at height h, B and C at height zero.  Mirror y -> -y; half turn
    about the vertical axis through the middle of a t1 bond; half turn about an axis along y in the
    middle of a t2 bond.  Positions and sites. *)
Definition my_pos (v : vec3) : vec3 := (vx v, - vy v, vz v).
Definition my (x : idx3 * nat) : idx3 * nat :=
  (I3 (ix (fst x)) (if (snd x <? 2)%nat then 1 - iy (fst x) else - iy (fst x))%Z (iz (fst x)), snd x).
Definition cz_pos (v : vec3) : vec3 := (p_ax / 2 - vx v, - p_ay / 2 - vy v, vz v).
Definition cz (x : idx3 * nat) : idx3 * nat := (opposite (fst x), (3 - snd x)%nat).
Definition cy_pos (v : vec3) : vec3 := (- vx v, vy v, p_h - vz v).
Definition cy (x : idx3 * nat) : idx3 * nat :=
  (I3 (if (snd x <? 2)%nat then - ix (fst x) else - ix (fst x) - 1)%Z (iy (fst x)) (iz (fst x)), match snd x with 0 => 1 | 1 => 0 | 2 => 3 | _ => 2 end)%nat.

(** A map of the sites that is the given movement of the atoms and keeps all energies. *)
Definition symmetry {K : scalar} (m : material K) (l : lattice K vec3) (pos : vec3 -> vec3) (site : idx3 * nat -> idx3 * nat) : Prop :=
  forall x y, site2 4 x -> site2 4 y ->
    site2 4 (site x) /\ atom m l (site x) = pos (atom m l x) /\ (forall i, option_map (fun e => m_at e i i) (onsite l (site x)) = option_map (fun e => m_at e i i) (onsite l x)) /\
    hopping l (site x) (site y) = hopping l x y.

(** With the first two hoppings only, atoms that are joined are one bond length apart; 0.03 nm is
    a wide margin. *)
Definition bond_length (d2 : R) : Prop := (p_a - 3/100) * (p_a - 3/100) <= d2 <= (p_a + 3/100) * (p_a + 3/100).
Definition C69_bonds_claim : Prop := forall (K : scalar) offset_ok order (z t1 t2 t3 t4 t5 : K) m l,
  real_energy z -> real_energy t1 -> real_energy t2 -> real_energy t3 -> real_energy t4 -> real_energy t5 ->
  phosphorene 2 z t1 t2 t3 t4 t5 = Some m -> run offset_ok order (mt_calls m) = Some l ->
  forall x y, site2 4 x -> site2 4 y -> hopping l x y <> k0 -> bond_length (dist2 (atom m l x) (atom m l y)).
