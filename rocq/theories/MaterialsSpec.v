(* What a material description says: where the atoms are and which matrix elements join them
   (C63 onwards).  The matrix elements are those of the infinite lattice, BulkSpec.v. *)
From Coq Require Import Reals.
From Verif Require Import Base Scalar Foundation Lattice FoundationSpec Hamiltonian BulkSpec Materials.
Local Open Scope R_scope.

Definition vx (v : vec3) : R := fst (fst v).
Definition vy (v : vec3) : R := snd (fst v).
Definition vz (v : vec3) : R := snd v.
Definition vadd (u v : vec3) : vec3 := (vx u + vx v, vy u + vy v, vz u + vz v).
Definition vscale (c : R) (v : vec3) : vec3 := (c * vx v, c * vy v, c * vz v).
Definition v0 : vec3 := (0, 0, 0).
Definition dist2 (u v : vec3) : R :=
  (vx v - vx u) * (vx v - vx u) + (vy v - vy u) * (vy v - vy u) + (vz v - vz u) * (vz v - vz u).
(** Distance in the xy-plane. *)
Definition flat2 (u v : vec3) : R := (vx v - vx u) * (vx v - vx u) + (vy v - vy u) * (vy v - vy u).

(** Corner of a cell of a lattice with the primitive vectors [vs]. *)
Definition corner (vs : list vec3) (c : idx3) : vec3 :=
  vadd (vscale (IZR (ix c)) (nth 0 vs v0)) (vadd (vscale (IZR (iy c)) (nth 1 vs v0)) (vscale (IZR (iz c)) (nth 2 vs v0))).
(** Position of the sublattice with the given unique id, in the cell. *)
Definition atom {K : scalar} (m : material K) (l : lattice K vec3) (x : idx3 * nat) : vec3 :=
  match find (fun s => (sb_uid s =? snd x)%nat) (l_subs l) with
  | Some s => vadd (corner (mt_vectors m) (fst x)) (sb_pos s)
  | None => v0
  end.
(** A site of a two-dimensional lattice with [n] sublattices. *)
Definition site2 (n : nat) (x : idx3 * nat) : Prop := iz (fst x) = 0%Z /\ (snd x < n)%nat.

(** Matrix element of the infinite lattice between two single-orbital sites, onsite energies aside. *)
Definition hopping {K : scalar} (l : lattice K vec3) (x y : idx3 * nat) : K := bulk complex_type (l_fams l) x 0 y 0.
Definition onsite {K : scalar} (l : lattice K vec3) (x : idx3 * nat) : option (mat K) :=
  option_map sb_energy (find (fun s => (sb_uid s =? snd x)%nat) (l_subs l)).
