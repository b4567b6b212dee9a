(* pybinding/lattice.py:285-343: reciprocal lattice vectors and the Brillouin zone, over the real
   numbers.  Lattice vectors are given as the list [Lattice.vectors]: one to three of them. *)
From Coq Require Import Reals.
From Verif Require Import Base Foundation Materials MaterialsSpec.
Local Open Scope R_scope.

(** lattice.py:298-302.  [np.linalg.inv] raises LinAlgError for a singular matrix; otherwise the
    columns of the transposed inverse are the rows of the inverse, here by Cramer's rule.  Only the
    first [ndim] coordinates of the vectors enter; the others are filled with zeros. *)
Definition reciprocal_vectors (vs : list vec3) : outcome (list vec3) :=
  match vs with
  | [a] =>
    if Req_EM_T (vx a) 0 then Throw else Ok [(2 * PI * (1 / vx a), 0, 0)]
  | [a; b] =>
    let det := vx a * vy b - vx b * vy a in
    if Req_EM_T det 0 then Throw
    else Ok [(2 * PI * (vy b / det), 2 * PI * (- vx b / det), 0); (2 * PI * (- vy a / det), 2 * PI * (vx a / det), 0)]
  | [a; b; c] =>
    let cross u v := (vy u * vz v - vz u * vy v, vz u * vx v - vx u * vz v, vx u * vy v - vy u * vx v) in
    let det := vx a * (vy b * vz c - vy c * vz b) - vx b * (vy a * vz c - vy c * vz a) + vx c * (vy a * vz b - vy b * vz a) in
    if Req_EM_T det 0 then Throw
    else Ok [vscale (2 * PI * (1 / det)) (cross b c); vscale (2 * PI * (1 / det)) (cross c a); vscale (2 * PI * (1 / det)) (cross a b)]
  | _ => Throw
  end.

(** lattice.py:329-330: [itertools.product([-1, 0, 1], repeat=2)], the last factor runs fastest. *)
Definition zone_points (b1 b2 : vec3) : list vec3 :=
  flat_map (fun n => map (fun m => vadd (vscale n b1) (vscale m b2)) [-1; 0; 1]) [-1; 0; 1].
Definition norm2 (v : vec3) : R := vx v * vx v + vy v * vy v + vz v * vz v.

(** What [brillouin_zone] returns: the interval of one-dimensional lattices (lattice.py:322-325),
    the vertices of a polygon for two-dimensional ones, an error otherwise.  The polygon is the
    finite region of the Voronoi diagram of the points (scipy.spatial.Voronoi): the points of the
    plane not closer to any other of the points than to the one in the middle, the origin.  It
    stands here for its list of corners. *)
Inductive zone := Interval (lo hi : R) | Region (inside : vec3 -> Prop).
Definition brillouin_zone (vs : list vec3) : outcome zone :=
  obind (match vs with [_; _; _] => Throw | _ => reciprocal_vectors vs end) (fun bs =>
  match bs with
  | [b] => let l := sqrt (norm2 b) in Ok (Interval (- l / 2) (l / 2))
  | [b1; b2] => Ok (Region (fun x => vz x = 0 /\ forall p, In p (zone_points b1 b2) -> dist2 v0 x <= dist2 p x))
  | _ => Throw
  end).
