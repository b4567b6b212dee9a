(* Model of shapes and of the block of cells allocated for a shape.
   cppcore/src/system/Shape.cpp, cppcore/src/system/Foundation.cpp (find_bounds, constructors),
   cppcore/src/Lattice.cpp (calc_position, translate_coordinates).
   Coordinates are exact rationals instead of floats. *)
From Coq Require Export QArith.
From Verif Require Import Base Foundation.
Local Open Scope Z_scope.

(** Three rational components: a Cartesian point or its lattice coordinates. *)
Record q3 := Q3 { qx : Q; qy : Q; qz : Q }.

(* ------------------------------------------------------------------ int arithmetic *)
Definition int_max : Z := 2147483647.
Definition int_min : Z := -2147483648.

(** A value that does not fit into [int] is undefined behaviour (cast and signed overflow). *)
Definition to_int (z : Z) : outcome Z := if (int_min <=? z) && (z <=? int_max) then Ok z else UB.

(** [static_cast<int>] of a float: truncation towards zero. *)
Definition qtrunc (q : Q) : Z := Z.quot (Qnum q) (Zpos (Qden q)).

Definition int3 (i : idx3) : outcome idx3 :=
  obind (to_int (ix i)) (fun x => obind (to_int (iy i)) (fun y => omap (I3 x y) (to_int (iz i)))).

(* ------------------------------------------------------------------ find_bounds *)
(** Lattice.cpp:202-217 translate_coordinates: solves the linear system for the first [ndim]
    components, the others are 0.  [solve] stands for the (exact) solution. *)
Definition translate_coordinates {P} (solve : P -> q3) (ndim : nat) (p : P) : q3 :=
  Q3 (if (0 <? ndim)%nat then qx (solve p) else 0%Q)
     (if (1 <? ndim)%nat then qy (solve p) else 0%Q)
     (if (2 <? ndim)%nat then qz (solve p) else 0%Q).

Definition select_lt (v b : Z) : Z := if v <? b then v else b.
Definition select_gt (v b : Z) : Z := if b <? v then v else b.

(** Foundation.cpp:9-14 one vertex *)
Definition bounds_step {P} (solve : P -> q3) (ndim : nat) (b : idx3 * idx3) (p : P) : outcome (idx3 * idx3) :=
  let c := translate_coordinates solve ndim p in
  obind (int3 (I3 (qtrunc (qx c)) (qtrunc (qy c)) (qtrunc (qz c)))) (fun v =>
  Ok (I3 (select_lt (ix v) (ix (fst b))) (select_lt (iy v) (iy (fst b))) (select_lt (iz v) (iz (fst b))),
      I3 (select_gt (ix v) (ix (snd b))) (select_gt (iy v) (iy (snd b))) (select_gt (iz v) (iz (snd b))))).

(** [head(ndim)] *)
Definition head3 (ndim : nat) (k : Z) : idx3 :=
  I3 (if (0 <? ndim)%nat then k else 0) (if (1 <? ndim)%nat then k else 0) (if (2 <? ndim)%nat then k else 0).

(** Foundation.cpp:6-22 find_bounds *)
Definition find_bounds {P} (solve : P -> q3) (ndim : nat) (vertices : list P) : outcome (idx3 * idx3) :=
  obind (ofold (bounds_step solve ndim) vertices (I3 int_max int_max int_max, I3 int_min int_min int_min)) (fun b =>
  obind (int3 (add3 (fst b) (head3 ndim (-1)))) (fun lower =>
  omap (fun upper => (lower, upper)) (int3 (add3 (snd b) (head3 ndim 1))))).

(** Foundation.cpp:120 spatial_size *)
Definition block_size (b : idx3 * idx3) : outcome idx3 :=
  obind (int3 (add3 (snd b) (neg3 (fst b)))) (fun d => int3 (add3 d (I3 1 1 1))).

(** Shape.cpp:11-15 the Shape constructor, followed by Foundation.cpp:116-121 *)
Definition shape_block {P} (solve : P -> q3) (ndim : nat) (vertices : list P) : outcome (idx3 * idx3) :=
  if (length vertices <? 2)%nat then Throw
  else obind (find_bounds solve ndim vertices) (fun b => omap (fun s => (fst b, s)) (block_size b)).

(** Shape.cpp:5-9 Primitive, Foundation.cpp:107-111 *)
Definition primitive_block (size : idx3) : outcome (idx3 * idx3 * idx3) :=
  if (ix size <=? 0) || (iy size <=? 0) || (iz size <=? 0) then Throw
  else Ok (I3 (Z.quot (- ix size) 2) (Z.quot (- iy size) 2) (Z.quot (- iz size) 2),
           I3 (Z.quot (ix size - 1) 2) (Z.quot (iy size - 1) 2) (Z.quot (iz size - 1) 2), size).

(** Lattice.cpp:190-200 calc_position without a sublattice *)
Section CalcPosition.
  Variable P : Type.
  Variable padd : P -> P -> P.
  Variable pscale : Z -> P -> P.
  Definition calc_position (offset : P) (vecs : list P) (i : idx3) : P :=
    fold_left (fun p nv => padd p (pscale (fst nv) (snd nv))) (combine [ix i; iy i; iz i] vecs) offset.
End CalcPosition.

(* ------------------------------------------------------------------ Polygon *)
Definition qgt (a b : Q) : bool := negb (Qle_bool a b).

(** numeric/traits.hpp:92-98 approx_equal for float: epsilon = 2^-23, min = 2^-126 *)
Definition float_epsilon : Q := 1 # (2 ^ 23).
Definition float_min : Q := 1 # (2 ^ 126).
Definition qabs (q : Q) : Q := Z.abs (Qnum q) # Qden q.
Definition approx_equal (x y : Q) : bool :=
  Qle_bool (qabs (x - y)) (float_epsilon * qabs (x + y)) || Qle_bool (qabs (x - y)) float_min.

Definition vertex := (Q * Q)%type.

(** Shape.cpp:58-85 one side of the polygon; [p1] is vertex i, [p2] vertex j *)
Definition polygon_step (p : vertex) (inside : bool) (side : vertex * vertex) : bool :=
  let '((x1, y1), (x2, y2)) := side in
  if approx_equal y1 y2 then inside
  else let k := ((x2 - x1) / (y2 - y1))%Q in
       let intersects_y := negb (Bool.eqb (qgt y1 (snd p)) (qgt y2 (snd p))) in
       let x_side := (k * (snd p - y1) + x1)%Q in
       let intersects_x := qgt (fst p) x_side in
       if intersects_y && intersects_x then negb inside else inside.

(** The pairs (vertex i, vertex j) of the loop [for (i = 0, j = n - 1; i < n; j = i++)]. *)
Fixpoint polygon_sides (prev : vertex) (vs : list vertex) : list (vertex * vertex) :=
  match vs with [] => [] | v :: t => (v, prev) :: polygon_sides v t end.

(** Shape.cpp:53-88 WithinPolygon::operator() for one position *)
Definition within_polygon (vs : list vertex) (p : vertex) : bool :=
  fold_left (polygon_step p) (polygon_sides (last vs (0, 0)%Q) vs) false.

(* ------------------------------------------------------------------ Line *)
Definition q3sub (a b : q3) : q3 := Q3 (qx a - qx b)%Q (qy a - qy b)%Q (qz a - qz b)%Q.
Definition q3dot (a b : q3) : Q := (qx a * qx b + qy a * qy b + qz a * qz b)%Q.

(** Shape.cpp:28-42 is_acute_angle for one point.  The cosine is dot / (|ba| |bc|); when a length
    is 0 it is 0/0 = NaN and [NaN >= 0] is false, otherwise its sign is that of the dot product. *)
Definition is_acute_angle (a b c : q3) : bool :=
  let ba := q3sub a b in let bc := q3sub c b in
  if Qeq_bool (q3dot ba ba) 0 || Qeq_bool (q3dot bc bc) 0 then false
  else Qle_bool 0 (q3dot ba bc).

(** Shape.cpp:17-24 Line *)
Definition line_contains (a b c : q3) : bool := is_acute_angle a b c && is_acute_angle b a c.

(* ------------------------------------------------------------------ FreeformShape *)
(** Shape.cpp:97-110 make_freeformshape_vertices *)
Definition freeform_vertices (width center : q3) : list q3 :=
  let v1 := Q3 (qx center - (1 # 2) * qx width)%Q (qy center - (1 # 2) * qy width)%Q (qz center - (1 # 2) * qz width)%Q in
  let v2 := Q3 (qx center + (1 # 2) * qx width)%Q (qy center + (1 # 2) * qy width)%Q (qz center + (1 # 2) * qz width)%Q in
  [Q3 (qx v1) (qy v1) (qz v1); Q3 (qx v2) (qy v1) (qz v1); Q3 (qx v1) (qy v2) (qz v1); Q3 (qx v2) (qy v2) (qz v1);
   Q3 (qx v1) (qy v1) (qz v2); Q3 (qx v2) (qy v1) (qz v2); Q3 (qx v1) (qy v2) (qz v2); Q3 (qx v2) (qy v2) (qz v2)].
