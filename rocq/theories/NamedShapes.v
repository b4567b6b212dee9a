(* Model of the shapes with real coordinates: regular_polygon (pybinding/shape.py) and hexagon_ac
   (pybinding/repository/graphene/shape.py).  Reals instead of floats; [math.ceil] is exact. *)
From Coq Require Import Reals Lra.
From Verif Require Import Base.
Local Open Scope R_scope.

(** shape.py:109-112 Polygon.__init__ *)
Definition polygon (vs : list (R * R)) : outcome (list (R * R)) := if (length vs <? 3)%nat then Throw else Ok vs.

(** shape.py:298-300 regular_polygon *)
Definition regular_polygon (num_sides : nat) (radius angle : R) : outcome (list (R * R)) :=
  let angles := map (fun n => angle + 2 * INR n * PI / INR num_sides) (seq 0 num_sides) in
  polygon (map (fun a => (radius * sin a, radius * cos a)) angles).

(** math.ceil *)
Definition ceil (x : R) : Z := (- Int_part (- x))%Z.

(** repository/graphene/shape.py:21-22 *)
Definition side_atoms (a_cc side_width : R) : Z :=
  let n := ceil ((side_width / a_cc + 1) * 2 / 3) in (n + n mod 2)%Z.

(** repository/graphene/shape.py:24 *)
Definition adjusted_width (a_cc side_width : R) : R := (3 / 2 * IZR (side_atoms a_cc side_width) - 1) * a_cc - a_cc / 2.

(** repository/graphene/shape.py:26-29 *)
Definition hexagon_ac (a_cc side_width : R) : outcome (list (R * R)) :=
  let w := adjusted_width a_cc side_width in
  let x0 := w * sqrt 3 / 2 in let y0 := w in
  polygon [(0, y0); (x0, y0 / 2); (x0, - y0 / 2); (0, - y0); (- x0, - y0 / 2); (- x0, y0 / 2)].
