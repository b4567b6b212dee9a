(* Model of pybinding/shape.py: the Python classes on top of the C++ shapes of Shape.cpp
   (Geometry.v), their offset copies, their compositions and the named shapes.

   Coordinates are rationals, as in Geometry.v.  A Python array of 1 to 3 numbers is a [list Q];
   the pybind11 caster fills the missing coordinates of a [Cartesian] with zeros.  Exceptions
   (IndexError, ValueError of a numpy broadcast, RuntimeError) are [Throw].  Plotting is left out. *)
From Verif Require Import Base Foundation Geometry.
Local Open Scope Q_scope.

Definition q3add (a b : q3) : q3 := Q3 (qx a + qx b) (qy a + qy b) (qz a + qz b).
Definition flat (p : q3) : vertex := (qx p, qy p).
Definition item (k : nat) (l : list Q) : Q := nth k l 0.

(** Conversion of an array_like to [Cartesian] (cppmodule, pybind11 caster): missing entries are 0. *)
Definition cart (l : list Q) : q3 := Q3 (item 0 l) (item 1 l) (item 2 l).

(** shape.py:68-204 the attributes that each class keeps next to those of the C++ base *)
Inductive pykind : Type :=
| KLine (a b : Q * Q)
| KPolygon
| KFree (width center : list Q)
| KComposite.

(** Shape.hpp:33-45 [vertices], [contains], [lattice_offset] *)
Record pyshape := PyShape { ps_vertices : list q3; ps_contains : q3 -> bool; ps_kind : pykind; ps_offset : q3 }.

Definition no_offset : q3 := Q3 0 0 0.

(** shape.py:78-84 Line.__init__; [resize(2)] fills with zeros or cuts off.  Shape.cpp:17-24 *)
Definition mk_line (a b : list Q) : outcome pyshape :=
  let a' := Q3 (item 0 a) (item 1 a) 0 in let b' := Q3 (item 0 b) (item 1 b) 0 in
  Ok (PyShape [a'; b'] (line_contains a' b') (KLine (flat a') (flat b')) no_offset).

(** shape.py:109-112 Polygon.__init__, Shape.cpp:92-93 *)
Definition mk_polygon (vs : list q3) : outcome pyshape :=
  if (length vs <? 3)%nat then Throw
  else Ok (PyShape vs (fun p => within_polygon (map flat vs) (flat p)) KPolygon no_offset).

(** shape.py:152-155 FreeformShape.__init__, Shape.cpp:114-115 *)
Definition mk_free (contains : q3 -> bool) (width center : list Q) : outcome pyshape :=
  Ok (PyShape (freeform_vertices (cart width) (cart center)) contains (KFree width center) no_offset).

(** shape.py:159-162, 208-211 the function [contains] of an offset copy:
    [[v0 - v for v0, v in zip(r0, vector)] + r0[len(vector):]] *)
Fixpoint zip_sub (r v : list Q) : list Q :=
  match r, v with x :: r', y :: v' => (x - y) :: zip_sub r' v' | _, _ => [] end.
Definition back_by (v : list Q) (p : q3) : q3 :=
  let r0 := [qx p; qy p; qz p] in cart (zip_sub r0 v ++ skipn (length v) r0).

(** numpy addition of two one-dimensional arrays, with broadcasting of a single element *)
Fixpoint zip_add (a b : list Q) : list Q :=
  match a, b with x :: a', y :: b' => (x + y) :: zip_add a' b' | _, _ => [] end.
Definition np_add (a b : list Q) : outcome (list Q) :=
  if (length a =? length b)%nat then Ok (zip_add a b)
  else match a, b with
       | [x], _ => Ok (map (fun y => x + y) b)
       | _, [y] => Ok (map (fun x => x + y) a)
       | _, _ => Throw
       end.

(** [v = np.zeros(3); v[:len(vector)] = vector]: a vector of more than 3 numbers does not fit *)
Definition zeros_with (v : list Q) : outcome q3 := if (3 <? length v)%nat then Throw else Ok (cart v).

(** shape.py:86-88 Line.with_offset: the first component is added to both coordinates of [a],
    the second one to both coordinates of [b] *)
Definition line_with_offset (a b : Q * Q) (v : list Q) : outcome pyshape :=
  match v with
  | v0 :: v1 :: _ => mk_line [fst a + v0; snd a + v0] [fst b + v1; snd b + v1]
  | _ => Throw
  end.

(** shape.py:86-88, 114-118, 157-163, 206-218 with_offset.  No copy takes over [lattice_offset]. *)
Definition with_offset (s : pyshape) (v : list Q) : outcome pyshape :=
  match ps_kind s with
  | KLine a b => line_with_offset a b v
  | KPolygon => obind (zeros_with v) (fun w => mk_polygon (map (fun v0 => q3add v0 w) (ps_vertices s)))
  | KFree width center =>
      obind (np_add (firstn (length v) center) v) (fun c =>
      mk_free (fun p => ps_contains s (back_by v p)) width c)
  | KComposite =>
      obind (zeros_with v) (fun w =>
      if (length (ps_vertices s) <? 2)%nat then Throw   (* Shape.cpp:13-14 *)
      else Ok (PyShape (map (fun v0 => q3add v0 w) (ps_vertices s)) (fun p => ps_contains s (back_by v p)) KComposite no_offset))
  end.

(** shape.py:193-204 CompositeShape.__init__.  [hull] is [scipy.spatial.ConvexHull] followed by
    the selection of its vertices; it raises an error for degenerate input.  Only x and y of the
    vertices are handed to it. *)
Definition composite (hull : list vertex -> outcome (list vertex)) (op : bool -> bool -> bool) (s1 s2 : pyshape) : outcome pyshape :=
  obind (hull (map flat (ps_vertices s1 ++ ps_vertices s2))) (fun h =>
  let vertices := map (fun v => Q3 (fst v) (snd v) 0) h in
  if (length vertices <? 2)%nat then Throw
  else Ok (PyShape vertices (fun p => op (ps_contains s1 p) (ps_contains s2 p)) KComposite no_offset)).

(** shape.py:52-65 the operators *)
Definition shape_and hull := composite hull andb.
Definition shape_or hull := composite hull orb.
Definition shape_xor hull := composite hull xorb.
Definition shape_add hull := shape_or hull.
Definition shape_sub hull := composite hull (fun a b => a && negb b).

(** shape.py:277-279 rectangle; [y or x] takes [x] when [y] is missing or zero *)
Definition rectangle (x : Q) (y : option Q) : outcome pyshape :=
  let y' := match y with None => x | Some q => if Qeq_bool q 0 then x else q end in
  let x0 := x / 2 in let y0 := y' / 2 in
  mk_polygon [Q3 x0 y0 0; Q3 x0 (- y0) 0; Q3 (- x0) (- y0) 0; Q3 (- x0) y0 0].

(** shape.py:315-319 circle; sqrt(d) < radius is 0 < radius and d < radius^2 *)
Definition qlt (a b : Q) : bool := negb (Qle_bool b a).
Definition circle (radius : Q) (center : Q * Q) : outcome pyshape :=
  let (x0, y0) := center in
  mk_free (fun p => qlt 0 radius && qlt ((qx p - x0) * (qx p - x0) + (qy p - y0) * (qy p - y0)) (radius * radius))
    [2 * radius; 2 * radius] [x0; y0].

(** repository/graphene/shape.py:30, the only place that sets [lattice_offset] from Python *)
Definition set_lattice_offset (s : pyshape) (o : q3) : pyshape := PyShape (ps_vertices s) (ps_contains s) (ps_kind s) o.
