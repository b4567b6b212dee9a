(* Specification of offset copies and compositions of shapes: as sets of points of space together
   with the region that the list of vertices spans. *)
From Verif Require Import Base Foundation Geometry GeometrySpec PyShape.
Local Open Scope Q_scope.

Definition same (p q : q3) : Prop := qx p == qx q /\ qy p == qy q /\ qz p == qz q.
Definition plus (p v : q3) : q3 := Q3 (qx p + qx v) (qy p + qy v) (qz p + qz v).
Definition triple (v : list Q) : q3 := Q3 (nth 0 v 0) (nth 1 v 0) (nth 2 v 0).

(** A function of points that does not depend on how the rational coordinates are written. *)
Definition respects (f : q3 -> bool) : Prop := forall p q, same p q -> f p = f q.

(** The three things that a copy moved by [v] should have. *)
Definition moved_points (s s' : pyshape) (v : q3) : Prop := forall p, ps_contains s' (plus p v) = ps_contains s p.
Definition moved_box (s s' : pyshape) (v : q3) : Prop :=
  Forall2 (fun w' w => same w' (plus w v)) (ps_vertices s') (ps_vertices s).
Definition same_lattice_offset (s s' : pyshape) : Prop := same (ps_offset s') (ps_offset s).

(** The contract of the convex hull: its corners are input points, and no input point is further
    out in any direction. *)
Definition hull_ok (hull : list vertex -> outcome (list vertex)) : Prop :=
  forall l h, hull l = Ok h -> incl h l /\
    forall v a b, In v l -> spans (fun u => a * fst u + b * snd u) h (a * fst v + b * snd v).

(** Every contained point lies between the extreme vertices in the direction (a, b, c). *)
Definition covered (s : pyshape) (a b c : Q) : Prop :=
  forall p, ps_contains s p = true ->
    spans (fun v => a * qx v + b * qy v + c * qz v) (ps_vertices s) (a * qx p + b * qy p + c * qz p).

(** Shapes that a program can make. *)
Inductive made (hull : list vertex -> outcome (list vertex)) : pyshape -> Prop :=
| made_line : forall a b s, mk_line a b = Ok s -> made hull s
| made_polygon : forall vs s, mk_polygon vs = Ok s -> made hull s
| made_free : forall f w c s, respects f -> (0 < length c)%nat -> mk_free f w c = Ok s -> made hull s
| made_composite : forall op s1 s2 s, made hull s1 -> made hull s2 -> composite hull op s1 s2 = Ok s -> made hull s
| made_offset : forall s v s', made hull s -> (0 < length v)%nat -> with_offset s v = Ok s' -> made hull s'
| made_lattice : forall s o, made hull s -> made hull (set_lattice_offset s o).
