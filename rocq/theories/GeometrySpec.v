(* Independent specifications for the geometry properties C11, C34 and C36. *)
From Verif Require Import Base Foundation Geometry.
From Coq Require Import Qminmax.
Local Open Scope Q_scope.

(** Component number [k] of a point and of a cell. *)
Definition coord (k : nat) (v : q3) : Q := match k with O => qx v | S O => qy v | _ => qz v end.
Definition comp (k : nat) (i : idx3) : Z := match k with O => ix i | S O => iy i | _ => iz i end.

(** [x] lies between the smallest and the largest value of [g] over the points [vs]. *)
Definition spans {P} (g : P -> Q) (vs : list P) (x : Q) : Prop :=
  exists u w, In u vs /\ In w vs /\ g u <= x /\ x <= g w.

(** Sides of the closed polygon: each vertex with its predecessor, the first one with the last. *)
Definition closed_sides (vs : list vertex) : list (vertex * vertex) := combine vs (last vs (0, 0) :: vs).

(** The leftward horizontal ray from [p] meets the side: exactly one end is strictly above the
    ray and the point of the side at the height of [p] is strictly left of [p]. *)
Definition above (p v : vertex) : Prop := snd p < snd v.
Definition ray_hits (p : vertex) (side : vertex * vertex) : Prop :=
  let (v, w) := side in
  (above p v /\ ~ above p w \/ ~ above p v /\ above p w) /\
  exists t, 0 <= t <= 1 /\ (1 - t) * snd v + t * snd w == snd p /\ (1 - t) * fst v + t * fst w < fst p.

(** No side has ends of different height that the code takes for equal. *)
Definition no_sliver (vs : list vertex) : Prop :=
  forall v w, In (v, w) (closed_sides vs) -> approx_equal (snd v) (snd w) = true -> snd v == snd w.

(** Signed distance along the line from [a] to [b], not normalised. *)
Definition along (a b c : q3) : Q := q3dot (q3sub b a) (q3sub c a).
