(* Property theorem C78: the named shapes of rational coordinates (rectangle, circle).
   Model: PyShape.v.  Regular polygons are in PropsRegular.v. *)
From Verif Require Import Base Foundation Geometry GeometrySpec GeometryProofs ShapeProofs PyShape PyShapeSpec PyShapeProofs PropsPyShape.
From Coq Require Import Lqa.

Local Open Scope Q_scope.

(* ------------------------------------------------------------------ rectangle *)
(** Full claim: a rectangle of width x and height y is the half-open box around the origin. *)
Definition C78_claim_rectangle : Prop :=
  forall x y s p, 0 <= x -> 0 <= y -> rectangle x (Some y) = Ok s ->
  (ps_contains s p = true <-> (- (x / 2) < qx p <= x / 2 /\ - (y / 2) <= qy p < y / 2)).

(** False for a height of zero, which stands for "no height given": the result is a square. *)
Theorem C78_zero_height_refuted : ~ C78_claim_rectangle.
Proof.
  intros H. specialize (H 2 0 (get (rectangle 2 (Some 0))) (Q3 0 0 0) ltac:(lra) ltac:(lra) eq_refl).
  destruct H as [H _]. specialize (H eq_refl). destruct H as (_ & _ & H). vm_compute in H. discriminate H.
Qed.
Print Assumptions C78_zero_height_refuted.

Lemma level : forall y, float_min < y -> approx_equal (- (y / 2)) (y / 2) = false.
Proof.
  intros y H. assert (P : 0 < float_min) by reflexivity. unfold approx_equal. apply orb_false_iff.
  assert (A : y <= qabs (- (y / 2) - y / 2)).
  { rewrite (qabs_wd (- (y / 2) - y / 2) (- y)) by field. rewrite qabs_opp. destruct y as [n d]. unfold qabs, Qle. cbn. nia. }
  assert (B : qabs (- (y / 2) + y / 2) == 0) by (apply qabs_zero; ring).
  split; apply not_true_iff_false; intros X; apply Qle_bool_iff in X.
  - rewrite B in X. assert (float_epsilon * 0 == 0) by ring. lra.
  - lra.
Qed.

(** What holds: heights that are not below the smallest positive float. *)
Theorem C78_rectangle_partial :
  forall x y s p, 0 < x -> float_min < y -> rectangle x (Some y) = Ok s ->
  (ps_contains s p = true <-> (- (x / 2) < qx p <= x / 2 /\ - (y / 2) <= qy p < y / 2)).
Proof.
  intros x y s p HX HY E. assert (P : 0 < float_min) by reflexivity. unfold rectangle in E.
  assert (N : Qeq_bool y 0 = false) by (apply not_true_iff_false; intros C; apply Qeq_bool_iff in C; lra).
  rewrite N in E. unfold mk_polygon in E. cbn [length Nat.ltb Nat.leb] in E.
  set (vs := [Q3 (x / 2) (y / 2) 0; Q3 (x / 2) (- (y / 2)) 0; Q3 (- (x / 2)) (- (y / 2)) 0; Q3 (- (x / 2)) (y / 2) 0]) in *.
  assert (EC : ps_contains s p = within_polygon (map flat vs) (flat p)) by (inversion E; reflexivity). rewrite EC. clear E EC.
  assert (R1 : forall q, within_polygon (map flat vs) q =
     within_polygon [(- (x / 2), - (y / 2)); (x / 2, - (y / 2)); (x / 2, y / 2); (- (x / 2), y / 2)] q).
  { intros q. rewrite <- (polygon_reverse [(- (x / 2), - (y / 2)); _; _; _]). cbn [rev app].
    exact (eq_sym (polygon_rotate [(- (x / 2), y / 2)] [(x / 2, y / 2); (x / 2, - (y / 2)); (- (x / 2), - (y / 2))] q)). }
  assert (D2 : forall z, 0 < z -> 0 < z / 2) by (intros z Hz; apply Qlt_shift_div_l; lra).
  pose proof (D2 x HX). pose proof (D2 y ltac:(lra)).
  rewrite R1, polygon_rectangle; [reflexivity|lra|lra|]. apply level. exact HY.
Qed.
Print Assumptions C78_rectangle_partial.

(** Without a height: a square. *)
Theorem C78_square : forall x, rectangle x None = rectangle x (Some x).
Proof. intros x. unfold rectangle. destruct (Qeq_bool x 0); reflexivity. Qed.
Print Assumptions C78_square.

(* ------------------------------------------------------------------ circle *)
(** The circle is the open disc at every height, and its box covers it in the plane. *)
Theorem C78_circle :
  forall r x0 y0 s, circle r (x0, y0) = Ok s ->
  (forall p, ps_contains s p = true <->
     0 < r /\ (qx p - x0) * (qx p - x0) + (qy p - y0) * (qy p - y0) < r * r) /\
  (forall a b, covered s a b 0).
Proof.
  intros r x0 y0 s E. unfold circle, mk_free in E.
  assert (EC : ps_contains s = fun p => qlt 0 r && qlt ((qx p - x0) * (qx p - x0) + (qy p - y0) * (qy p - y0)) (r * r)) by (inversion E; reflexivity).
  assert (EV : ps_vertices s = freeform_vertices (cart [2 * r; 2 * r]) (cart [x0; y0])) by (inversion E; reflexivity).
  assert (LT : forall a b, qlt a b = true <-> a < b).
  { intros a b. unfold qlt. rewrite negb_true_iff. split; intros H.
    - destruct (Qlt_le_dec a b) as [L|L]; [exact L|]. apply Qle_bool_iff in L. congruence.
    - apply not_true_iff_false. intros C. apply Qle_bool_iff in C. lra. }
  assert (P : forall p, ps_contains s p = true <-> 0 < r /\ (qx p - x0) * (qx p - x0) + (qy p - y0) * (qy p - y0) < r * r).
  { intros p. rewrite EC, andb_true_iff, !LT. reflexivity. }
  split; [exact P|]. intros a b p Hp. apply P in Hp. destruct Hp as [HR HD]. rewrite EV.
  assert (BD : forall u v, u * u + v * v < r * r -> - r <= u <= r).
  { intros u v H. assert (0 <= v * v) by nra. split; nra. }
  pose proof (BD _ _ HD) as BX. pose proof (BD (qy p - y0) (qx p - x0) ltac:(lra)) as BY.
  destruct (freeform_in_box (cart [2 * r; 2 * r]) (cart [x0; y0]) (Q3 (qx p) (qy p) 0) a b 0) as (u & w & Hu & Hw & A & B);
    try (cbn [cart item nth qx qy qz]; lra).
  exists u, w. cbn [qx qy qz] in *. repeat split; try assumption; lra.
Qed.
Print Assumptions C78_circle.

(** Polygons without sides that are level only within the tolerance are covered in the plane;
    together with C77 this holds for every composition of these shapes. *)
Theorem C78_polygon :
  forall vs s, mk_polygon vs = Ok s -> no_sliver (map flat vs) -> forall a b, covered s a b 0.
Proof.
  intros vs s E NS a b p Hp. unfold mk_polygon in E. destruct (length vs <? 3)%nat; [discriminate|].
  assert (EC : ps_contains s p = within_polygon (map flat vs) (flat p)) by (inversion E; reflexivity).
  assert (EV : ps_vertices s = vs) by (inversion E; reflexivity). rewrite EC in Hp. rewrite EV.
  destruct (polygon_in_box (map flat vs) (flat p) a b NS Hp) as (u & w & Hu & Hw & A & B).
  apply in_map_iff in Hu. apply in_map_iff in Hw. destruct Hu as (u' & <- & Hu). destruct Hw as (w' & <- & Hw).
  exists u', w'. cbn [flat fst snd] in *. repeat split; try assumption; lra.
Qed.
Print Assumptions C78_polygon.

Example C78_example :
  map (ps_contains (get (rectangle 4 (Some 2)))) [Q3 0 0 0; Q3 2 0 0; Q3 (-(2)) 0 0; Q3 0 1 0; Q3 0 (-(1)) 0] = [true; true; false; false; true] /\
  map (ps_contains (get (circle 5 (1, 1)))) [Q3 4 4 0; Q3 4 5 0; Q3 1 (-(3)) 7] = [true; false; true] /\
  ps_contains (get (circle (-(5)) (0, 0))) (Q3 0 0 0) = false.
Proof. repeat split; vm_compute; reflexivity. Qed.

