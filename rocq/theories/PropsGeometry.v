(* Property theorems C11, C34, C36, C37, C38: shapes and the block of cells allocated for them.
   Model: Geometry.v; specification: GeometrySpec.v; proofs: GeometryProofs.v, ShapeProofs.v. *)
From Verif Require Import Base Foundation FoundationSpec Geometry GeometrySpec GeometryProofs ShapeProofs.
From Coq Require Import Lqa.
Local Open Scope Q_scope.

(* ------------------------------------------------------------------ C11 *)
(** Every cell whose lattice point lies between the extreme lattice coordinates of the vertices
    is in the block, with at least one more cell on either side; the block has exactly one layer
    in the directions the lattice does not have. *)
Theorem C11_block_covers_cells :
  forall (P : Type) (solve : P -> q3) ndim vertices lo size,
  shape_block solve ndim vertices = Ok (lo, size) ->
  (forall k, (k < 3)%nat -> (0 < comp k size)%Z) /\
  (forall k, (k < 3)%nat -> (ndim <= k)%nat -> comp k lo = 0%Z /\ comp k size = 1%Z) /\
  (forall k n, (k < 3)%nat -> (k < ndim)%nat -> spans (fun p => coord k (solve p)) vertices (inject_Z n) ->
     (comp k lo + 1 <= n < comp k lo + comp k size - 1)%Z).
Proof. intros P solve ndim vs lo size E. destruct (block_covers solve ndim vs lo size E) as (A & B & _ & D). auto. Qed.
Print Assumptions C11_block_covers_cells.

(** The block is computed without integer overflow for all shapes of up to 10^9 cells across. *)
Theorem C11_block_exists :
  forall (P : Type) (solve : P -> q3) ndim vertices, (2 <= length vertices)%nat ->
  (forall p k, In p vertices -> (k < 3)%nat -> -(500000000) <= coord k (solve p) <= 500000000) ->
  exists lo size, shape_block solve ndim vertices = Ok (lo, size).
Proof. exact @block_exists. Qed.
Print Assumptions C11_block_exists.

(** Entry (i, a) of the position array is the position of sublattice [a] in cell [lo + i]. *)
Theorem C11_block_positions :
  forall P (padd : P -> P -> P) (pscale : Z -> P -> P),
  (forall a b, padd a b = padd b a) -> (forall a b c, padd a (padd b c) = padd (padd a b) c) ->
  (forall m n v, pscale (m + n)%Z v = padd (pscale m v) (pscale n v)) ->
  (forall p v, padd p (pscale 0%Z v) = p) ->
  forall offset lo size vecs (uc : list (usite P)), positive_block size ->
  (0 < length vecs)%nat -> ((length vecs < 2)%nat -> iy size = 1%Z) -> ((length vecs < 3)%nat -> iz size = 1%Z) ->
  exists pos, generate_positions P padd pscale (calc_position P padd pscale offset vecs lo) size vecs uc = Ok pos /\
    length pos = num_block_sites size (length uc) /\
    forall i a u, cell_of size i -> nth_error uc a = Some u ->
      nth_error pos (place size i a) = Some (padd (calc_position P padd pscale offset vecs (add3 lo i)) (u_pos u)).
Proof. exact block_positions. Qed.
Print Assumptions C11_block_positions.

Definition self (p : q3) : q3 := p.
Example C11_example :
  shape_block self 2 [Q3 (-(5 # 2)) 0 7; Q3 (3 # 2) (1 # 3) 7; Q3 0 (9 # 2) 7] = Ok (I3 (-3) (-1) 0, I3 6 7 1) /\
  shape_block self 2 [Q3 0 0 0] = Throw /\
  shape_block self 2 [Q3 0 0 0; Q3 3000000000 0 0] = UB.
Proof. repeat split; vm_compute; reflexivity. Qed.
Example C11_example_positions :
  generate_positions Z Z.add Z.mul (calc_position Z Z.add Z.mul 5%Z [10; 100]%Z (I3 (-1) 2 0)) (I3 2 1 1) [10; 100]%Z
    [USite 1%Z 1 0 0 []; USite 2%Z 1 1 1 []] = Ok [196; 206; 197; 207]%Z.
Proof. reflexivity. Qed.

(* ------------------------------------------------------------------ C34 *)
(** Full claim: the even-odd rule for every vertex list. *)
Definition C34_claim : Prop :=
  forall vs p, exists marks, Forall2 (fun m side => m = true <-> ray_hits p side) marks (closed_sides vs) /\
    within_polygon vs p = Nat.odd (count_true marks).

(** False: sides whose ends differ in height by less than the comparison tolerance are skipped. *)
Definition sliver : list vertex := [(0, 1); (10, 1 + (1 # 16777216)); (10, 4); (0, 4)].
Theorem C34_even_odd_refuted : ~ C34_claim.
Proof.
  intros H. destruct (H sliver (11, 1)) as (marks & F & E).
  assert (S : closed_sides sliver = [((0, 1), (0, 4)); ((10, 1 + (1 # 16777216)), (0, 1)); ((10, 4), (10, 1 + (1 # 16777216))); ((0, 4), (10, 4))]) by reflexivity.
  rewrite S in F. clear S. vm_compute in E.
  inversion F as [|m0 s0 l0 t0 F0 G0]; subst. inversion G0 as [|m1 s1 l1 t1 F1 G1]; subst. inversion G1 as [|m2 s2 l2 t2 F2 G2]; subst.
  inversion G2 as [|m3 s3 l3 t3 F3 G3]; subst. inversion G3; subst.
  assert (M0 : m0 = true).
  { apply F0. split; [right; split; unfold above; cbn; lra|]. exists 0. cbn. repeat split; lra. }
  assert (M1 : m1 = true).
  { apply F1. split; [left; split; unfold above; cbn; lra|]. exists 1. cbn. repeat split; lra. }
  assert (M2 : m2 = false).
  { destruct m2; [|reflexivity]. exfalso. destruct (proj1 F2 eq_refl) as [[[A B]|[A B]] _]; unfold above in *; cbn in A, B; lra. }
  assert (M3 : m3 = false).
  { destruct m3; [|reflexivity]. exfalso. destruct (proj1 F3 eq_refl) as [[[A B]|[A B]] _]; unfold above in *; cbn in A, B; lra. }
  subst. discriminate E.
Qed.
Print Assumptions C34_even_odd_refuted.

(** Even-odd rule for polygons without such sides. *)
Theorem C34_even_odd_partial :
  forall vs p, no_sliver vs ->
  exists marks, Forall2 (fun m side => m = true <-> ray_hits p side) marks (closed_sides vs) /\
    within_polygon vs p = Nat.odd (count_true marks).
Proof. exact polygon_even_odd. Qed.
Print Assumptions C34_even_odd_partial.

(** The starting vertex and the orientation do not matter. *)
Theorem C34_rotate : forall a b p, within_polygon (a ++ b) p = within_polygon (b ++ a) p.
Proof. exact polygon_rotate. Qed.
Print Assumptions C34_rotate.
Theorem C34_reverse : forall vs p, within_polygon (rev vs) p = within_polygon vs p.
Proof. exact polygon_reverse. Qed.
Print Assumptions C34_reverse.

(** An axis-aligned rectangle is half-open: left side out, right side in, bottom in, top out. *)
Theorem C34_rectangle :
  forall x0 y0 x1 y1 p, x0 < x1 -> y0 < y1 -> approx_equal y0 y1 = false ->
  within_polygon [(x0, y0); (x1, y0); (x1, y1); (x0, y1)] p = true <-> (x0 < fst p <= x1 /\ y0 <= snd p < y1).
Proof. exact polygon_rectangle. Qed.
Print Assumptions C34_rectangle.

(** An L-shaped polygon. *)
Definition ell : list vertex := [(0, 0); (4, 0); (4, 1); (1, 1); (1, 3); (0, 3)].
Example C34_example :
  map (within_polygon ell) [(1 # 2, 2); (2, 1 # 2); (2, 2); (1 # 2, 0); (1 # 2, 3)] = [true; true; false; true; false].
Proof. vm_compute. reflexivity. Qed.

(* ------------------------------------------------------------------ C36 *)
(** Full claim: a site at lattice coordinates cell + d whose position lies within the extent of the
    vertices belongs to the block, for every d (sublattice position plus lattice offset). *)
Definition C36_claim : Prop :=
  forall (P : Type) (solve : P -> q3) ndim vertices lo size, shape_block solve ndim vertices = Ok (lo, size) ->
  forall k n d, (k < 3)%nat -> (k < ndim)%nat -> spans (fun p => coord k (solve p)) vertices (inject_Z n + d) ->
    (comp k lo <= n < comp k lo + comp k size)%Z.

(** False: vertices do not take the sublattice position and the lattice offset into account. *)
Theorem C36_far_sublattice_refuted : ~ C36_claim.
Proof.
  intros H.
  assert (S : shape_block self 1 [Q3 0 0 0; Q3 (1 # 2) 0 0] = Ok (I3 (-1) 0 0, I3 3 1 1)) by (vm_compute; reflexivity).
  specialize (H q3 self 1%nat _ _ _ S 0%nat (-2)%Z (9 # 4) ltac:(lia) ltac:(lia)).
  assert (X : (-1 <= -2 < -1 + 3)%Z).
  { apply H. exists (Q3 0 0 0), (Q3 (1 # 2) 0 0). repeat split; cbn; [auto|auto| |]; discriminate. }
  lia.
Qed.
Print Assumptions C36_far_sublattice_refuted.

(** What holds: sites displaced by at most one lattice vector from their lattice point. *)
Theorem C36_sites_partial :
  forall (P : Type) (solve : P -> q3) ndim vertices lo size, shape_block solve ndim vertices = Ok (lo, size) ->
  forall k n d, (k < 3)%nat -> (k < ndim)%nat -> -(1) <= d <= 1 ->
    spans (fun p => coord k (solve p)) vertices (inject_Z n + d) -> (comp k lo <= n < comp k lo + comp k size)%Z.
Proof. intros P solve ndim vs lo size E. exact (proj1 (proj2 (proj2 (block_covers solve ndim vs lo size E)))). Qed.
Print Assumptions C36_sites_partial.

(** Hence no such site inside a polygon is missed. *)
Theorem C36_polygon_partial :
  forall (solve : vertex -> q3) ndim vertices lo size,
  (forall k, exists a b, forall v, coord k (solve v) = a * fst v + b * snd v) ->
  no_sliver vertices -> shape_block solve ndim vertices = Ok (lo, size) ->
  forall p k n d, (k < 3)%nat -> (k < ndim)%nat -> within_polygon vertices p = true ->
    coord k (solve p) == inject_Z n + d -> -(1) <= d <= 1 -> (comp k lo <= n < comp k lo + comp k size)%Z.
Proof.
  intros solve ndim vs lo size LIN NS E p k n d H3 Hk W EQ Hd.
  apply (C36_sites_partial _ solve ndim vs lo size E k n d H3 Hk Hd). destruct (LIN k) as (a & b & L).
  destruct (polygon_in_box vs p a b NS W) as (u & w & Hu & Hw & A & B). exists u, w. rewrite <- EQ, !L. auto.
Qed.
Print Assumptions C36_polygon_partial.

(** Nor inside the bounding box of a freeform shape. *)
Theorem C36_freeform_partial :
  forall (solve : q3 -> q3) ndim width center lo size,
  (forall k, exists a b c, forall v, coord k (solve v) = a * qx v + b * qy v + c * qz v) ->
  shape_block solve ndim (freeform_vertices width center) = Ok (lo, size) ->
  forall p k n d, (k < 3)%nat -> (k < ndim)%nat ->
    qx center - (1 # 2) * qx width <= qx p <= qx center + (1 # 2) * qx width ->
    qy center - (1 # 2) * qy width <= qy p <= qy center + (1 # 2) * qy width ->
    qz center - (1 # 2) * qz width <= qz p <= qz center + (1 # 2) * qz width ->
    coord k (solve p) == inject_Z n + d -> -(1) <= d <= 1 -> (comp k lo <= n < comp k lo + comp k size)%Z.
Proof.
  intros solve ndim width center lo size LIN E p k n d H3 Hk X Y Z EQ Hd.
  apply (C36_sites_partial _ solve ndim _ lo size E k n d H3 Hk Hd). destruct (LIN k) as (a & b & c & L).
  destruct (freeform_in_box width center p a b c X Y Z) as (u & w & Hu & Hw & A & B). exists u, w. rewrite <- EQ, !L. auto.
Qed.
Print Assumptions C36_freeform_partial.

Example C36_example : no_sliver ell.
Proof.
  intros v w H E. cbn in H. decompose [or] H; try contradiction; match goal with X : (_, _) = (_, _) |- _ => injection X as <- <- end;
    cbn in *; try reflexivity; vm_compute in E; discriminate.
Qed.

(* ------------------------------------------------------------------ C37 *)
(** Full claim: a line shape holds exactly the points between the two end planes. *)
Definition C37_claim : Prop :=
  forall a b c, ~ same_point a b -> (line_contains a b c = true <-> 0 <= along a b c <= along a b b).

(** False: a site exactly at an end point is dropped (0/0 in the cosine). *)
Theorem C37_end_point_refuted : ~ C37_claim.
Proof.
  intros H. set (a := Q3 0 0 0). set (b := Q3 2 0 0).
  assert (N : ~ same_point a b) by (unfold same_point; cbn; lra).
  pose proof (proj2 (H a b a N)) as X. vm_compute in X. assert (false = true) by (apply X; split; discriminate). discriminate.
Qed.
Print Assumptions C37_end_point_refuted.

(** What holds: exactly the points between the end planes other than the end points themselves. *)
Theorem C37_line_partial :
  forall a b c, line_contains a b c = true <->
  (~ same_point a b /\ ~ same_point c a /\ ~ same_point c b /\ 0 <= along a b c <= along a b b).
Proof. exact line_ok. Qed.
Print Assumptions C37_line_partial.

Example C37_example :
  map (line_contains (Q3 0 0 0) (Q3 2 0 0)) [Q3 1 5 0; Q3 2 1 0; Q3 2 0 0; Q3 3 0 0] = [true; true; false; false].
Proof. vm_compute. reflexivity. Qed.

(* ------------------------------------------------------------------ C38 *)
(** The block of a primitive shape is rejected unless positive in every direction; otherwise it has
    exactly the requested size, contains the origin cell and is centred up to one cell. *)
Theorem C38_primitive :
  forall size,
  match primitive_block size with
  | Ok (lo, hi, sz) => (forall k, (k < 3)%nat -> 0 < comp k size)%Z /\ sz = size /\
      (forall k, (k < 3)%nat -> comp k hi - comp k lo + 1 = comp k size /\ comp k lo <= 0 <= comp k hi /\
                                0 <= - comp k lo - comp k hi <= 1)%Z
  | Throw => exists k, (k < 3)%nat /\ (comp k size <= 0)%Z
  | UB => False
  end.
Proof. exact primitive_ok. Qed.
Print Assumptions C38_primitive.

Example C38_example :
  primitive_block (I3 5 4 1) = Ok (I3 (-2) (-2) 0, I3 2 1 0, I3 5 4 1) /\ primitive_block (I3 5 0 1) = Throw.
Proof. split; reflexivity. Qed.
