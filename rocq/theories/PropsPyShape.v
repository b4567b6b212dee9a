(* Property theorems C76, C77, C78: offset copies of shapes, compositions of shapes, named shapes.
   Model: PyShape.v; specification: PyShapeSpec.v; proofs: PyShapeProofs.v. *)
From Verif Require Import Base Foundation Geometry GeometrySpec GeometryProofs ShapeProofs PyShape PyShapeSpec PyShapeProofs.
From Coq Require Import Lqa.
Local Open Scope Q_scope.

(* ------------------------------------------------------------------ C76 *)
(** Full claim: [with_offset] returns a copy of every shape moved by the vector: the points, the
    bounding vertices, and with the lattice offset of the original. *)
Definition C76_claim_points : Prop :=
  forall hull s v s', made hull s -> (0 < length v <= 3)%nat -> with_offset s v = Ok s' -> moved_points s s' (triple v).
Definition C76_claim_box : Prop :=
  forall hull s v s', made hull s -> (0 < length v <= 3)%nat -> with_offset s v = Ok s' -> moved_box s s' (triple v).
Definition C76_claim_lattice : Prop :=
  forall hull s v s', made hull s -> (0 < length v <= 3)%nat -> with_offset s v = Ok s' -> same_lattice_offset s s'.

Definition get (o : outcome pyshape) : pyshape :=
  match o with Ok s => s | _ => PyShape [] (fun _ => false) KComposite no_offset end.
Definition hull_id (l : list vertex) : outcome (list vertex) := Ok l.

(** False of the points of a line: (0,0)-(1,0) moved by (0,1) is (0,0)-(2,1). *)
Definition unit_line : pyshape := get (mk_line [0; 0] [1; 0]).
Theorem C76_line_refuted : ~ C76_claim_points.
Proof.
  intros H. specialize (H hull_id unit_line [0; 1] (get (with_offset unit_line [0; 1]))).
  assert (M : made hull_id unit_line) by (apply (made_line _ [0; 0] [1; 0]); reflexivity).
  specialize (H M ltac:(cbn; lia) eq_refl (Q3 (3 # 2) 0 0)). vm_compute in H. discriminate H.
Qed.
Print Assumptions C76_line_refuted.

(** False of a polygon that moves so far that a side becomes level within the tolerance. *)
Definition flat_triangle : pyshape := get (mk_polygon [Q3 0 0 0; Q3 1 0 0; Q3 0 (1 # 16) 0]).
Theorem C76_far_polygon_refuted : ~ C76_claim_points.
Proof.
  intros H. specialize (H hull_id flat_triangle [0; 1000000] (get (with_offset flat_triangle [0; 1000000]))).
  assert (M : made hull_id flat_triangle) by (apply (made_polygon _ [Q3 0 0 0; Q3 1 0 0; Q3 0 (1 # 16) 0]); reflexivity).
  specialize (H M ltac:(cbn; lia) eq_refl (Q3 (1 # 4) (1 # 64) 0)). vm_compute in H. discriminate H.
Qed.
Print Assumptions C76_far_polygon_refuted.

(** False of the box of a freeform shape: moving by (1, 0) drops the z coordinate of the centre,
    and moving a shape with a one-dimensional centre changes the other coordinates as well. *)
Definition ball : pyshape := get (mk_free (fun p => qlt (qx p * qx p + qy p * qy p + (qz p - 5) * (qz p - 5)) 1) [2; 2; 2] [0; 0; 5]).
Theorem C76_box_refuted : ~ C76_claim_box.
Proof.
  intros H. specialize (H hull_id ball [1; 0] (get (with_offset ball [1; 0]))).
  assert (M : made hull_id ball).
  { apply (made_free _ (fun p => qlt (qx p * qx p + qy p * qy p + (qz p - 5) * (qz p - 5)) 1) [2; 2; 2] [0; 0; 5]); [|cbn; lia|reflexivity].
    intros p q (A & B & C). unfold qlt. f_equal. apply Qle_bool_wd; [reflexivity|]. rewrite A, B, C. reflexivity. }
  specialize (H M ltac:(cbn; lia) eq_refl). inversion H as [|x y l l' X _]. destruct X as (_ & _ & Z). vm_compute in Z. discriminate Z.
Qed.
Print Assumptions C76_box_refuted.
Theorem C76_scalar_centre_refuted : ~ C76_claim_box.
Proof.
  intros H. set (s := get (mk_free (fun _ => true) [2; 2] [5])). specialize (H hull_id s [1; 1] (get (with_offset s [1; 1]))).
  assert (M : made hull_id s) by (apply (made_free _ (fun _ => true) [2; 2] [5]); [intros p q _; reflexivity|cbn; lia|reflexivity]).
  specialize (H M ltac:(cbn; lia) eq_refl). inversion H as [|x y l l' X _]. destruct X as (_ & Z & _). vm_compute in Z. discriminate Z.
Qed.
Print Assumptions C76_scalar_centre_refuted.

(** False of the lattice offset: no copy takes it over. *)
Theorem C76_lattice_refuted : ~ C76_claim_lattice.
Proof.
  intros H. set (s := set_lattice_offset flat_triangle (Q3 (-(1 # 8)) 0 0)). specialize (H hull_id s [1; 1] (get (with_offset s [1; 1]))).
  assert (M : made hull_id s).
  { apply made_lattice. apply (made_polygon _ [Q3 0 0 0; Q3 1 0 0; Q3 0 (1 # 16) 0]); reflexivity. }
  specialize (H M ltac:(cbn; lia) eq_refl). destruct H as (X & _). vm_compute in X. discriminate X.
Qed.
Print Assumptions C76_lattice_refuted.

(** What holds.  Points: for every shape but lines; for polygons when no side is, before or after
    the move, level only within the tolerance. *)
Theorem C76_points_partial :
  forall hull s v s', made hull s -> (0 < length v <= 3)%nat -> with_offset s v = Ok s' ->
  (forall a b, ps_kind s <> KLine a b) ->
  (ps_kind s = KPolygon -> no_sliver (map flat (ps_vertices s)) /\ no_sliver (map flat (ps_vertices s'))) ->
  moved_points s s' (triple v).
Proof.
  intros hull s v s' M L E NL NS p. destruct (made_ok hull s M) as [K R].
  unfold with_offset in E. unfold kind_ok in K. destruct (ps_kind s) as [a b| |w c|] eqn:EK.
  - exfalso. apply (NL a b). reflexivity.
  - unfold zeros_with in E. destruct (3 <? length v)%nat; [discriminate|]. cbn [obind] in E. unfold mk_polygon in E.
    destruct (length _ <? 3)%nat; [discriminate|]. destruct (NS eq_refl) as [N1 N2]. destruct K as [_ K]. rewrite K.
    assert (E' : s' = PyShape (map (fun v0 => q3add v0 (cart v)) (ps_vertices s))
       (fun p => within_polygon (map flat (map (fun v0 => q3add v0 (cart v)) (ps_vertices s))) (flat p)) KPolygon no_offset) by congruence.
    clear E. subst s'. cbn [ps_contains ps_vertices] in *.
    assert (X : map flat (map (fun v0 => q3add v0 (cart v)) (ps_vertices s)) = map (vplus (flat (cart v))) (map flat (ps_vertices s))).
    { rewrite !map_map. apply map_ext. intros u. reflexivity. }
    rewrite X in *. change (flat (plus p (triple v))) with (vplus (flat (cart v)) (flat p)). apply polygon_move; assumption.
  - destruct (np_add _ v) as [c'| |]; try discriminate. cbn [obind] in E. unfold mk_free in E.
    assert (E' : ps_contains s' = fun p => ps_contains s (back_by v p)) by (inversion E; reflexivity).
    rewrite E'. apply R. apply back_by_plus. lia.
  - unfold zeros_with in E. destruct (3 <? length v)%nat; [discriminate|]. cbn [obind] in E. destruct (_ <? 2)%nat; [discriminate|].
    assert (E' : ps_contains s' = fun p => ps_contains s (back_by v p)) by (inversion E; reflexivity).
    rewrite E'. apply R. apply back_by_plus. lia.
Qed.
Print Assumptions C76_points_partial.

(** Vertices: for every shape but lines; for freeform shapes when the vector is not longer than
    the centre and the coordinates of the centre beyond the vector are zero. *)
Theorem C76_box_partial :
  forall hull s v s', made hull s -> (0 < length v <= 3)%nat -> with_offset s v = Ok s' ->
  (forall a b, ps_kind s <> KLine a b) ->
  (forall w c, ps_kind s = KFree w c -> (length v <= length c)%nat /\ forall k, (length v <= k)%nat -> nth k c 0 == 0) ->
  moved_box s s' (triple v).
Proof.
  intros hull s v s' M L E NL NF. destruct (made_ok hull s M) as [K R].
  assert (SH : forall l, Forall2 (fun w' w => same w' (plus w (triple v))) (map (fun v0 => q3add v0 (cart v)) l) l).
  { induction l as [|u l IH]; cbn; constructor; [apply same_refl|exact IH]. }
  unfold with_offset in E. unfold kind_ok in K. destruct (ps_kind s) as [a b| |w c|] eqn:EK.
  - exfalso. apply (NL a b). reflexivity.
  - unfold zeros_with in E. destruct (3 <? length v)%nat; [discriminate|]. cbn [obind] in E. unfold mk_polygon in E.
    destruct (length _ <? 3)%nat; [discriminate|].
    assert (E' : ps_vertices s' = map (fun v0 => q3add v0 (cart v)) (ps_vertices s)) by (inversion E; reflexivity).
    unfold moved_box. rewrite E'. apply SH.
  - destruct (NF w c eq_refl) as [LC Z]. destruct (np_add _ v) as [c'| |] eqn:EC; try discriminate. cbn [obind] in E. unfold mk_free in E.
    assert (E' : ps_vertices s' = freeform_vertices (cart w) (cart c')) by (inversion E; reflexivity).
    unfold moved_box. rewrite E'. destruct K as [_ K]. rewrite K. apply freeform_move. apply centre_move; assumption.
  - unfold zeros_with in E. destruct (3 <? length v)%nat; [discriminate|]. cbn [obind] in E. destruct (_ <? 2)%nat; [discriminate|].
    assert (E' : ps_vertices s' = map (fun v0 => q3add v0 (cart v)) (ps_vertices s)) by (inversion E; reflexivity).
    unfold moved_box. rewrite E'. apply SH.
Qed.
Print Assumptions C76_box_partial.

(** A line is moved as it should only along the diagonal. *)
Theorem C76_line :
  forall hull s a b x y s', made hull s -> ps_kind s = KLine a b -> with_offset s [x; y] = Ok s' ->
  (moved_box s s' (Q3 x y 0) <-> x == y) /\ (x == y -> moved_points s s' (Q3 x y 0)).
Proof.
  intros hull s a b x y s' M EK E. destruct (made_ok hull s M) as [K R]. unfold kind_ok in K. rewrite EK in K. destruct K as [KV KC].
  unfold with_offset in E. rewrite EK in E. unfold line_with_offset, mk_line in E.
  assert (EV : ps_vertices s' = [Q3 (fst a + x) (snd a + x) 0; Q3 (fst b + y) (snd b + y) 0]) by (inversion E; reflexivity).
  assert (EC : ps_contains s' = line_contains (Q3 (fst a + x) (snd a + x) 0) (Q3 (fst b + y) (snd b + y) 0)) by (inversion E; reflexivity).
  split; [split|].
  - unfold moved_box. rewrite EV, KV. intros F. inversion F as [|? ? ? ? X]. destruct X as (_ & X & _). cbn in X. lra.
  - intros Q. unfold moved_box. rewrite EV, KV. repeat constructor; cbn [qx qy qz plus]; rewrite ?Q; lra.
  - intros Q p. rewrite EC, KC. unfold line_contains.
    f_equal; apply acute_wd; unfold same, q3sub, plus; cbn [qx qy qz]; rewrite ?Q; repeat split; ring.
Qed.
Print Assumptions C76_line.

(** Moving there and back gives the points of the original. *)
Theorem C76_back :
  forall hull s v u s' s'', made hull s -> (0 < length v <= 3)%nat -> (0 < length u <= 3)%nat ->
  same (plus (triple v) (triple u)) (Q3 0 0 0) ->
  with_offset s v = Ok s' -> with_offset s' u = Ok s'' -> ps_kind s <> KPolygon -> (forall a b, ps_kind s <> KLine a b) ->
  forall p, ps_contains s'' p = ps_contains s p.
Proof.
  intros hull s v u s' s'' M Lv Lu Z E1 E2 NP NL p.
  assert (K' : ps_kind s' <> KPolygon /\ forall a b, ps_kind s' <> KLine a b).
  { revert E1. unfold with_offset. destruct (ps_kind s) as [a b| |w c|] eqn:EK; try congruence; intros E1.
    - destruct (np_add _ v) as [c'| |]; try discriminate. unfold mk_free in E1. inversion E1. cbn. split; [discriminate|intros; discriminate].
    - destruct (zeros_with v) as [w| |]; try discriminate. cbn [obind] in E1. destruct (_ <? 2)%nat; [discriminate|]. inversion E1. cbn. split; [discriminate|intros; discriminate]. }
  assert (M' : made hull s') by (apply (made_offset hull s v); [exact M|lia|exact E1]).
  assert (M'' : made hull s'') by (apply (made_offset hull s' u); [exact M'|lia|exact E2]).
  pose proof (C76_points_partial hull s v s' M Lv E1 NL ltac:(intros; congruence) p) as P1.
  pose proof (C76_points_partial hull s' u s'' M' Lu E2 (proj2 K') ltac:(intros; destruct K'; congruence) (plus p (triple v))) as P2.
  rewrite <- P1, <- P2. apply (proj2 (made_ok hull s'' M'')). destruct Z as (Z1 & Z2 & Z3). unfold plus in *. cbn [qx qy qz] in *.
  unfold same. cbn [qx qy qz]. repeat split; [setoid_replace (qx p + qx (triple v) + qx (triple u)) with (qx p + (qx (triple v) + qx (triple u))) by ring; rewrite Z1; ring
    |setoid_replace (qy p + qy (triple v) + qy (triple u)) with (qy p + (qy (triple v) + qy (triple u))) by ring; rewrite Z2; ring
    |setoid_replace (qz p + qz (triple v) + qz (triple u)) with (qz p + (qz (triple v) + qz (triple u))) by ring; rewrite Z3; ring].
Qed.
Print Assumptions C76_back.

Example C76_example :
  let disc := get (circle 2 (1, 0)) in
  let disc' := get (with_offset disc [3; 1]) in
  map (ps_contains disc) [Q3 1 0 0; Q3 (5 # 2) 1 9; Q3 3 0 0] = [true; true; false] /\
  map (ps_contains disc') [Q3 1 0 0; Q3 4 1 0; Q3 (11 # 2) 2 9; Q3 6 1 0] = [false; true; true; false] /\
  map (fun p => map Qred [qx p; qy p]) (firstn 1 (ps_vertices disc')) = [[2; -(1)]] /\
  with_offset disc [1; 2; 3] = Throw /\ with_offset (get (rectangle 4 None)) [1; 2; 3; 4] = Throw.
Proof. repeat split; vm_compute; reflexivity. Qed.

(* ------------------------------------------------------------------ C77 *)
(** The composed shape contains the points that the set operation gives. *)
Theorem C77_points :
  forall hull s1 s2 s, 
  (shape_and hull s1 s2 = Ok s -> forall p, ps_contains s p = true <-> ps_contains s1 p = true /\ ps_contains s2 p = true) /\
  (shape_or hull s1 s2 = Ok s -> forall p, ps_contains s p = true <-> ps_contains s1 p = true \/ ps_contains s2 p = true) /\
  (shape_add hull s1 s2 = Ok s -> forall p, ps_contains s p = true <-> ps_contains s1 p = true \/ ps_contains s2 p = true) /\
  (shape_xor hull s1 s2 = Ok s -> forall p, ps_contains s p = true <-> ~ (ps_contains s1 p = true <-> ps_contains s2 p = true)) /\
  (shape_sub hull s1 s2 = Ok s -> forall p, ps_contains s p = true <-> ps_contains s1 p = true /\ ~ ps_contains s2 p = true).
Proof.
  intros hull s1 s2 s.
  assert (G : forall op, composite hull op s1 s2 = Ok s -> forall p, ps_contains s p = op (ps_contains s1 p) (ps_contains s2 p)).
  { intros op E p. unfold composite in E. destruct (hull _); try discriminate. cbn [obind] in E. destruct (_ <? 2)%nat; [discriminate|]. inversion E. reflexivity. }
  repeat split; intros; 
    match goal with H : _ = Ok s |- _ => apply G with (p := p) in H; rewrite H in * end;
    destruct (ps_contains s1 p), (ps_contains s2 p); cbn in *; intuition congruence.
Qed.
Print Assumptions C77_points.

(** Full claim: if every point of both shapes lies between the extreme vertices in every
    direction, then this also holds for the composition; C36 then gives that no site is missed. *)
Definition C77_claim : Prop :=
  forall hull op s1 s2 s, hull_ok hull -> op false false = false -> composite hull op s1 s2 = Ok s ->
  forall a b c, covered s1 a b c -> covered s2 a b c -> covered s a b c.

(** False in depth: the vertices of a composition all have z = 0, whatever the hull, so that no
    point off this plane is between them. *)
Theorem C77_depth :
  forall hull op s1 s2 s, composite hull op s1 s2 = Ok s ->
  forall p, ps_contains s p = true -> ~ qz p == 0 ->
  ~ spans (fun v => 0 * qx v + 0 * qy v + 1 * qz v) (ps_vertices s) (0 * qx p + 0 * qy p + 1 * qz p).
Proof.
  intros hull op s1 s2 s E p _ NZ (u & w & Hu & Hw & A & B).
  unfold composite in E. destruct (hull _) as [h| |]; try discriminate. cbn [obind] in E. destruct (_ <? 2)%nat; [discriminate|].
  assert (EV : ps_vertices s = map (fun v => Q3 (fst v) (snd v) 0) h) by (inversion E; reflexivity). rewrite EV in *.
  apply in_map_iff in Hu. apply in_map_iff in Hw. destruct Hu as (u' & <- & _). destruct Hw as (w' & <- & _). cbn [qx qy qz] in *.
  apply NZ. lra.
Qed.
Print Assumptions C77_depth.

Definition slab (z : Q) : pyshape :=
  get (mk_free (fun p => qlt (qabs (qx p)) 1 && qlt (qabs (qy p)) 1 && qlt (qabs (qz p - z)) 1) [2; 2; 2] [0; 0; z]).
Lemma hull_id_ok : hull_ok hull_id.
Proof.
  intros l h E. assert (Q : h = l) by (unfold hull_id in E; congruence). rewrite Q in *. split; [intros x; auto|].
  intros v a b Hv. exists v, v. repeat split; auto; lra.
Qed.

Lemma qabs_bound : forall x d, qlt (qabs x) d = true -> - d <= x <= d.
Proof.
  intros x d H. unfold qlt in H. apply negb_true_iff in H.
  assert (L : qabs x < d) by (destruct (Qlt_le_dec (qabs x) d) as [L|L]; [exact L|apply Qle_bool_iff in L; congruence]).
  assert (A : x <= qabs x /\ - x <= qabs x) by (destruct x as [n q]; unfold qabs, Qle; cbn; split; nia). lra.
Qed.

Lemma slab_covered : forall z a b c, covered (slab z) a b c.
Proof.
  intros z a b c p H. unfold slab in *. cbn [get mk_free ps_contains ps_vertices] in *.
  apply andb_true_iff in H. destruct H as [H H3]. apply andb_true_iff in H. destruct H as [H1 H2].
  apply qabs_bound in H1. apply qabs_bound in H2. apply qabs_bound in H3.
  apply freeform_in_box; cbn [cart item nth qx qy qz]; lra.
Qed.

Theorem C77_depth_refuted : ~ C77_claim.
Proof.
  intros H. set (s := get (shape_or hull_id (slab 0) (slab 1))).
  assert (E : composite hull_id orb (slab 0) (slab 1) = Ok s) by reflexivity.
  specialize (H hull_id orb (slab 0) (slab 1) s hull_id_ok eq_refl E 0 0 1 (slab_covered _ _ _ _) (slab_covered _ _ _ _)).
  apply (C77_depth hull_id orb (slab 0) (slab 1) s E (Q3 0 0 1)); [reflexivity|intros X; discriminate X|].
  apply (H (Q3 0 0 1)). reflexivity.
Qed.
Print Assumptions C77_depth_refuted.

(** What holds: the directions of the plane. *)
Theorem C77_partial :
  forall hull op s1 s2 s, hull_ok hull -> op false false = false -> composite hull op s1 s2 = Ok s ->
  forall a b, covered s1 a b 0 -> covered s2 a b 0 -> covered s a b 0.
Proof.
  intros hull op s1 s2 s HO OP E a b C1 C2 p Hp.
  unfold composite in E. destruct (hull _) as [h| |] eqn:EH; try discriminate. cbn [obind] in E. destruct (_ <? 2)%nat; [discriminate|].
  assert (EV : ps_vertices s = map (fun v => Q3 (fst v) (snd v) 0) h) by (inversion E; reflexivity).
  assert (EC : ps_contains s p = op (ps_contains s1 p) (ps_contains s2 p)) by (inversion E; reflexivity).
  rewrite EC in Hp. destruct (HO _ _ EH) as [_ HS].
  assert (IN : exists t, (t = s1 \/ t = s2) /\ ps_contains t p = true).
  { destruct (ps_contains s1 p) eqn:P1; [exists s1; auto|]. destruct (ps_contains s2 p) eqn:P2; [exists s2; auto|]. congruence. }
  destruct IN as (t & T & Pt).
  assert (ST : spans (fun v => a * qx v + b * qy v + 0 * qz v) (ps_vertices t) (a * qx p + b * qy p + 0 * qz p)).
  { destruct T as [-> | ->]; [apply C1|apply C2]; exact Pt. }
  destruct ST as (u & w & Hu & Hw & A & B).
  assert (INC : incl (ps_vertices t) (ps_vertices s1 ++ ps_vertices s2)).
  { intros x Hx. apply in_app_iff. destruct T as [-> | ->]; auto. }
  destruct (HS (flat u) a b) as (u1 & _ & Hu1 & _ & A1 & _); [apply in_map; apply INC; exact Hu|].
  destruct (HS (flat w) a b) as (_ & w1 & _ & Hw1 & _ & B1); [apply in_map; apply INC; exact Hw|].
  exists (Q3 (fst u1) (snd u1) 0), (Q3 (fst w1) (snd w1) 0). rewrite EV.
  split; [apply in_map_iff; exists u1; auto|]. split; [apply in_map_iff; exists w1; auto|].
  cbn [qx qy qz flat fst snd] in *. split; lra.
Qed.
Print Assumptions C77_partial.

(** Moving the composition is composing the moved shapes. *)
Theorem C77_offset :
  forall hull op s1 s2 s v s1' s2' s' t, made hull s1 -> made hull s2 -> (0 < length v <= 3)%nat ->
  (forall a b, ps_kind s1 <> KLine a b) -> (forall a b, ps_kind s2 <> KLine a b) ->
  composite hull op s1 s2 = Ok s -> with_offset s v = Ok s' ->
  with_offset s1 v = Ok s1' -> with_offset s2 v = Ok s2' -> composite hull op s1' s2' = Ok t ->
  (forall x x', (x, x') = (s1, s1') \/ (x, x') = (s2, s2') -> ps_kind x = KPolygon ->
     no_sliver (map flat (ps_vertices x)) /\ no_sliver (map flat (ps_vertices x'))) ->
  forall p, ps_contains s' (plus p (triple v)) = ps_contains t (plus p (triple v)).
Proof.
  intros hull op s1 s2 s v s1' s2' s' t M1 M2 L N1 N2 E E' E1 E2 ET NS p.
  assert (MS : made hull s) by (apply (made_composite hull op s1 s2); assumption).
  assert (KS : ps_kind s = KComposite).
  { unfold composite in E. destruct (hull _); try discriminate. cbn [obind] in E. destruct (_ <? 2)%nat; [discriminate|]. inversion E. reflexivity. }
  rewrite (C76_points_partial hull s v s' MS L E' ltac:(intros; congruence) ltac:(intros; congruence) p).
  assert (G : forall op x y z, composite hull op x y = Ok z -> forall p, ps_contains z p = op (ps_contains x p) (ps_contains y p)).
  { clear. intros op x y z E p. unfold composite in E. destruct (hull _); try discriminate. cbn [obind] in E. destruct (_ <? 2)%nat; [discriminate|]. inversion E. reflexivity. }
  rewrite (G _ _ _ _ E), (G _ _ _ _ ET).
  rewrite (C76_points_partial hull s1 v s1' M1 L E1 N1 (fun K => NS s1 s1' (or_introl eq_refl) K) p).
  rewrite (C76_points_partial hull s2 v s2' M2 L E2 N2 (fun K => NS s2 s2' (or_intror eq_refl) K) p). reflexivity.
Qed.
Print Assumptions C77_offset.

Example C77_example :
  let ring := get (shape_sub hull_id (get (circle 3 (0, 0))) (get (circle 2 (0, 0)))) in
  let crescent := get (with_offset ring [10]) in
  map (ps_contains ring) [Q3 0 0 0; Q3 2 0 0; Q3 (5 # 2) 0 0; Q3 3 0 0] = [false; true; true; false] /\
  map (ps_contains crescent) [Q3 10 0 0; Q3 12 0 0; Q3 (25 # 2) 0 0; Q3 13 0 0] = [false; true; true; false].
Proof. split; vm_compute; reflexivity. Qed.
