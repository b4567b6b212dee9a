(* Proofs about offset copies and compositions of shapes (PyShape.v, PyShapeSpec.v). *)
From Verif Require Import Base Foundation Geometry GeometrySpec GeometryProofs ShapeProofs PyShape PyShapeSpec.
From Coq Require Import Lqa.
Local Open Scope Q_scope.

Lemma same_refl : forall p, same p p.
Proof. intros p. repeat split; reflexivity. Qed.

Lemma Qeq_bool_wd : forall a b c d, a == c -> b == d -> Qeq_bool a b = Qeq_bool c d.
Proof. intros a b c d H1 H2. apply Bool.eq_iff_eq_true. rewrite !Qeq_bool_iff. rewrite H1, H2. reflexivity. Qed.

(* ------------------------------------------------------------------ points written differently *)
Lemma step_wd : forall p q b s, fst p == fst q -> snd p == snd q -> polygon_step p b s = polygon_step q b s.
Proof.
  intros p q b [[x1 y1] [x2 y2]] H1 H2. unfold polygon_step. destruct (approx_equal y1 y2); [reflexivity|]. cbv zeta.
  rewrite (qgt_wd y1 (snd p) y1 (snd q)), (qgt_wd y2 (snd p) y2 (snd q)) by (reflexivity || assumption).
  rewrite (qgt_wd (fst p) ((x2 - x1) / (y2 - y1) * (snd p - y1) + x1) (fst q) ((x2 - x1) / (y2 - y1) * (snd q - y1) + x1)); [reflexivity|assumption|].
  rewrite H2. reflexivity.
Qed.

Lemma polygon_wd : forall vs p q, fst p == fst q -> snd p == snd q -> within_polygon vs p = within_polygon vs q.
Proof.
  intros vs p q H1 H2. unfold within_polygon. generalize (polygon_sides (last vs (0, 0)) vs) false.
  induction l as [|s l IH]; intros b; cbn [fold_left]; [reflexivity|]. rewrite (step_wd p q b s H1 H2). apply IH.
Qed.

Lemma dot_wd : forall a b c d, same a c -> same b d -> q3dot a b == q3dot c d.
Proof. intros a b c d (A1 & A2 & A3) (B1 & B2 & B3). unfold q3dot. rewrite A1, A2, A3, B1, B2, B3. reflexivity. Qed.
Lemma sub_wd : forall a b c d, same a c -> same b d -> same (q3sub a b) (q3sub c d).
Proof.
  intros a b c d (A1 & A2 & A3) (B1 & B2 & B3). unfold same, q3sub. cbn [qx qy qz].
  rewrite A1, A2, A3, B1, B2, B3. repeat split; reflexivity.
Qed.
Lemma acute_wd : forall a b c a' b' c', same (q3sub a b) (q3sub a' b') -> same (q3sub c b) (q3sub c' b') ->
  is_acute_angle a b c = is_acute_angle a' b' c'.
Proof.
  intros a b c a' b' c' H1 H2. unfold is_acute_angle. cbv zeta.
  pose proof (dot_wd _ _ _ _ H1 H1) as D1. pose proof (dot_wd _ _ _ _ H2 H2) as D2. pose proof (dot_wd _ _ _ _ H1 H2) as D3.
  rewrite (Qeq_bool_wd _ 0 _ 0 D1 (Qeq_refl 0)), (Qeq_bool_wd _ 0 _ 0 D2 (Qeq_refl 0)).
  destruct (_ || _); [reflexivity|].
  first [ rewrite (Qle_bool_wd 0 _ 0 _ (Qeq_refl 0) D3); reflexivity | rewrite (qgt_wd 0 _ 0 _ (Qeq_refl 0) D3); reflexivity ].
Qed.
Lemma line_wd : forall a b p q, same p q -> line_contains a b p = line_contains a b q.
Proof.
  intros a b p q H. unfold line_contains. f_equal; apply acute_wd; apply sub_wd; auto using same_refl.
Qed.

(* ------------------------------------------------------------------ moving a polygon *)
Definition vplus (w v : vertex) : vertex := (fst v + fst w, snd v + snd w).

Lemma last_map : forall (A B : Type) (f : A -> B) l d, last (map f l) (f d) = f (last l d).
Proof. intros A B f l. induction l as [|a l IH]; intros d; [reflexivity|]. destruct l as [|b l]; [reflexivity|]. cbn [map last] in *. apply IH. Qed.

Lemma sides_map : forall w vs prev, polygon_sides (vplus w prev) (map (vplus w) vs) =
  map (fun s => (vplus w (fst s), vplus w (snd s))) (polygon_sides prev vs).
Proof. intros w. induction vs as [|v vs IH]; intros prev; [reflexivity|]. cbn [map polygon_sides fst snd]. rewrite IH. reflexivity. Qed.

Lemma closed_sides_map : forall w vs, polygon_sides (last (map (vplus w) vs) (0, 0)) (map (vplus w) vs) =
  map (fun s => (vplus w (fst s), vplus w (snd s))) (polygon_sides (last vs (0, 0)) vs).
Proof.
  intros w vs. destruct vs as [|v vs]; [reflexivity|]. rewrite (last_dflt _ (map (vplus w) (v :: vs)) (0, 0) (vplus w (0, 0))) by discriminate.
  rewrite last_map. apply sides_map.
Qed.

Lemma ray_hits_move : forall w p v u, ray_hits (vplus w p) (vplus w v, vplus w u) <-> ray_hits p (v, u).
Proof.
  intros [wx wy] [px py] [x1 y1] [x2 y2]. unfold ray_hits, above, vplus. cbn [fst snd]. split.
  - intros [A (t & H1 & H2 & H3)]. split; [destruct A as [[A B]|[A B]]; [left|right]; split; lra|].
    exists t. split; [exact H1|]. split; nra.
  - intros [A (t & H1 & H2 & H3)]. split; [destruct A as [[A B]|[A B]]; [left|right]; split; lra|].
    exists t. split; [exact H1|]. split; nra.
Qed.

Theorem polygon_move : forall w vs p, no_sliver vs -> no_sliver (map (vplus w) vs) ->
  within_polygon (map (vplus w) vs) (vplus w p) = within_polygon vs p.
Proof.
  intros w vs p N1 N2. rewrite !within_parity, closed_sides_map, map_map.
  assert (N1' : forall v u, In (v, u) (polygon_sides (last vs (0, 0)) vs) -> approx_equal (snd v) (snd u) = true -> snd v == snd u).
  { intros v u H. apply N1. unfold closed_sides. rewrite <- sides_combine. exact H. }
  assert (N2' : forall v u, In (v, u) (polygon_sides (last vs (0, 0)) vs) ->
     approx_equal (snd (vplus w v)) (snd (vplus w u)) = true -> snd (vplus w v) == snd (vplus w u)).
  { intros v u H. apply N2. unfold closed_sides. rewrite <- sides_combine, closed_sides_map. apply in_map_iff. exists (v, u). auto. }
  revert N1' N2'. generalize (polygon_sides (last vs (0, 0)) vs). clear N1 N2. induction l as [|[v u] l IH]; intros N1 N2; [reflexivity|].
  cbn [map parity fold_right]. f_equal.
  - cbn [fst snd]. apply Bool.eq_iff_eq_true.
    rewrite (bcross_hits _ _ _ (N2 v u (or_introl eq_refl))), (bcross_hits _ _ _ (N1 v u (or_introl eq_refl))). apply ray_hits_move.
  - apply IH; intros; [apply N1|apply N2]; auto; right; auto.
Qed.

(* ------------------------------------------------------------------ offsets of free functions *)
Lemma back_by_plus : forall v p, (length v <= 3)%nat -> same (back_by v (plus p (triple v))) p.
Proof.
  intros v [x y z] L. destruct v as [|v0 [|v1 [|v2 [|v3 v]]]]; cbn in L; try lia;
    unfold back_by, same, cart, plus, triple, item; cbn; repeat split; ring.
Qed.

Lemma back_by_wd : forall v p q, same p q -> same (back_by v p) (back_by v q).
Proof.
  intros v [x y z] [x' y' z'] (H1 & H2 & H3). cbn [qx qy qz] in *.
  destruct v as [|v0 [|v1 [|v2 v]]]; unfold back_by, same, cart, item; cbn [qx qy qz zip_sub skipn length app nth];
    try (rewrite H1, H2, H3; repeat split; reflexivity).
  all: rewrite ?skipn_nil; cbn; rewrite H1, H2, H3; repeat split; reflexivity.
Qed.

Lemma freeform_move : forall w c c' v, same c' (plus c v) ->
  Forall2 (fun x y => same x (plus y v)) (freeform_vertices w c') (freeform_vertices w c).
Proof.
  intros w [c1 c2 c3] [d1 d2 d3] [v1 v2 v3] (H1 & H2 & H3). cbn [qx qy qz plus] in *.
  unfold freeform_vertices, same, plus. cbn [qx qy qz].
  repeat constructor; cbn [qx qy qz]; rewrite ?H1, ?H2, ?H3; ring.
Qed.

Lemma item_zip_add : forall a b k, length a = length b -> item k (zip_add a b) == item k a + item k b.
Proof.
  unfold item. induction a as [|x a IH]; intros [|y b] k E; cbn in E; try discriminate; destruct k; cbn [nth zip_add]; try ring.
  apply IH. congruence.
Qed.
Lemma item_firstn : forall n l k, (k < n)%nat -> item k (firstn n l) = item k l.
Proof.
  unfold item. induction n as [|n IH]; intros l k H; [lia|]. destruct l as [|x l]; [reflexivity|]. destruct k; [reflexivity|]. cbn. apply IH. lia.
Qed.
Lemma item_beyond : forall l k, (length l <= k)%nat -> item k l = 0.
Proof. intros. unfold item. apply nth_overflow. assumption. Qed.

(** The centre of the copy. *)
Lemma centre_move : forall center v c, (length v <= length center)%nat ->
  np_add (firstn (length v) center) v = Ok c ->
  (forall k, (length v <= k)%nat -> item k center == 0) -> same (cart c) (plus (cart center) (triple v)).
Proof.
  intros center v c L E Z. unfold np_add in E.
  assert (LF : length (firstn (length v) center) = length v) by (apply firstn_length_le; exact L).
  rewrite LF, Nat.eqb_refl in E. injection E as <-.
  assert (G : forall k, item k (zip_add (firstn (length v) center) v) == item k center + item k v).
  { intros k. rewrite item_zip_add by exact LF. destruct (le_lt_dec (length v) k) as [H|H].
    - rewrite (Z k H). rewrite (item_beyond (firstn _ _)) by lia. reflexivity.
    - rewrite item_firstn by exact H. reflexivity. }
  unfold same, plus, cart, triple. cbn [qx qy qz]. rewrite !G. repeat split; reflexivity.
Qed.

(* ------------------------------------------------------------------ what each kind of shape holds *)
Definition kind_ok (s : pyshape) : Prop :=
  match ps_kind s with
  | KLine a b => ps_vertices s = [Q3 (fst a) (snd a) 0; Q3 (fst b) (snd b) 0] /\
      forall p, ps_contains s p = line_contains (Q3 (fst a) (snd a) 0) (Q3 (fst b) (snd b) 0) p
  | KPolygon => (3 <= length (ps_vertices s))%nat /\ forall p, ps_contains s p = within_polygon (map flat (ps_vertices s)) (flat p)
  | KFree w c => (0 < length c)%nat /\ ps_vertices s = freeform_vertices (cart w) (cart c)
  | KComposite => (2 <= length (ps_vertices s))%nat
  end.

Lemma np_add_length : forall a b c, (0 < length a)%nat -> (0 < length b)%nat -> np_add a b = Ok c -> (0 < length c)%nat.
Proof.
  intros a b c Ha Hb E. unfold np_add in E. destruct (length a =? length b)%nat eqn:L.
  - injection E as <-. destruct a, b; cbn in *; lia.
  - destruct a as [|x [|x' a]]; cbn in Ha; [lia| |].
    + injection E as <-. rewrite map_length. exact Hb.
    + destruct b as [|y [|y' b]]; cbn in Hb; [lia| |discriminate]. injection E as <-. cbn. lia.
Qed.

Theorem made_ok : forall hull s, made hull s -> kind_ok s /\ respects (ps_contains s).
Proof.
  intros hull s M. induction M as [a b s E|vs s E|f w c s R L E|op s1 s2 s M1 [K1 R1] M2 [K2 R2] E|s v s' M [K R] L E|s o M [K R]].
  - unfold mk_line in E. injection E as <-. split; [cbn; auto|]. intros p q H. cbn [ps_contains]. apply line_wd. exact H.
  - unfold mk_polygon in E. destruct (length vs <? 3)%nat eqn:L; [discriminate|]. apply Nat.ltb_ge in L. injection E as <-.
    split; [cbn; auto|]. intros p q (H1 & H2 & _). cbn [ps_contains]. apply polygon_wd; assumption.
  - unfold mk_free in E. injection E as <-. split; [cbn; auto|]. exact R.
  - unfold composite in E. destruct (hull _) as [h| |]; try discriminate. cbn [obind] in E.
    destruct (_ <? 2)%nat eqn:L; [discriminate|]. apply Nat.ltb_ge in L. injection E as <-. split; [exact L|].
    intros p q H. cbn [ps_contains]. rewrite (R1 p q H), (R2 p q H). reflexivity.
  - unfold with_offset in E. unfold kind_ok in K. destruct (ps_kind s) as [a b| |w c|] eqn:EK.
    + destruct v as [|v0 [|v1 v]]; try discriminate. unfold line_with_offset, mk_line in E. injection E as <-. split; [cbn; auto|].
      intros p q H. cbn [ps_contains]. apply line_wd. exact H.
    + destruct (zeros_with v) as [w| |]; try discriminate. cbn [obind] in E. unfold mk_polygon in E. destruct (length _ <? 3)%nat eqn:L3; [discriminate|].
      apply Nat.ltb_ge in L3. injection E as <-. split; [cbn; auto|]. intros p q (H1 & H2 & _). cbn [ps_contains]. apply polygon_wd; assumption.
    + destruct (np_add _ v) as [c'| |] eqn:EC; try discriminate. cbn [obind] in E. unfold mk_free in E. injection E as <-. split.
      * cbn. split; [|reflexivity]. apply (np_add_length _ _ _) in EC; [exact EC| |exact L]. rewrite firstn_length. lia.
      * intros p q H. cbn [ps_contains]. apply R. apply back_by_wd. exact H.
    + destruct (zeros_with v) as [w| |]; try discriminate. cbn [obind] in E. destruct (_ <? 2)%nat; [discriminate|]. injection E as <-. split.
      * cbn. rewrite map_length. exact K.
      * intros p q H. cbn [ps_contains]. apply R. apply back_by_wd. exact H.
  - split; [exact K|exact R].
Qed.
