(* Property theorem C78, continued: regular polygons and the armchair hexagon.
   Model: NamedShapes.v. *)
From Coq Require Import Reals Lra.
From Verif Require Import Base NamedShapes.
Local Open Scope R_scope.

Definition rdist (p q : R * R) : R := sqrt ((fst p - fst q) * (fst p - fst q) + (snd p - snd q) * (snd p - snd q)).

Lemma chord : forall r a b, 0 <= r -> 0 <= sin ((b - a) / 2) ->
  rdist (r * sin a, r * cos a) (r * sin b, r * cos b) = 2 * r * sin ((b - a) / 2).
Proof.
  intros r a b Hr Hs. unfold rdist. cbn [fst snd].
  set (m := (a + b) / 2). set (d := (b - a) / 2) in *.
  assert (A : a = m - d) by (unfold m, d; field). assert (B : b = m + d) by (unfold m, d; field).
  rewrite A, B, sin_minus, cos_minus, sin_plus, cos_plus.
  assert (Q : (r * (sin m * cos d - cos m * sin d) - r * (sin m * cos d + cos m * sin d)) *
      (r * (sin m * cos d - cos m * sin d) - r * (sin m * cos d + cos m * sin d)) +
      (r * (cos m * cos d + sin m * sin d) - r * (cos m * cos d - sin m * sin d)) *
      (r * (cos m * cos d + sin m * sin d) - r * (cos m * cos d - sin m * sin d)) = Rsqr (2 * r * sin d)).
  { transitivity (4 * r * r * (sin d * sin d) * (Rsqr (sin m) + Rsqr (cos m))); [unfold Rsqr; ring|]. rewrite sin2_cos2. unfold Rsqr. ring. }
  rewrite Q. apply sqrt_Rsqr. apply Rmult_le_pos; [lra|exact Hs].
Qed.

Lemma rdist_shift : forall r a b, rdist (r * sin a, r * cos a) (r * sin (b + 2 * PI), r * cos (b + 2 * PI)) = rdist (r * sin a, r * cos a) (r * sin b, r * cos b).
Proof. intros. rewrite sin_plus, cos_plus, sin_2PI, cos_2PI. unfold rdist. cbn [fst snd]. f_equal. ring. Qed.

Definition vertex_of (n : nat) (radius angle : R) (k : nat) : R * R :=
  (radius * sin (angle + 2 * INR k * PI / INR n), radius * cos (angle + 2 * INR k * PI / INR n)).

Lemma regular_vertices : forall n radius angle, (3 <= n)%nat ->
  regular_polygon n radius angle = Ok (map (vertex_of n radius angle) (seq 0 n)).
Proof.
  intros n r a H. unfold regular_polygon, polygon. rewrite !map_length, seq_length.
  destruct (n <? 3)%nat eqn:E; [apply Nat.ltb_lt in E; lia|]. rewrite map_map. reflexivity.
Qed.

Lemma nth_vertices : forall n r a i v, nth_error (map (vertex_of n r a) (seq 0 n)) i = Some v -> (i < n)%nat /\ v = vertex_of n r a i.
Proof.
  intros n r a i v H. assert (L : (i < n)%nat).
  { apply nth_error_Some_lt in H || (assert (X : (i < length (map (vertex_of n r a) (seq 0 n)))%nat) by (apply nth_error_Some; congruence); rewrite map_length, seq_length in X; exact X). }
  split; [exact L|]. rewrite nth_error_map in H. rewrite (nth_error_nth' (seq 0 n) 0%nat) in H by (rewrite seq_length; exact L).
  rewrite seq_nth in H by exact L. cbn in H. congruence.
Qed.

Lemma PIn : forall n, (3 <= n)%nat -> 0 < PI / INR n < PI.
Proof.
  intros n H. pose proof PI_RGT_0. assert (N : 3 <= INR n) by (apply (le_INR 3) in H; cbn in H; lra).
  split; [apply Rdiv_lt_0_compat; lra|]. apply Rmult_lt_reg_r with (INR n); [lra|]. unfold Rdiv. rewrite Rmult_assoc, Rinv_l by lra. nra.
Qed.

(** Fewer than 3 sides raise an error.  Otherwise all vertices are at the given distance from the
    origin, all sides, the closing one included, have the same length, and the vertices differ. *)
Theorem C78_regular :
  forall n radius angle, 0 <= radius ->
  ((n < 3)%nat -> regular_polygon n radius angle = Throw) /\
  ((3 <= n)%nat -> exists vs, regular_polygon n radius angle = Ok vs /\ length vs = n /\
     (forall v, In v vs -> rdist v (0, 0) = radius) /\
     (forall i v w, nth_error vs i = Some v -> nth_error vs ((i + 1) mod n) = Some w -> rdist v w = 2 * radius * sin (PI / INR n)) /\
     (0 < radius -> forall i j v, nth_error vs i = Some v -> nth_error vs j = Some v -> i = j)).
Proof.
  intros n r a Hr. split.
  { intros H. unfold regular_polygon, polygon. rewrite !map_length, seq_length. apply Nat.ltb_lt in H. rewrite H. reflexivity. }
  intros H. exists (map (vertex_of n r a) (seq 0 n)). split; [apply regular_vertices; exact H|].
  pose proof (PIn n H) as PN. assert (N : 3 <= INR n) by (apply (le_INR 3) in H; cbn in H; lra). pose proof PI_RGT_0 as PI0.
  split; [rewrite map_length, seq_length; reflexivity|]. split; [|split].
  - intros v Hv. apply in_map_iff in Hv. destruct Hv as (k & <- & _). unfold vertex_of. set (t := a + _). unfold rdist. cbn [fst snd].
    replace (_ + _) with (Rsqr r); [apply sqrt_Rsqr; exact Hr|]. unfold Rsqr.
    transitivity (r * r * (Rsqr (sin t) + Rsqr (cos t))); [rewrite sin2_cos2; ring|unfold Rsqr; ring].
  - intros i v w Hv Hw. apply nth_vertices in Hv. apply nth_vertices in Hw. destruct Hv as [Hi ->]. destruct Hw as [_ ->].
    assert (S : 0 <= sin (PI / INR n)) by (apply sin_ge_0; lra).
    destruct (Nat.eq_dec (i + 1) n) as [E|E].
    + rewrite E, Nat.mod_same by lia. unfold vertex_of. rewrite <- rdist_shift.
      assert (D : (a + 2 * INR 0 * PI / INR n + 2 * PI - (a + 2 * INR i * PI / INR n)) / 2 = PI / INR n).
      { rewrite <- E, plus_INR. cbn [INR]. field. rewrite <- (plus_INR i 1) || idtac. pose proof (pos_INR i). lra. }
      rewrite chord; [rewrite D; reflexivity|exact Hr|rewrite D; exact S].
    + rewrite Nat.mod_small by lia. unfold vertex_of. rewrite plus_INR. cbn [INR].
      assert (D : (a + 2 * (INR i + 1) * PI / INR n - (a + 2 * INR i * PI / INR n)) / 2 = PI / INR n) by (field; lra).
      rewrite chord; [rewrite D; reflexivity|exact Hr|rewrite D; exact S].
  - intros Hp i j v Hi Hj. apply nth_vertices in Hi. apply nth_vertices in Hj. destruct Hi as [Hi Ei]. destruct Hj as [Hj Ej].
    assert (G : forall i j, (i < j < n)%nat -> vertex_of n r a i <> vertex_of n r a j).
    { clear i j v Hi Ei Hj Ej. intros i j [Hij Hj] E.
      assert (Z : rdist (vertex_of n r a i) (vertex_of n r a j) = 0).
      { rewrite E. unfold rdist. replace (_ + _) with 0 by ring. apply sqrt_0. }
      assert (IJ : INR i < INR j) by (apply lt_INR; lia). assert (JN : INR j < INR n) by (apply lt_INR; lia).
      pose proof (pos_INR i) as I0.
      set (t := (INR j - INR i) * (PI / INR n)).
      assert (D : (a + 2 * INR j * PI / INR n - (a + 2 * INR i * PI / INR n)) / 2 = t) by (unfold t; field; lra).
      assert (T : 0 < t < PI).
      { assert (PE : INR n * (PI / INR n) = PI) by (field; lra). unfold t. split; nra. }
      assert (S : 0 < sin t) by (apply sin_gt_0; lra).
      unfold vertex_of in Z. rewrite chord in Z; [rewrite D in Z; nra|exact Hr|rewrite D; lra]. }
    destruct (lt_eq_lt_dec i j) as [[L|L]|L]; [exfalso|exact L|exfalso].
    + apply (G i j); [lia|congruence].
    + apply (G j i); [lia|congruence].
Qed.
Print Assumptions C78_regular.

(* ------------------------------------------------------------------ hexagon_ac *)
Lemma ceil_spec : forall x, x <= IZR (ceil x) < x + 1.
Proof. intros x. unfold ceil. destruct (base_Int_part (- x)) as [A B]. rewrite opp_IZR. lra. Qed.

(** The hexagon is the regular one with six sides, the number of atoms on a side is the smallest
    even number that is large enough, and the width changes by less than 2.5 bond lengths. *)
Theorem C78_hexagon :
  forall a_cc side_width, 0 < a_cc ->
  hexagon_ac a_cc side_width = regular_polygon 6 (adjusted_width a_cc side_width) 0 /\
  Z.Even (side_atoms a_cc side_width) /\
  (forall m, Z.Even m -> ((side_width / a_cc + 1) * 2 / 3 <= IZR m <-> (side_atoms a_cc side_width <= m)%Z)) /\
  adjusted_width a_cc side_width = 3 / 2 * a_cc * (IZR (side_atoms a_cc side_width) - 1) /\
  side_width - a_cc / 2 <= adjusted_width a_cc side_width < side_width + 5 / 2 * a_cc.
Proof.
  intros c w Hc. split; [|split; [|split; [|split]]].
  - unfold hexagon_ac. set (r := adjusted_width c w). rewrite regular_vertices by lia. unfold polygon. cbn [length Nat.ltb Nat.leb seq map].
    f_equal. unfold vertex_of.
    assert (S3 : sin (PI / 3) = sqrt 3 / 2) by apply sin_PI3. assert (C3 : cos (PI / 3) = 1 / 2) by apply cos_PI3.
    replace (0 + 2 * INR 0 * PI / INR 6) with 0 by (cbn [INR]; field).
    replace (0 + 2 * INR 1 * PI / INR 6) with (PI / 3) by (cbn [INR]; field).
    replace (0 + 2 * INR 2 * PI / INR 6) with (PI - PI / 3) by (cbn [INR]; field).
    replace (0 + 2 * INR 3 * PI / INR 6) with PI by (cbn [INR]; field).
    replace (0 + 2 * INR 4 * PI / INR 6) with (PI / 3 + PI) by (cbn [INR]; field).
    replace (0 + 2 * INR 5 * PI / INR 6) with (- (PI / 3) + 2 * PI) by (cbn [INR]; field).
    rewrite sin_0, cos_0, sin_PI, cos_PI, sin_minus, cos_minus, !neg_sin, !neg_cos, sin_plus, cos_plus, sin_2PI, cos_2PI, sin_PI, cos_PI, sin_neg, cos_neg, S3, C3.
    repeat match goal with |- _ :: _ = _ :: _ => f_equal | |- (_, _) = (_, _) => f_equal end; field.
  - unfold side_atoms. set (n := ceil _). cbv zeta. exists ((n + n mod 2) / 2)%Z.
    pose proof (Z.div_mod n 2 ltac:(lia)). pose proof (Z.mod_pos_bound n 2 ltac:(lia)).
    pose proof (Z.div_mod (n + n mod 2) 2 ltac:(lia)). pose proof (Z.mod_pos_bound (n + n mod 2) 2 ltac:(lia)). lia.
  - intros m [q Hq]. unfold side_atoms. set (t := (w / c + 1) * 2 / 3). cbv zeta. pose proof (ceil_spec t) as [A B]. set (n := ceil t) in *.
    pose proof (Z.div_mod n 2 ltac:(lia)) as D. pose proof (Z.mod_pos_bound n 2 ltac:(lia)) as MB. split.
    + intros L. assert (NM : (n <= m)%Z).
      { assert (IZR n < IZR (m + 1)) by (rewrite plus_IZR; lra). apply lt_IZR in H. lia. }
      destruct (Z.eq_dec (n mod 2) 0) as [E|E]; lia.
    + intros L. assert (IZR n <= IZR m) by (apply IZR_le; lia). lra.
  - unfold adjusted_width. field.
  - unfold adjusted_width, side_atoms. set (t := (w / c + 1) * 2 / 3). cbv zeta. pose proof (ceil_spec t) as [A B]. set (n := ceil t) in *.
    pose proof (Z.mod_pos_bound n 2 ltac:(lia)) as [M0 M1].
    assert (NB : t <= IZR (n + n mod 2) < t + 2).
    { rewrite plus_IZR. apply IZR_le in M0. assert (IZR (n mod 2) <= 1) by (apply IZR_le; lia). lra. }
    assert (W : w = (3 / 2 * t - 1) * c) by (unfold t; field; lra).
    set (k := IZR (n + n mod 2)) in *. rewrite W. split; nra.
Qed.
Print Assumptions C78_hexagon.

(** With a bond length of 1 and a side of 7: at least 16/3 atoms, hence six atoms per side and a
    width of 15/2. *)
Example C78_hexagon_example :
  side_atoms 1 7 = 6%Z /\ adjusted_width 1 7 = 15 / 2 /\ rdist (0, 15 / 2) (15 / 2 * sqrt 3 / 2, 15 / 2 / 2) = 15 / 2.
Proof.
  assert (C : ceil ((7 / 1 + 1) * 2 / 3) = 6%Z).
  { pose proof (ceil_spec ((7 / 1 + 1) * 2 / 3)) as [A B]. set (n := ceil _) in *.
    assert (IZR 5 < IZR n) by lra. assert (IZR n < IZR 7) by lra. apply lt_IZR in H. apply lt_IZR in H0. lia. }
  assert (S : side_atoms 1 7 = 6%Z) by (unfold side_atoms; rewrite C; reflexivity).
  split; [exact S|]. split; [unfold adjusted_width; rewrite S; lra|].
  unfold rdist. cbn [fst snd]. assert (Q : sqrt 3 * sqrt 3 = 3) by (apply sqrt_sqrt; lra).
  replace (_ + _) with (Rsqr (15 / 2)); [apply sqrt_Rsqr; lra|]. unfold Rsqr.
  transitivity (225 / 16 * (sqrt 3 * sqrt 3) + 225 / 16); [rewrite Q; field|field].
Qed.
