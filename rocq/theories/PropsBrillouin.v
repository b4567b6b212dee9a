(* C74: the Brillouin zone. *)
From Coq Require Import Reals Lra Lia.
From Verif Require Import Base Foundation Materials MaterialsSpec Reciprocal PropsReciprocal.
Local Open Scope R_scope.

(** ** Specification: the points of reciprocal space not closer to any reciprocal lattice point
    than to the origin (the Wigner-Seitz cell of the reciprocal lattice). *)
Definition first_zone (bs : list vec3) (x : vec3) : Prop := forall G, dist2 v0 x <= dist2 (corner bs G) x.
(** What the program returns describes the first zone: of a chain the points at a distance from
    the origin, along the reciprocal vector, within the interval; of a sheet the polygon. *)
Definition describes (z : zone) (bs : list vec3) : Prop :=
  match z with
  | Interval lo hi => forall t, (lo <= t <= hi) <-> first_zone bs (vscale (t / sqrt (norm2 (nth 0 bs v0))) (nth 0 bs v0))
  | Region inside => forall x, vz x = 0 -> (inside x <-> first_zone bs x)
  end.
Definition C74_claim : Prop := forall vs bs z, (length vs <= 2)%nat -> reciprocal_vectors vs = Ok bs -> brillouin_zone vs = Ok z -> describes z bs.

(** ** Proofs *)
Lemma closer : forall p x, dist2 v0 x <= dist2 p x <-> 2 * dot x p <= norm2 p.
Proof. intros p x. unfold dist2, dot, norm2, v0, vx, vy, vz. cbn [fst snd]. split; intros; nra. Qed.

(** The square lattice described with the vectors (1, 0) and (3, 1): the corner 2 pi (0.6, 0) of
    the returned region is beyond the zone boundary, the reciprocal lattice point 2 pi (1, 0) is missed. *)
Theorem C74_refuted : ~ C74_claim.
Proof.
  intros H. pose proof PI_RGT_0 as PP.
  set (bs := [(2 * PI * (1 / 1), 2 * PI * (- 3 / 1), 0); (2 * PI * (- 0 / 1), 2 * PI * (1 / 1), 0)] : list vec3).
  assert (E : reciprocal_vectors [(1, 0, 0); (3, 1, 0)] = Ok bs).
  { unfold reciprocal_vectors, vx, vy. cbv zeta. cbn [fst snd]. destruct (Req_EM_T _ 0) as [Z|N]; [exfalso; lra|]. unfold bs.
    replace (1 * 1 - 3 * 0) with 1 by ring. reflexivity. }
  assert (B : exists z, brillouin_zone [(1, 0, 0); (3, 1, 0)] = Ok z).
  { unfold brillouin_zone. rewrite E. cbn [obind bs]. eexists. reflexivity. }
  destruct B as (z & B). pose proof (H [(1, 0, 0); (3, 1, 0)] bs z (le_n 2) E B) as D.
  unfold brillouin_zone in B. rewrite E in B. cbn [obind bs] in B. injection B as <-. cbn [describes] in D.
  specialize (D (2 * PI * (6/10), 0, 0) eq_refl). destruct D as [D _].
  assert (X : first_zone bs (2 * PI * (6/10), 0, 0)).
  { apply D. split; [reflexivity|]. intros p Hp. apply closer. cbn in Hp.
    repeat (destruct Hp as [<-|Hp]; [unfold dot, norm2, vadd, vscale, vx, vy, vz; cbn [fst snd]; nra|]). destruct Hp. }
  specialize (X (I3 1 3 0)). apply closer in X. unfold corner, bs, dot, norm2, vadd, vscale, vx, vy, vz, v0 in X. cbn [nth ix iy iz fst snd] in X. nra.
Qed.
Print Assumptions C74_refuted.

Lemma sq_ge : forall n : Z, IZR n * IZR n >= IZR n /\ IZR n * IZR n >= - IZR n.
Proof.
  intros n. rewrite <- mult_IZR, <- opp_IZR. split; apply Rle_ge, IZR_le; nia.
Qed.

Section Plane.
  Variables b1 b2 x : vec3.
  Let c := dot b1 b2.
  Let n1 := norm2 b1.
  Let n2 := norm2 b2.
  Lemma norm_comb : forall p q, norm2 (vadd (vscale p b1) (vscale q b2)) = p * p * n1 + 2 * p * q * c + q * q * n2.
  Proof. intros. unfold norm2, n1, n2, c, dot, norm2, vadd, vscale, vx, vy, vz. cbn [fst snd]. ring. Qed.
  Lemma dot_comb : forall p q, dot x (vadd (vscale p b1) (vscale q b2)) = p * dot x b1 + q * dot x b2.
  Proof. intros. rewrite dot_vadd, !dot_vscale. reflexivity. Qed.

  (** Decomposition of a lattice point into the two neighbouring short vectors. *)
  Lemma sectors : forall (u v : R), c <= 0 -> 0 <= n1 + c -> 0 <= n2 + c -> 2 * Rabs u <= n1 -> 2 * Rabs v <= n2 -> 2 * Rabs (u + v) <= n1 + 2 * c + n2 ->
    forall m n : Z, 2 * (IZR m * u + IZR n * v) <= IZR m * IZR m * n1 + 2 * IZR m * IZR n * c + IZR n * IZR n * n2.
  Proof.
    intros u v C P1 P2 U V W m n.
    assert (U' : - n1 <= 2 * u <= n1) by (unfold Rabs in U; destruct (Rcase_abs u); lra).
    assert (V' : - n2 <= 2 * v <= n2) by (unfold Rabs in V; destruct (Rcase_abs v); lra).
    assert (W' : - (n1 + 2 * c + n2) <= 2 * (u + v) <= n1 + 2 * c + n2) by (unfold Rabs in W; destruct (Rcase_abs (u + v)); lra).
    pose proof (sq_ge m) as [M1 M2]. pose proof (sq_ge n) as [N1 N2]. pose proof (sq_ge (m - n)) as [D1 D2]. rewrite minus_IZR in D1, D2.
    set (M := IZR m) in *. set (N := IZR n) in *.
    (* Selling's formula *)
    replace (M * M * n1 + 2 * M * N * c + N * N * n2) with ((- c) * ((M - N) * (M - N)) + (n1 + c) * (M * M) + (n2 + c) * (N * N)) by ring.
    assert (K : forall a b d, 0 <= a -> b >= d -> a * b >= a * d) by (intros; nra).
    assert (G : forall s1 s2 s3, (s1 = M - N \/ s1 = - (M - N)) -> (s2 = M \/ s2 = - M) -> (s3 = N \/ s3 = - N) ->
       2 * (M * u + N * v) <= (- c) * s1 + (n1 + c) * s2 + (n2 + c) * s3 ->
       2 * (M * u + N * v) <= (- c) * ((M - N) * (M - N)) + (n1 + c) * (M * M) + (n2 + c) * (N * N)).
    { intros s1 s2 s3 S1 S2 S3 L. pose proof (K (- c) ((M - N) * (M - N)) s1 ltac:(lra)) as K1. pose proof (K (n1 + c) (M * M) s2 ltac:(lra)) as K2.
      pose proof (K (n2 + c) (N * N) s3 ltac:(lra)) as K3.
      assert ((M - N) * (M - N) >= s1) by (destruct S1; subst; lra). assert (M * M >= s2) by (destruct S2; subst; lra). assert (N * N >= s3) by (destruct S3; subst; lra).
      specialize (K1 H). specialize (K2 H0). specialize (K3 H1). lra. }
    destruct (Rle_lt_dec 0 M) as [HM|HM], (Rle_lt_dec 0 N) as [HN|HN].
    - destruct (Rle_lt_dec N M) as [HD|HD].
      + apply (G (M - N) M N); auto. nra.
      + apply (G (- (M - N)) M N); auto. nra.
    - apply (G (M - N) M (- N)); auto. nra.
    - apply (G (- (M - N)) (- M) N); auto. nra.
    - destruct (Rle_lt_dec N M) as [HD|HD].
      + apply (G (M - N) (- M) (- N)); auto. nra.
      + apply (G (- (M - N)) (- M) (- N)); auto. nra.
  Qed.

  Lemma zone_in : forall m n, In m [-1; 0; 1] -> In n [-1; 0; 1] -> In (vadd (vscale m b1) (vscale n b2)) (zone_points b1 b2).
  Proof. intros m n Hm Hn. unfold zone_points. apply in_flat_map. exists m. split; [exact Hm|]. apply in_map_iff. exists n. split; [reflexivity|exact Hn]. Qed.

  Hypothesis short : Rabs c <= n1 /\ Rabs c <= n2.
  Lemma zone_enough : (forall p, In p (zone_points b1 b2) -> dist2 v0 x <= dist2 p x) -> first_zone [b1; b2] x.
  Proof.
    intros H [m n l]. apply closer. unfold corner. cbn [nth ix iy iz].
    replace (vadd (vscale (IZR m) b1) (vadd (vscale (IZR n) b2) (vscale (IZR l) v0))) with (vadd (vscale (IZR m) b1) (vscale (IZR n) b2)).
    2:{ unfold vadd, vscale, v0, vx, vy, vz. cbn [fst snd]. f_equal; [f_equal|]; ring. }
    rewrite dot_comb, norm_comb. set (u := dot x b1). set (v := dot x b2).
    assert (HZ : forall p q, In p [-1; 0; 1] -> In q [-1; 0; 1] -> 2 * (p * u + q * v) <= p * p * n1 + 2 * p * q * c + q * q * n2).
    { intros p q Hp Hq. pose proof (H _ (zone_in p q Hp Hq)) as L. apply closer in L. rewrite dot_comb, norm_comb in L. exact L. }
    assert (I1 : In 1 [-1; 0; 1]) by (cbn; auto). assert (I0 : In 0 [-1; 0; 1]) by (cbn; auto). assert (Im : In (-1) [-1; 0; 1]) by (cbn; auto).
    pose proof (HZ 1 0 I1 I0). pose proof (HZ (-1) 0 Im I0). pose proof (HZ 0 1 I0 I1). pose proof (HZ 0 (-1) I0 Im).
    pose proof (HZ 1 1 I1 I1). pose proof (HZ (-1) (-1) Im Im). pose proof (HZ 1 (-1) I1 Im). pose proof (HZ (-1) 1 Im I1).
    destruct short as [S1 S2].
    assert (AB : forall a b, - b <= a <= b -> Rabs a <= b) by (intros a b [? ?]; apply Rabs_le; lra).
    destruct (Rle_lt_dec c 0) as [C|C].
    - rewrite Rabs_left1 in S1, S2 by exact C. apply sectors; try lra.
      + assert (Rabs u <= n1 / 2) by (apply AB; lra). lra.
      + assert (Rabs v <= n2 / 2) by (apply AB; lra). lra.
      + assert (Rabs (u + v) <= (n1 + 2 * c + n2) / 2) by (apply AB; lra). lra.
    - rewrite Rabs_right in S1, S2 by lra.
      (* with the second vector reversed *)
      assert (X : forall m n : Z, 2 * (IZR m * u + IZR n * - v) <= IZR m * IZR m * n1 + 2 * IZR m * IZR n * - c + IZR n * IZR n * n2).
      { clear m n. intros m n.
        pose proof (sq_ge m) as [M1 M2]. pose proof (sq_ge n) as [N1 N2]. pose proof (sq_ge (m - n)) as [D1 D2]. rewrite minus_IZR in D1, D2.
        set (M := IZR m) in *. set (N := IZR n) in *.
        replace (M * M * n1 + 2 * M * N * - c + N * N * n2) with (c * ((M - N) * (M - N)) + (n1 - c) * (M * M) + (n2 - c) * (N * N)) by ring.
        assert (K : forall a b d, 0 <= a -> b >= d -> a * b >= a * d) by (intros; nra).
        assert (G : forall s1 s2 s3, (s1 = M - N \/ s1 = - (M - N)) -> (s2 = M \/ s2 = - M) -> (s3 = N \/ s3 = - N) ->
           2 * (M * u + N * - v) <= c * s1 + (n1 - c) * s2 + (n2 - c) * s3 ->
           2 * (M * u + N * - v) <= c * ((M - N) * (M - N)) + (n1 - c) * (M * M) + (n2 - c) * (N * N)).
        { intros s1 s2 s3 T1 T2 T3 L. pose proof (K c ((M - N) * (M - N)) s1 ltac:(lra)) as K1. pose proof (K (n1 - c) (M * M) s2 ltac:(lra)) as K2.
          pose proof (K (n2 - c) (N * N) s3 ltac:(lra)) as K3.
          assert (A1 : (M - N) * (M - N) >= s1) by (destruct T1; subst; lra). assert (A2 : M * M >= s2) by (destruct T2; subst; lra). assert (A3 : N * N >= s3) by (destruct T3; subst; lra).
          specialize (K1 A1). specialize (K2 A2). specialize (K3 A3). lra. }
        destruct (Rle_lt_dec 0 M) as [HM|HM], (Rle_lt_dec 0 N) as [HN|HN].
        - destruct (Rle_lt_dec N M) as [HD|HD]; [apply (G (M - N) M N)|apply (G (- (M - N)) M N)]; auto; nra.
        - apply (G (M - N) M (- N)); auto; nra.
        - apply (G (- (M - N)) (- M) N); auto; nra.
        - destruct (Rle_lt_dec N M) as [HD|HD]; [apply (G (M - N) (- M) (- N))|apply (G (- (M - N)) (- M) (- N))]; auto; nra. }
      specialize (X m (- n)%Z). rewrite opp_IZR in X. lra.
  Qed.
End Plane.

Lemma zone_needed : forall b1 b2 x, first_zone [b1; b2] x -> forall p, In p (zone_points b1 b2) -> dist2 v0 x <= dist2 p x.
Proof.
  intros b1 b2 x H p Hp. unfold zone_points in Hp. apply in_flat_map in Hp. destruct Hp as (n & Hn & Hp). apply in_map_iff in Hp. destruct Hp as (m & <- & Hm).
  assert (Zn : exists z, n = IZR z) by (cbn in Hn; destruct Hn as [<-|[<-|[<-|[]]]]; eexists; reflexivity).
  assert (Zm : exists z, m = IZR z) by (cbn in Hm; destruct Hm as [<-|[<-|[<-|[]]]]; eexists; reflexivity).
  destruct Zn as (zn & ->). destruct Zm as (zm & ->). specialize (H (I3 zn zm 0)). unfold corner in H. cbn [nth ix iy iz] in H.
  replace (vadd (vscale (IZR zn) b1) (vscale (IZR zm) b2)) with (vadd (vscale (IZR zn) b1) (vadd (vscale (IZR zm) b2) (vscale 0 v0))); [exact H|].
  unfold vadd, vscale, v0, vx, vy, vz. cbn [fst snd]. f_equal; [f_equal|]; ring.
Qed.

Lemma norm2_nonneg : forall v, 0 <= norm2 v. Proof. intros v. unfold norm2. nra. Qed.

Lemma chain_zone : forall b t, norm2 b <> 0 -> let l := sqrt (norm2 b) in (- l / 2 <= t <= l / 2) <-> first_zone [b] (vscale (t / l) b).
Proof.
  intros b t N l. assert (L : 0 < l) by (apply sqrt_lt_R0; pose proof (norm2_nonneg b); lra).
  assert (LL : l * l = norm2 b) by (apply sqrt_sqrt, norm2_nonneg).
  assert (K : forall z : Z, (dist2 v0 (vscale (t / l) b) <= dist2 (vscale (IZR z) b) (vscale (t / l) b)) <-> 2 * (IZR z) * t <= IZR z * IZR z * l).
  { intros z. rewrite closer. rewrite dot_vscale. rewrite dot_comm, dot_vscale.
    replace (norm2 (vscale (IZR z) b)) with (IZR z * IZR z * (l * l)) by (rewrite LL; unfold norm2, vscale, vx, vy, vz; cbn [fst snd]; ring).
    change (dot b b) with (norm2 b). rewrite <- LL.
    replace (2 * (IZR z * (t / l * (l * l)))) with (2 * IZR z * t * l) by (field; lra). 
    replace (IZR z * IZR z * (l * l)) with (IZR z * IZR z * l * l) by ring.
    split; intros H; [apply Rmult_le_reg_r with l; [exact L|exact H]|apply Rmult_le_compat_r; [lra|exact H]]. }
  assert (C : forall G, corner [b] G = vscale (IZR (ix G)) b).
  { intros G. unfold corner. cbn [nth]. unfold vadd, vscale, v0, vx, vy, vz. cbn [fst snd]. f_equal; [f_equal|]; ring. }
  split.
  - intros [A B] G. rewrite C. apply K. set (z := ix G). pose proof (sq_ge z) as [Z1 Z2].
    destruct (Rle_lt_dec 0 (IZR z)); nra.
  - intros H. pose proof (H (I3 1 0 0)) as H1. pose proof (H (I3 (-1) 0 0)) as H2. rewrite C in H1, H2. apply K in H1. apply K in H2. cbn [ix] in *. lra.
Qed.

(** Of a chain the interval is always right.  Of a sheet the polygon is right when neither
    lattice vector can be shortened by subtracting twice or more the projection on the other:
    when |a1.a2| is at most |a1|^2 and |a2|^2, or the same of the reciprocal vectors. *)
Definition nearly_reduced (vs : list vec3) : Prop :=
  forall a b, vs = [a; b] -> Rabs (dot a b) <= norm2 a /\ Rabs (dot a b) <= norm2 b.

Theorem C74_partial : forall vs bs z, (length vs <= 2)%nat -> nearly_reduced bs ->
  reciprocal_vectors vs = Ok bs -> brillouin_zone vs = Ok z -> describes z bs.
Proof.
  intros vs bs z L S E B. pose proof (dual_ok _ _ E) as [LB D]. unfold brillouin_zone in B.
  destruct vs as [|a [|b [|? ?]]]; [discriminate E| | |cbn in L; lia]; rewrite E in B; cbn [obind] in B.
  - destruct bs as [|b1 [|? ?]]; [discriminate LB| |discriminate LB]. injection B as <-. cbn [describes nth]. intros t. apply chain_zone.
    intros N. pose proof (D 0%nat 0%nat ltac:(cbn; lia) ltac:(cbn; lia)) as D0. cbn [nth Nat.eqb] in D0. pose proof PI_RGT_0.
    assert (Z : vx b1 = 0 /\ vy b1 = 0 /\ vz b1 = 0) by (unfold norm2 in N; repeat split; nra). destruct Z as (Z1 & Z2 & Z3). unfold dot in D0. rewrite Z1, Z2, Z3 in D0. lra.
  - destruct bs as [|b1 [|b2 [|? ?]]]; try discriminate LB. injection B as <-. cbn [describes]. intros x Hx. split.
    + intros [_ H]. apply zone_enough; [apply (S b1 b2 eq_refl)|exact H].
    + intros H. split; [exact Hx|]. apply zone_needed. exact H.
Qed.
Print Assumptions C74_partial.

(** The condition can be checked on the lattice vectors when they lie in the plane. *)
Theorem C74_condition : forall a b b1 b2, vz a = 0 -> vz b = 0 -> reciprocal_vectors [a; b] = Ok [b1; b2] ->
  nearly_reduced [a; b] -> nearly_reduced [b1; b2].
Proof.
  intros a b b1 b2 Ha Hb E S u v Q. assert (u = b1) by congruence. assert (v = b2) by congruence. subst u v. clear Q.
  destruct (S a b eq_refl) as [S1 S2]. unfold reciprocal_vectors in E. cbv zeta in E. destruct (Req_EM_T _ 0) as [|N]; [discriminate E|].
  set (d := vx a * vy b - vx b * vy a) in *. assert (E1 : b1 = (2 * PI * (vy b / d), 2 * PI * (- vx b / d), 0)) by congruence.
  assert (E2 : b2 = (2 * PI * (- vy a / d), 2 * PI * (vx a / d), 0)) by congruence. clear E.
  set (f := (2 * PI / d) * (2 * PI / d)). assert (F : 0 <= f) by (unfold f; nra).
  assert (Q1 : dot b1 b2 = - f * dot a b).
  { subst b1 b2. unfold dot, f. rewrite Ha. change (vz (2 * PI * (vy b / d), 2 * PI * (- vx b / d), 0)) with 0. unfold d, vx, vy, vz in *. cbn [fst snd]. field. exact N. }
  assert (Q2 : norm2 b1 = f * norm2 b).
  { subst b1. unfold norm2, f. rewrite Hb. unfold d, vx, vy, vz in *. cbn [fst snd]. field. exact N. }
  assert (Q3 : norm2 b2 = f * norm2 a).
  { subst b2. unfold norm2, f. rewrite Ha. unfold d, vx, vy, vz in *. cbn [fst snd]. field. exact N. }
  rewrite Q1, Q2, Q3. replace (- f * dot a b) with (- (f * dot a b)) by ring. rewrite Rabs_Ropp, Rabs_mult, (Rabs_right f) by lra.
  split; apply Rmult_le_compat_l; assumption.
Qed.
Print Assumptions C74_condition.

(** Graphene: the condition holds and its zone ends at K. *)
Example C74_graphene : nearly_reduced [(g_a, 0, 0); (g_a / 2, g_a / 2 * sqrt 3, 0)].
Proof.
  intros a b E. assert (a = (g_a, 0, 0)) by congruence. assert (b = (g_a / 2, g_a / 2 * sqrt 3, 0)) by congruence. subst.
  unfold dot, norm2, vx, vy, vz. cbn [fst snd]. assert (S3 : sqrt 3 * sqrt 3 = 3) by (apply sqrt_sqrt; lra).
  unfold g_a. rewrite Rabs_right by lra. split; nra.
Qed.

(** ** The condition is exact *)
(** A point of the plane with given products with the reciprocal vectors *)
Lemma point_with : forall a b b1 b2 u v, reciprocal_vectors [a; b] = Ok [b1; b2] -> exists x, vz x = 0 /\ dot x b1 = u /\ dot x b2 = v.
Proof.
  intros a b b1 b2 u v E. unfold reciprocal_vectors in E. cbv zeta in E. destruct (Req_EM_T _ 0) as [|N]; [discriminate E|].
  set (d := vx a * vy b - vx b * vy a) in *. assert (E1 : b1 = (2 * PI * (vy b / d), 2 * PI * (- vx b / d), 0)) by congruence.
  assert (E2 : b2 = (2 * PI * (- vy a / d), 2 * PI * (vx a / d), 0)) by congruence. clear E. pose proof PI_RGT_0 as PP.
  exists ((u * vx a + v * vx b) / (2 * PI), (u * vy a + v * vy b) / (2 * PI), 0). split; [reflexivity|].
  subst b1 b2. unfold dot, d, vx, vy, vz in *. cbn [fst snd] in *. split; field; split; lra.
Qed.

(** If one of the vectors can be shortened by subtracting the other twice, the point that is as far from
    the origin as from [-p] and [q - p] is in the region but closer to [q - 2p]. *)
Lemma sorted_signs : forall m, In m [-1; 0; 1] -> m = -1 \/ m = 0 \/ m = 1.
Proof. intros m [<-|[<-|[<-|[]]]]; auto. Qed.
Lemma too_skew : forall b1 b2 x, (exists e, (e = 1 \/ e = -1) /\ norm2 b1 < e * dot b1 b2 /\ dot x b1 = - norm2 b1 / 2 /\ dot x b2 = e * (norm2 b2 / 2 - e * dot b1 b2)) \/
    (exists e, (e = 1 \/ e = -1) /\ norm2 b2 < e * dot b1 b2 /\ dot x b2 = - norm2 b2 / 2 /\ dot x b1 = e * (norm2 b1 / 2 - e * dot b1 b2)) ->
  (forall p, In p (zone_points b1 b2) -> dist2 v0 x <= dist2 p x) /\ ~ first_zone [b1; b2] x.
Proof.
  intros b1 b2 x H. pose proof (norm2_nonneg b1) as P1. pose proof (norm2_nonneg b2) as P2.
  assert (Q : forall s t : R, 0 <= s * s * norm2 b1 + 2 * s * t * dot b1 b2 + t * t * norm2 b2) by (intros s t; rewrite <- norm_comb; apply norm2_nonneg).
  split.
  - intros p Hp. unfold zone_points in Hp. apply in_flat_map in Hp. destruct Hp as (n & Hn & Hp). apply in_map_iff in Hp. destruct Hp as (m & <- & Hm).
    apply closer. rewrite dot_comb, norm_comb. pose proof (Q 1 1) as Q1. pose proof (Q 1 (-1)) as Q2. apply sorted_signs in Hn, Hm.
    destruct H as [(e & [-> | ->] & L & -> & ->)|(e & [-> | ->] & L & -> & ->)]; destruct Hn as [-> | [-> | ->]], Hm as [-> | [-> | ->]]; lra.
  - intros F.
    assert (C : forall z1 z2, 2 * (IZR z1 * dot x b1 + IZR z2 * dot x b2) <= IZR z1 * IZR z1 * norm2 b1 + 2 * IZR z1 * IZR z2 * dot b1 b2 + IZR z2 * IZR z2 * norm2 b2).
    { intros z1 z2. pose proof (F (I3 z1 z2 0)) as G. apply closer in G. unfold corner in G. cbn [nth ix iy iz] in G.
      replace (vadd (vscale (IZR z1) b1) (vadd (vscale (IZR z2) b2) (vscale 0 v0))) with (vadd (vscale (IZR z1) b1) (vscale (IZR z2) b2)) in G.
      2:{ unfold vadd, vscale, v0, vx, vy, vz. cbn [fst snd]. f_equal; [f_equal|]; ring. }
      rewrite dot_comb, norm_comb in G. exact G. }
    destruct H as [(e & [-> | ->] & L & E1 & E2)|(e & [-> | ->] & L & E1 & E2)].
    + specialize (C (-2)%Z 1%Z). rewrite E1, E2 in C. lra.
    + specialize (C (-2)%Z (-1)%Z). rewrite E1, E2 in C. lra.
    + specialize (C 1%Z (-2)%Z). rewrite E1, E2 in C. lra.
    + specialize (C (-1)%Z (-2)%Z). rewrite E1, E2 in C. lra.
Qed.

(** The zone is right exactly when the reciprocal vectors satisfy the condition. *)
Theorem C74_exact : forall vs bs z, (length vs <= 2)%nat -> reciprocal_vectors vs = Ok bs -> brillouin_zone vs = Ok z ->
  (describes z bs <-> nearly_reduced bs).
Proof.
  intros vs bs z L E B. split; [|intros S; exact (C74_partial vs bs z L S E B)].
  intros D b1 b2 ->. pose proof (dual_ok _ _ E) as [LB _]. destruct vs as [|a [|b [|? ?]]]; try discriminate LB. clear L LB.
  unfold brillouin_zone in B. rewrite E in B. cbn [obind] in B. injection B as <-. cbn [describes] in D.
  assert (K : forall x, vz x = 0 -> (forall p, In p (zone_points b1 b2) -> dist2 v0 x <= dist2 p x) /\ ~ first_zone [b1; b2] x -> False).
  { intros x Hx [K1 K2]. apply K2. apply (D x Hx). split; assumption. }
  assert (G1 : forall e, e = 1 \/ e = -1 -> e * dot b1 b2 <= norm2 b1).
  { intros e He. destruct (Rle_lt_dec (e * dot b1 b2) (norm2 b1)) as [|N]; [assumption|]. exfalso.
    destruct (point_with a b b1 b2 (- norm2 b1 / 2) (e * (norm2 b2 / 2 - e * dot b1 b2)) E) as (x & Hx & X1 & X2). apply (K x Hx), too_skew. left. exists e. auto. }
  assert (G2 : forall e, e = 1 \/ e = -1 -> e * dot b1 b2 <= norm2 b2).
  { intros e He. destruct (Rle_lt_dec (e * dot b1 b2) (norm2 b2)) as [|N]; [assumption|]. exfalso.
    destruct (point_with a b b1 b2 (e * (norm2 b1 / 2 - e * dot b1 b2)) (- norm2 b2 / 2) E) as (x & Hx & X1 & X2). apply (K x Hx), too_skew. right. exists e. auto. }
  pose proof (G1 1 (or_introl eq_refl)). pose proof (G1 (-1) (or_intror eq_refl)). pose proof (G2 1 (or_introl eq_refl)). pose proof (G2 (-1) (or_intror eq_refl)).
  split; apply Rabs_le; lra.
Qed.
Print Assumptions C74_exact.
(** For lattice vectors in the plane: exactly when neither of them is shortened by subtracting the
    other twice or more. *)
Theorem C74_exact_vectors : forall a b b1 b2 z, vz a = 0 -> vz b = 0 -> reciprocal_vectors [a; b] = Ok [b1; b2] -> brillouin_zone [a; b] = Ok z ->
  (describes z [b1; b2] <-> Rabs (dot a b) <= norm2 a /\ Rabs (dot a b) <= norm2 b).
Proof.
  intros a b b1 b2 z Ha Hb E B. rewrite (C74_exact [a; b] [b1; b2] z (le_n 2) E B). split.
  - intros S. destruct (S b1 b2 eq_refl) as [S1 S2]. clear S. unfold reciprocal_vectors in E. cbv zeta in E. destruct (Req_EM_T _ 0) as [|N]; [discriminate E|].
    set (d := vx a * vy b - vx b * vy a) in *. assert (E1 : b1 = (2 * PI * (vy b / d), 2 * PI * (- vx b / d), 0)) by congruence.
    assert (E2 : b2 = (2 * PI * (- vy a / d), 2 * PI * (vx a / d), 0)) by congruence. clear E B.
    set (f := (2 * PI / d) * (2 * PI / d)). pose proof PI_RGT_0 as PP.
    assert (F : 0 < f). { assert (2 * PI / d <> 0) by (unfold Rdiv; apply Rmult_integral_contrapositive_currified; [lra|apply Rinv_neq_0_compat; exact N]). unfold f. nra. }
    assert (Q1 : dot b1 b2 = - f * dot a b).
    { subst b1 b2. unfold dot, f. rewrite Ha. change (vz (2 * PI * (vy b / d), 2 * PI * (- vx b / d), 0)) with 0. unfold d, vx, vy, vz in *. cbn [fst snd]. field. exact N. }
    assert (Q2 : norm2 b1 = f * norm2 b).
    { subst b1. unfold norm2, f. rewrite Hb. unfold d, vx, vy, vz in *. cbn [fst snd]. field. exact N. }
    assert (Q3 : norm2 b2 = f * norm2 a).
    { subst b2. unfold norm2, f. rewrite Ha. unfold d, vx, vy, vz in *. cbn [fst snd]. field. exact N. }
    rewrite Q1, Q2 in S1. rewrite Q1, Q3 in S2. replace (- f * dot a b) with (- (f * dot a b)) in S1, S2 by ring. rewrite Rabs_Ropp, Rabs_mult, (Rabs_right f) in S1, S2 by lra.
    split; apply Rmult_le_reg_l with f; assumption.
  - intros S. apply (C74_condition a b b1 b2 Ha Hb E). intros u v Q. assert (u = a) by congruence. assert (v = b) by congruence. subst. exact S.
Qed.
Print Assumptions C74_exact_vectors.
