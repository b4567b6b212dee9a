(* Complex arithmetic built from rounded real operations meets the contract of RoundingProofs (C109). *)
From Verif Require Import Base Scalar Kpm KpmSpec RSum Cplx NormProofs Rounding RoundingProofs.
From Coq Require Import Reals Lra Ring.
Local Open Scope R_scope.
Add Ring CXringRr : (k_ring CX).

Record real_accurate (u : R) (a : real_arith) : Prop := {
  ra_pos : 0 <= u;
  ra_add : forall x y, Rabs (r_add a x y - (x + y)) <= u * Rabs (x + y);
  ra_sub : forall x y, Rabs (r_sub a x y - (x - y)) <= u * Rabs (x - y);
  ra_mul : forall x y, Rabs (r_mul a x y - x * y) <= u * Rabs (x * y)
}.
Lemma cabs_abs : forall x y, cabs (x, y) = sqrt (Rabs x * Rabs x + Rabs y * Rabs y).
Proof. intros x y. unfold cabs, abs2. cbn [fst snd]. f_equal. rewrite <- !Rabs_mult, !Rabs_pos_eq by nra. reflexivity. Qed.
(** componentwise bounds *)
Lemma cabs_parts : forall z (p q : R), Rabs (fst z) <= p -> Rabs (snd z) <= q -> cabs z <= sqrt (p * p + q * q).
Proof. intros [x y] p q H1 H2. cbn in *. rewrite cabs_abs. apply hyp_mono; try assumption; apply Rabs_pos. Qed.
Lemma hyp_abs : forall u x y, 0 <= u -> sqrt ((u * Rabs x) * (u * Rabs x) + (u * Rabs y) * (u * Rabs y)) = u * cabs (x, y).
Proof. intros u x y H. rewrite hyp_scal by exact H. rewrite cabs_abs. reflexivity. Qed.

Section Complex.
  Variables (u : R) (a : real_arith).
  Hypothesis Ha : real_accurate u a.
  Lemma complex_add_error : forall z w, cabs (ksub (complex_add a z w) (kadd z w)) <= u * cabs (kadd z w).
  Proof.
    intros [x y] [s t]. pose proof (ra_pos _ _ Ha) as Hu.
    change (@kadd CX (x, y) (s, t)) with ((x + s, y + t) : CX). rewrite <- hyp_abs by exact Hu. apply cabs_parts.
    - cbn. unfold complex_add. cbn. replace (r_add a x s + - (x + s)) with (r_add a x s - (x + s)) by ring. apply (ra_add _ _ Ha).
    - cbn. unfold complex_add. cbn. replace (r_add a y t + - (y + t)) with (r_add a y t - (y + t)) by ring. apply (ra_add _ _ Ha).
  Qed.
  Lemma complex_sub_error : forall z w, cabs (ksub (complex_sub a z w) (ksub z w)) <= u * cabs (ksub z w).
  Proof.
    intros [x y] [s t]. pose proof (ra_pos _ _ Ha) as Hu.
    replace (@ksub CX (x, y) (s, t)) with ((x - s, y - t) : CX) by reflexivity. rewrite <- hyp_abs by exact Hu. apply cabs_parts.
    - cbn. unfold complex_sub. cbn. replace (r_sub a x s + - (x - s)) with (r_sub a x s - (x - s)) by ring. apply (ra_sub _ _ Ha).
    - cbn. unfold complex_sub. cbn. replace (r_sub a y t + - (y - t)) with (r_sub a y t - (y - t)) by ring. apply (ra_sub _ _ Ha).
  Qed.
  (** [op (p, q)] with both arguments rounded *)
  Lemma part : forall h v p q ph qh, Rabs (h - (ph + qh)) <= u * Rabs (ph + qh) -> v = p + q -> Rabs (ph - p) <= u * Rabs p -> Rabs (qh - q) <= u * Rabs q -> 0 <= u ->
    Rabs (h - v) <= u * Rabs v + (u + u * u) * (Rabs p + Rabs q).
  Proof.
    intros h v p q ph qh H1 -> H2 H3 Hu. replace (h - (p + q)) with ((h - (ph + qh)) + ((ph - p) + (qh - q))) by ring.
    eapply Rle_trans; [apply Rabs_triang|]. pose proof (Rabs_triang (ph - p) (qh - q)).
    assert (Rabs (ph + qh) <= Rabs (p + q) + (Rabs (ph - p) + Rabs (qh - q))).
    { replace (ph + qh) with ((p + q) + ((ph - p) + (qh - q))) at 1 by ring. eapply Rle_trans; [apply Rabs_triang|]. lra. }
    assert (u * Rabs (ph + qh) <= u * (Rabs (p + q) + (u * Rabs p + u * Rabs q))) by (apply Rmult_le_compat_l; lra). lra.
  Qed.
  Lemma cross : forall x y s t, sqrt ((Rabs (x * s) + Rabs (y * t)) * (Rabs (x * s) + Rabs (y * t)) + (Rabs (x * t) + Rabs (y * s)) * (Rabs (x * t) + Rabs (y * s))) <= 3 / 2 * (cabs (x, y) * cabs (s, t)).
  Proof.
    intros x y s t. rewrite <- cabs_mul. rewrite !Rabs_mult. set (X := Rabs x). set (Y := Rabs y). set (P := Rabs s). set (Q := Rabs t).
    assert (E : cabs (@kmul CX (x, y) (s, t)) = sqrt ((X * X + Y * Y) * (P * P + Q * Q))).
    { rewrite cabs_mul, !cabs_abs. fold X Y P Q. symmetry. apply sqrt_mult; nra. }
    rewrite E. rewrite <- (sqrt_Rsqr (3 / 2)) by lra. rewrite <- sqrt_mult by (unfold Rsqr; nra). apply sqrt_le_1_alt. unfold Rsqr.
    pose proof (Rle_0_sqr (X - Y)) as A. pose proof (Rle_0_sqr (P - Q)) as B. unfold Rsqr in *.
    assert (X0 : 0 <= X) by apply Rabs_pos. assert (Y0 : 0 <= Y) by apply Rabs_pos. assert (P0 : 0 <= P) by apply Rabs_pos. assert (Q0 : 0 <= Q) by apply Rabs_pos.
    assert (C1 : 2 * (X * Y) <= X * X + Y * Y) by lra. assert (C2 : 2 * (P * Q) <= P * P + Q * Q) by lra.
    assert (C3 : (2 * (X * Y)) * (2 * (P * Q)) <= (X * X + Y * Y) * (P * P + Q * Q)) by (apply Rmult_le_compat; nra). assert (C4 : 0 <= (X * X + Y * Y) * (P * P + Q * Q)) by nra.
    replace ((X * P + Y * Q) * (X * P + Y * Q) + (X * Q + Y * P) * (X * Q + Y * P)) with ((X * X + Y * Y) * (P * P + Q * Q) + (2 * (X * Y)) * (2 * (P * Q))) by ring. lra.
  Qed.
  Lemma complex_mul_error : u <= / 3 -> forall z w, cabs (ksub (complex_mul a z w) (kmul z w)) <= 3 * u * cabs (kmul z w).
  Proof.
    intros H3 [x y] [s t]. pose proof (ra_pos _ _ Ha) as Hu.
    assert (P1 : Rabs (r_sub a (r_mul a x s) (r_mul a y t) - (x * s - y * t)) <= u * Rabs (x * s - y * t) + (u + u * u) * (Rabs (x * s) + Rabs (y * t))).
    { rewrite <- (Rabs_Ropp (y * t)). apply (part _ _ (x * s) (- (y * t)) (r_mul a x s) (- r_mul a y t)); [apply (ra_sub _ _ Ha)|ring|apply (ra_mul _ _ Ha)| |exact Hu].
      rewrite Rabs_Ropp. replace (- r_mul a y t - - (y * t)) with (- (r_mul a y t - y * t)) by ring. rewrite Rabs_Ropp. apply (ra_mul _ _ Ha). }
    assert (P2 : Rabs (r_add a (r_mul a x t) (r_mul a y s) - (x * t + y * s)) <= u * Rabs (x * t + y * s) + (u + u * u) * (Rabs (x * t) + Rabs (y * s))).
    { apply (part _ _ (x * t) (y * s) (r_mul a x t) (r_mul a y s)); [apply (ra_add _ _ Ha)|ring|apply (ra_mul _ _ Ha)|apply (ra_mul _ _ Ha)|exact Hu]. }
    change (@kmul CX (x, y) (s, t)) with ((x * s - y * t, x * t + y * s) : CX). set (v := (x * s - y * t, x * t + y * s) : CX).
    assert (Q : cabs (ksub (complex_mul a (x, y) (s, t)) v) <= sqrt ((u * Rabs (x * s - y * t) + (u + u * u) * (Rabs (x * s) + Rabs (y * t))) * (u * Rabs (x * s - y * t) + (u + u * u) * (Rabs (x * s) + Rabs (y * t)))
      + (u * Rabs (x * t + y * s) + (u + u * u) * (Rabs (x * t) + Rabs (y * s))) * (u * Rabs (x * t + y * s) + (u + u * u) * (Rabs (x * t) + Rabs (y * s))))).
    { apply cabs_parts; cbn; unfold complex_mul; cbn; [exact P1|exact P2]. }
    eapply Rle_trans; [exact Q|]. eapply Rle_trans; [apply hyp_triangle|]. rewrite hyp_abs by exact Hu. fold v. rewrite hyp_scal by nra.
    pose proof (cross x y s t) as C. pose proof (cabs_mul (x, y) (s, t)) as M. change (@kmul CX (x, y) (s, t)) with v in M. rewrite <- M in C. pose proof (cabs_pos v) as V.
    assert ((u + u * u) * sqrt ((Rabs (x * s) + Rabs (y * t)) * (Rabs (x * s) + Rabs (y * t)) + (Rabs (x * t) + Rabs (y * s)) * (Rabs (x * t) + Rabs (y * s))) <= (u + u * u) * (3 / 2 * cabs v)) by (apply Rmult_le_compat_l; [nra|exact C]).
    assert (K : (u + u * u) * (3 / 2) <= 2 * u) by (assert (u * u <= u * / 3) by (apply Rmult_le_compat_l; lra); lra). apply Rmult_le_compat_r with (r := cabs v) in K; [|exact V]. lra.
  Qed.
  Lemma leaves_pos : forall o, (1 <= leaves o)%nat. Proof. induction o; cbn; lia. Qed.
  Lemma asum_app : forall l1 l2, asum (l1 ++ l2) = asum l1 + asum l2.
  Proof. induction l1 as [|z l1 IH]; intros l2; [cbn [app]; change (asum []) with 0; lra|]. cbn [app asum fold_right]. fold (asum (l1 ++ l2)). fold (asum l1). rewrite IH. lra. Qed.
  Lemma add_up_error : forall o l, length l = leaves o -> cabs (ksub (add_up (complex_add a) o l) (ksum (fun z => z) l)) <= ((1 + u) ^ (leaves o - 1) - 1) * asum l.
  Proof.
    pose proof (ra_pos _ _ Ha) as Hu. induction o as [|o1 IH1 o2 IH2]; intros l Hl.
    - cbn in Hl. destruct l as [|z [|]]; try discriminate. cbn [add_up nth leaves Nat.sub pow]. rewrite ksum_cons, ksum_nil. replace (ksub z (kadd z k0)) with (@k0 CX) by ring. rewrite cabs_0. lra.
    - cbn [leaves] in Hl. cbn [add_up leaves]. pose proof (leaves_pos o1) as L1. pose proof (leaves_pos o2) as L2.
      rewrite <- (firstn_skipn (leaves o1) l) at 3 4. rewrite asum_app, ksum_app.
      set (l1 := firstn (leaves o1) l) in *. set (l2 := skipn (leaves o1) l) in *.
      assert (E1 : length l1 = leaves o1) by (unfold l1; rewrite firstn_length; lia). assert (E2 : length l2 = leaves o2) by (unfold l2; rewrite skipn_length; lia).
      specialize (IH1 l1 E1). specialize (IH2 l2 E2).
      replace (leaves o1 + leaves o2 - 1)%nat with (S (leaves o1 + leaves o2 - 2)) by lia.
      apply (err_compose u (leaves o1 + leaves o2 - 2) _ _ (kadd (add_up (complex_add a) o1 l1) (add_up (complex_add a) o2 l2)) _ Hu); [apply complex_add_error| |].
      + set (s1 := add_up (complex_add a) o1 l1) in *. set (s2 := add_up (complex_add a) o2 l2) in *.
        replace (ksub (kadd s1 s2) (kadd (ksum (fun z => z) l1) (ksum (fun z => z) l2))) with (kadd (ksub s1 (ksum (fun z => z) l1)) (ksub s2 (ksum (fun z => z) l2))) by ring.
        eapply Rle_trans; [apply cabs_add|]. pose proof (asum_pos l1). pose proof (asum_pos l2).
        pose proof (pow_up u (leaves o1 - 1) (leaves o1 + leaves o2 - 2) Hu ltac:(lia)). pose proof (pow_up u (leaves o2 - 1) (leaves o1 + leaves o2 - 2) Hu ltac:(lia)).
        assert (((1 + u) ^ (leaves o1 - 1) - 1) * asum l1 <= ((1 + u) ^ (leaves o1 + leaves o2 - 2) - 1) * asum l1) by (apply Rmult_le_compat_r; lra).
        assert (((1 + u) ^ (leaves o2 - 1) - 1) * asum l2 <= ((1 + u) ^ (leaves o1 + leaves o2 - 2) - 1) * asum l2) by (apply Rmult_le_compat_r; lra). rewrite Rmult_plus_distr_l. lra.
      + eapply Rle_trans; [apply cabs_add|]. pose proof (asum_ksum l1). pose proof (asum_ksum l2). lra.
  Qed.
  Lemma complex_accurate : u <= / 3 -> forall ord, (forall n, (1 <= n)%nat -> leaves (ord n) = n) -> accurate (3 * u) (complex_arith a ord).
  Proof.
    intros H3 ord Ho. pose proof (ra_pos _ _ Ha) as Hu. constructor; cbn [complex_arith f_add f_sub f_mul f_sum].
    - lra.
    - intros z w. eapply Rle_trans; [apply complex_add_error|]. apply Rmult_le_compat_r; [apply cabs_pos|lra].
    - intros z w. eapply Rle_trans; [apply complex_sub_error|]. apply Rmult_le_compat_r; [apply cabs_pos|lra].
    - apply complex_mul_error. exact H3.
    - intros [|z l].
      + rewrite ksum_nil. replace (ksub k0 k0) with (@k0 CX) by ring. rewrite cabs_0. cbn. lra.
      + set (l' := z :: l). assert (L : (1 <= length l')%nat) by (cbn; lia). eapply Rle_trans; [apply add_up_error; symmetry; apply Ho; exact L|]. rewrite (Ho _ L).
        apply Rmult_le_compat_r; [apply asum_pos|]. apply Rplus_le_compat_r. apply Rle_trans with ((1 + u) ^ length l'); [apply Rle_pow; [lra|lia]|]. apply pow_incr. lra.
  Qed.
End Complex.

(** ** Rounding to [p] binary digits *)
Lemma nearest_error : forall x, Rabs (IZR (nearest x) - x) <= / 2.
Proof. intros x. unfold nearest. destruct (base_Int_part (x + / 2)) as [A B]. apply Rabs_le. lra. Qed.
Lemma exponent_le : forall x, x <> 0 -> Rpower 2 (exponent x) <= Rabs x.
Proof.
  intros x H. pose proof (Rabs_pos_lt x H) as P. apply Rle_trans with (exp (ln (Rabs x))); [|right; apply exp_ln; exact P]. unfold Rpower, exponent. destruct (base_Int_part (ln (Rabs x) / ln 2)) as [A _].
  pose proof ln_lt_2 as L. assert (L2 : 0 < ln 2) by lra. assert (IZR (Int_part (ln (Rabs x) / ln 2)) * ln 2 <= ln (Rabs x)).
  { apply Rmult_le_compat_r with (r := ln 2) in A; [|lra]. replace (ln (Rabs x) / ln 2 * ln 2) with (ln (Rabs x)) in A by (field; lra). exact A. }
  destruct H0 as [G|G]; [left; apply exp_increasing; exact G|right; rewrite G; reflexivity].
Qed.
Lemma round_error : forall p x, Rabs (round_to p x - x) <= / 2 ^ p * Rabs x.
Proof.
  intros p x. unfold round_to. destruct (Req_EM_T x 0) as [->|H]; [rewrite Rminus_0_r, Rabs_R0; lra|]. set (s := Rpower 2 (INR p - 1 - exponent x)). assert (S0 : 0 < s) by apply exp_pos. cbn zeta.
  replace (IZR (nearest (x * s)) / s - x) with ((IZR (nearest (x * s)) - x * s) / s) by (field; lra). unfold Rdiv. rewrite Rabs_mult, (Rabs_pos_eq (/ s)) by (left; apply Rinv_0_lt_compat; exact S0).
  pose proof (nearest_error (x * s)) as E. pose proof (exponent_le x H) as L.
  assert (Hs : / s = 2 * / 2 ^ p * Rpower 2 (exponent x)).
  { unfold s. replace (INR p - 1 - exponent x) with (INR p + (- (1) + - exponent x)) by ring. rewrite !Rpower_plus, !Rpower_Ropp, Rpower_pow, Rpower_1 by lra. field; repeat split; try lra; try (apply pow_nonzero; lra); apply Rgt_not_eq; apply exp_pos. }
  assert (0 < / s) by (apply Rinv_0_lt_compat; exact S0). assert (0 < / 2 ^ p) by (apply Rinv_0_lt_compat; apply pow_lt; lra).
  apply Rle_trans with (/ 2 * / s); [apply Rmult_le_compat_r; lra|]. rewrite Hs. apply Rmult_le_compat_l with (r := / 2 ^ p) in L; [|lra]. lra.
Qed.
Lemma digits_accurate : forall p, real_accurate (/ 2 ^ p) (digits p).
Proof.
  intros p. constructor; cbn; try (intros; apply round_error). left. apply Rinv_0_lt_compat. apply pow_lt. lra.
Qed.
