(* Integrals over an open interval by antiderivatives, for integrands that may be unbounded at the
   ends, as 1/sqrt(1-x^2) is. *)
From Verif Require Import Base RSum.
From Coq Require Import Reals Lra Ranalysis Ratan.
Local Open Scope R_scope.

(** [F] has the limit [A] at the left (right) end of the interval. *)
Definition limit_left (F : R -> R) (lo hi A : R) : Prop := forall eps, 0 < eps -> exists d, 0 < d /\ forall x, lo < x < hi -> x < lo + d -> Rabs (F x - A) < eps.
Definition limit_right (F : R -> R) (lo hi B : R) : Prop := forall eps, 0 < eps -> exists d, 0 < d /\ forall x, lo < x < hi -> hi - d < x -> Rabs (F x - B) < eps.
(** The integral of [f] from [lo] to [hi] is [v]. *)
Definition integral (f : R -> R) (lo hi v : R) : Prop :=
  exists F A B, (forall x, lo < x < hi -> derivable_pt_lim F x (f x)) /\ limit_left F lo hi A /\ limit_right F lo hi B /\ v = B - A.

(** ** The value is unique *)
Lemma flat : forall F lo hi, (forall x, lo < x < hi -> derivable_pt_lim F x 0) -> forall x y, lo < x -> x < y -> y < hi -> F x = F y.
Proof.
  intros F lo hi D x y Hx Hxy Hy.
  destruct (MVT_cor2 F (fun _ => 0) x y Hxy) as (c & E & _); [|lra].
  intros c Hc. apply D. lra.
Qed.
Lemma integral_unique : forall f lo hi v w, lo < hi -> integral f lo hi v -> integral f lo hi w -> v = w.
Proof.
  intros f lo hi v w Hlh (F & A & B & DF & LA & LB & ->) (G & A' & B' & DG & LA' & LB' & ->).
  assert (D0 : forall x, lo < x < hi -> derivable_pt_lim (fun x => F x - G x) x 0).
  { intros x Hx. replace 0 with (f x - f x) by lra. apply (derivable_pt_lim_minus F G); auto. }
  pose proof (flat _ _ _ D0) as C. cbv beta in C.
  destruct (Req_EM_T (B - A) (B' - A')) as [|Hne]; [assumption|exfalso].
  set (e := Rabs ((B - A) - (B' - A'))). assert (He : 0 < e) by (apply Rabs_pos_lt; lra).
  destruct (LA (e / 4) ltac:(lra)) as (d1 & P1 & H1). destruct (LA' (e / 4) ltac:(lra)) as (d2 & P2 & H2).
  destruct (LB (e / 4) ltac:(lra)) as (d3 & P3 & H3). destruct (LB' (e / 4) ltac:(lra)) as (d4 & P4 & H4).
  set (m := (hi - lo) / 2). assert (Pm : 0 < m) by (unfold m; lra).
  set (d := Rmin m (Rmin (Rmin d1 d2) (Rmin d3 d4))).
  assert (Pd : 0 < d) by (unfold d; repeat apply Rmin_glb_lt; auto).
  assert (Ld : d <= m /\ d <= d1 /\ d <= d2 /\ d <= d3 /\ d <= d4).
  { unfold d. pose proof (Rmin_l m (Rmin (Rmin d1 d2) (Rmin d3 d4))). pose proof (Rmin_r m (Rmin (Rmin d1 d2) (Rmin d3 d4))).
    pose proof (Rmin_l (Rmin d1 d2) (Rmin d3 d4)). pose proof (Rmin_r (Rmin d1 d2) (Rmin d3 d4)).
    pose proof (Rmin_l d1 d2). pose proof (Rmin_r d1 d2). pose proof (Rmin_l d3 d4). pose proof (Rmin_r d3 d4). lra. }
  unfold m in *. set (x := lo + d / 2). set (y := hi - d / 2).
  specialize (H1 x ltac:(unfold x; lra) ltac:(unfold x; lra)). specialize (H2 x ltac:(unfold x; lra) ltac:(unfold x; lra)).
  specialize (H3 y ltac:(unfold y; lra) ltac:(unfold y; lra)). specialize (H4 y ltac:(unfold y; lra) ltac:(unfold y; lra)).
  specialize (C x y ltac:(unfold x; lra) ltac:(unfold x, y; lra) ltac:(unfold y; lra)).
  apply Rabs_def2 in H1, H2, H3, H4. unfold e in *. destruct (Rcase_abs ((B - A) - (B' - A'))) as [S|S]; [rewrite Rabs_left in * by lra|rewrite Rabs_right in * by lra]; lra.
Qed.

(** ** Rules *)
Lemma integral_ext : forall f g lo hi v, (forall x, lo < x < hi -> f x = g x) -> integral f lo hi v -> integral g lo hi v.
Proof. intros f g lo hi v E (F & A & B & D & LA & LB & H). exists F, A, B. split; [|auto]. intros x Hx. rewrite <- E by exact Hx. auto. Qed.
Lemma integral_add : forall f g lo hi v w, integral f lo hi v -> integral g lo hi w -> integral (fun x => f x + g x) lo hi (v + w).
Proof.
  intros f g lo hi v w (F & A & B & DF & LA & LB & ->) (G & A' & B' & DG & LA' & LB' & ->).
  exists (fun x => F x + G x), (A + A'), (B + B'). repeat split; [| | |lra].
  - intros x Hx. apply (derivable_pt_lim_plus F G); auto.
  - intros e He. destruct (LA (e / 2) ltac:(lra)) as (d1 & P1 & H1). destruct (LA' (e / 2) ltac:(lra)) as (d2 & P2 & H2).
    exists (Rmin d1 d2). split; [apply Rmin_glb_lt; auto|]. intros x Hx Hd. pose proof (Rmin_l d1 d2). pose proof (Rmin_r d1 d2).
    specialize (H1 x Hx ltac:(lra)). specialize (H2 x Hx ltac:(lra)). replace (F x + G x - (A + A')) with ((F x - A) + (G x - A')) by ring.
    eapply Rle_lt_trans; [apply Rabs_triang|]. lra.
  - intros e He. destruct (LB (e / 2) ltac:(lra)) as (d1 & P1 & H1). destruct (LB' (e / 2) ltac:(lra)) as (d2 & P2 & H2).
    exists (Rmin d1 d2). split; [apply Rmin_glb_lt; auto|]. intros x Hx Hd. pose proof (Rmin_l d1 d2). pose proof (Rmin_r d1 d2).
    specialize (H1 x Hx ltac:(lra)). specialize (H2 x Hx ltac:(lra)). replace (F x + G x - (B + B')) with ((F x - B) + (G x - B')) by ring.
    eapply Rle_lt_trans; [apply Rabs_triang|]. lra.
Qed.
Lemma integral_0 : forall lo hi, integral (fun _ => 0) lo hi 0.
Proof.
  intros lo hi. exists (fun _ => 0), 0, 0. repeat split; [| | |lra].
  - intros x _. apply derivable_pt_lim_const.
  - intros e He. exists 1. split; [lra|]. intros. rewrite Rminus_0_r, Rabs_R0. exact He.
  - intros e He. exists 1. split; [lra|]. intros. rewrite Rminus_0_r, Rabs_R0. exact He.
Qed.
Lemma integral_scal : forall c f lo hi v, integral f lo hi v -> integral (fun x => c * f x) lo hi (c * v).
Proof.
  intros c f lo hi v (F & A & B & DF & LA & LB & ->). exists (fun x => c * F x), (c * A), (c * B). repeat split; [| | |lra].
  - intros x Hx. apply (derivable_pt_lim_scal F); auto.
  - intros e He. assert (P : 0 < Rabs c + 1) by (pose proof (Rabs_pos c); lra).
    destruct (LA (e / (Rabs c + 1))) as (d & Pd & H); [apply Rdiv_lt_0_compat; auto|]. exists d. split; [exact Pd|]. intros x Hx Hd. specialize (H x Hx Hd).
    rewrite <- Rmult_minus_distr_l, Rabs_mult. apply (Rmult_lt_compat_l _ _ _ P) in H.
    replace ((Rabs c + 1) * (e / (Rabs c + 1))) with e in H by (field; lra). pose proof (Rabs_pos (F x - A)). nra.
  - intros e He. assert (P : 0 < Rabs c + 1) by (pose proof (Rabs_pos c); lra).
    destruct (LB (e / (Rabs c + 1))) as (d & Pd & H); [apply Rdiv_lt_0_compat; auto|]. exists d. split; [exact Pd|]. intros x Hx Hd. specialize (H x Hx Hd).
    rewrite <- Rmult_minus_distr_l, Rabs_mult. apply (Rmult_lt_compat_l _ _ _ P) in H.
    replace ((Rabs c + 1) * (e / (Rabs c + 1))) with e in H by (field; lra). pose proof (Rabs_pos (F x - B)). nra.
Qed.
Lemma integral_sum : forall (f : nat -> R -> R) (v : nat -> R) lo hi M, (forall n, (n < M)%nat -> integral (f n) lo hi (v n)) ->
  integral (fun x => rsum (fun n => f n x) M) lo hi (rsum v M).
Proof.
  intros f v lo hi M. induction M as [|M IH]; intros H; cbn [rsum]; [apply integral_0|].
  apply (integral_add (fun x => rsum (fun n => f n x) M)); [apply IH; intros; apply H; lia|apply H; lia].
Qed.

(** ** The arc cosine *)
Lemma acos_near_1 : forall e x, 0 < e -> -1 < x < 1 -> cos (Rmin e PI) < x -> acos x < e.
Proof.
  intros e x He Hx Hc. destruct (Rlt_le_dec (acos x) e) as [|Hge]; [assumption|exfalso].
  pose proof (acos_bound x) as (B1 & B2). pose proof (Rmin_l e PI). pose proof (Rmin_r e PI). pose proof PI_RGT_0.
  assert (P : 0 < Rmin e PI) by (apply Rmin_glb_lt; auto).
  assert (L : Rmin e PI <= acos x) by lra.
  assert (D : cos (acos x) <= cos (Rmin e PI)) by (apply cos_decr_1; lra).
  rewrite cos_acos in D by lra. lra.
Qed.
Lemma acos_limit_1 : limit_right acos (-1) 1 0.
Proof.
  intros e He. pose proof PI_RGT_0. assert (P : 0 < Rmin e PI) by (apply Rmin_glb_lt; auto). pose proof (Rmin_r e PI).
  exists (1 - cos (Rmin e PI)). split.
  - assert (cos (Rmin e PI) < cos 0) by (apply cos_decreasing_1; lra). rewrite cos_0 in *. lra.
  - intros x Hx Hd. pose proof (acos_near_1 e x He Hx ltac:(lra)). pose proof (acos_bound x). rewrite Rminus_0_r, Rabs_right by lra. lra.
Qed.
Lemma acos_limit_m1 : limit_left acos (-1) 1 PI.
Proof.
  intros e He. destruct (acos_limit_1 e He) as (d & Pd & H). exists d. split; [exact Pd|]. intros x Hx Hd.
  specialize (H (- x) ltac:(lra) ltac:(lra)). rewrite acos_opp in H. rewrite <- Rabs_Ropp. replace (- (acos x - PI)) with (PI - acos x - 0) by ring. exact H.
Qed.
Lemma acos_derivative : forall x, -1 < x < 1 -> derivable_pt_lim acos x (- / sqrt (1 - x * x)).
Proof.
  intros x Hx. pose proof (derivable_pt_acos x Hx) as pr. pose proof (derive_pt_acos x Hx) as E.
  apply derive_pt_eq_1 in E. unfold Rsqr in E. replace (- / sqrt (1 - x * x)) with (-1 / sqrt (1 - x * x)) by (unfold Rdiv; ring). exact E.
Qed.

(** Substitution E = a cos(f) + b. *)
Section Subst.
  Variables a b : R.
  Hypothesis Ha : 0 < a.
  Definition sc (E : R) : R := (E - b) / a.
  Lemma sc_range : forall E, b - a < E < b + a -> -1 < sc E < 1.
  Proof.
    intros E (H1 & H2). unfold sc. assert (Q : (E - b) / a * a = E - b) by (field; lra).
    split; apply (Rmult_lt_reg_r a); auto; rewrite Q; lra.
  Qed.
  Lemma angle_limit_left : limit_left (fun E => acos (sc E)) (b - a) (b + a) PI.
  Proof.
    intros e He. destruct (acos_limit_m1 e He) as (d & Pd & H). exists (a * d). split; [apply Rmult_lt_0_compat; auto|].
    intros E HE Hd. apply H; [apply sc_range; exact HE|]. unfold sc. apply (Rmult_lt_reg_r a); auto.
    replace ((E - b) / a * a) with (E - b) by (field; lra). lra.
  Qed.
  Lemma angle_limit_right : limit_right (fun E => acos (sc E)) (b - a) (b + a) 0.
  Proof.
    intros e He. destruct (acos_limit_1 e He) as (d & Pd & H). exists (a * d). split; [apply Rmult_lt_0_compat; auto|].
    intros E HE Hd. apply H; [apply sc_range; exact HE|]. unfold sc. apply (Rmult_lt_reg_r a); auto.
    replace ((E - b) / a * a) with (E - b) by (field; lra). lra.
  Qed.
  Lemma angle_derivative : forall E, b - a < E < b + a -> derivable_pt_lim (fun E => acos (sc E)) E (- / sqrt (1 - sc E * sc E) * / a).
  Proof.
    intros E HE. apply (derivable_pt_lim_comp sc acos).
    - unfold sc. replace (/ a) with ((1 - 0) * / a + (E - b) * 0) by ring.
      apply (derivable_pt_lim_mult (fun E => E - b) (fun _ => / a)); [|apply derivable_pt_lim_const].
      apply (derivable_pt_lim_minus (fun E => E) (fun _ => b)); [apply derivable_pt_lim_id|apply derivable_pt_lim_const].
    - apply acos_derivative. apply sc_range. exact HE.
  Qed.
  (** An antiderivative of the angle function gives the integral over the energy. *)
  Lemma integral_angle : forall f P, (forall t, derivable_pt_lim P t (f t)) ->
    integral (fun E => / sqrt (1 - sc E * sc E) * / a * f (acos (sc E))) (b - a) (b + a) (P PI - P 0).
  Proof.
    intros f P D. exists (fun E => - P (acos (sc E))), (- P PI), (- P 0). repeat split; [| | |lra].
    - intros E HE. replace (/ sqrt (1 - sc E * sc E) * / a * f (acos (sc E))) with (- (f (acos (sc E)) * (- / sqrt (1 - sc E * sc E) * / a))) by ring.
      apply (derivable_pt_lim_opp (fun E => P (acos (sc E)))).
      apply (derivable_pt_lim_comp (fun E => acos (sc E)) P); [apply angle_derivative; exact HE|apply D].
    - intros e He. assert (C : continuity_pt P PI) by (apply derivable_continuous_pt; exists (f PI); apply D).
      destruct (C e He) as (d & Pd & H). destruct (angle_limit_left d Pd) as (d' & Pd' & H'). exists d'. split; [exact Pd'|].
      intros E HE Hd. specialize (H' E HE Hd). replace (- P (acos (sc E)) - - P PI) with (- (P (acos (sc E)) - P PI)) by ring. rewrite Rabs_Ropp.
      destruct (Req_EM_T (acos (sc E)) PI) as [->|Hne]; [unfold Rminus; rewrite Rplus_opp_r, Rabs_R0; exact He|].
      apply (H (acos (sc E))). split; [|exact H']. split; [exact I|auto].
    - intros e He. assert (C : continuity_pt P 0) by (apply derivable_continuous_pt; exists (f 0); apply D).
      destruct (C e He) as (d & Pd & H). destruct (angle_limit_right d Pd) as (d' & Pd' & H'). exists d'. split; [exact Pd'|].
      intros E HE Hd. specialize (H' E HE Hd). replace (- P (acos (sc E)) - - P 0) with (- (P (acos (sc E)) - P 0)) by ring. rewrite Rabs_Ropp.
      destruct (Req_EM_T (acos (sc E)) 0) as [->|Hne]; [unfold Rminus; rewrite Rplus_opp_r, Rabs_R0; exact He|].
      apply (H (acos (sc E))). split; [|exact H']. split; [exact I|auto].
  Qed.
  Lemma integral_cos : forall n, integral (fun E => / sqrt (1 - sc E * sc E) * / a * cos (INR n * acos (sc E))) (b - a) (b + a) (match n with O => PI | _ => 0 end).
  Proof.
    intros [|n].
    - replace PI with (PI - 0) at 1 by ring. apply (integral_angle (fun t => cos (INR 0 * t)) (fun t => t)).
      intros t. cbn [INR]. rewrite Rmult_0_l, cos_0. apply derivable_pt_lim_id.
    - set (k := INR (S n)). assert (Hk : 0 < k) by (apply lt_0_INR; lia).
      replace 0 with (/ k * sin (k * PI) - / k * sin (k * 0)) at 1.
      + apply (integral_angle (fun t => cos (k * t)) (fun t => / k * sin (k * t))). intros t.
        replace (cos (k * t)) with (/ k * (cos (k * t) * k)) by (field; lra).
        apply (derivable_pt_lim_scal (fun t => sin (k * t))). apply (derivable_pt_lim_comp (fun t => k * t) sin); [|apply derivable_pt_lim_sin].
        pose proof (derivable_pt_lim_scal (fun t => t) k t 1 (derivable_pt_lim_id t)) as Dk. rewrite Rmult_1_r in Dk. exact Dk.
      + rewrite Rmult_0_r, sin_0. replace (sin (k * PI)) with 0; [ring|]. symmetry. apply sin_eq_0_1. exists (Z.of_nat (S n)). unfold k. rewrite INR_IZR_INZ. reflexivity.
  Qed.
End Subst.
