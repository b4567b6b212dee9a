(* C72: the density of states is normalised. *)
From Coq Require Import Reals Lra Lia.
From Verif Require Import Base Scalar Rle RSum Cplx SolverPost SolverPostProofs GaussInt.
Local Open Scope R_scope.

(** The integral of [f] over the whole line is [c]: [f] is continuous and its Riemann integrals over
    large intervals come arbitrarily close to [c]. *)
Definition integral_is (f : R -> R) (c : R) : Prop :=
  continuity f /\
  forall eps, 0 < eps -> exists L, forall A B (pr : Riemann_integrable f A B), A <= - L -> L <= B -> Rabs (RiemannInt pr - c) < eps.

Lemma integral_ext : forall f g c d, (forall x, f x = g x) -> c = d -> integral_is f c -> integral_is g d.
Proof.
  intros f g c d E <- [Cf H]. assert (Cg : continuity g).
  { intros x. apply (continuity_pt_locally_ext f g 1); [lra|intros; auto|apply Cf]. }

  split; [exact Cg|]. intros eps He. destruct (H eps He) as (L & P). exists (Rmax 0 L). intros A B pr HA HB.
  pose proof (Rmax_l 0 L). pose proof (Rmax_r 0 L).
  assert (pf : Riemann_integrable f A B) by (apply continuity_implies_RiemannInt; [lra|intros x _; apply Cf]).
  rewrite (RiemannInt_P18 pr pf) by (try lra; intros; symmetry; apply E). apply P; lra.
Qed.
Lemma integral_lin : forall f g c d l, integral_is f c -> integral_is g d -> integral_is (fun x => f x + l * g x) (c + l * d).
Proof.
  intros f g c d l [Cf Hf] [Cg Hg]. split; [apply continuity_plus; [exact Cf|apply (continuity_scal g l Cg)]|].
  intros eps He. assert (Lp : 0 < 1 + Rabs l) by (pose proof (Rabs_pos l); lra).
  destruct (Hf (eps / 2) ltac:(lra)) as (L1 & P1). destruct (Hg (eps / 2 / (1 + Rabs l))) as (L2 & P2); [apply Rdiv_lt_0_compat; lra|].
  exists (Rmax 0 (Rmax L1 L2)). intros A B pr HA HB.
  pose proof (Rmax_l 0 (Rmax L1 L2)). pose proof (Rmax_r 0 (Rmax L1 L2)). pose proof (Rmax_l L1 L2). pose proof (Rmax_r L1 L2).
  assert (pf : Riemann_integrable f A B) by (apply continuity_implies_RiemannInt; [lra|intros x _; apply Cf]).
  assert (pg : Riemann_integrable g A B) by (apply continuity_implies_RiemannInt; [lra|intros x _; apply Cg]).
  rewrite (RiemannInt_P13 pf pg pr).
  specialize (P1 A B pf ltac:(lra) ltac:(lra)). specialize (P2 A B pg ltac:(lra) ltac:(lra)).
  replace (RiemannInt pf + l * RiemannInt pg - (c + l * d)) with ((RiemannInt pf - c) + l * (RiemannInt pg - d)) by ring.
  eapply Rle_lt_trans; [apply Rabs_triang|]. rewrite Rabs_mult.
  assert (Rabs l * Rabs (RiemannInt pg - d) <= eps / 2).
  { apply (Rmult_lt_compat_r (1 + Rabs l)) in P2; [|exact Lp]. unfold Rdiv at 1 in P2. rewrite Rmult_assoc, Rinv_l, Rmult_1_r in P2 by lra.
    pose proof (Rabs_pos (RiemannInt pg - d)). pose proof (Rabs_pos l). nra. }
  lra.
Qed.
Lemma integral_zero : integral_is (fun _ => 0) 0.
Proof.
  assert (C : continuity (fun _ : R => 0)) by (apply continuity_const; intros x y; reflexivity).
  split; [exact C|]. intros eps He. exists 0. intros A B pr HA HB.
  pose proof (RiemannInt_P15 (pr : Riemann_integrable (fct_cte 0) A B)) as E. unfold fct_cte in E. rewrite E, Rmult_0_l, Rminus_0_r, Rabs_R0. exact He.
Qed.

Lemma sqrt_pi_big : 1 <= sqrt PI.
Proof. rewrite <- sqrt_1. apply sqrt_le_1_alt. pose proof PI_4. pose proof PI2_1. lra. Qed.
Lemma half_close : forall eps x, 0 < eps -> 1 + 2 / eps <= x -> Rabs (half x - sqrt PI / 2) < eps.
Proof.
  intros eps x He Hx. assert (0 < 2 / eps) by (apply Rdiv_lt_0_compat; lra).
  eapply Rle_lt_trans; [apply half_limit; lra|]. pose proof sqrt_pi_big as S.
  assert (B : exp (- x ^ 2) <= / (1 + x ^ 2)).
  { rewrite exp_Ropp. apply Rinv_le_contravar; [nra|]. pose proof (exp_ineq1_le (x ^ 2)). lra. }
  assert (C : 2 / sqrt PI <= 2).
  { apply (Rmult_le_reg_r (sqrt PI)); [lra|]. unfold Rdiv. rewrite Rmult_assoc, Rinv_l by lra. lra. }
  assert (C0 : 0 < 2 / sqrt PI) by (apply Rdiv_lt_0_compat; lra).
  assert (Q : 0 < / (1 + x ^ 2)) by (apply Rinv_0_lt_compat; nra).
  assert (E : 2 * / (1 + x ^ 2) < eps).
  { apply (Rmult_lt_reg_r (1 + x ^ 2)); [nra|]. rewrite Rmult_assoc, Rinv_l by nra.
    assert (2 < eps * (1 + x ^ 2)); [|lra]. assert (2 / eps < 1 + x ^ 2) by nra.
    apply (Rmult_lt_compat_r eps) in H0; [|exact He]. unfold Rdiv in H0. rewrite Rmult_assoc, Rinv_l in H0 by lra. lra. }
  pose proof (exp_pos (- x ^ 2)). nra.
Qed.

Lemma integral_gaussian : forall b En, 0 < b -> integral_is (fun E => gauss_scale b * gaussian b E En) 1.
Proof.
  intros b En Hb. pose proof PI_RGT_0 as Ppi. pose proof sqrt_pi_big as SP.
  assert (S2 : 0 < sqrt 2) by (apply sqrt_lt_R0; lra). assert (SS : sqrt 2 * sqrt 2 = 2) by (apply sqrt_sqrt; lra).
  set (w := b * sqrt 2). assert (W : 0 < w) by (apply Rmult_lt_0_compat; lra).
  set (P := fun E => / sqrt PI * half ((E + - En) * / w)).
  assert (DP : forall E, D P E (gauss_scale b * gaussian b E En)).
  { intros E. unfold P. eapply D_eq; [apply D_scal; apply (D_comp (fun E => (E + - En) * / w) half); [|apply half_deriv]|].
    - eapply D_eq; [apply D_mul; [apply D_add; [apply D_id|apply D_cst]|apply D_cst]|reflexivity].
    - cbv beta. unfold gauss_scale, gaussian. rewrite (sqrt_mult 2 PI) by lra.
      replace (- ((E + - En) * / w) ^ 2) with (- (1 / 2) * (En - E) ^ 2 / b ^ 2).
      2: { unfold w. replace (((E + - En) * / (b * sqrt 2)) ^ 2) with ((E - En) ^ 2 / (b ^ 2 * (sqrt 2 * sqrt 2))) by (field; lra). rewrite SS. field. lra. }
      generalize (exp (- (1 / 2) * (En - E) ^ 2 / b ^ 2)). intros e. unfold w. field. lra. }
  assert (C : continuity (fun E => gauss_scale b * gaussian b E En)).
  { unfold gaussian. apply (continuity_scal (fun E => exp (- (1 / 2) * (En - E) ^ 2 / b ^ 2))).
    assert (X : continuity (fun E => exp (- (1 / 2) * (En - E) ^ 2 * / b ^ 2))) by reg. exact X. }
  split; [exact C|]. intros eps He. set (X := 1 + 2 / (eps / 2)). assert (X0 : 0 < X) by (unfold X; assert (0 < 2 / (eps / 2)) by (apply Rdiv_lt_0_compat; lra); lra).
  exists (Rabs En + X * w). intros A B pr HA HB.
  assert (XW : 0 < X * w) by (apply Rmult_lt_0_compat; lra). assert (AE : - Rabs En <= En <= Rabs En) by (pose proof (Rle_abs En); pose proof (Rle_abs (- En)) as Q; rewrite Rabs_Ropp in Q; lra).
  rewrite (ftc P _ A B pr) by (try exact C; try exact DP; lra).
  unfold P. set (xB := (B + - En) * / w). set (xA := (A + - En) * / w).
  assert (HxB : X <= xB). { unfold xB. apply (Rmult_le_reg_r w); [exact W|]. rewrite Rmult_assoc, Rinv_l by lra. lra. }
  assert (HxA : X <= - xA). { unfold xA. apply (Rmult_le_reg_r w); [exact W|]. rewrite Ropp_mult_distr_l, Rmult_assoc, Rinv_l by lra. lra. }
  pose proof (half_close (eps / 2) xB ltac:(lra) HxB) as H1. pose proof (half_close (eps / 2) (- xA) ltac:(lra) HxA) as H2.
  rewrite half_odd in H2.
  replace (/ sqrt PI * half xB - / sqrt PI * half xA - 1) with (/ sqrt PI * ((half xB - sqrt PI / 2) + (- half xA - sqrt PI / 2))) by (field; lra).
  rewrite Rabs_mult. assert (I : 0 < / sqrt PI <= 1) by (split; [apply Rinv_0_lt_compat; lra|rewrite <- Rinv_1; apply Rinv_le_contravar; lra]).
  rewrite (Rabs_pos_eq (/ sqrt PI)) by lra. pose proof (Rabs_triang (half xB - sqrt PI / 2) (- half xA - sqrt PI / 2)) as T.
  pose proof (Rabs_pos (half xB - sqrt PI / 2 + (- half xA - sqrt PI / 2))). nra.
Qed.

Lemma integral_sum : forall b (ws : list (R * R)), 0 < b ->
  integral_is (fun E => gauss_scale b * fold_right Rplus 0 (map (fun x => fst x * gaussian b E (snd x)) ws)) (fold_right Rplus 0 (map fst ws)).
Proof.
  intros b ws Hb. induction ws as [|[w En] ws IH]; cbn [map fold_right fst snd].
  - apply (integral_ext (fun _ => 0) _ 0); [intros; ring|reflexivity|apply integral_zero].
  - apply (integral_ext (fun E => gauss_scale b * fold_right Rplus 0 (map (fun x => fst x * gaussian b E (snd x)) ws) + w * (gauss_scale b * gaussian b E En)) _ (fold_right Rplus 0 (map fst ws) + w * 1)).
    + intros E. ring.
    + ring.
    + apply integral_lin; [exact IH|apply integral_gaussian; exact Hb].
Qed.

(** Over all energies the density of states integrates to the number of eigenvalues, and the
    density at an orbital to the sum of the squared amplitudes there; so the sum over orbitals
    is again the number of states, and a complete set of states gives one per orbital. *)
Theorem C72 : forall vals psi b, 0 < b ->
  integral_is (calc_dos vals b) (INR (length vals)) /\
  integral_is (calc_dos_cpp vals b) (INR (length vals)) /\
  forall r, integral_is (fun E => local_density vals psi (gaussian b E) b r)
              (fold_right Rplus 0 (map (fun n => fst (psi r n) ^ 2 + snd (psi r n) ^ 2) (seq 0 (length vals)))).
Proof.
  intros vals psi b Hb.
  assert (A : integral_is (calc_dos vals b) (INR (length vals))).
  { eapply integral_ext; [| |exact (integral_sum b (map (fun v => (1, v)) vals) Hb)].
    - intros E. unfold calc_dos. f_equal. rewrite map_map. cbn [fst snd]. unfold lsum. f_equal. apply map_ext. intros. ring.
    - rewrite map_map. cbn [fst]. clear. induction vals as [|v l IH]; [reflexivity|]. cbn [map fold_right length]. rewrite IH, S_INR. ring. }
  split; [exact A|]. split.
  - apply (integral_ext (calc_dos vals b) _ (INR (length vals))); [|reflexivity|exact A].
    intros E. unfold calc_dos, calc_dos_cpp. f_equal. f_equal. apply map_ext. intros v. symmetry. apply gaussian_same. lra.
  - intros r. eapply integral_ext; [| |exact (integral_sum b (map (fun n => (abs2 (psi r n), nth n vals 0)) (seq 0 (length vals))) Hb)].
    + intros E. unfold local_density. f_equal. rewrite map_map. reflexivity.
    + rewrite map_map. f_equal. apply map_ext. intros n. unfold abs2. cbn [fst]. ring.
Qed.
Print Assumptions C72.

(** The integral is unique. *)
Lemma integral_unique : forall f c d, integral_is f c -> integral_is f d -> c = d.
Proof.
  intros f c d [Cf Hc] [_ Hd]. destruct (Req_dec c d) as [|N]; [assumption|exfalso].
  assert (P : 0 < Rabs (c - d)) by (apply Rabs_pos_lt; lra).
  destruct (Hc (Rabs (c - d) / 2) ltac:(lra)) as (L1 & P1). destruct (Hd (Rabs (c - d) / 2) ltac:(lra)) as (L2 & P2).
  set (L := Rmax 0 (Rmax L1 L2)). pose proof (Rmax_l 0 (Rmax L1 L2)). pose proof (Rmax_r 0 (Rmax L1 L2)). pose proof (Rmax_l L1 L2). pose proof (Rmax_r L1 L2). fold L in H, H0.
  assert (pr : Riemann_integrable f (- L) L) by (apply continuity_implies_RiemannInt; [lra|intros x _; apply Cf]).
  specialize (P1 _ _ pr ltac:(lra) ltac:(lra)). specialize (P2 _ _ pr ltac:(lra) ltac:(lra)).
  assert (T : Rabs (c - d) <= Rabs (RiemannInt pr - d) + Rabs (RiemannInt pr - c)).
  { replace (c - d) with ((RiemannInt pr - d) + - (RiemannInt pr - c)) by ring. eapply Rle_trans; [apply Rabs_triang|]. rewrite Rabs_Ropp. lra. }
  lra.
Qed.
(** A level and a pair of degenerate ones count three. *)
Example C72_example : integral_is (calc_dos [0; 1; 1] (1 / 10)) 3 /\ ~ integral_is (calc_dos [0; 1; 1] (1 / 10)) 2.
Proof.
  destruct (C72 [0; 1; 1] (fun _ _ => k0) (1 / 10) ltac:(lra)) as [A _]. replace (INR (length [0; 1; 1])) with 3 in A by (cbn; ring).
  split; [exact A|]. intros B. pose proof (integral_unique _ _ _ A B). lra.
Qed.
