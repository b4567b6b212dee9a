(* The Gaussian integral with the Riemann integral of the standard library. *)
From Coq Require Import Reals Lra Lia.
Local Open Scope R_scope.

Definition D := derivable_pt_lim.
Lemma D_eq : forall f x l l', D f x l -> l = l' -> D f x l'. Proof. intros; subst; assumption. Qed.
Lemma D_ext : forall f g x l, (forall y, f y = g y) -> D f x l -> D g x l.
Proof. intros f g x l E H eps He. destruct (H eps He) as [d Hd]. exists d. intros h Hh Hl. rewrite <- !E. apply Hd; assumption. Qed.
Lemma D_id : forall x, D (fun y => y) x 1. Proof. intros x. exact (derivable_pt_lim_id x). Qed.
Lemma D_cst : forall c x, D (fun _ => c) x 0. Proof. intros c x. exact (derivable_pt_lim_const c x). Qed.
Lemma D_add : forall f g x a b, D f x a -> D g x b -> D (fun y => f y + g y) x (a + b).
Proof. intros f g x a b Hf Hg. exact (derivable_pt_lim_plus f g x a b Hf Hg). Qed.
Lemma D_mul : forall f g x a b, D f x a -> D g x b -> D (fun y => f y * g y) x (a * g x + f x * b).
Proof. intros f g x a b Hf Hg. exact (derivable_pt_lim_mult f g x a b Hf Hg). Qed.
Lemma D_scal : forall c f x a, D f x a -> D (fun y => c * f y) x (c * a).
Proof. intros c f x a Hf. exact (derivable_pt_lim_scal f c x a Hf). Qed.
Lemma D_comp : forall f g x a b, D f x a -> D g (f x) b -> D (fun y => g (f y)) x (b * a).
Proof. intros f g x a b Hf Hg. exact (derivable_pt_lim_comp f g x a b Hf Hg). Qed.
Lemma D_exp : forall f x a, D f x a -> D (fun y => exp (f y)) x (exp (f x) * a).
Proof. intros f x a Hf. apply (D_comp f exp x a (exp (f x)) Hf). apply derivable_pt_lim_exp. Qed.

Lemma lip : forall (g g' : R -> R) M x y, (forall z, Rmin x y <= z <= Rmax x y -> D g z (g' z) /\ Rabs (g' z) <= M) -> Rabs (g y - g x) <= M * Rabs (y - x).
Proof.
  assert (P : forall (g g' : R -> R) M x y, x < y -> (forall z, x <= z <= y -> D g z (g' z) /\ Rabs (g' z) <= M) -> Rabs (g y - g x) <= M * Rabs (y - x)).
  { intros g g' M x y L H. destruct (MVT_cor2 g g' x y L) as (c & Ec & Hc); [intros c Hc; apply H; exact Hc|].
    rewrite Ec, Rabs_mult. apply Rmult_le_compat_r; [apply Rabs_pos|]. apply H. lra. }
  intros g g' M x y H. destruct (Rtotal_order x y) as [L|[->|L]].
  - apply (P g g' M x y L). intros z Hz. apply H. rewrite Rmin_left, Rmax_right by lra. exact Hz.
  - rewrite !Rminus_diag_eq by reflexivity. rewrite Rabs_R0. lra.
  - rewrite Rabs_minus_sym, (Rabs_minus_sym y x). apply (P g g' M y x L). intros z Hz. apply H. rewrite Rmin_right, Rmax_left by lra. exact Hz.
Qed.

(** Integral over [0, 1] of a continuous function. *)
Definition J (f : R -> R) (c : continuity f) : R := RiemannInt (continuity_implies_RiemannInt Rle_0_1 (fun x _ => c x)).
Lemma J_ext : forall f g cf cg, (forall t, 0 < t < 1 -> f t = g t) -> J f cf = J g cg.
Proof. intros. apply RiemannInt_P18; [lra|assumption]. Qed.
Lemma J_lin : forall f g l cf cg ch, J (fun t => f t + l * g t) ch = J f cf + l * J g cg.
Proof. intros. apply RiemannInt_P13. Qed.
Lemma J_scal : forall f l cf ch, J (fun t => l * f t) ch = l * J f cf.
Proof.
  intros f l cf ch. assert (cz : continuity (fct_cte 0)) by (apply continuity_const; intros x y; reflexivity).
  assert (ci : continuity (fun t => fct_cte 0 t + l * f t)) by (apply continuity_plus; [exact cz|]; apply (continuity_scal f l cf)).
  rewrite (J_ext _ (fun t => fct_cte 0 t + l * f t) ch ci) by (intros; unfold fct_cte; ring). rewrite (J_lin (fct_cte 0) f l cz cf ci).
  unfold J at 1. rewrite RiemannInt_P15. ring.
Qed.
Lemma J_bound : forall f cf M, (forall t, 0 < t < 1 -> Rabs (f t) <= M) -> Rabs (J f cf) <= M.
Proof.
  intros f cf M H. unfold J. generalize (continuity_implies_RiemannInt Rle_0_1 (fun x (_ : 0 <= x <= 1) => cf x)) as pr. intros pr.
  eapply Rle_trans; [apply (RiemannInt_P17 pr (RiemannInt_P16 pr)); lra|].
  eapply Rle_trans; [apply (RiemannInt_P19 (RiemannInt_P16 pr) (RiemannInt_P14 0 1 M)); [lra|]; exact H|]. rewrite RiemannInt_P15. lra.
Qed.
Lemma J_nonneg : forall f cf, (forall t, 0 < t < 1 -> 0 <= f t) -> 0 <= J f cf.
Proof.
  intros f cf H. unfold J. replace 0 with (RiemannInt (RiemannInt_P14 0 1 0)) at 1 by (rewrite RiemannInt_P15; ring).
  apply RiemannInt_P19; [lra|]. exact H.
Qed.

(** Fundamental theorem. *)
Lemma ftc : forall (P f : R -> R) a b (pr : Riemann_integrable f a b), a <= b -> continuity f -> (forall t, D P t (f t)) -> RiemannInt pr = P b - P a.
Proof.
  intros P f a b pr L cf H.
  pose (dP := fun t => exist (fun l => derivable_pt_abs P t l) (f t) (H t) : derivable_pt P t).
  assert (cd : continuity (derive P dP)) by (intros t; unfold derive; exact (cf t)).
  pose (c1 := mkC1 cd).
  assert (pr' : Riemann_integrable (derive c1 (diff0 c1)) a b) by (apply continuity_implies_RiemannInt; [exact L|intros x _; exact (cd x)]).
  rewrite (RiemannInt_P18 pr pr' L) by reflexivity. exact (FTC_Riemann c1 pr').
Qed.
Lemma J_ftc : forall P f cf, (forall t, D P t (f t)) -> J f cf = P 1 - P 0.
Proof. intros P f cf H. apply ftc; [lra|exact cf|exact H]. Qed.

(** Differentiation under the integral sign. *)
Lemma J_param : forall (f f1 : R -> R -> R) (cf : forall x, continuity (f x)) x (cf1 : continuity (f1 x)) M,
  (forall y t, D (fun z => f z t) y (f1 y t)) ->
  (forall y t, 0 < t < 1 -> Rabs (y - x) <= 1 -> Rabs (f1 y t - f1 x t) <= M * Rabs (y - x)) ->
  D (fun y => J (f y) (cf y)) x (J (f1 x) cf1).
Proof.
  intros f f1 cf x cf1 M Hd Hl.
  assert (M0 : 0 <= M).
  { specialize (Hl (x + 1) (1 / 2) ltac:(lra)). replace (x + 1 - x) with 1 in Hl by ring. rewrite Rabs_R1 in Hl. specialize (Hl ltac:(lra)).
    pose proof (Rabs_pos (f1 (x + 1) (1 / 2) - f1 x (1 / 2))). lra. }
  assert (K : forall h, Rabs h <= 1 -> Rabs (J (f (x + h)) (cf (x + h)) - J (f x) (cf x) - h * J (f1 x) cf1) <= M * (Rabs h * Rabs h)).
  { intros h Hh.
    assert (c1 : continuity (fun t => f (x + h) t + -1 * f x t)) by (apply continuity_plus; [apply cf|]; apply (continuity_scal (f x) (-1)); apply cf).
    assert (c2 : continuity (fun t => f (x + h) t + -1 * f x t + - h * f1 x t)) by (apply continuity_plus; [exact c1|]; apply (continuity_scal (f1 x) (- h)); exact cf1).
    replace (J (f (x + h)) (cf (x + h)) - J (f x) (cf x) - h * J (f1 x) cf1) with (J _ c2).
    2: { rewrite (J_lin (fun t => f (x + h) t + -1 * f x t) (f1 x) (- h) c1 cf1 c2), (J_lin (f (x + h)) (f x) (-1) (cf (x + h)) (cf x) c1). ring. }
    apply J_bound. intros t Ht.
    set (k := fun y => f y t + - (y - x) * f1 x t).
    replace (f (x + h) t + -1 * f x t + - h * f1 x t) with (k (x + h) - k x) by (unfold k; ring).
    replace (M * (Rabs h * Rabs h)) with (M * Rabs h * Rabs (x + h - x)) by (replace (x + h - x) with h by ring; ring).
    apply (lip k (fun y => f1 y t - f1 x t)). intros z Hz.
    assert (Z : Rabs (z - x) <= Rabs h).
    { unfold Rmin, Rmax in Hz. unfold Rabs. destruct (Rle_dec x (x + h)), (Rcase_abs (z - x)), (Rcase_abs h); lra. }
    split.
    - unfold k. eapply D_eq; [apply D_add; [apply Hd|]; apply (D_mul (fun y => - (y - x)) (fun _ => f1 x t) z (-1) 0); [|apply D_cst]|ring].
      apply (D_ext (fun y => -1 * y + x)); [intros; ring|]. eapply D_eq; [apply D_add; [apply D_scal, D_id|apply D_cst]|ring].
    - eapply Rle_trans; [apply Hl; [exact Ht|lra]|]. apply Rmult_le_compat_l; assumption. }
  intros eps He.
  assert (Dp : 0 < Rmin 1 (eps / (M + 1))). { apply Rmin_glb_lt; [lra|]. apply Rdiv_lt_0_compat; lra. }
  exists (mkposreal _ Dp). intros h Hh Hlt. cbn [pos] in Hlt.
  assert (H1 : Rabs h <= 1) by (eapply Rle_trans; [apply Rlt_le, Hlt|apply Rmin_l]).
  assert (H2 : Rabs h < eps / (M + 1)) by (eapply Rlt_le_trans; [exact Hlt|apply Rmin_r]).
  specialize (K h H1).
  replace ((J (f (x + h)) (cf (x + h)) - J (f x) (cf x)) / h - J (f1 x) cf1) with ((J (f (x + h)) (cf (x + h)) - J (f x) (cf x) - h * J (f1 x) cf1) * / h) by (field; exact Hh).
  rewrite Rabs_mult, Rabs_inv. assert (Ph : 0 < Rabs h) by (apply Rabs_pos_lt; exact Hh).
  apply (Rmult_lt_reg_r (Rabs h)); [exact Ph|]. rewrite Rmult_assoc, Rinv_l, Rmult_1_r by lra.
  eapply Rle_lt_trans; [exact K|]. assert (M * Rabs h < eps).
  { apply (Rmult_lt_compat_r (M + 1)) in H2; [|lra]. unfold Rdiv in H2. rewrite Rmult_assoc, Rinv_l, Rmult_1_r in H2 by lra. nra. }
  nra.
Qed.

(** [half x] is the integral of exp(-u^2) from 0 to x, written as x times the integral of
    exp(-(x s)^2) over s in [0, 1]. *)
Definition h_f (x s : R) : R := x * exp (- (x * s) ^ 2).
Definition h_f1 (x s : R) : R := (1 - 2 * (x * s) ^ 2) * exp (- (x * s) ^ 2).
Definition h_f2 (x s : R) : R := (- 6 * x * s ^ 2 + 4 * x ^ 3 * s ^ 4) * exp (- (x * s) ^ 2).
Lemma h_f_cont : forall x, continuity (h_f x). Proof. intros x. unfold h_f. reg. Qed.
Lemma h_f1_cont : forall x, continuity (h_f1 x). Proof. intros x. unfold h_f1. reg. Qed.
Lemma D_sq_x : forall x s, D (fun y => - (y * s) ^ 2) x (- 2 * x * s ^ 2).
Proof.
  intros x s. apply (D_ext (fun y => - s ^ 2 * (y * y))); [intros; ring|].
  eapply D_eq; [apply D_scal, D_mul; apply D_id|cbv beta; ring].
Qed.
Lemma h_d1 : forall x s, D (fun y => h_f y s) x (h_f1 x s).
Proof. intros x s. unfold h_f. eapply D_eq; [apply D_mul; [apply D_id|apply D_exp, D_sq_x]|unfold h_f1; cbv beta; ring]. Qed.
Lemma h_d2 : forall x s, D (fun y => h_f1 y s) x (h_f2 x s).
Proof.
  intros x s. unfold h_f1. eapply D_eq; [apply D_mul; [|apply D_exp, D_sq_x]|].
  - apply (D_ext (fun y => 1 + 2 * - (y * s) ^ 2)); [intros; ring|]. apply D_add; [apply D_cst|apply D_scal, D_sq_x].
  - unfold h_f2. cbv beta. ring.
Qed.
Lemma exp_neg_le1 : forall a, a <= 0 -> 0 < exp a <= 1.
Proof. intros a H. split; [apply exp_pos|]. rewrite <- exp_0. destruct H as [H| ->]; [apply Rlt_le, exp_increasing; exact H|lra]. Qed.
Lemma neg_sq : forall a, - a ^ 2 <= 0. Proof. intros. nra. Qed.

Lemma near : forall x y z, Rabs (y - x) <= 1 -> Rmin x y <= z <= Rmax x y -> Rabs z <= Rabs x + 1.
Proof.
  intros x y z H Hz. unfold Rmin, Rmax in Hz. destruct (Rle_dec x y); unfold Rabs in *;
    destruct (Rcase_abs (y - x)), (Rcase_abs z), (Rcase_abs x); lra.
Qed.

Definition half (x : R) : R := J (h_f x) (h_f_cont x).
Lemma half_deriv : forall x, D half x (exp (- x ^ 2)).
Proof.
  intros x. set (K := Rabs x + 1).
  replace (exp (- x ^ 2)) with (J (h_f1 x) (h_f1_cont x)).
  - apply (J_param h_f h_f1 h_f_cont x (h_f1_cont x) (6 * K + 4 * K ^ 3)); [apply h_d1|].
    intros y t Ht Hy. apply (lip (fun y => h_f1 y t) (fun y => h_f2 y t)). intros z Hz. split; [apply h_d2|].
    assert (Z : Rabs z <= K) by (apply (near x y); assumption). unfold h_f2. rewrite Rabs_mult.
    destruct (exp_neg_le1 (- (z * t) ^ 2) (neg_sq _)) as [E0 E1]. rewrite (Rabs_pos_eq (exp _)) by lra.
    assert (B : Rabs (- 6 * z * t ^ 2 + 4 * z ^ 3 * t ^ 4) <= 6 * K + 4 * K ^ 3).
    { eapply Rle_trans; [apply Rabs_triang|].
      replace (- 6 * z * t ^ 2) with (z * (- 6 * t ^ 2)) by ring. replace (4 * z ^ 3 * t ^ 4) with (z ^ 3 * (4 * t ^ 4)) by ring.
      rewrite !Rabs_mult, <- (RPow_abs z 3). assert (P0 := Rabs_pos z).
      assert (T2 : 0 <= t ^ 2 <= 1) by nra. assert (T4 : 0 <= t ^ 4 <= 1) by (replace (t ^ 4) with (t ^ 2 * t ^ 2) by ring; nra).
      rewrite (Rabs_left1 (-6)), (Rabs_pos_eq 4), (Rabs_pos_eq (t ^ 2)), (Rabs_pos_eq (t ^ 4)) by lra.
      assert (Z3 : Rabs z ^ 3 <= K ^ 3) by (apply pow_incr; lra). assert (0 <= Rabs z ^ 3) by (apply pow_le; exact P0). nra. }
    pose proof (Rabs_pos (- 6 * z * t ^ 2 + 4 * z ^ 3 * t ^ 4)). nra.
  - rewrite (J_ftc (fun s => s * exp (- (x * s) ^ 2)) (h_f1 x) (h_f1_cont x)).
    + replace ((x * 1) ^ 2) with (x ^ 2) by ring. ring.
    + intros t. eapply D_eq; [apply D_mul; [apply D_id|apply D_exp]|].
      * apply (D_ext (fun s => - (s * x) ^ 2)); [intros; ring|]. apply D_sq_x.
      * unfold h_f1. cbv beta. ring.
Qed.

(** The companion of Feynman's trick. *)
Definition g_f (x t : R) : R := exp (- (x ^ 2 * (1 + t ^ 2))) * / (1 + t ^ 2).
Definition g_f1 (x t : R) : R := - 2 * x * exp (- (x ^ 2 * (1 + t ^ 2))).
Definition g_f2 (x t : R) : R := (- 2 + 4 * x ^ 2 * (1 + t ^ 2)) * exp (- (x ^ 2 * (1 + t ^ 2))).
Lemma one_sq : forall t, 0 < 1 + t ^ 2. Proof. intros. nra. Qed.
Lemma g_f_cont : forall x, continuity (g_f x).
Proof. intros x. unfold g_f. reg. intros t. pose proof (one_sq t). unfold fct_cte, plus_fct, mult_fct, id, pow_fct in *. cbn in *. lra. Qed.
Lemma g_f1_cont : forall x, continuity (g_f1 x). Proof. intros x. unfold g_f1. reg. Qed.
Lemma D_arg : forall x t, D (fun y => - (y ^ 2 * (1 + t ^ 2))) x (- 2 * x * (1 + t ^ 2)).
Proof.
  intros x t. apply (D_ext (fun y => - (1 + t ^ 2) * (y * y))); [intros; ring|].
  eapply D_eq; [apply D_scal, D_mul; apply D_id|cbv beta; ring].
Qed.
Lemma g_d1 : forall x t, D (fun y => g_f y t) x (g_f1 x t).
Proof.
  intros x t. unfold g_f. apply (D_ext (fun y => / (1 + t ^ 2) * exp (- (y ^ 2 * (1 + t ^ 2))))); [intros; ring|].
  eapply D_eq; [apply D_scal, D_exp, D_arg|]. unfold g_f1. cbv beta. field. pose proof (one_sq t). lra.
Qed.
Lemma g_d2 : forall x t, D (fun y => g_f1 y t) x (g_f2 x t).
Proof. intros x t. unfold g_f1. eapply D_eq; [apply D_mul; [apply D_scal, D_id|apply D_exp, D_arg]|unfold g_f2; cbv beta; ring]. Qed.

Definition comp (x : R) : R := J (g_f x) (g_f_cont x).
Lemma comp_deriv : forall x, D comp x (- 2 * exp (- x ^ 2) * half x).
Proof.
  intros x. set (K := Rabs x + 1).
  replace (- 2 * exp (- x ^ 2) * half x) with (J (g_f1 x) (g_f1_cont x)).
  - apply (J_param g_f g_f1 g_f_cont x (g_f1_cont x) (2 + 8 * K ^ 2)); [apply g_d1|].
    intros y t Ht Hy. apply (lip (fun y => g_f1 y t) (fun y => g_f2 y t)). intros z Hz. split; [apply g_d2|].
    assert (Z : Rabs z <= K) by (apply (near x y); assumption). unfold g_f2. rewrite Rabs_mult.
    assert (T2 : 1 <= 1 + t ^ 2 <= 2) by nra. assert (Z2 : z ^ 2 <= K ^ 2) by (rewrite <- (pow2_abs z); apply pow_incr; pose proof (Rabs_pos z); lra).
    assert (Z0 : 0 <= z ^ 2) by nra.
    destruct (exp_neg_le1 (- (z ^ 2 * (1 + t ^ 2)))) as [E0 E1]; [nra|]. rewrite (Rabs_pos_eq (exp _)) by lra.
    assert (B : Rabs (- 2 + 4 * z ^ 2 * (1 + t ^ 2)) <= 2 + 8 * K ^ 2) by (apply Rabs_le; split; nra).
    pose proof (Rabs_pos (- 2 + 4 * z ^ 2 * (1 + t ^ 2))). nra.
  - unfold half. assert (ch : continuity (fun t => - 2 * exp (- x ^ 2) * h_f x t)) by (apply (continuity_scal (h_f x)); apply h_f_cont).
    rewrite <- (J_scal (h_f x) (- 2 * exp (- x ^ 2)) (h_f_cont x) ch). apply J_ext. intros t _. unfold g_f1, h_f.
    replace (- (x ^ 2 * (1 + t ^ 2))) with (- x ^ 2 + - (x * t) ^ 2) by ring. rewrite exp_plus. ring.
Qed.

Lemma half_sq : forall x, half x * half x + comp x = PI / 4.
Proof.
  assert (Dz : forall x, D (fun y => half y * half y + comp y) x 0).
  { intros x. eapply D_eq; [apply D_add; [apply D_mul; apply half_deriv|apply comp_deriv]|cbv beta; ring]. }
  pose (dd := fun x => exist (fun l => derivable_pt_abs (fun y => half y * half y + comp y) x l) 0 (Dz x) : derivable_pt (fun y => half y * half y + comp y) x).
  pose proof (null_derivative_1 _ dd (fun x => eq_refl)) as C.
  intros x. rewrite (C x 0).
  assert (H0 : half 0 = 0).
  { unfold half. pose proof (J_bound (h_f 0) (h_f_cont 0) 0) as B. unfold h_f in B.
    assert (Rabs (J (h_f 0) (h_f_cont 0)) <= 0) by (apply B; intros t _; rewrite Rmult_0_l, Rabs_R0; lra).
    pose proof (Rabs_pos (J (h_f 0) (h_f_cont 0))). destruct (Req_dec (J (h_f 0) (h_f_cont 0)) 0) as [E|E]; [exact E|]. apply Rabs_pos_lt in E. lra. }
  assert (C0 : comp 0 = PI / 4).
  { unfold comp. rewrite (J_ftc atan).
    - rewrite atan_0, atan_1. ring.
    - intros t. eapply D_eq; [apply derivable_pt_lim_atan|]. unfold g_f. replace (- (0 ^ 2 * (1 + t ^ 2))) with 0 by ring. rewrite exp_0. ring. }
  rewrite H0, C0. ring.
Qed.

Lemma half_pos : forall x, 0 <= x -> 0 <= half x.
Proof. intros x H. apply J_nonneg. intros t _. unfold h_f. apply Rmult_le_pos; [exact H|apply Rlt_le, exp_pos]. Qed.
Lemma half_odd : forall x, half (- x) = - half x.
Proof.
  intros x. unfold half. assert (ch : continuity (fun t => -1 * h_f x t)) by (apply (continuity_scal (h_f x)); apply h_f_cont).
  replace (- J (h_f x) (h_f_cont x)) with (J _ ch) by (rewrite (J_scal (h_f x) (-1) (h_f_cont x) ch); ring).
  apply J_ext. intros t _. unfold h_f. replace ((- x * t) ^ 2) with ((x * t) ^ 2) by ring. ring.
Qed.
Lemma comp_small : forall x, 0 <= comp x <= exp (- x ^ 2).
Proof.
  intros x. split.
  - apply J_nonneg. intros t _. unfold g_f. apply Rlt_le, Rmult_lt_0_compat; [apply exp_pos|apply Rinv_0_lt_compat, one_sq].
  - eapply Rle_trans; [apply Rle_abs|]. apply J_bound. intros t Ht. unfold g_f. rewrite Rabs_mult.
    replace (- (x ^ 2 * (1 + t ^ 2))) with (- x ^ 2 + - (x * t) ^ 2) by ring. rewrite exp_plus.
    destruct (exp_neg_le1 (- (x * t) ^ 2) (neg_sq _)) as [E0 E1]. pose proof (exp_pos (- x ^ 2)).
    rewrite !Rabs_pos_eq; [|apply Rlt_le, Rinv_0_lt_compat, one_sq|nra].
    assert (I : / (1 + t ^ 2) <= 1) by (rewrite <- Rinv_1; apply Rinv_le_contravar; nra). assert (0 < / (1 + t ^ 2)) by (apply Rinv_0_lt_compat, one_sq).
    assert (exp (- x ^ 2) * exp (- (x * t) ^ 2) <= exp (- x ^ 2)) by nra. nra.
Qed.

(** The Gaussian integral. *)
Lemma half_limit : forall x, 0 <= x -> Rabs (half x - sqrt PI / 2) <= 2 / sqrt PI * exp (- x ^ 2).
Proof.
  intros x Hx. pose proof (half_sq x) as S. destruct (comp_small x) as [C0 C1]. pose proof (half_pos x Hx) as P.
  assert (SP : 0 < sqrt PI) by (apply sqrt_lt_R0, PI_RGT_0). assert (SS : sqrt PI * sqrt PI = PI) by (apply sqrt_sqrt; pose proof PI_RGT_0; lra).
  assert (E : (half x - sqrt PI / 2) * (half x + sqrt PI / 2) = - comp x) by (replace ((half x - sqrt PI / 2) * (half x + sqrt PI / 2)) with (half x * half x - sqrt PI * sqrt PI / 4) by field; rewrite SS; lra).
  assert (N : half x - sqrt PI / 2 <= 0) by (apply Rnot_lt_le; intros C; nra).
  rewrite Rabs_left1 by exact N.
  apply (Rmult_le_reg_r (sqrt PI / 2)); [lra|]. replace (2 / sqrt PI * exp (- x ^ 2) * (sqrt PI / 2)) with (exp (- x ^ 2)) by (field; lra). nra.
Qed.
