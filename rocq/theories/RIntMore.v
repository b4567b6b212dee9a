(* More about integrals over open intervals: order, parts, existence after the substitution
   E = b + a cos(t). *)
From Verif Require Import Base RSum RInt.
From Coq Require Import Reals Lra Ranalysis Ratan RiemannInt.
Local Open Scope R_scope.

Lemma integral_nonneg : forall f lo hi v, lo < hi -> (forall x, lo < x < hi -> 0 <= f x) -> integral f lo hi v -> 0 <= v.
Proof.
  intros f lo hi v H P (F & A & B & D & LA & LB & ->). destruct (Rle_lt_dec A B) as [|Hlt]; [lra|exfalso].
  destruct (LA ((A - B) / 2) ltac:(lra)) as (d1 & P1 & H1). destruct (LB ((A - B) / 2) ltac:(lra)) as (d2 & P2 & H2).
  set (m := (hi - lo) / 2). set (d := Rmin m (Rmin d1 d2)).
  assert (Pd : 0 < d) by (unfold d, m; repeat apply Rmin_glb_lt; lra).
  assert (Ld : d <= m /\ d <= d1 /\ d <= d2) by (unfold d; pose proof (Rmin_l m (Rmin d1 d2)); pose proof (Rmin_r m (Rmin d1 d2)); pose proof (Rmin_l d1 d2); pose proof (Rmin_r d1 d2); lra).
  unfold m in Ld. specialize (H1 (lo + d / 2) ltac:(lra) ltac:(lra)). specialize (H2 (hi - d / 2) ltac:(lra) ltac:(lra)).
  destruct (MVT_cor2 F f (lo + d / 2) (hi - d / 2)) as (c & E & Hc); [lra|intros c Hc; apply D; lra|].
  assert (0 <= f c * (hi - d / 2 - (lo + d / 2))) by (apply Rmult_le_pos; [apply P; lra|lra]).
  apply Rabs_def2 in H1, H2. lra.
Qed.
Lemma integral_opp : forall f lo hi v, integral f lo hi v -> integral (fun x => - f x) lo hi (- v).
Proof. intros f lo hi v H. apply (integral_ext (fun x => -1 * f x)); [intros; ring|]. replace (- v) with (-1 * v) by ring. apply integral_scal. exact H. Qed.
Lemma integral_le : forall f g lo hi v w, lo < hi -> (forall x, lo < x < hi -> f x <= g x) -> integral f lo hi v -> integral g lo hi w -> v <= w.
Proof.
  intros f g lo hi v w H P I J. assert (0 <= w + - v); [|lra].
  apply (integral_nonneg (fun x => g x + - f x) lo hi); [exact H|intros x Hx; specialize (P x Hx); lra|].
  apply integral_add; [exact J|apply integral_opp; exact I].
Qed.
Lemma inner_limit : forall F x l, derivable_pt_lim F x l -> forall eps, 0 < eps -> exists d, 0 < d /\ forall y, Rabs (y - x) < d -> Rabs (F y - F x) < eps.
Proof.
  intros F x l D eps He. assert (C : continuity_pt F x) by (apply derivable_continuous_pt; exists l; exact D).
  destruct (C eps He) as (d & Hd & H). exists d. split; [exact Hd|]. intros y Hy. destruct (Req_dec x y) as [->|N].
  - rewrite Rminus_diag_eq by reflexivity. rewrite Rabs_R0. exact He.
  - apply (H y). split; [split; [exact I|exact N]|exact Hy].
Qed.
Lemma integral_parts : forall f lo hi v x, lo < x < hi -> integral f lo hi v -> exists v1 v2, integral f lo x v1 /\ integral f x hi v2 /\ v = v1 + v2.
Proof.
  intros f lo hi v x Hx (F & A & B & D & LA & LB & ->). exists (F x - A), (B - F x). split; [|split; [|lra]].
  - exists F, A, (F x). repeat split; [intros y Hy; apply D; lra| |].
    + intros e He. destruct (LA e He) as (d & Pd & H). exists d. split; [exact Pd|]. intros y Hy Hd. apply H; lra.
    + intros e He. destruct (inner_limit F x _ (D x Hx) e He) as (d & Pd & H). exists d. split; [exact Pd|]. intros y Hy Hd. apply H. apply Rabs_def1; lra.
  - exists F, (F x), B. repeat split; [intros y Hy; apply D; lra| |].
    + intros e He. destruct (inner_limit F x _ (D x Hx) e He) as (d & Pd & H). exists d. split; [exact Pd|]. intros y Hy Hd. apply H. apply Rabs_def1; lra.
    + intros e He. destruct (LB e He) as (d & Pd & H). exists d. split; [exact Pd|]. intros y Hy Hd. apply H; lra.
Qed.
(** Three parts. *)
Lemma integral_window : forall f lo hi v x y, lo < x -> x < y -> y < hi -> integral f lo hi v ->
  exists v1 v2 v3, integral f lo x v1 /\ integral f x y v2 /\ integral f y hi v3 /\ v = v1 + v2 + v3.
Proof.
  intros f lo hi v x y H1 H2 H3 I. destruct (integral_parts f lo hi v x ltac:(lra) I) as (v1 & w & I1 & I2 & ->).
  destruct (integral_parts f x hi w y ltac:(lra) I2) as (v2 & v3 & I3 & I4 & ->). exists v1, v2, v3. repeat split; auto. lra.
Qed.

(** ** Existence: [u] is continuous as a function of the angle *)
Lemma integral_angle : forall (phi f : R -> R) a b, 0 < a -> continuity phi ->
  (forall E, b - a < E < b + a -> f E = phi (acos ((E - b) / a)) / (a * sqrt (1 - (E - b) / a * ((E - b) / a)))) ->
  exists v, integral f (b - a) (b + a) v.
Proof.
  intros phi f a b Ha C Ef. pose proof PI_RGT_0 as HP.
  assert (H0 : 0 <= PI) by lra. assert (C0 : forall x, 0 <= x <= PI -> continuity_pt phi x) by (intros; apply C).
  set (H := primitive H0 (FTC_P1 H0 C0)). assert (DH : forall t, 0 <= t <= PI -> derivable_pt_lim H t (phi t)) by (intros t Ht; apply RiemannInt_P28; exact Ht).
  exists (- H 0 - - H PI). exists (fun E => - H (acos ((E - b) / a))), (- H PI), (- H 0). repeat split.
  - intros E HE. assert (Hx : -1 < (E - b) / a < 1).
    { split; [apply (Rmult_lt_reg_r a)|apply (Rmult_lt_reg_r a)]; auto; unfold Rdiv; rewrite Rmult_assoc, Rinv_l by lra; lra. }
    set (x := (E - b) / a) in *. rewrite Ef by exact HE. fold x.
    assert (Hp : 0 < 1 - x * x) by nra. pose proof (sqrt_lt_R0 _ Hp).
    replace (phi (acos x) / (a * sqrt (1 - x * x))) with (- (phi (acos x) * (- / sqrt (1 - x * x) * / a))) by (field; lra).
    apply (derivable_pt_lim_opp (fun E => H (acos ((E - b) / a)))).
    apply (derivable_pt_lim_comp (fun E => acos ((E - b) / a)) H); [|fold x; apply DH; pose proof (acos_bound x); lra].
    apply (derivable_pt_lim_comp (fun E => (E - b) / a) acos); [|fold x; apply acos_derivative; exact Hx].
    replace (/ a) with ((1 - 0) * / a) by ring. apply (derivable_pt_lim_ext (fun E => (E - b) * / a)); [reflexivity|].
    replace ((1 - 0) * / a) with ((1 - 0) * / a + (E - b) * 0) by ring.
    apply (derivable_pt_lim_mult (fun E => E - b) (fun _ => / a)); [|apply derivable_pt_lim_const].
    apply (derivable_pt_lim_minus (fun E => E) (fun _ => b)); [apply derivable_pt_lim_id|apply derivable_pt_lim_const].
  - intros e He. destruct (inner_limit H PI _ (DH PI ltac:(lra)) e He) as (d & Pd & HH). destruct (acos_limit_m1 d Pd) as (d' & Pd' & HA).
    exists (a * d'). split; [apply Rmult_lt_0_compat; assumption|]. intros E HE Hd.
    assert (Hx : -1 < (E - b) / a < 1 /\ (E - b) / a < -1 + d').
    { repeat split; apply (Rmult_lt_reg_r a); auto; unfold Rdiv; rewrite Rmult_assoc, Rinv_l by lra; lra. }
    replace (- H (acos ((E - b) / a)) - - H PI) with (- (H (acos ((E - b) / a)) - H PI)) by ring. rewrite Rabs_Ropp. apply HH. apply HA; apply Hx.
  - intros e He. destruct (inner_limit H 0 _ (DH 0 ltac:(lra)) e He) as (d & Pd & HH). destruct (acos_limit_1 d Pd) as (d' & Pd' & HA).
    exists (a * d'). split; [apply Rmult_lt_0_compat; assumption|]. intros E HE Hd.
    assert (Hx : -1 < (E - b) / a < 1 /\ 1 - d' < (E - b) / a).
    { repeat split; apply (Rmult_lt_reg_r a); auto; unfold Rdiv; rewrite Rmult_assoc, Rinv_l by lra; lra. }
    replace (- H (acos ((E - b) / a)) - - H 0) with (- (H (acos ((E - b) / a)) - H 0)) by ring. rewrite Rabs_Ropp. apply HH. apply HA; apply Hx.
Qed.
Lemma rsum_continuous : forall (f : nat -> R -> R) n, (forall k, (k < n)%nat -> continuity (f k)) -> continuity (fun t => rsum (fun k => f k t) n).
Proof.
  intros f n. induction n as [|n IH]; intros H; cbn [rsum]; [apply continuity_const; intros x y; reflexivity|].
  apply (continuity_plus (fun t => rsum (fun k => f k t) n) (f n)); [apply IH; intros; apply H; lia|apply H; lia].
Qed.
