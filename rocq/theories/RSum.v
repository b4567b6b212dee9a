(* Finite sums of real numbers and the trigonometric sums behind the Jackson kernel. *)
From Coq Require Import Reals Lra Lia Arith.
Local Open Scope R_scope.

Fixpoint rsum (f : nat -> R) (n : nat) : R := match n with O => 0 | S m => rsum f m + f m end.

Lemma rsum_ext : forall f g n, (forall i, (i < n)%nat -> f i = g i) -> rsum f n = rsum g n.
Proof. intros f g n. induction n as [|n IH]; intros H; cbn; [reflexivity|]. rewrite IH by (intros; apply H; lia). rewrite (H n) by lia. reflexivity. Qed.
Lemma rsum_0 : forall f n, (forall i, (i < n)%nat -> f i = 0) -> rsum f n = 0.
Proof. intros f n. induction n as [|n IH]; intros H; cbn; [reflexivity|]. rewrite IH by (intros; apply H; lia). rewrite (H n) by lia. lra. Qed.
Lemma rsum_add : forall f g n, rsum (fun i => f i + g i) n = rsum f n + rsum g n.
Proof. intros f g n. induction n as [|n IH]; cbn; [lra|]. rewrite IH. lra. Qed.
Lemma rsum_scal : forall c f n, rsum (fun i => c * f i) n = c * rsum f n.
Proof. intros c f n. induction n as [|n IH]; cbn; [lra|]. rewrite IH. lra. Qed.
Lemma rsum_scal_r : forall c f n, rsum (fun i => f i * c) n = rsum f n * c.
Proof. intros c f n. induction n as [|n IH]; cbn; [lra|]. rewrite IH. lra. Qed.
Lemma rsum_const : forall c n, rsum (fun _ => c) n = INR n * c.
Proof. intros c n. induction n as [|n IH]; [cbn; lra|]. cbn [rsum]. rewrite IH, S_INR. lra. Qed.
Lemma rsum_nonneg : forall f n, (forall i, (i < n)%nat -> 0 <= f i) -> 0 <= rsum f n.
Proof. intros f n. induction n as [|n IH]; intros H; cbn; [lra|]. specialize (H n) as Hn. assert (0 <= rsum f n) by (apply IH; intros; apply H; lia). assert (0 <= f n) by (apply Hn; lia). lra. Qed.
Lemma rsum_S_l : forall f n, rsum f (S n) = f O + rsum (fun i => f (S i)) n.
Proof. intros f n. induction n as [|n IH]; [cbn; lra|]. cbn [rsum] in *. rewrite IH. lra. Qed.
Lemma rsum_swap : forall (f : nat -> nat -> R) n m, rsum (fun i => rsum (f i) m) n = rsum (fun j => rsum (fun i => f i j) n) m.
Proof.
  intros f n m. induction n as [|n IH]; cbn; [symmetry; apply rsum_0; auto|]. rewrite IH, <- rsum_add. reflexivity.
Qed.
Lemma rsum_rev : forall n f, rsum f n = rsum (fun i => f (n - 1 - i)%nat) n.
Proof.
  induction n as [|n IH]; intros f; [reflexivity|].
  rewrite (rsum_S_l (fun i => f (S n - 1 - i)%nat)). cbn [rsum]. replace (S n - 1 - 0)%nat with n by lia.
  rewrite Rplus_comm. f_equal. rewrite IH. apply rsum_ext. intros i Hi. f_equal. lia.
Qed.

(** ** Squares of trigonometric sums *)
Section Square.
  Variable a : nat -> R.
  (** [c_n = sum_v a_v a_(v+n)] *)
  Definition corr (N n : nat) : R := rsum (fun v => a v * a (v + n)%nat) (N - n).
  Definition fejer (N : nat) (f : R) : R := corr N 0 + 2 * rsum (fun n => corr N (S n) * cos (INR (S n) * f)) (N - 1).

  Lemma corr_S : forall N n, (n <= N)%nat -> corr (S N) n = corr N n + a (N - n)%nat * a N.
  Proof.
    intros N n H. unfold corr. replace (S N - n)%nat with (S (N - n)) by lia. cbn [rsum]. do 3 f_equal. lia.
  Qed.
  Lemma corr_out : forall N n, (N <= n)%nat -> corr N n = 0.
  Proof. intros N n H. unfold corr. replace (N - n)%nat with O by lia. reflexivity. Qed.

  Lemma square_sum : forall N f,
    (rsum (fun v => a v * cos (INR v * f)) N) ^ 2 + (rsum (fun v => a v * sin (INR v * f)) N) ^ 2 = fejer N f.
  Proof.
    intros N f. induction N as [|N IH]; [cbn; unfold fejer, corr; cbn; lra|]. cbn [rsum].
    set (C := rsum (fun v => a v * cos (INR v * f)) N) in *. set (S' := rsum (fun v => a v * sin (INR v * f)) N) in *.
    transitivity (C ^ 2 + S' ^ 2 + a N ^ 2 * (Rsqr (cos (INR N * f)) + Rsqr (sin (INR N * f)))
      + 2 * (a N * (C * cos (INR N * f) + S' * sin (INR N * f)))); [unfold Rsqr; ring|].
    rewrite IH, Rplus_comm with (r1 := Rsqr (cos _)), sin2_cos2.
    assert (E : C * cos (INR N * f) + S' * sin (INR N * f) = rsum (fun v => a v * cos (INR (N - v) * f)) N).
    { unfold C, S'. rewrite <- !rsum_scal_r, <- rsum_add. apply rsum_ext. intros i Hi. rewrite minus_INR by lia.
      replace ((INR N - INR i) * f) with (INR N * f - INR i * f) by ring. rewrite cos_minus. ring. }
    rewrite E. unfold fejer. rewrite (corr_S N 0) by lia. replace (N - 0)%nat with N by lia. replace (S N - 1)%nat with N by lia.
    assert (E2 : rsum (fun n => corr (S N) (S n) * cos (INR (S n) * f)) N
               = rsum (fun n => corr N (S n) * cos (INR (S n) * f)) (N - 1) + a N * rsum (fun v => a v * cos (INR (N - v) * f)) N).
    { transitivity (rsum (fun n => corr N (S n) * cos (INR (S n) * f)) N + rsum (fun n => a N * (a (N - S n)%nat * cos (INR (S n) * f))) N).
      - rewrite <- rsum_add. apply rsum_ext. intros n Hn. rewrite corr_S by lia. ring.
      - f_equal.
        + destruct N as [|M]; [reflexivity|]. replace (S M - 1)%nat with M by lia. cbn [rsum]. rewrite (corr_out (S M) (S M)) by lia. ring.
        + rewrite rsum_scal. f_equal. rewrite (rsum_rev N (fun v => a v * cos (INR (N - v) * f))). apply rsum_ext. intros n Hn.
          replace (N - 1 - n)%nat with (N - S n)%nat by lia. replace (N - (N - S n))%nat with (S n) by lia. reflexivity. }
    rewrite E2. ring.
  Qed.
  Lemma fejer_nonneg : forall N f, 0 <= fejer N f.
  Proof. intros N f. rewrite <- square_sum. nra. Qed.
End Square.

(** ** The Jackson coefficients are such correlations *)
Section Jackson.
  Variable N : nat.
  Hypothesis HN : (2 <= N)%nat.
  Let M := INR N + 1.
  Let t := PI / M.
  Definition jsin (v : nat) : R := sin (PI / (INR N + 1) * INR (S v)).

  Lemma M_pos : 3 <= M.
  Proof. unfold M. apply le_INR in HN. cbn in HN. lra. Qed.
  Lemma t_range : 0 < t /\ t < PI / 2.
  Proof.
    pose proof M_pos. pose proof PI_RGT_0. unfold t. split; [apply Rdiv_lt_0_compat; lra|].
    apply Rmult_lt_compat_l; [lra|]. apply Rinv_lt_contravar; nra.
  Qed.
  Lemma sin_t : 0 < sin t.
  Proof. pose proof t_range. apply sin_gt_0; lra. Qed.
  Lemma cos_t : 0 < cos t.
  Proof. pose proof t_range. apply cos_gt_0; lra. Qed.

  Lemma cos_sum : forall n m, 2 * sin t * rsum (fun v => cos ((2 * INR (S v) + INR n) * t)) m = sin ((2 * INR m + INR n + 1) * t) - sin ((INR n + 1) * t).
  Proof.
    intros n m. induction m as [|m IH]; [cbn [rsum]; rewrite Rmult_0_r; replace ((2 * INR 0 + INR n + 1) * t) with ((INR n + 1) * t) by (cbn; ring); ring|].
    cbn [rsum]. rewrite Rmult_plus_distr_l, IH.
    set (x := (2 * INR (S m) + INR n) * t). replace ((2 * INR m + INR n + 1) * t) with (x - t) by (unfold x; rewrite S_INR; ring).
    replace ((2 * INR (S m) + INR n + 1) * t) with (x + t) by (unfold x; ring). rewrite sin_plus, sin_minus. ring.
  Qed.

  Lemma jackson_corr : forall n, (n <= N)%nat ->
    corr jsin N n = / 2 * ((INR N + 1 - INR n) * cos (INR n * t) + sin (INR n * t) / tan t).
  Proof.
    intros n Hn. unfold corr, jsin. fold M. fold t.
    transitivity (/ 2 * (INR (N - n) * cos (INR n * t) - rsum (fun v => cos ((2 * INR (S v) + INR n) * t)) (N - n))).
    - rewrite <- rsum_const.
      replace (rsum (fun _ => cos (INR n * t)) (N - n) - rsum (fun v => cos ((2 * INR (S v) + INR n) * t)) (N - n))
        with (rsum (fun v => cos (INR n * t) + -1 * cos ((2 * INR (S v) + INR n) * t)) (N - n)) by (rewrite rsum_add, rsum_scal; ring).
      rewrite <- rsum_scal. apply rsum_ext. intros v Hv.
      replace (INR n * t) with (t * INR (S (v + n)) - t * INR (S v)) by (rewrite !S_INR, plus_INR; ring).
      replace ((2 * INR (S v) + INR n) * t) with (t * INR (S (v + n)) + t * INR (S v)) by (rewrite !S_INR, plus_INR; ring).
      rewrite cos_minus, cos_plus. field.
    - f_equal. pose proof sin_t as Hs. pose proof cos_t as Hc.
      assert (E : rsum (fun v => cos ((2 * INR (S v) + INR n) * t)) (N - n) = - (sin (INR n * t) / tan t + cos (INR n * t))).
      { apply (Rmult_eq_reg_l (2 * sin t)); [|lra]. rewrite cos_sum.
        assert (Et : M * t = PI) by (unfold t; field; pose proof M_pos; lra).
        replace ((2 * INR (N - n) + INR n + 1) * t) with (2 * (M * t) - (INR n + 1) * t) by (rewrite minus_INR by lia; unfold M; ring).
        rewrite Et, sin_minus, sin_2PI, cos_2PI. replace ((INR n + 1) * t) with (INR n * t + t) by ring. rewrite sin_plus.
        unfold tan. field. lra. }
      rewrite E, minus_INR by lia. unfold M. ring.
  Qed.
End Jackson.

Lemma toeplitz : forall (a f : nat -> R) N,
  rsum (fun n => rsum (fun m => a n * a m * f ((n - m) + (m - n))%nat) N) N
  = corr a N 0 * f 0%nat + 2 * rsum (fun n => corr a N (S n) * f (S n)) (N - 1).
Proof.
  intros a f N. induction N as [|N IH]; [unfold corr; cbn; lra|].
  cbn [rsum].
  transitivity (rsum (fun n => rsum (fun m => a n * a m * f ((n - m) + (m - n))%nat) N) N
    + 2 * rsum (fun n => a n * a N * f (N - n)%nat) N + a N * a N * f 0%nat).
  { rewrite rsum_add. replace (N - N + (N - N))%nat with 0%nat by lia.
    assert (E1 : rsum (fun i => a i * a N * f ((i - N) + (N - i))%nat) N = rsum (fun n => a n * a N * f (N - n)%nat) N).
    { apply rsum_ext. intros i Hi. do 2 f_equal. lia. }
    assert (E2 : rsum (fun m => a N * a m * f ((N - m) + (m - N))%nat) N = rsum (fun n => a n * a N * f (N - n)%nat) N).
    { apply rsum_ext. intros i Hi. replace (N - i + (i - N))%nat with (N - i)%nat by lia. ring. }
    rewrite E1, E2. ring. }
  rewrite IH, (corr_S a N 0) by lia. replace (N - 0)%nat with N by lia. replace (S N - 1)%nat with N by lia.
  assert (E2 : rsum (fun n => corr a (S N) (S n) * f (S n)) N
             = rsum (fun n => corr a N (S n) * f (S n)) (N - 1) + rsum (fun n => a n * a N * f (N - n)%nat) N).
  { transitivity (rsum (fun n => corr a N (S n) * f (S n)) N + rsum (fun n => a (N - S n)%nat * a N * f (S n)) N).
    - rewrite <- rsum_add. apply rsum_ext. intros n Hn. rewrite corr_S by lia. ring.
    - f_equal.
      + destruct N as [|M]; [reflexivity|]. replace (S M - 1)%nat with M by lia. cbn [rsum]. rewrite (corr_out a (S M) (S M)) by lia. ring.
      + rewrite (rsum_rev N (fun n => a n * a N * f (N - n)%nat)). apply rsum_ext. intros n Hn.
        replace (N - 1 - n)%nat with (N - S n)%nat by lia. replace (N - (N - S n))%nat with (S n) by lia. reflexivity. }
  rewrite E2. ring.
Qed.
Lemma cos_diff : forall n m f, cos (INR n * f) * cos (INR m * f) + sin (INR n * f) * sin (INR m * f) = cos (INR ((n - m) + (m - n)) * f).
Proof.
  intros n m f. rewrite <- cos_minus. destruct (le_ge_dec n m) as [H|H].
  - replace (n - m + (m - n))%nat with (m - n)%nat by lia. rewrite minus_INR by lia. rewrite <- cos_neg. f_equal. ring.
  - replace (n - m + (m - n))%nat with (n - m)%nat by lia. rewrite minus_INR by lia. f_equal. ring.
Qed.
