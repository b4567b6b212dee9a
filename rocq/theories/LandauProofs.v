(* The spectrum of a Dirac particle in a homogeneous field, on rapidly decreasing functions. *)
From Coq Require Import Reals Lra Lia.
Local Open Scope R_scope.

(** A rapidly decreasing function: it has derivatives of all orders, and they are bounded after
    multiplication with any power of the coordinate. *)
Definition bounded (f : R -> R) : Prop := exists C, forall y, Rabs (f y) <= C.
Definition rapid (F : nat -> R -> R) : Prop :=
  (forall i y, derivable_pt_lim (F i) y (F (S i) y)) /\ (forall i j, bounded (fun y => y ^ j * F i y)).
Definition rapidly_decreasing (f : R -> R) : Prop := exists F, rapid F /\ forall y, F 0%nat y = f y.

Lemma der_eq : forall f x a b, derivable_pt_lim f x a -> a = b -> derivable_pt_lim f x b.
Proof. intros f x a b H ->. exact H. Qed.
Lemma der_ext : forall f g x a, (forall y, f y = g y) -> derivable_pt_lim f x a -> derivable_pt_lim g x a.
Proof. intros f g x a E H eps He. destruct (H eps He) as [d Hd]. exists d. intros h H1 H2. rewrite <- !E. now apply Hd. Qed.
Lemma bounded_ext : forall f g, (forall y, f y = g y) -> bounded f -> bounded g.
Proof. intros f g E [C H]. exists C. intro y. rewrite <- E. apply H. Qed.
Lemma bounded_add : forall f g, bounded f -> bounded g -> bounded (fun y => f y + g y).
Proof. intros f g [C H] [D K]. exists (C + D). intro y. eapply Rle_trans; [apply Rabs_triang|]. specialize (H y). specialize (K y). lra. Qed.
Lemma bounded_scal : forall k f, bounded f -> bounded (fun y => k * f y).
Proof. intros k f [C H]. exists (Rabs k * C). intro y. rewrite Rabs_mult. apply Rmult_le_compat_l; [apply Rabs_pos|apply H]. Qed.

Lemma nat_above : forall x, exists N, x < INR N.
Proof.
  intro x. destruct (archimed x) as [A _]. exists (Z.to_nat (up x)). rewrite INR_IZR_INZ.
  apply Rlt_le_trans with (IZR (up x)); [lra|]. apply IZR_le. lia.
Qed.

Section Ladder.
  Variables b y0 : R.
  Hypothesis b_pos : 0 < b.
  (** [s = 1]: the lowering operator, [s = -1]: the raising one; all derivatives *)
  Definition ladder (s : R) (F : nat -> R -> R) (i : nat) (y : R) : R :=
    b * (y - y0) * F i y + b * INR i * F (pred i) y + s * F (S i) y.

  Lemma ladder_rapid : forall s F, rapid F -> rapid (ladder s F).
  Proof.
    intros s F [D Bd]. split.
    - intros i y. unfold ladder.
      assert (L : derivable_pt_lim (fun y => b * (y - y0)) y b).
      { apply der_eq with (b * (1 - 0)); [|ring]. apply (derivable_pt_lim_scal (fun y => y - y0)).
        apply (derivable_pt_lim_minus id (fct_cte y0)); [apply derivable_pt_lim_id|apply derivable_pt_lim_const]. }
      assert (M : derivable_pt_lim (fun y => b * INR i * F (pred i) y) y (b * INR i * F i y)).
      { destruct i as [|i].
        - apply der_ext with (fct_cte 0); [intro; cbn; unfold fct_cte; ring|]. apply der_eq with 0; [apply derivable_pt_lim_const|cbn; ring].
        - apply (derivable_pt_lim_scal (F (pred (S i)))). apply D. }
      eapply der_eq.
      + apply (derivable_pt_lim_plus (fun y => b * (y - y0) * F i y + b * INR i * F (pred i) y) (fun y => s * F (S i) y)).
        * apply (derivable_pt_lim_plus (fun y => b * (y - y0) * F i y)).
          -- apply (derivable_pt_lim_mult (fun y => b * (y - y0)) (F i)); [exact L|apply D].
          -- exact M.
        * apply (derivable_pt_lim_scal (F (S i))). apply D.
      + cbn [pred]. rewrite S_INR. ring.
    - intros i j. unfold ladder.
      apply bounded_ext with (fun y => (b * (y ^ S j * F i y) + (- (b * y0)) * (y ^ j * F i y)) + (b * INR i * (y ^ j * F (pred i) y) + s * (y ^ j * F (S i) y))).
      + intro y. cbn [pow]. ring.
      + repeat apply bounded_add; apply bounded_scal; apply Bd.
  Qed.

  (** *** Below the lowest level there is nothing *)
  Lemma convex_bounded : forall h h1 h2, (forall y, derivable_pt_lim h y (h1 y)) -> (forall y, derivable_pt_lim h1 y (h2 y)) ->
    (forall y, 0 <= h2 y) -> bounded h -> forall y, h2 y = 0.
  Proof.
    intros h h1 h2 D1 D2 P [C HC].
    assert (Mono : forall x y, x <= y -> h1 x <= h1 y).
    { intros x y [H| ->]; [|lra]. destruct (MVT_cor2 h1 h2 x y H) as (c & E & _); [intros; apply D2|].
      pose proof (Rmult_le_pos (h2 c) (y - x) (P c) ltac:(lra)). lra. }
    assert (Z : forall y, h1 y = 0).
    { intro y. destruct (Rtotal_order (h1 y) 0) as [N|[E|N]]; [|exact E|]; exfalso.
      - set (t := (2 * Rabs C + 1) / - h1 y). assert (T : 0 < t).
        { unfold t. apply Rdiv_lt_0_compat; [|lra]. pose proof (Rabs_pos C). lra. }
        destruct (MVT_cor2 h h1 (y - t) y ltac:(lra)) as (c & E & I); [intros; apply D1|].
        pose proof (Mono c y ltac:(lra)) as M. pose proof (HC y) as H1. pose proof (HC (y - t)) as H2.
        pose proof (Rle_abs C) as H3. pose proof (Rle_abs (- h y)) as H4. rewrite Rabs_Ropp in H4. pose proof (Rle_abs (h (y - t))) as H5.
        assert (X : h1 y * t = - (2 * Rabs C + 1)) by (unfold t; field; lra).
        pose proof (Rmult_le_compat_r t _ _ ltac:(lra) M). replace (y - (y - t)) with t in E by ring. lra.
      - set (t := (2 * Rabs C + 1) / h1 y). assert (T : 0 < t).
        { unfold t. apply Rdiv_lt_0_compat; [|lra]. pose proof (Rabs_pos C). lra. }
        destruct (MVT_cor2 h h1 y (y + t) ltac:(lra)) as (c & E & I); [intros; apply D1|].
        pose proof (Mono y c ltac:(lra)) as M. pose proof (HC y) as H1. pose proof (HC (y + t)) as H2.
        pose proof (Rle_abs C) as H3. pose proof (Rle_abs (- h y)) as H4. rewrite Rabs_Ropp in H4. pose proof (Rle_abs (h (y + t))) as H5.
        assert (X : h1 y * t = 2 * Rabs C + 1) by (unfold t; field; lra).
        pose proof (Rmult_le_compat_r t _ _ ltac:(lra) M). replace (y + t - y) with t in E by ring. lra. }
    intro y. apply (uniqueness_limite h1 y); [apply D2|].
    apply der_ext with (fct_cte 0); [intro x; symmetry; apply Z|apply derivable_pt_lim_const].
  Qed.

  Lemma no_low : forall F mu, rapid F -> (forall y, F 2%nat y = (b ^ 2 * (y - y0) ^ 2 - b - mu) * F 0%nat y) -> mu < - b -> forall y, F 0%nat y = 0.
  Proof.
    intros F mu [D Bd] E L y.
    assert (Z : 2 * (F 1%nat y ^ 2 + (b ^ 2 * (y - y0) ^ 2 - b - mu) * F 0%nat y ^ 2) = 0).
    { apply (convex_bounded (fun y => F 0%nat y * F 0%nat y) (fun y => 2 * (F 0%nat y * F 1%nat y)) (fun y => 2 * (F 1%nat y ^ 2 + (b ^ 2 * (y - y0) ^ 2 - b - mu) * F 0%nat y ^ 2))).
      - intro x. eapply der_eq; [apply (derivable_pt_lim_mult (F 0%nat) (F 0%nat)); apply D|ring].
      - intro x. eapply der_eq; [apply (derivable_pt_lim_scal (fun y => F 0%nat y * F 1%nat y)); apply (derivable_pt_lim_mult (F 0%nat) (F 1%nat)); apply D|].
        rewrite E. ring.
      - intro x. pose proof (pow2_ge_0 (F 1%nat x)). pose proof (pow2_ge_0 (F 0%nat x)). pose proof (pow2_ge_0 (b * (x - y0))).
        pose proof (Rmult_le_pos (b ^ 2 * (x - y0) ^ 2 - b - mu) (F 0%nat x ^ 2) ltac:(nra) ltac:(lra)). lra.
      - destruct (Bd 0%nat 0%nat) as [C H]. exists (C * C). intro x. specialize (H x). cbn [pow] in H. rewrite Rmult_1_l in H.
        rewrite Rabs_mult. apply Rmult_le_compat; auto using Rabs_pos. }
    pose proof (pow2_ge_0 (F 1%nat y)). pose proof (pow2_ge_0 (F 0%nat y)). pose proof (pow2_ge_0 (b * (y - y0))).
    assert (W : 0 < b ^ 2 * (y - y0) ^ 2 - b - mu) by nra.
    destruct (Req_dec (F 0%nat y) 0) as [Q|Q]; [exact Q|]. exfalso.
    assert (0 < F 0%nat y ^ 2) by (pose proof (Rsqr_pos_lt _ Q) as S; unfold Rsqr in S; cbn; lra).
    pose proof (Rmult_lt_0_compat _ _ W H2). lra.
  Qed.

  (** *** Lowering a state *)
  Lemma levels : forall N F mu, rapid F -> (forall y, F 2%nat y = (b ^ 2 * (y - y0) ^ 2 - b - mu) * F 0%nat y) ->
    (exists y, F 0%nat y <> 0) -> mu < 2 * b * INR N - b -> exists n, mu = 2 * b * INR n.
  Proof.
    induction N as [|N IH]; intros F mu RF E [y Hy] L.
    - exfalso. apply Hy. cbn in L. apply (no_low F mu RF E). lra.
    - destruct (Req_dec mu 0) as [->|M]; [exists 0%nat; cbn; ring|].
      assert (E3 : forall y, F 3%nat y = 2 * b ^ 2 * (y - y0) * F 0%nat y + (b ^ 2 * (y - y0) ^ 2 - b - mu) * F 1%nat y).
      { intro x. destruct RF as [D _]. apply (uniqueness_limite (F 2%nat) x); [apply D|].
        apply der_ext with (fun y => (b ^ 2 * (y - y0) ^ 2 - b - mu) * F 0%nat y); [intro; symmetry; apply E|].
        eapply der_eq.
        - apply (derivable_pt_lim_mult (fun y => b ^ 2 * (y - y0) ^ 2 - b - mu) (F 0%nat)); [|apply D].
          apply (derivable_pt_lim_minus (fun y => b ^ 2 * (y - y0) ^ 2 - b) (fct_cte mu)); [|apply derivable_pt_lim_const].
          apply (derivable_pt_lim_minus (fun y => b ^ 2 * (y - y0) ^ 2) (fct_cte b)); [|apply derivable_pt_lim_const].
          apply (derivable_pt_lim_scal (fun y => (y - y0) ^ 2)).
          apply (derivable_pt_lim_comp (fun y => y - y0) (fun z => z ^ 2)); [|apply derivable_pt_lim_pow].
          apply (derivable_pt_lim_minus id (fct_cte y0)); [apply derivable_pt_lim_id|apply derivable_pt_lim_const].
        - cbn. ring. }
      destruct (IH (ladder 1 F) (mu - 2 * b)) as [n Hn].
      + now apply ladder_rapid.
      + intro x. unfold ladder. cbn [pred INR]. rewrite E3, E. ring.
      + (* were it zero, so would be [mu * F] *)
        assert (Dec : (exists x, ladder 1 F 0 x <> 0) \/ ~ exists x, ladder 1 F 0 x <> 0) by apply Classical_Prop.classic.
        destruct Dec as [?|No]; [assumption|exfalso].
        assert (Z : forall x, ladder 1 F 0 x = 0) by (intro x; destruct (Req_dec (ladder 1 F 0 x) 0); [assumption|exfalso; apply No; now exists x]).
        assert (Z1 : ladder 1 F 1 y = 0).
        { apply (uniqueness_limite (ladder 1 F 0) y); [apply (proj1 (ladder_rapid 1 F RF))|].
          apply der_ext with (fct_cte 0); [intro x; symmetry; apply Z|apply derivable_pt_lim_const]. }
        specialize (Z y). unfold ladder in Z, Z1. cbn [pred INR] in Z, Z1. rewrite E in Z1.
        apply M. apply Rmult_eq_reg_r with (F 0%nat y); [|exact Hy].
        replace (mu * F 0%nat y) with (b * (y - y0) * (b * (y - y0) * F 0%nat y + b * 0 * F 0%nat y + 1 * F 1%nat y)
          - (b * (y - y0) * F 1%nat y + b * 1 * F 0%nat y + 1 * ((b ^ 2 * (y - y0) ^ 2 - b - mu) * F 0%nat y))) by ring.
        rewrite Z, Z1. ring.
      + rewrite S_INR in L. lra.
      + exists (S n). rewrite S_INR. lra.
  Qed.

  (** *** The states *)
  Fixpoint gauss2 (i : nat) (y : R) : R * R :=
    match i with
    | O => (0, exp (- (b / 2 * (y - y0) ^ 2)))
    | S i' => let (p, q) := gauss2 i' y in (q, - (b * (y - y0) * q) - b * INR i' * p)
    end.
  Definition gauss (i : nat) (y : R) : R := snd (gauss2 i y).
  Lemma gauss_S : forall i y, gauss (S i) y = - (b * (y - y0) * gauss i y) - b * INR i * gauss (pred i) y.
  Proof.
    intros i y. unfold gauss. cbn [gauss2]. destruct (gauss2 i y) as [p q] eqn:E. cbn [snd].
    destruct i as [|i]; [cbn; ring|]. cbn [pred]. cbn [gauss2] in E. destruct (gauss2 i y) as [p' q']. injection E as <- <-. cbn [snd]. ring.
  Qed.
  Lemma gauss_der : forall i y, derivable_pt_lim (gauss i) y (gauss (S i) y).
  Proof.
    induction i as [i IH] using (well_founded_induction lt_wf). intro y. destruct i as [|i].
    - rewrite gauss_S. unfold gauss. cbn [gauss2 snd INR pred].
      eapply der_eq.
      + apply (derivable_pt_lim_comp (fun y => - (b / 2 * (y - y0) ^ 2)) exp); [|apply derivable_pt_lim_exp].
        apply (derivable_pt_lim_opp (fun y => b / 2 * (y - y0) ^ 2)).
        apply (derivable_pt_lim_scal (fun y => (y - y0) ^ 2)).
        apply (derivable_pt_lim_comp (fun y => y - y0) (fun z => z ^ 2)); [|apply derivable_pt_lim_pow].
        apply (derivable_pt_lim_minus id (fct_cte y0)); [apply derivable_pt_lim_id|apply derivable_pt_lim_const].
      + cbn. field.
    - apply der_ext with (fun y => - (b * (y - y0) * gauss i y) - b * INR i * gauss (pred i) y); [intro; symmetry; apply gauss_S|].
      assert (L : derivable_pt_lim (fun y => b * (y - y0)) y b).
      { apply der_eq with (b * (1 - 0)); [|ring]. apply (derivable_pt_lim_scal (fun y => y - y0)).
        apply (derivable_pt_lim_minus id (fct_cte y0)); [apply derivable_pt_lim_id|apply derivable_pt_lim_const]. }
      assert (M : derivable_pt_lim (fun y => b * INR i * gauss (pred i) y) y (b * INR i * gauss i y)).
      { destruct i as [|i].
        - apply der_ext with (fct_cte 0); [intro; cbn; unfold fct_cte; ring|]. apply der_eq with 0; [apply derivable_pt_lim_const|cbn; ring].
        - apply (derivable_pt_lim_scal (gauss (pred (S i)))). apply IH. cbn. lia. }
      eapply der_eq.
      + apply (derivable_pt_lim_minus (fun y => - (b * (y - y0) * gauss i y)) (fun y => b * INR i * gauss (pred i) y)); [|exact M].
        apply (derivable_pt_lim_opp (fun y => b * (y - y0) * gauss i y)).
        apply (derivable_pt_lim_mult (fun y => b * (y - y0)) (gauss i)); [exact L|apply IH; lia].
      + rewrite (gauss_S (S i)). cbn [pred]. rewrite S_INR. ring.
  Qed.

  Lemma exp_pow : forall m x, exp x ^ m = exp (INR m * x).
  Proof. induction m as [|m IH]; intro x; [cbn; now rewrite Rmult_0_l, exp_0|]. rewrite S_INR. cbn [pow]. rewrite IH, <- exp_plus. f_equal. ring. Qed.
  Lemma gauss_bound : forall j, bounded (fun y => y ^ j * gauss 0 y).
  Proof.
    intros [|j].
    - exists 1. intro y. unfold gauss. cbn [gauss2 snd]. rewrite pow_O, Rmult_1_l, Rabs_pos_eq by (left; apply exp_pos).
      assert (Q : 0 <= b / 2 * (y - y0) ^ 2) by (apply Rmult_le_pos; [lra|apply pow2_ge_0]).
      rewrite <- exp_0. destruct (Req_dec (b / 2 * (y - y0) ^ 2) 0) as [E|E]; [rewrite E, Ropp_0; lra|].
      left. apply exp_increasing. lra.
    - set (m := S j). set (k := b / 2 / INR m). assert (MP : 0 < INR m) by (apply lt_0_INR; unfold m; lia).
      assert (KP : 0 < k) by (unfold k; apply Rdiv_lt_0_compat; lra).
      exists ((Rabs y0 + (1 + / k)) ^ m). intro y. unfold gauss. cbn [gauss2 snd].
      replace (- (b / 2 * (y - y0) ^ 2)) with (INR m * - (k * (y - y0) ^ 2)) by (unfold k; field; lra).
      rewrite <- exp_pow, <- Rpow_mult_distr, <- RPow_abs. apply pow_incr. split; [apply Rabs_pos|].
      rewrite Rabs_mult, (Rabs_pos_eq (exp _)) by (left; apply exp_pos). rewrite exp_Ropp.
      set (t := y - y0). pose proof (pow2_ge_0 t) as T2. pose proof (Rmult_le_pos k (t ^ 2) ltac:(lra) T2) as KT.
      assert (X : 1 + k * t ^ 2 <= exp (k * t ^ 2)).
      { destruct (Req_dec (k * t ^ 2) 0) as [Q|Q]; [rewrite Q, exp_0; lra|]. left. apply exp_ineq1. lra. }
      apply Rmult_le_reg_r with (exp (k * t ^ 2)); [apply exp_pos|].
      rewrite Rmult_assoc, Rinv_l by (pose proof (exp_pos (k * t ^ 2)); lra). rewrite Rmult_1_r.
      assert (A : Rabs y <= Rabs y0 + Rabs t) by (replace y with (y0 + t) at 1 by (unfold t; ring); apply Rabs_triang).
      assert (A2 : Rabs t <= 1 + t ^ 2) by (rewrite <- (pow2_abs t); pose proof (pow2_ge_0 (Rabs t - 1)); pose proof (Rabs_pos t); nra).
      pose proof (Rabs_pos y0) as Y0. assert (KI : 0 < / k) by now apply Rinv_0_lt_compat.
      assert (KK : / k * (k * t ^ 2) = t ^ 2) by (field; lra).
      apply Rle_trans with ((Rabs y0 + (1 + / k)) * (1 + k * t ^ 2)); [|apply Rmult_le_compat_l; lra].
      replace ((Rabs y0 + (1 + / k)) * (1 + k * t ^ 2)) with (Rabs y0 + Rabs y0 * (k * t ^ 2) + 1 + k * t ^ 2 + / k + / k * (k * t ^ 2)) by ring.
      rewrite KK. pose proof (Rmult_le_pos _ _ Y0 KT). lra.
  Qed.
  Lemma gauss_rapid : rapid gauss.
  Proof.
    split; [exact gauss_der|]. induction i as [i IH] using (well_founded_induction lt_wf). intro j. destruct i as [|i]; [apply gauss_bound|].
    apply bounded_ext with (fun y => ((- b) * (y ^ S j * gauss i y) + b * y0 * (y ^ j * gauss i y)) + (- (b * INR i)) * (y ^ j * gauss (pred i) y)).
    - intro y. rewrite gauss_S. cbn [pow]. ring.
    - repeat apply bounded_add; apply bounded_scal; apply IH; lia.
  Qed.

  (** raised [n] times *)
  Fixpoint state (n : nat) : nat -> R -> R := match n with O => gauss | S n' => ladder (-1) (state n') end.
  Lemma state_rapid : forall n, rapid (state n).
  Proof. induction n as [|n IH]; [exact gauss_rapid|apply ladder_rapid; exact IH]. Qed.
  (** lowering brings it back *)
  Lemma state_lower : forall n y, b * (y - y0) * state (S n) 0 y + state (S n) 1 y = 2 * b * INR (S n) * state n 0 y.
  Proof.
    induction n as [|n IH]; intro y.
    - cbn [state]. unfold ladder. cbn [pred INR]. rewrite !gauss_S. cbn [pred INR]. ring.
    - assert (IH1 : b * state (S n) 0 y + b * (y - y0) * state (S n) 1 y + state (S n) 2 y = 2 * b * INR (S n) * state n 1 y).
      { pose proof (state_rapid (S n)) as [D _]. pose proof (state_rapid n) as [D' _].
        apply (uniqueness_limite (fun y => b * (y - y0) * state (S n) 0 y + state (S n) 1 y) y).
        - eapply der_eq.
          + apply (derivable_pt_lim_plus (fun y => b * (y - y0) * state (S n) 0 y) (state (S n) 1)); [|apply D].
            apply (derivable_pt_lim_mult (fun y => b * (y - y0)) (state (S n) 0)); [|apply D].
            apply (derivable_pt_lim_scal (fun y => y - y0)).
            apply (derivable_pt_lim_minus id (fct_cte y0)); [apply derivable_pt_lim_id|apply derivable_pt_lim_const].
          + ring.
        - apply der_ext with (fun y => 2 * b * INR (S n) * state n 0 y); [intro; symmetry; apply IH|].
          apply (derivable_pt_lim_scal (state n 0)). apply D'. }
      specialize (IH y).
      change (state (S (S n))) with (ladder (-1) (state (S n))). unfold ladder at 1 2. cbn [pred]. rewrite (S_INR (S n)).
      set (f0 := state (S n) 0 y) in *. set (f1 := state (S n) 1 y) in *. set (f2 := state (S n) 2 y) in *.
      assert (G0 : f0 = b * (y - y0) * state n 0 y - state n 1 y) by (unfold f0; cbn [state]; unfold ladder; cbn [pred INR]; ring).
      cbn [INR].
      replace (b * (y - y0) * (b * (y - y0) * f0 + b * 0 * f0 + -1 * f1) + (b * (y - y0) * f1 + b * 1 * f0 + -1 * f2))
        with (b * (y - y0) * (b * (y - y0) * f0 + f1) - (b * f0 + b * (y - y0) * f1 + f2) + 2 * b * f0) by ring.
      rewrite IH, IH1. rewrite G0. change (match n with O => 1 | S _ => INR n + 1 end) with (INR (S n)). ring.
  Qed.
  Lemma state_nonzero : forall n, exists y, state n 0 y <> 0.
  Proof.
    intro n. apply Classical_Prop.NNPP. intro No.
    assert (Z : forall y, state n 0 y = 0) by (intro x; destruct (Req_dec (state n 0 x) 0); [assumption|exfalso; apply No; now exists x]).
    clear No. induction n as [|n IH].
    - specialize (Z y0). unfold state, gauss in Z. cbn [gauss2 snd] in Z. pose proof (exp_pos (- (b / 2 * (y0 - y0) ^ 2))). lra.
    - apply IH. intro y. pose proof (state_lower n y) as L.
      assert (Z1 : state (S n) 1 y = 0).
      { apply (uniqueness_limite (state (S n) 0) y); [apply (proj1 (state_rapid (S n)))|].
        apply der_ext with (fct_cte 0); [intro x; symmetry; apply Z|apply derivable_pt_lim_const]. }
      rewrite Z, Z1 in L. assert (P : 0 < INR (S n)) by (apply lt_0_INR; lia).
      apply Rmult_eq_reg_l with (2 * b * INR (S n)); [lra|]. apply Rgt_not_eq. apply Rmult_lt_0_compat; lra.
  Qed.

  (** *** The Dirac equation *)
  Definition dirac (c E : R) (u v u1 v1 : R -> R) : Prop :=
    (forall y, derivable_pt_lim u y (u1 y)) /\ (forall y, derivable_pt_lim v y (v1 y)) /\
    forall y, E * u y = c * (b * (y - y0) * v y + v1 y) /\ E * v y = c * (b * (y - y0) * u y - u1 y).
  Lemma dirac_levels : forall c E u v u1 v1, c <> 0 -> rapidly_decreasing u -> rapidly_decreasing v -> dirac c E u v u1 v1 ->
    (exists y, u y <> 0 \/ v y <> 0) -> exists n, E ^ 2 = c ^ 2 * (2 * b * INR n).
  Proof.
    intros c E u v u1 v1 Hc RU (F & RF & F0) (DU & DV & Eq) [y Hy].
    destruct (Req_dec E 0) as [->|HE]; [exists 0%nat; cbn; ring|].
    assert (V : exists y, v y <> 0).
    { destruct Hy as [Hy|Hy]; [|now exists y]. apply Classical_Prop.NNPP. intro No.
      assert (Z : forall x, v x = 0) by (intro x; destruct (Req_dec (v x) 0); [assumption|exfalso; apply No; now exists x]).
      assert (Z1 : v1 y = 0).
      { apply (uniqueness_limite v y); [apply DV|]. apply der_ext with (fct_cte 0); [intro x; symmetry; apply Z|apply derivable_pt_lim_const]. }
      destruct (Eq y) as [A _]. rewrite Z, Z1 in A. apply Hy. apply Rmult_eq_reg_l with E; [lra|exact HE]. }
    assert (F1 : forall y, F 1%nat y = v1 y).
    { intro x. apply (uniqueness_limite v x); [|apply DV]. apply der_ext with (F 0%nat); [exact F0|apply (proj1 RF)]. }
    assert (U1 : forall y, E * u1 y = c * (b * v y + b * (y - y0) * v1 y + F 2%nat y)).
    { intro x. apply (uniqueness_limite (fun y => E * u y) x); [apply (derivable_pt_lim_scal u); apply DU|].
      apply der_ext with (fun y => c * (b * (y - y0) * v y + F 1%nat y)); [intro; rewrite F1; symmetry; apply Eq|].
      eapply der_eq.
      - apply (derivable_pt_lim_scal (fun y => b * (y - y0) * v y + F 1%nat y)).
        apply (derivable_pt_lim_plus (fun y => b * (y - y0) * v y) (F 1%nat)); [|apply (proj1 RF)].
        apply (derivable_pt_lim_mult (fun y => b * (y - y0)) v); [|apply DV].
        apply (derivable_pt_lim_scal (fun y => y - y0)).
        apply (derivable_pt_lim_minus id (fct_cte y0)); [apply derivable_pt_lim_id|apply derivable_pt_lim_const].
      - ring. }
    set (mu := E ^ 2 / c ^ 2). assert (C2 : c ^ 2 <> 0) by now apply pow_nonzero.
    assert (E2 : forall y, F 2%nat y = (b ^ 2 * (y - y0) ^ 2 - b - mu) * F 0%nat y).
    { intro x. destruct (Eq x) as [A B]. rewrite F0. specialize (U1 x).
      assert (Q : E ^ 2 * v x = c ^ 2 * (b ^ 2 * (x - y0) ^ 2 * v x - b * v x - F 2%nat x)).
      { replace (E ^ 2 * v x) with (E * (E * v x)) by ring. rewrite B.
        replace (E * (c * (b * (x - y0) * u x - u1 x))) with (c * (b * (x - y0) * (E * u x) - E * u1 x)) by ring. rewrite A, U1. ring. }
      assert (Q' : mu * v x = b ^ 2 * (x - y0) ^ 2 * v x - b * v x - F 2%nat x).
      { unfold mu. apply Rmult_eq_reg_l with (c ^ 2); [|exact C2]. rewrite <- Q. field. exact Hc. }
      lra. }
    destruct V as [z Hz].
    destruct (nat_above ((mu + b) / (2 * b))) as [N HN].
    destruct (levels N F mu RF E2) as [n Hn].
    - exists z. now rewrite F0.
    - apply Rmult_lt_compat_r with (r := 2 * b) in HN; [|lra]. replace ((mu + b) / (2 * b) * (2 * b)) with (mu + b) in HN by (field; lra). lra.
    - exists n. rewrite <- Hn. unfold mu. field. exact Hc.
  Qed.
  Lemma dirac_states : forall c E n, c <> 0 -> E ^ 2 = c ^ 2 * (2 * b * INR n) -> exists u v u1 v1,
    rapidly_decreasing u /\ rapidly_decreasing v /\ dirac c E u v u1 v1 /\ exists y, u y <> 0 \/ v y <> 0.
  Proof.
    intros c E n Hc HE. destruct n as [|n].
    - assert (E0 : E = 0) by (cbn in HE; assert (Q : E * E = 0) by lra; destruct (Rmult_integral _ _ Q); assumption). subst E.
      exists (fun _ => 0), (state 0 0), (fun _ => 0), (state 0 1).
      split; [|split; [|split]].
      + exists (fun _ _ => 0). split; [split|reflexivity]; [intros; apply derivable_pt_lim_const|]. intros i j. exists 0. intro y. rewrite Rmult_0_r, Rabs_R0. lra.
      + exists (state 0). split; [apply state_rapid|reflexivity].
      + split; [intro; apply derivable_pt_lim_const|]. split; [intro; apply (proj1 (state_rapid 0))|]. intro y. cbn [state].
        rewrite gauss_S. cbn [pred INR]. split; ring.
      + destruct (state_nonzero 0) as [y Hy]. exists y. now right.
    - (* u = E psi_n, v = c psi_(n+1) *)
      exists (fun y => E * state n 0 y), (fun y => c * state (S n) 0 y), (fun y => E * state n 1 y), (fun y => c * state (S n) 1 y).
      assert (SC : forall k m, rapidly_decreasing (fun y => k * state m 0 y)).
      { intros k m. exists (fun i y => k * state m i y). split; [|reflexivity]. destruct (state_rapid m) as [D Bd]. split.
        - intros i y. apply (derivable_pt_lim_scal (state m i)). apply D.
        - intros i j. apply bounded_ext with (fun y => k * (y ^ j * state m i y)); [intro; ring|]. apply bounded_scal, Bd. }
      split; [apply SC|]. split; [apply SC|]. split.
      + split; [intro y; apply (derivable_pt_lim_scal (state n 0)); apply (proj1 (state_rapid n))|].
        split; [intro y; apply (derivable_pt_lim_scal (state (S n) 0)); apply (proj1 (state_rapid (S n)))|].
        intro y. split.
        * replace (E * (E * state n 0 y)) with (E ^ 2 * state n 0 y) by ring. rewrite HE.
          pose proof (state_lower n y) as L.
          replace (c * (b * (y - y0) * (c * state (S n) 0 y) + c * state (S n) 1 y)) with (c ^ 2 * (b * (y - y0) * state (S n) 0 y + state (S n) 1 y)) by ring.
          rewrite L. ring.
        * cbn [state]. unfold ladder. cbn [pred INR]. ring.
      + destruct (state_nonzero (S n)) as [y Hy]. exists y. right. now apply Rmult_integral_contrapositive_currified.
  Qed.
End Ladder.
