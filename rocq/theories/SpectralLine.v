(* The reconstructed density is a sum of lines at the energies of the Hamiltonian; shape of a line. *)
From Verif Require Import Base Scalar Kpm KpmSpec KpmCheb KpmGram KpmCore KpmEll KpmFinal RSum Cplx RInt Spectral SpectralProofs.
From Coq Require Import Reals Lra Ring.
Local Open Scope R_scope.
Local Notation dm := (nat -> nat -> CX).
Add Ring CXring : (k_ring CX).

(** ** Energies and wave functions *)
(** [psi k] is a state of energy [en k], and the states form a complete orthonormal set. *)
Definition eigenbasis (N : nat) (H : dm) (psi : nat -> nat -> CX) (en : nat -> R) : Prop :=
  (forall k i, (k < N)%nat -> (i < N)%nat -> ksum (fun j => kmul (H i j) (psi k j)) (seq 0 N) = kmul (re (en k)) (psi k i)) /\
  (forall i j, (i < N)%nat -> (j < N)%nat -> ksum (fun k => kmul (psi k i) (kconj (psi k j))) (seq 0 N) = delta i j).

Definition tcos (x : R) (n : nat) : R := cos (INR n * acos x).
Lemma tcos_0 : forall x, tcos x 0 = 1.
Proof. intros x. unfold tcos. cbn [INR]. rewrite Rmult_0_l. apply cos_0. Qed.
Lemma tcos_1 : forall x, -1 <= x <= 1 -> tcos x 1 = x.
Proof. intros x Hx. unfold tcos. cbn [INR]. rewrite Rmult_1_l. apply cos_acos. exact Hx. Qed.
Lemma cos_step : forall n t, cos (INR (S (S n)) * t) = 2 * cos t * cos (INR (S n) * t) - cos (INR n * t).
Proof.
  intros n t. rewrite !S_INR. replace ((INR n + 1 + 1) * t) with ((INR n + 1) * t + t) by ring. replace (INR n * t) with ((INR n + 1) * t - t) by ring.
  rewrite cos_plus, cos_minus. ring.
Qed.
Lemma tcos_SS : forall x n, -1 <= x <= 1 -> tcos x (S (S n)) = 2 * x * tcos x (S n) - tcos x n.
Proof. intros x n Hx. unfold tcos. rewrite cos_step, cos_acos by exact Hx. reflexivity. Qed.

Section Eigen.
  Variable N : nat.
  Variable X : dm.
  Variable psi : nat -> nat -> CX.
  Variable x : nat -> R.
  Hypothesis HE : eigenbasis N X psi x.
  Hypothesis Hx : forall k, (k < N)%nat -> -1 <= x k <= 1.

  (** Functions of the matrix in the eigenbasis. *)
  Definition fn (t : nat -> R) : dm := fun i j => ksum (fun k => kmul (re (t k)) (kmul (psi k i) (kconj (psi k j)))) (seq 0 N).
  Lemma fn_one : forall t i j, (forall k, (k < N)%nat -> t k = 1) -> (i < N)%nat -> (j < N)%nat -> fn t i j = delta i j.
  Proof.
    intros t i j Ht Hi Hj. rewrite <- (proj2 HE i j Hi Hj). apply ksum_ext. intros k Hk. apply in_seq in Hk. rewrite Ht by lia.
    change (re 1) with (@k1 CX). ring.
  Qed.
  Lemma fn_mul : forall t i j, (i < N)%nat -> (j < N)%nat -> dmul N X (fn t) i j = fn (fun k => x k * t k) i j.
  Proof.
    intros t i j Hi Hj. unfold dmul, fn.
    transitivity (ksum (fun l => ksum (fun k => kmul (kmul (re (t k)) (kconj (psi k j))) (kmul (X i l) (psi k l))) (seq 0 N)) (seq 0 N)).
    { apply ksum_ext. intros l _. rewrite <- ksum_mul_l. apply ksum_ext. intros k _. ring. }
    rewrite ksum_swap. apply ksum_ext. intros k Hk. apply in_seq in Hk. rewrite ksum_mul_l, (proj1 HE k i) by lia. rewrite <- re_mul. ring.
  Qed.
  Lemma fn_id : forall i j, (i < N)%nat -> (j < N)%nat -> X i j = fn x i j.
  Proof.
    intros i j Hi Hj. transitivity (dmul N X delta i j).
    - unfold dmul. rewrite (ksum_single CX _ N j Hj).
      + unfold delta. rewrite Nat.eqb_refl. ring.
      + intros l _ Hl. unfold delta. apply Nat.eqb_neq in Hl. rewrite Hl. ring.
    - transitivity (dmul N X (fn (fun _ => 1)) i j).
      + unfold dmul. apply ksum_ext. intros l Hl. apply in_seq in Hl. rewrite fn_one by (auto; lia). reflexivity.
      + rewrite fn_mul by assumption. unfold fn. apply ksum_ext. intros k _. rewrite Rmult_1_r. reflexivity.
  Qed.
  Lemma cheb_fn : forall n i j, (i < N)%nat -> (j < N)%nat -> cheb N X n i j = fn (fun k => tcos (x k) n) i j.
  Proof.
    intros n. assert (G : (forall i j, (i < N)%nat -> (j < N)%nat -> cheb N X n i j = fn (fun k => tcos (x k) n) i j) /\
      (forall i j, (i < N)%nat -> (j < N)%nat -> cheb N X (S n) i j = fn (fun k => tcos (x k) (S n)) i j)).
    { induction n as [|n (IH0 & IH1)].
      - split; intros i j Hi Hj.
        + cbn [cheb]. rewrite fn_one; auto. intros. apply tcos_0.
        + cbn [cheb]. rewrite fn_id by assumption. unfold fn. apply ksum_ext. intros k Hk. apply in_seq in Hk. rewrite tcos_1 by (apply Hx; lia). reflexivity.
      - split; [exact IH1|]. intros i j Hi Hj.
        change (cheb N X (S (S n)) i j) with (ksub (kmul (kadd k1 k1) (dmul N X (cheb N X (S n)) i j)) (cheb N X n i j)).
        rewrite IH0 by assumption.
        assert (E : dmul N X (cheb N X (S n)) i j = dmul N X (fn (fun k => tcos (x k) (S n))) i j).
        { unfold dmul. apply ksum_ext. intros l Hl. apply in_seq in Hl. rewrite IH1 by (auto; lia). reflexivity. }
        rewrite E, fn_mul by assumption. unfold fn. rewrite <- ksum_mul_l, <- ksum_sub. apply ksum_ext. intros k Hk. apply in_seq in Hk.
        rewrite tcos_SS by (apply Hx; lia). set (u := tcos (x k) (S n)). set (w := tcos (x k) n). set (p := kmul (psi k i) (kconj (psi k j))).
        destruct p as [p q]. cbn. unfold cx_mul, cx_sub, cx_add, cx_opp, re. cbn. f_equal; ring. }
    apply G.
  Qed.

  (** Weight of a vector on state [k]. *)
  Definition overlap (r : nat -> CX) (k : nat) : R := abs2 (inner CX N (psi k) r).
  Lemma mu_eigen : forall r n, mu N X r n = rsum (fun k => overlap r k * tcos (x k) n) N.
  Proof.
    intros r n. unfold mu, mom. rewrite inner_cheb.
    assert (E : braket N r (cheb N X n) r = ksum (fun k => re (overlap r k * tcos (x k) n)) (seq 0 N)).
    { unfold braket. transitivity (ksum (fun i => ksum (fun j => ksum (fun k => kmul (re (tcos (x k) n)) (kmul (kmul (kconj (r i)) (psi k i)) (kmul (kconj (psi k j)) (r j)))) (seq 0 N)) (seq 0 N)) (seq 0 N)).
      { apply ksum_ext. intros i Hi. apply in_seq in Hi. apply ksum_ext. intros j Hj. apply in_seq in Hj. rewrite cheb_fn by lia. unfold fn.
        rewrite <- ksum_mul_l, <- ksum_mul_r. apply ksum_ext. intros k _. ring. }
      transitivity (ksum (fun i => ksum (fun k => ksum (fun j => kmul (re (tcos (x k) n)) (kmul (kmul (kconj (r i)) (psi k i)) (kmul (kconj (psi k j)) (r j)))) (seq 0 N)) (seq 0 N)) (seq 0 N)).
      { apply ksum_ext. intros i _. apply ksum_swap. }
      rewrite ksum_swap. apply ksum_ext. intros k _.
      transitivity (kmul (re (tcos (x k) n)) (kmul (inner CX N r (psi k)) (inner CX N (psi k) r))).
      { unfold inner at 1. rewrite <- ksum_mul_r, <- ksum_mul_l. apply ksum_ext. intros i _. unfold inner. rewrite <- !ksum_mul_l. apply ksum_ext. intros j _. ring. }
      rewrite <- (inner_conj CX N (psi k) r), abs2_conj, re_mul. unfold overlap. f_equal. ring. }
    rewrite E, fst_sum. reflexivity.
  Qed.
  Lemma overlap_site : forall s k, (s < N)%nat -> overlap (at_site s) k = abs2 (psi k s).
  Proof.
    intros s k Hs. unfold overlap. assert (E : inner CX N (psi k) (at_site s) = kconj (psi k s)).
    { unfold inner. rewrite (ksum_single CX _ N s Hs); unfold at_site, delta.
      - rewrite Nat.eqb_refl. ring.
      - intros j _ Hj. apply Nat.eqb_neq in Hj. rewrite Hj. ring. }
    rewrite E. destruct (psi k s). unfold abs2. cbn. ring.
  Qed.
End Eigen.

Lemma eigen_scaled : forall N H psi en s, eigenbasis N H psi en -> 
  eigenbasis N (scaled_dense (re (/ s_a s)) (re (s_b s)) H) psi (fun k => scaled s (en k)).
Proof.
  intros N H psi en s (E1 & E2). split; [|exact E2]. intros k i Hk Hi.
  pose proof (ap_scaled N H (s_a s) (s_b s) (psi k) i Hi) as A. unfold ap in A. rewrite A, E1 by assumption. unfold scaled.
  destruct (psi k i) as [p q]. cbn. unfold cx_mul, cx_sub, cx_add, cx_opp, re. cbn. unfold Rdiv. f_equal; ring.
Qed.

(** ** Lines *)
Section Line.
  Variable g : nat -> R.
  Variable M : nat.
  Variables a b : R.
  (** The line of a state with energy [E0]. *)
  Definition line (E0 E : R) : R :=
    / (PI * a * sqrt (1 - sc a b E * sc a b E)) *
    (1 + 2 * rsum (fun n => g (S n) * cos (INR (S n) * acos (sc a b E)) * cos (INR (S n) * acos (sc a b E0))) (M - 1)).
End Line.

Lemma density_line : forall g s M E0 E, (0 < M)%nat -> g M 0%nat = 1 -> 0 < s_a s -> -1 < scaled s E < 1 ->
  density_of g s M (tcos (scaled s E0)) E = Some (line (g M) M (s_a s) (s_b s) E0 E).
Proof.
  intros g s M E0 E HM Hg Ha Hx. unfold density_of, line, tcos. change (sc (s_a s) (s_b s)) with (scaled s). set (x := scaled s E) in *.
  assert (Hp : 0 < 1 - x * x) by nra. destruct (Rlt_dec 0 (1 - x * x)); [|contradiction]. f_equal.
  pose proof PI_RGT_0. pose proof (sqrt_lt_R0 _ Hp). destruct M as [|M]; [lia|]. replace (S M - 1)%nat with M by lia. rewrite rsum_S_l.
  cbn [weight0]. change (INR 0) with 0. rewrite !Rmult_0_l, cos_0, Hg.
  rewrite (rsum_ext _ (fun n => g (S M) (S n) * cos (INR (S n) * acos x) * cos (INR (S n) * acos (scaled s E0)))).
  - set (S0 := rsum _ M). field. lra.
  - intros n _. cbn [weight0]. ring.
Qed.
Lemma density_sum : forall g s M (w : nat -> R) (m : nat -> nat -> R) N E y,
  (forall k, (k < N)%nat -> density_of g s M (m k) E = Some (y k)) -> -1 < scaled s E < 1 ->
  density_of g s M (fun n => rsum (fun k => w k * m k n) N) E = Some (rsum (fun k => w k * y k) N).
Proof.
  intros g s M w m N E y Hy Hx. unfold density_of in *. set (x := scaled s E) in *.
  assert (Hp : 0 < 1 - x * x) by nra. destruct (Rlt_dec 0 (1 - x * x)); [|contradiction]. f_equal.
  set (c := 2 / PI / s_a s / sqrt (1 - x * x)) in *.
  transitivity (rsum (fun k => w k * (c * rsum (fun n => weight0 n * m k n * g M n * cos (INR n * acos x)) M)) N).
  - transitivity (rsum (fun n => rsum (fun k => c * (w k * (weight0 n * m k n * g M n * cos (INR n * acos x)))) N) M).
    + rewrite <- rsum_scal. apply rsum_ext. intros n _. rewrite rsum_scal. f_equal. rewrite <- rsum_scal, <- !rsum_scal_r. apply rsum_ext. intros k _. ring.
    + rewrite rsum_swap. apply rsum_ext. intros k _. rewrite <- !rsum_scal. apply rsum_ext. intros n _. ring.
  - apply rsum_ext. intros k Hk. f_equal. specialize (Hy k Hk). injection Hy as Hy. exact Hy.
Qed.

(** ** Area, position and width of a line *)
Section Shape.
  Variable g : nat -> R.
  Variable M : nat.
  Hypothesis HM : (2 <= M)%nat.
  Hypothesis HgM : g M = 0.
  Variables a b : R.
  Hypothesis Ha : 0 < a.
  Variable E0 : R.
  Let y := sc a b E0.
  Hypothesis Hy : -1 <= y <= 1.
  Let c n := g n * cos (INR n * acos y).
  Definition term (k : nat) (E : R) : R := / sqrt (1 - sc a b E * sc a b E) * / a * cos (INR k * acos (sc a b E)).
  Local Notation dom := (b - a) (only parsing).

  Lemma term_int : forall k, integral (term k) (b - a) (b + a) (match k with O => PI | _ => 0 end).
  Proof. intros k. apply integral_cos. exact Ha. Qed.
  Lemma line_terms : forall E, b - a < E < b + a ->
    line g M a b E0 E = / PI * (term 0 E + 2 * rsum (fun n => c (S n) * term (S n) E) (M - 1)).
  Proof.
    intros E HE. pose proof (sc_range a b Ha E HE) as Hx. unfold line, term. set (x := sc a b E) in *. fold y.
    assert (Hp : 0 < 1 - x * x) by nra. pose proof PI_RGT_0. pose proof (sqrt_lt_R0 _ Hp).
    change (INR 0) with 0. rewrite Rmult_0_l, cos_0.
    rewrite (rsum_ext (fun n => c (S n) * (/ sqrt (1 - x * x) * / a * cos (INR (S n) * acos x)))
      (fun n => (/ sqrt (1 - x * x) * / a) * (g (S n) * cos (INR (S n) * acos x) * cos (INR (S n) * acos y)))).
    - rewrite rsum_scal. set (S0 := rsum _ _). field. lra.
    - intros n _. unfold c. ring.
  Qed.

  Lemma double_cos : forall m n t, (m <= n)%nat -> cos (INR m * t) * cos (INR n * t) = / 2 * (cos (INR (n + m) * t) + cos (INR (n - m) * t)).
  Proof.
    intros m n t H. rewrite plus_INR, minus_INR by exact H.
    replace ((INR n + INR m) * t) with (INR n * t + INR m * t) by ring. replace ((INR n - INR m) * t) with (INR n * t - INR m * t) by ring.
    rewrite cos_plus, cos_minus. field.
  Qed.
  Lemma times : forall m k E, (m <= k)%nat -> cos (INR m * acos (sc a b E)) * term k E = / 2 * (term (k + m) E + term (k - m) E).
  Proof.
    intros m k E H. unfold term. set (q := / sqrt _ * / a). transitivity (q * (cos (INR m * acos (sc a b E)) * cos (INR k * acos (sc a b E)))); [ring|].
    rewrite double_cos by exact H. ring.
  Qed.
  Lemma times_int : forall m k, (0 < m)%nat -> integral (fun E => cos (INR m * acos (sc a b E)) * term k E) (b - a) (b + a) (if (k =? m)%nat then PI / 2 else 0).
  Proof.
    intros m k Hm. destruct (Nat.le_gt_cases m k) as [H|H].
    - apply (integral_ext (fun E => / 2 * (term (k + m) E + term (k - m) E))); [intros; symmetry; apply times; exact H|].
      replace (if (k =? m)%nat then PI / 2 else 0) with (/ 2 * ((match (k + m)%nat with O => PI | _ => 0 end) + (match (k - m)%nat with O => PI | _ => 0 end))).
      + apply integral_scal. apply (integral_add (term (k + m)) (term (k - m))); apply term_int.
      + destruct (Nat.eqb_spec k m) as [->|Hne].
        * rewrite Nat.sub_diag. destruct (m + m)%nat eqn:E; [lia|]. field.
        * destruct (k + m)%nat eqn:E; [lia|]. destruct (k - m)%nat eqn:E'; [lia|]. field.
    - apply (integral_ext (fun E => / 2 * (term (m + k) E + term (m - k) E))).
      + intros E _. unfold term. set (q := / sqrt _ * / a). transitivity (q * (cos (INR k * acos (sc a b E)) * cos (INR m * acos (sc a b E)))); [|ring].
        rewrite (double_cos k m) by lia. ring.
      + destruct (Nat.eqb_spec k m); [lia|]. replace 0 with (/ 2 * ((match (m + k)%nat with O => PI | _ => 0 end) + (match (m - k)%nat with O => PI | _ => 0 end))).
        * apply integral_scal. apply (integral_add (term (m + k)) (term (m - k))); apply term_int.
        * destruct (m + k)%nat eqn:E; [lia|]. destruct (m - k)%nat eqn:E'; [lia|]. field.
  Qed.

  Lemma line_area : integral (line g M a b E0) (b - a) (b + a) 1.
  Proof.
    apply (integral_ext (fun E => / PI * (term 0 E + 2 * rsum (fun n => c (S n) * term (S n) E) (M - 1)))); [intros E HE; symmetry; apply line_terms; exact HE|].
    pose proof PI_RGT_0. replace 1 with (/ PI * (PI + 2 * rsum (fun _ => 0) (M - 1))).
    - apply integral_scal. apply integral_add; [apply (term_int 0)|]. apply integral_scal. apply (integral_sum (fun n E => c (S n) * term (S n) E)).
      intros n _. replace 0 with (c (S n) * 0) at 1 by ring. apply integral_scal. apply (term_int (S n)).
    - rewrite rsum_0 by reflexivity. field. lra.
  Qed.
  Lemma pick : forall m, (0 < m <= M)%nat -> rsum (fun n => c (S n) * (if (S n =? m)%nat then PI / 2 else 0)) (M - 1) = c m * (PI / 2).
  Proof.
    intros m Hm. assert (G : forall K, rsum (fun n => c (S n) * (if (S n =? m)%nat then PI / 2 else 0)) K = if (m <=? K)%nat then c m * (PI / 2) else 0).
    { induction K as [|K IH]; cbn [rsum].
      - destruct (Nat.leb_spec m 0); [lia|reflexivity].
      - rewrite IH. destruct (Nat.leb_spec m K), (Nat.leb_spec m (S K)), (Nat.eqb_spec (S K) m); try lia; subst; ring. }
    rewrite G. destruct (Nat.leb_spec m (M - 1)); [reflexivity|]. replace m with M by lia. unfold c. rewrite HgM. ring.
  Qed.
  Lemma line_cos : forall m, (0 < m <= M)%nat -> integral (fun E => cos (INR m * acos (sc a b E)) * line g M a b E0 E) (b - a) (b + a) (c m).
  Proof.
    intros m Hm. pose proof PI_RGT_0.
    apply (integral_ext (fun E => / PI * (cos (INR m * acos (sc a b E)) * term 0 E + 2 * rsum (fun n => c (S n) * (cos (INR m * acos (sc a b E)) * term (S n) E)) (M - 1)))).
    - intros E HE. rewrite line_terms by exact HE. rewrite (rsum_ext _ (fun n => cos (INR m * acos (sc a b E)) * (c (S n) * term (S n) E))) by (intros; ring).
      rewrite rsum_scal. ring.
    - replace (c m) with (/ PI * (0 + 2 * rsum (fun n => c (S n) * (if (S n =? m)%nat then PI / 2 else 0)) (M - 1))).
      + apply integral_scal. apply integral_add.
        * pose proof (times_int m 0 ltac:(lia)) as T. destruct (Nat.eqb_spec 0 m); [lia|]. exact T.
        * apply integral_scal. apply (integral_sum (fun n E => c (S n) * (cos (INR m * acos (sc a b E)) * term (S n) E))). intros n _. apply integral_scal. apply times_int. lia.
      + rewrite pick by exact Hm. field. lra.
  Qed.
  (** Mean squared distance from [E0]. *)
  Lemma line_width : integral (fun E => (E - E0) ^ 2 * line g M a b E0 E) (b - a) (b + a)
    (a * a * (/ 2 * (1 - g 2%nat) + y * y * (1 + g 2%nat - 2 * g 1%nat))).
  Proof.
    apply (integral_ext (fun E => a * a * ((/ 2 + y * y) * line g M a b E0 E + / 2 * (cos (INR 2 * acos (sc a b E)) * line g M a b E0 E)
      + - 2 * y * (cos (INR 1 * acos (sc a b E)) * line g M a b E0 E)))).
    - intros E HE. pose proof (sc_range a b Ha E HE) as Hx. replace (INR 2 * acos (sc a b E)) with (2 * acos (sc a b E)) by (cbn [INR]; ring).
      replace (INR 1 * acos (sc a b E)) with (acos (sc a b E)) by (cbn [INR]; ring). rewrite cos_2a_cos, cos_acos by lra.
      assert (D : E - E0 = a * (sc a b E - y)) by (unfold y, sc; field; lra). rewrite D. set (L := line g M a b E0 E). field.
    - replace (/ 2 * (1 - g 2%nat) + y * y * (1 + g 2%nat - 2 * g 1%nat)) with ((/ 2 + y * y) * 1 + / 2 * c 2 + - 2 * y * c 1).
      + apply integral_scal. apply integral_add; [apply integral_add|]; apply integral_scal; [apply line_area|apply line_cos; lia|apply line_cos; lia].
      + unfold c. replace (INR 2 * acos y) with (2 * acos y) by (cbn [INR]; ring). replace (INR 1 * acos y) with (acos y) by (cbn [INR]; ring).
        rewrite cos_2a_cos, cos_acos by exact Hy. field.
  Qed.
End Shape.

(** ** The Jackson kernel *)
Section Jackson.
  Variable M : nat.
  Hypothesis HM : (2 <= M)%nat.
  Let K := INR M + 1.
  Let t := PI / K.
  Lemma K_ge : 3 <= K. Proof. apply M_pos. exact HM. Qed.
  Lemma jackson_0 : jackson_g M 0 = 1.
  Proof.
    unfold jackson_g. fold K. pose proof K_ge. change (INR 0) with 0. replace (PI * 0 / K) with 0 by (field; lra). rewrite cos_0, sin_0.
    unfold Rdiv at 2. rewrite Rmult_0_l. field. lra.
  Qed.
  Lemma jackson_last : jackson_g M M = 0.
  Proof. rewrite jackson_coef by lia. rewrite corr_out by lia. ring. Qed.
  Lemma t_facts : 0 < t <= PI / 3 /\ 0 < sin t /\ / 2 <= cos t < 1.
  Proof.
    pose proof K_ge. pose proof PI_RGT_0. assert (A : 0 < t) by (apply Rdiv_lt_0_compat; lra).
    assert (B : t <= PI / 3). { unfold t, Rdiv. apply Rmult_le_compat_l; [lra|]. apply Rinv_le_contravar; lra. }
    split; [lra|]. split; [apply sin_gt_0; lra|]. split.
    - replace (/ 2) with (cos (PI / 3)) by (rewrite cos_PI3; field). apply cos_decr_1; lra.
    - rewrite <- cos_0. apply cos_decreasing_1; lra.
  Qed.
  Lemma jackson_1 : jackson_g M 1 = cos t.
  Proof.
    unfold jackson_g. fold K. change (INR 1) with 1. rewrite Rmult_1_r. fold t. pose proof K_ge. destruct t_facts as (_ & S & C & _).
    unfold tan. field. repeat split; lra.
  Qed.
  Lemma jackson_2 : jackson_g M 2 = (INR M * cos (2 * t) + 1) / K.
  Proof.
    unfold jackson_g. fold K. replace (INR 2) with 2 by (cbn [INR]; ring). pose proof K_ge. destruct t_facts as (_ & S & C & _).
    replace (PI * 2 / K) with (2 * t) by (unfold t; field; lra). fold t.
    assert (D : sin (2 * t) / tan t = cos (2 * t) + 1).
    { rewrite sin_2a, cos_2a_cos. unfold tan. field. split; lra. }
    rewrite D. unfold K. field. fold K. lra.
  Qed.
  (** The spread of a line in the scaled units. *)
  Lemma jackson_spread : forall y, / 2 * (1 - jackson_g M 2) + y * y * (1 + jackson_g M 2 - 2 * jackson_g M 1) < t * t.
  Proof.
    intros y. pose proof K_ge as HK. destruct t_facts as ((T0 & T3) & S & C1 & C2). pose proof (pos_INR M).
    assert (SC : sin t * sin t = 1 - cos t * cos t) by (pose proof (sin2_cos2 t) as P; unfold Rsqr in P; lra).
    assert (E2 : cos (2 * t) = 2 * (cos t * cos t) - 1) by (rewrite cos_2a_cos; ring).
    rewrite jackson_1, jackson_2, E2.
    assert (HMK : INR M = K - 1) by (unfold K; ring). rewrite HMK. set (C := cos t) in *.
    assert (A : / 2 * (1 - ((K - 1) * (2 * (C * C) - 1) + 1) / K) = (1 - / K) * (1 - C * C)) by (field; lra).
    assert (B : 1 + ((K - 1) * (2 * (C * C) - 1) + 1) / K - 2 * C = 2 * (1 - C) * ((1 + C) * / K - C)) by (field; lra).
    rewrite A, B.
    assert (IK : 0 < / K <= / 3) by (split; [apply Rinv_0_lt_compat; lra|apply Rinv_le_contravar; lra]).
    assert (B0 : 2 * (1 - C) * ((1 + C) * / K - C) <= 0) by nra.
    assert (LT : sin t < t) by (apply sin_lt_x; exact T0).
    nra.
  Qed.
  Lemma line_nonneg : forall a b E0 E, 0 < a -> -1 <= sc a b E0 <= 1 -> b - a < E < b + a -> 0 <= line (jackson_g M) M a b E0 E.
  Proof.
    intros a b E0 E Ha H0 HE. set (s := Scale a b). pose proof (sc_range a b Ha E HE) as Hx.
    set (X := (fun _ _ => re (sc a b E0)) : dm).
    assert (HX : hermitian 1 X) by (intros i j _ _; apply re_conj).
    assert (HW : within 1 X (-1) 1).
    { intros v. unfold expect, braket, norm2. cbn [seq rsum]. cbn [ksum fold_right map seq]. unfold X, abs2. destruct (v 0%nat) as [p q]. cbn. nra. }
    destruct (density_nonneg jackson_g 1 X (at_site 0) s M E jackson_positive HX HW Ha HM Hx) as (z & Ez & Hz).
    assert (EB : eigenbasis 1 X (fun _ _ => k1) (fun _ => sc a b E0)).
    { split.
      - intros k i _ _. cbn [ksum fold_right map seq]. unfold X. cbn. unfold cx_mul, cx_add, re. cbn. f_equal; ring.
      - intros [|i] [|j] Hi Hj; try lia. cbn. unfold cx_mul, cx_add, cx_conj. cbn. f_equal; ring. }
    assert (EM : density_of jackson_g s M (mu 1 X (at_site 0)) E = density_of jackson_g s M (tcos (scaled s E0)) E).
    { unfold density_of. destruct (Rlt_dec 0 (1 - scaled s E * scaled s E)); [|reflexivity]. do 2 f_equal. apply rsum_ext. intros n _. do 3 f_equal.
      rewrite (mu_eigen 1 X (fun _ _ => k1) (fun _ => sc a b E0) EB) by (intros; exact H0). cbn [rsum]. rewrite (overlap_site 1 (fun _ _ => k1)) by lia.
      unfold abs2. cbn. change (scaled s E0) with (sc a b E0). ring. }
    rewrite EM, density_line in Ez by (try exact jackson_0; try exact Ha; try exact Hx; lia). injection Ez as Ez. cbn [s s_a s_b] in Ez.
    change (line (jackson_g M) M a b E0 E = z) in Ez. rewrite Ez. exact Hz.
  Qed.
End Jackson.
