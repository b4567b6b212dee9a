(* Averages and window integrals of a density that is a sum of sharp peaks (SpectralLine.v,
   PropsSpectral.v: [sharp_peak]), and of the densities of Spectral.v over the whole range of energies
   that cppcore/include/kpm/reconstruct.hpp:16-33 can evaluate. *)
From Verif Require Import Base Scalar Kpm KpmSpec KpmCheb KpmGram KpmCore KpmEll KpmFinal RSum Cplx RInt RIntMore Spectral SpectralProofs SpectralLine PropsSpectral SpectralTheorem RandomProofs PropsEigen.
From Coq Require Import Reals Lra.
Local Open Scope R_scope.

(** ** One peak *)
Lemma abs_bounds : forall x y, Rabs x <= y -> - y <= x <= y.
Proof. intros x y H. pose proof (Rle_abs x). pose proof (Rle_abs (- x)). rewrite Rabs_Ropp in *. lra. Qed.
Lemma peak_average : forall p lo hi e sigma g eps K v, lo < hi -> sharp_peak p lo hi e sigma -> 0 <= K ->
  (forall E, lo < E < hi -> Rabs (g E - g e) <= eps + K * (E - e) ^ 2) -> integral (fun E => g E * p E) lo hi v ->
  Rabs (v - g e) <= eps + K * sigma ^ 2.
Proof.
  intros p lo hi e sigma g eps K v Hl [Pn Pa (w & Iw & Hw)] HK Hg Iv.
  assert (U : integral (fun E => (g e + eps) * p E + K * ((E - e) ^ 2 * p E)) lo hi ((g e + eps) * 1 + K * w)).
  { apply (integral_add (fun E => (g e + eps) * p E) (fun E => K * ((E - e) ^ 2 * p E))); apply integral_scal; assumption. }
  assert (D : integral (fun E => (g e - eps) * p E + - K * ((E - e) ^ 2 * p E)) lo hi ((g e - eps) * 1 + - K * w)).
  { apply (integral_add (fun E => (g e - eps) * p E) (fun E => - K * ((E - e) ^ 2 * p E))); apply integral_scal; assumption. }
  assert (A : v <= (g e + eps) * 1 + K * w).
  { refine (integral_le _ _ lo hi _ _ Hl _ Iv U). intros E HE. specialize (Hg E HE). specialize (Pn E HE). apply abs_bounds in Hg. cbv beta. nra. }
  assert (B : (g e - eps) * 1 + - K * w <= v).
  { refine (integral_le _ _ lo hi _ _ Hl _ D Iv). intros E HE. specialize (Hg E HE). specialize (Pn E HE). apply abs_bounds in Hg. cbv beta. nra. }
  apply Rabs_le. nra.
Qed.
(** Part of a peak. *)
Lemma far_part : forall p lo hi e v w d, lo < hi -> 0 < d -> (forall E, lo < E < hi -> 0 <= p E) -> (forall E, lo < E < hi -> d ^ 2 <= (E - e) ^ 2) ->
  integral p lo hi v -> integral (fun E => (E - e) ^ 2 * p E) lo hi w -> d ^ 2 * v <= w.
Proof.
  intros p lo hi e v w d Hl Hd Pn F Iv Iw. refine (integral_le (fun E => d ^ 2 * p E) _ lo hi _ _ Hl _ _ Iw); [|apply integral_scal; exact Iv].
  intros E HE. specialize (Pn E HE). specialize (F E HE). cbv beta. nra.
Qed.
Lemma peak_window : forall p lo hi e sigma x y d, sharp_peak p lo hi e sigma -> lo < x -> x < y -> y < hi -> 0 < d ->
  exists v, integral p x y v /\ 0 <= v <= 1 /\
    (e <= x - d \/ y + d <= e -> v <= (sigma / d) ^ 2) /\ (x + d <= e <= y - d -> 1 - (sigma / d) ^ 2 <= v).
Proof.
  intros p lo hi e sigma x y d [Pn Pa (w & Iw & Hw)] H1 H2 H3 Hd.
  destruct (integral_window p lo hi 1 x y H1 H2 H3 Pa) as (v1 & v2 & v3 & I1 & I2 & I3 & Sv).
  destruct (integral_window _ lo hi w x y H1 H2 H3 Iw) as (w1 & w2 & w3 & J1 & J2 & J3 & Sw).
  assert (0 <= v1) by (refine (integral_nonneg _ lo x _ H1 _ I1); intros; apply Pn; lra).
  assert (0 <= v2) by (refine (integral_nonneg _ x y _ H2 _ I2); intros; apply Pn; lra).
  assert (0 <= v3) by (refine (integral_nonneg _ y hi _ H3 _ I3); intros; apply Pn; lra).
  assert (0 <= w1) by (refine (integral_nonneg _ lo x _ H1 _ J1); intros E HE; pose proof (Pn E ltac:(lra)); cbv beta; pose proof (pow2_ge_0 (E - e)); nra).
  assert (0 <= w2) by (refine (integral_nonneg _ x y _ H2 _ J2); intros E HE; pose proof (Pn E ltac:(lra)); cbv beta; pose proof (pow2_ge_0 (E - e)); nra).
  assert (0 <= w3) by (refine (integral_nonneg _ y hi _ H3 _ J3); intros E HE; pose proof (Pn E ltac:(lra)); cbv beta; pose proof (pow2_ge_0 (E - e)); nra).
  assert (Q : forall z, d ^ 2 * z <= sigma ^ 2 -> z <= (sigma / d) ^ 2).
  { intros z Hz. apply (Rmult_le_reg_l (d ^ 2)); [nra|]. replace (d ^ 2 * (sigma / d) ^ 2) with (sigma ^ 2) by (field; lra). exact Hz. }
  exists v2. split; [exact I2|]. split; [lra|]. split.
  - intros Far. apply Q. assert (d ^ 2 * v2 <= w2); [|lra]. apply (far_part p x y e v2 w2 d H2 Hd); auto; [intros; apply Pn; lra|].
    intros E HE. nra.
  - intros Near. assert (v1 + v3 <= (sigma / d) ^ 2); [|lra]. apply Q.
    assert (d ^ 2 * v1 <= w1) by (apply (far_part p lo x e v1 w1 d H1 Hd); auto; [intros; apply Pn; lra|intros E HE; nra]).
    assert (d ^ 2 * v3 <= w3) by (apply (far_part p y hi e v3 w3 d H3 Hd); auto; [intros; apply Pn; lra|intros E HE; nra]).
    lra.
Qed.

(** ** Sums of peaks *)
Definition inside (l r e : R) : R := if Rle_dec l e then if Rle_dec e r then 1 else 0 else 0.
Lemma inside_range : forall l r e, 0 <= inside l r e <= 1.
Proof. intros. unfold inside. destruct (Rle_dec l e); [destruct (Rle_dec e r)|]; lra. Qed.
Section Sum.
  Variables (N : nat) (w en : nat -> R) (p : nat -> R -> R) (lo hi sigma : R).
  Hypothesis Hl : lo < hi.
  Hypothesis Hw : forall m, (m < N)%nat -> 0 <= w m.
  Hypothesis Hp : forall m, (m < N)%nat -> sharp_peak (p m) lo hi (en m) sigma.
  Notation D := (fun E => rsum (fun m => w m * p m E) N).
  Lemma sum_average : forall g eps K, 0 <= K -> (forall x y, lo < x < hi -> lo < y < hi -> Rabs (g x - g y) <= eps + K * (x - y) ^ 2) ->
    (forall m, (m < N)%nat -> lo < en m < hi) -> (forall m, (m < N)%nat -> exists v, integral (fun E => g E * p m E) lo hi v) ->
    exists v, integral (fun E => g E * D E) lo hi v /\ Rabs (v - rsum (fun m => w m * g (en m)) N) <= (eps + K * sigma ^ 2) * rsum w N.
  Proof.
    intros g eps K HK Hg He Hv.
    assert (X : forall n, (n <= N)%nat -> exists v, integral (fun E => g E * rsum (fun m => w m * p m E) n) lo hi v /\ Rabs (v - rsum (fun m => w m * g (en m)) n) <= (eps + K * sigma ^ 2) * rsum w n).
    { induction n as [|n IH]; intros Hn.
      - exists 0. cbn [rsum]. split; [apply (integral_ext (fun _ => 0)); [intros; ring|apply integral_0]|]. rewrite Rminus_0_r, Rabs_R0. lra.
      - destruct IH as (v & Iv & Bv); [lia|]. destruct (Hv n ltac:(lia)) as (u & Iu).
        pose proof (peak_average (p n) lo hi (en n) sigma g eps K u Hl (Hp n ltac:(lia)) HK (fun E HE => Hg E (en n) HE (He n ltac:(lia))) Iu) as Bu.
        exists (v + w n * u). cbn [rsum]. split.
        + apply (integral_ext (fun E => g E * rsum (fun m => w m * p m E) n + w n * (g E * p n E))); [intros; ring|]. apply integral_add; [exact Iv|apply integral_scal; exact Iu].
        + replace (v + w n * u - (rsum (fun m => w m * g (en m)) n + w n * g (en n))) with ((v - rsum (fun m => w m * g (en m)) n) + w n * (u - g (en n))) by ring.
          eapply Rle_trans; [apply Rabs_triang|]. rewrite Rabs_mult, (Rabs_pos_eq (w n)) by (apply Hw; lia). pose proof (Hw n ltac:(lia)). nra. }
    apply (X N). lia.
  Qed.
  Lemma sum_window : forall x y d, lo < x -> x < y -> y < hi -> 0 < d ->
    exists v, integral D x y v /\
      rsum (fun m => w m * inside (x + d) (y - d) (en m)) N - (sigma / d) ^ 2 * rsum w N <= v <= rsum (fun m => w m * inside (x - d) (y + d) (en m)) N + (sigma / d) ^ 2 * rsum w N.
  Proof.
    intros x y d H1 H2 H3 Hd. set (q := (sigma / d) ^ 2). assert (0 <= q) by apply pow2_ge_0.
    assert (X : forall n, (n <= N)%nat -> exists v, integral (fun E => rsum (fun m => w m * p m E) n) x y v /\
      rsum (fun m => w m * inside (x + d) (y - d) (en m)) n - q * rsum w n <= v <= rsum (fun m => w m * inside (x - d) (y + d) (en m)) n + q * rsum w n).
    { induction n as [|n IH]; intros Hn.
      - exists 0. cbn [rsum]. split; [apply integral_0|lra].
      - destruct IH as (v & Iv & Bv); [lia|].
        destruct (peak_window (p n) lo hi (en n) sigma x y d (Hp n ltac:(lia)) H1 H2 H3 Hd) as (u & Iu & Ru & Fu & Nu). fold q in Fu, Nu.
        exists (v + w n * u). cbn [rsum]. split; [apply integral_add; [exact Iv|apply integral_scal; exact Iu]|].
        pose proof (Hw n ltac:(lia)) as W.
        assert (A : inside (x + d) (y - d) (en n) - q <= u) by (unfold inside; destruct (Rle_dec (x + d) (en n)); [destruct (Rle_dec (en n) (y - d))|]; [specialize (Nu ltac:(lra))| |]; lra).
        assert (B : u <= inside (x - d) (y + d) (en n) + q) by (unfold inside; destruct (Rle_dec (x - d) (en n)); [destruct (Rle_dec (en n) (y + d))|]; [|specialize (Fu ltac:(lra))|specialize (Fu ltac:(lra))]; lra).
        apply (Rmult_le_compat_l _ _ _ W) in A, B. lra. }
    apply (X N). lia.
  Qed.
End Sum.

(** ** The line of the Jackson kernel times a continuous function can be integrated *)
Lemma line_integrable : forall c M a b E0 g, 0 < a -> continuity g -> exists v, integral (fun E => g E * line c M a b E0 E) (b - a) (b + a) v.
Proof.
  intros c M a b E0 g Ha Cg. pose proof PI_RGT_0.
  apply (integral_angle (fun t => g (b + a * cos t) * (/ PI * (1 + 2 * rsum (fun n => c (S n) * cos (INR (S n) * t) * cos (INR (S n) * acos (sc a b E0))) (M - 1)))) _ a b Ha).
  - apply continuity_mult.
    + apply (continuity_comp (fun t => b + a * cos t) g); [|exact Cg]. apply continuity_plus; [apply continuity_const; intros x y; reflexivity|].
      apply continuity_mult; [apply continuity_const; intros x y; reflexivity|exact continuity_cos].
    + apply continuity_mult; [apply continuity_const; intros x y; reflexivity|]. apply continuity_plus; [apply continuity_const; intros x y; reflexivity|].
      apply continuity_mult; [apply continuity_const; intros x y; reflexivity|].
      apply rsum_continuous. intros n _. apply continuity_mult; [|apply continuity_const; intros x y; reflexivity].
      apply continuity_mult; [apply continuity_const; intros x y; reflexivity|].
      apply (continuity_comp (fun t => INR (S n) * t) cos); [|exact continuity_cos].
      apply continuity_mult; [apply continuity_const; intros x y; reflexivity|apply derivable_continuous; exact derivable_id].
  - intros E HE. unfold line, sc. set (x := (E - b) / a). assert (Hx : -1 < x < 1).
    { unfold x. split; apply (Rmult_lt_reg_r a); auto; unfold Rdiv; rewrite Rmult_assoc, Rinv_l by lra; lra. }
    rewrite cos_acos by lra. replace (b + a * x) with E by (unfold x; field; lra).
    assert (Hp : 0 < 1 - x * x) by nra. pose proof (sqrt_lt_R0 _ Hp). set (S0 := rsum _ _). field. repeat split; lra.
Qed.

(** ** The computed densities on the whole range of energies *)
Lemma scaled_open : forall s E, 0 < s_a s -> s_b s - s_a s < E < s_b s + s_a s -> -1 < scaled s E < 1.
Proof. intros s E Ha HE. unfold scaled. split; apply (Rmult_lt_reg_r (s_a s)); auto; unfold Rdiv; rewrite Rmult_assoc, Rinv_l by lra; lra. Qed.
Section Densities.
  Variables (f : format) (al : algorithm) (lo hi : R) (N : nat) (h : list (list (nat * CX))) (psi : nat -> nat -> CX) (en : nat -> R).
  Hypothesis HB : bounded_hamiltonian N h lo hi.
  Hypothesis HR : can_run N h lo hi al f.
  Hypothesis HE : eigenbasis N (coef h) psi en.
  Notation s := (make_scale lo hi).
  Lemma energies_within : forall k, (k < N)%nat -> lo <= en k <= hi.
  Proof.
    destruct HB as (HN & Hwf & Hh & Hl & Hw). intros k Hk. eapply eigen_within; eauto.
    destruct (all_dec (psi k) N) as [Z|Z]; [|exact Z]. exfalso. pose proof (norm_psi N N psi (orthonormal_of N _ psi en HE) k Hk) as P.
    unfold norm2 in P. rewrite (rsum_0 _ N) in P; [lra|]. intros i Hi. rewrite Z by exact Hi. unfold abs2. cbn. ring.
  Qed.
  Lemma energies_open : forall k, (k < N)%nat -> s_b s - s_a s < en k < s_b s + s_a s.
  Proof.
    intros k Hk. destruct HB as (HN & Hwf & Hh & Hl & Hw). destruct (scale_ok lo hi Hl) as (Ha & _).
    pose proof (scaled_range lo hi (en k) Hl (energies_within k Hk)) as Q. unfold scaled in Q.
    assert (A : (en k - s_b s) / s_a s * s_a s = en k - s_b s) by (field; lra). nra.
  Qed.
  Variable broadening : R.
  Hypothesis Hb : 0 < broadening.
  Theorem peaks : exists num,
    (forall m, (m < N)%nat -> sharp_peak (line (jackson_g num) num (s_a s) (s_b s) (en m)) (s_b s - s_a s) (s_b s + s_a s) (en m) broadening) /\
    (forall idx k i energy, (forall j, In j idx -> (j < N)%nat) -> nth_error idx k = Some i -> (forall E, In E energy -> s_b s - s_a s < E < s_b s + s_a s) ->
       calc_ldos f jackson al lo hi h idx k broadening energy
       = Ok (map (fun E => Some (rsum (fun m => abs2 (psi m i) * line (jackson_g num) num (s_a s) (s_b s) (en m) E) N)) energy)) /\
    (forall r energy, length r = N -> (forall E, In E energy -> s_b s - s_a s < E < s_b s + s_a s) ->
       calc_dos f jackson al lo hi h r broadening energy
       = Ok (map (fun E => Some (rsum (fun m => overlap N psi (vec r) m * line (jackson_g num) num (s_a s) (s_b s) (en m) E) N)) energy)).
  Proof.
    destruct HB as (HN & Hwf & Hh & Hl & Hw). destruct (scale_ok lo hi Hl) as (Ha & _). pose proof energies_within as Hen.
    destruct (required_ok PI (broadening / s_a s) PI_RGT_0 (broadening_pos lo hi broadening Hl Hb)) as (num & En & N2 & N4 & Hnum & _).
    assert (Hx' : forall k0, (k0 < N)%nat -> -1 <= scaled s (en k0) <= 1) by (intros k0 Hk0; pose proof (scaled_range lo hi (en k0) Hl (Hen k0 Hk0)) as Q; lra).
    exists num. split; [|split].
    - intros m Hm. apply jackson_peak; auto.
    - intros idx k i energy Hi Hk Hin. rewrite (ldos_value f jackson al lo hi N h HN Hwf HR Hh idx k i broadening energy num En N2 N4 Hi Hk). f_equal. apply map_ext_in.
      intros E HEl. pose proof (scaled_open s E Ha (Hin E HEl)) as Hx.
      transitivity (density_of (kn_g jackson) s num (fun n => rsum (fun m => abs2 (psi m i) * tcos (scaled s (en m)) n) N) E).
      + unfold density_of. destruct (Rlt_dec 0 (1 - scaled s E * scaled s E)); [|reflexivity]. do 2 f_equal. apply rsum_ext. intros n _. do 3 f_equal.
        rewrite (mu_eigen N _ psi _ (eigen_scaled N (coef h) psi en s HE) Hx'). apply rsum_ext. intros m _.
        rewrite overlap_site; [reflexivity|]. apply Hi. eapply nth_error_In. exact Hk.
      + apply (density_sum (kn_g jackson) s num (fun m => abs2 (psi m i)) (fun m n => tcos (scaled s (en m)) n) N E (fun m => line (jackson_g num) num (s_a s) (s_b s) (en m) E)); [|exact Hx].
        intros m _. apply (density_line jackson_g); auto; [lia|apply jackson_0; exact N2].
    - intros r energy Hlen Hin. rewrite (dos_value f jackson al lo hi N h HN Hwf HR Hh r broadening energy num En N2 N4 Hlen). f_equal. apply map_ext_in.
      intros E HEl. pose proof (scaled_open s E Ha (Hin E HEl)) as Hx.
      transitivity (density_of (kn_g jackson) s num (fun n => rsum (fun m => overlap N psi (vec r) m * tcos (scaled s (en m)) n) N) E).
      + unfold density_of. destruct (Rlt_dec 0 (1 - scaled s E * scaled s E)); [|reflexivity]. do 2 f_equal. apply rsum_ext. intros n _. do 3 f_equal.
        apply (mu_eigen N _ psi _ (eigen_scaled N (coef h) psi en s HE) Hx').
      + apply (density_sum (kn_g jackson) s num (fun m => overlap N psi (vec r) m) (fun m n => tcos (scaled s (en m)) n) N E (fun m => line (jackson_g num) num (s_a s) (s_b s) (en m) E)); [|exact Hx].
        intros m _. apply (density_line jackson_g); auto; [lia|apply jackson_0; exact N2].
  Qed.
End Densities.
