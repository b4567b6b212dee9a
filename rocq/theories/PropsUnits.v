(* C101: the unit of energy and the zero of energy. *)
From Verif Require Import Base Scalar Kpm KpmSpec KpmVec KpmOptimized KpmCheb KpmGram KpmCore KpmEll KpmFinal RSum Cplx Spectral SpectralProofs SpectralLine PropsSpectral ConductivityProofs CovarianceProofs PropsCovariance.
From Coq Require Import Reals Lra Ring.
Local Open Scope R_scope.
Add Ring CXunits : (k_ring CX).
Local Notation csr := (list (list (nat * CX))).
Local Notation dm := (nat -> nat -> CX).

(** ** Specification *)
(** [B] is [A] in another unit of energy with another zero. *)
Definition affine (N : nat) (c v : R) (A B : dm) : Prop :=
  forall i j, (i < N)%nat -> (j < N)%nat -> B i j = kadd (kmul (re c) (A i j)) (if (i =? j)%nat then re v else k0).
(** A density per unit of energy *)
Definition per (c : R) (d : option R) : option R := option_map (fun y => y / c) d.
(** The middle of the bounds is zero or at least a ten thousandth of 1.01 half widths away from it. *)
Definition middle_kept (lo hi : R) : Prop := hi + lo = 0 \/ / 10000 * (101 / 100 * ((hi - lo) / 2)) <= Rabs ((hi + lo) / 2).
(** The full claim *)
Definition C101_claim : Prop := forall kn lo hi N c v (h h' : csr) broadening energy f al f' al' idx k i, offered kn ->
  (0 < N)%nat -> wf_csr N h -> wf_csr N h' -> hermitian N (coef h) -> lo < hi -> 0 < broadening -> 0 < c ->
  can_run N h lo hi al f -> can_run N h' (c * lo + v) (c * hi + v) al' f' -> affine N c v (coef h) (coef h') ->
  (forall j, In j idx -> (j < N)%nat) -> nth_error idx k = Some i ->
  exists ys, length ys = length energy /\
    calc_ldos f kn al lo hi h idx k broadening energy = Ok ys /\
    calc_ldos f' kn al' (c * lo + v) (c * hi + v) h' idx k (c * broadening) (map (fun E => c * E + v) energy) = Ok (map (per c) ys).

(** ** The scaling factors *)
Lemma affine_hermitian : forall N c v A B, affine N c v A B -> hermitian N A -> hermitian N B.
Proof.
  intros N c v A B HB HA i j Hi Hj. rewrite !HB, (kconj_add CX), (kconj_mul CX), re_conj, HA by assumption. f_equal. rewrite (Nat.eqb_sym j i).
  destruct (i =? j)%nat; [apply re_conj|apply kconj_0].
Qed.
Lemma scale_width : forall lo hi c v, s_a (make_scale (c * lo + v) (c * hi + v)) = c * s_a (make_scale lo hi).
Proof. intros. unfold make_scale. cbn [s_a]. ring. Qed.
Lemma scale_middle : forall lo hi, lo < hi -> middle_kept lo hi -> s_b (make_scale lo hi) = / 2 * (hi + lo).
Proof.
  intros lo hi Hl Hm. unfold make_scale, tolerance. cbn [s_b]. set (a := / 2 * (hi - lo) * (1 + / 100)). assert (0 < a) by (unfold a; lra).
  destruct (Rlt_dec _ _) as [L|]; [|reflexivity]. destruct Hm as [Hm|Hm]; [rewrite Hm; ring|]. exfalso.
  unfold Rdiv in L. rewrite Rabs_mult, (Rabs_right (/ a)) in L by (apply Rle_ge, Rlt_le, Rinv_0_lt_compat; assumption).
  apply (Rmult_lt_compat_r a) in L; [|assumption]. rewrite Rmult_assoc, Rinv_l, Rmult_1_r in L by lra.
  replace ((hi + lo) / 2) with (/ 2 * (hi + lo)) in Hm by lra. unfold a in L. lra.
Qed.
Lemma scale_unit : forall lo hi c, lo < hi -> 0 < c -> s_b (make_scale (c * lo) (c * hi)) = c * s_b (make_scale lo hi).
Proof.
  intros lo hi c Hl Hc. unfold make_scale, tolerance. cbn [s_b]. set (a := / 2 * (hi - lo) * (1 + / 100)). assert (0 < a) by (unfold a; lra).
  replace (/ 2 * (c * hi - c * lo) * (1 + / 100)) with (c * a) by (unfold a; ring). replace (/ 2 * (c * hi + c * lo) / (c * a)) with (/ 2 * (hi + lo) / a) by (field; lra).
  destruct (Rlt_dec _ _); ring.
Qed.

Section Units.
  Variables (N : nat) (c v : R) (h h' : csr) (s s' : scale).
  Hypothesis Hc : 0 < c.
  Hypothesis Ha : 0 < s_a s.
  Hypothesis SA : s_a s' = c * s_a s.
  Hypothesis SB : s_b s' = c * s_b s + v.
  Hypothesis HA : affine N c v (coef h) (coef h').
  Local Notation X := (scaled_dense (re (/ s_a s)) (re (s_b s)) (coef h)).
  Local Notation Y := (scaled_dense (re (/ s_a s')) (re (s_b s')) (coef h')).
  Lemma same_scaled : forall i j, (i < N)%nat -> (j < N)%nat -> Y i j = X i j.
  Proof using Hc Ha SA SB HA.
    intros i j Hi Hj. unfold scaled_dense. rewrite HA, SA, SB by assumption. unfold delta.
    assert (I : re (/ s_a s) = kmul (re (/ (c * s_a s))) (re c)) by (rewrite re_mul; f_equal; field; lra). rewrite I.
    assert (P : re (c * s_b s + v) = kadd (kmul (re c) (re (s_b s))) (re v)) by (unfold re; cbn; unfold cx_add, cx_mul; cbn [fst snd]; f_equal; ring). rewrite P.
    destruct (i =? j)%nat; ring.
  Qed.
  Lemma same_carried : carried N (fun i => i) (fun _ => k1) 1 X Y.
  Proof using Hc Ha SA SB HA.
    split; [split; [auto|split; [auto|]]|].
    - intros i _. unfold abs2. cbn. ring.
    - intros i j Hi Hj. rewrite same_scaled by assumption. rewrite kconj_1. change (re 1) with (@k1 CX). ring.
  Qed.
  Lemma same_moments : forall i n, (i < N)%nat -> mu N Y (at_site i) n = mu N X (at_site i) n.
  Proof using Hc Ha SA SB HA. intros i n Hi. rewrite (mu_site_move N (fun i => i) (fun _ => k1) 1 X Y ltac:(ring) same_carried) by assumption. rewrite pow1. ring. Qed.
  Lemma same_vec_moments : forall r n, mu N Y r n = mu N X r n.
  Proof using Hc Ha SA SB HA. intros r n. rewrite (mu_vec_move N (fun i => i) (fun _ => k1) 1 X Y ltac:(ring) same_carried r r) by (intros; ring). rewrite pow1. ring. Qed.
  Lemma same_cheb : forall n i j, (i < N)%nat -> (j < N)%nat -> cheb N Y n i j = cheb N X n i j.
  Proof using Hc Ha SA SB HA. intros n i j Hi Hj. rewrite (cheb_move N (fun i => i) (fun _ => k1) 1 X Y ltac:(ring) same_carried) by assumption. rewrite pow1, kconj_1. change (re 1) with (@k1 CX). ring. Qed.
  Lemma same_energy : forall E, scaled s' (c * E + v) = scaled s E.
  Proof using Hc Ha SA SB. intros E. unfold scaled. rewrite SA, SB. field. lra. Qed.
  Lemma per_density : forall g M m m' E, (forall n, m' n = m n) -> density_of g s' M m' (c * E + v) = per c (density_of g s M m E).
  Proof using Hc Ha SA SB.
    intros g M m m' E Hm. unfold density_of. rewrite same_energy, SA. set (x := scaled s E). destruct (Rlt_dec 0 (1 - x * x)) as [Hx|]; [|reflexivity]. cbn [per option_map]. f_equal.
    rewrite (rsum_ext _ (fun n => weight0 n * m n * g M n * cos (INR n * acos x))) by (intros n _; rewrite Hm; reflexivity).
    assert (0 < sqrt (1 - x * x)) by (apply sqrt_lt_R0; exact Hx). field. repeat split; try lra. pose proof PI_RGT_0. lra.
  Qed.
  Lemma per_greens : forall g M m m' E, (forall n, m' n = m n) -> greens_of g s' M m' (c * E + v) = option_map (fun z => kmul (re (/ c)) z) (greens_of g s M m E).
  Proof using Hc Ha SA SB.
    intros g M m m' E Hm. unfold greens_of, greens_function. rewrite same_energy, SA. set (x := scaled s E). destruct (Rlt_dec 0 (1 - x * x)) as [Hx|]; [|reflexivity]. cbn [option_map]. f_equal.
    rewrite (map_ext (fun n => halved cx_half n (m' n)) (fun n => halved cx_half n (m n))) by (intros n; rewrite Hm; reflexivity).
    assert (0 < sqrt (1 - x * x)) by (apply sqrt_lt_R0; exact Hx).
    assert (Q : mk 0 (- 2 / (c * s_a s) / sqrt (1 - x * x)) = kmul (re (/ c)) (mk 0 (- 2 / s_a s / sqrt (1 - x * x)))).
    { unfold mk, re. cbn. unfold cx_mul. cbn [fst snd]. f_equal; field; lra. }
    rewrite Q. ring.
  Qed.
End Units.

(** ** The densities *)
Section Densities.
  Variables (kn : kernel_def) (lo hi : R) (N : nat) (c v : R) (h h' : csr) (broadening : R) (energy : list R) (f : format) (al : algorithm) (f' : format) (al' : algorithm).
  Hypothesis Hk : offered kn.
  Hypothesis HN : (0 < N)%nat.
  Hypothesis W : wf_csr N h.
  Hypothesis W' : wf_csr N h'.
  Hypothesis Hh : hermitian N (coef h).
  Hypothesis Hl : lo < hi.
  Hypothesis Hb : 0 < broadening.
  Hypothesis Hc : 0 < c.
  Hypothesis Hr : can_run N h lo hi al f.
  Hypothesis Hr' : can_run N h' (c * lo + v) (c * hi + v) al' f'.
  Hypothesis HA : affine N c v (coef h) (coef h').
  Hypothesis SB : s_b (make_scale (c * lo + v) (c * hi + v)) = c * s_b (make_scale lo hi) + v.
  Definition all_densities : Prop :=
    (forall idx k i, (forall j, In j idx -> (j < N)%nat) -> nth_error idx k = Some i ->
     exists ys, length ys = length energy /\
       calc_ldos f kn al lo hi h idx k broadening energy = Ok ys /\
       calc_ldos f' kn al' (c * lo + v) (c * hi + v) h' idx k (c * broadening) (map (fun E => c * E + v) energy) = Ok (map (per c) ys)) /\
    (forall r, length r = N ->
     exists ys, length ys = length energy /\
       calc_dos f kn al lo hi h r broadening energy = Ok ys /\
       calc_dos f' kn al' (c * lo + v) (c * hi + v) h' r (c * broadening) (map (fun E => c * E + v) energy) = Ok (map (per c) ys)) /\
    (forall i j, (i < N)%nat -> (j < N)%nat ->
     exists gs, length gs = length energy /\
       calc_greens f kn al lo hi h i j broadening energy = Ok gs /\
       calc_greens f' kn al' (c * lo + v) (c * hi + v) h' i j (c * broadening) (map (fun E => c * E + v) energy) = Ok (map (option_map (fun z => kmul (re (/ c)) z)) gs)).
  Lemma densities : all_densities.
  Proof using All.
    destruct (offered_moments kn _ Hk (broadening_pos lo hi broadening Hl Hb)) as (num & En & N2 & N4).
    pose proof (affine_hermitian N c v _ _ HA Hh) as Hh'. destruct (scale_ok lo hi Hl) as (Ha & _). pose proof (scale_width lo hi c v) as SA.
    assert (En' : kn_required kn (c * broadening / s_a (make_scale (c * lo + v) (c * hi + v))) = Ok num).
    { rewrite SA. replace (c * broadening / (c * s_a (make_scale lo hi))) with (broadening / s_a (make_scale lo hi)) by (field; lra). exact En. }
    split; [|split].
    - intros idx k i Hi Ek.
      eexists. split; [|split; [exact (ldos_value f kn al lo hi N h HN W Hr Hh idx k i broadening energy num En N2 N4 Hi Ek)|]]; [apply map_length|].
      rewrite (ldos_value f' kn al' _ _ N h' HN W' Hr' Hh' idx k i _ (map (fun E => c * E + v) energy) num En' N2 N4 Hi Ek).
      f_equal. rewrite !map_map. apply map_ext. intros E. apply (per_density c v _ _ Hc Ha SA SB).
      intros n. apply (same_moments N c v h h' _ _ Hc Ha SA SB HA). apply Hi. eapply nth_error_In; exact Ek.
    - intros r Lr.
      eexists. split; [|split; [exact (dos_value f kn al lo hi N h HN W Hr Hh r broadening energy num En N2 N4 Lr)|]]; [apply map_length|].
      rewrite (dos_value f' kn al' _ _ N h' HN W' Hr' Hh' r _ (map (fun E => c * E + v) energy) num En' N2 N4 Lr).
      f_equal. rewrite !map_map. apply map_ext. intros E. apply (per_density c v _ _ Hc Ha SA SB).
      intros n. apply (same_vec_moments N c v h h' _ _ Hc Ha SA SB HA).
    - intros i j Hi Hj.
      eexists. split; [|split; [exact (greens_value f kn al lo hi N h i j broadening energy num HN W Hr Hh En N2 N4 Hi Hj)|]]; [apply map_length|].
      rewrite (greens_value f' kn al' _ _ N h' i j _ (map (fun E => c * E + v) energy) num HN W' Hr' Hh' En' N2 N4 Hi Hj).
      f_equal. rewrite !map_map. apply map_ext. intros E. apply (per_greens c v _ _ Hc Ha SA SB).
      intros n. apply (same_cheb N c v h h' _ _ Hc Ha SA SB HA); assumption.
  Qed.
End Densities.

(** Another unit of energy only changes the unit of the results. *)
Theorem C101_units : forall kn lo hi N c (h h' : csr) broadening energy f al f' al', offered kn ->
  (0 < N)%nat -> wf_csr N h -> wf_csr N h' -> hermitian N (coef h) -> lo < hi -> 0 < broadening -> 0 < c ->
  can_run N h lo hi al f -> can_run N h' (c * lo + 0) (c * hi + 0) al' f' -> affine N c 0 (coef h) (coef h') ->
  all_densities kn lo hi N c 0 h h' broadening energy f al f' al'.
Proof.
  intros. apply densities; auto. rewrite !Rplus_0_r. apply scale_unit; assumption.
Qed.
(** Another zero of energy shifts the results, if neither middle is rounded to zero. *)
Theorem C101_partial : forall kn lo hi N c v (h h' : csr) broadening energy f al f' al', offered kn ->
  (0 < N)%nat -> wf_csr N h -> wf_csr N h' -> hermitian N (coef h) -> lo < hi -> 0 < broadening -> 0 < c ->
  can_run N h lo hi al f -> can_run N h' (c * lo + v) (c * hi + v) al' f' -> affine N c v (coef h) (coef h') ->
  middle_kept lo hi -> middle_kept (c * lo + v) (c * hi + v) ->
  all_densities kn lo hi N c v h h' broadening energy f al f' al'.
Proof.
  intros. assert (c * lo + v < c * hi + v) by (apply Rplus_lt_compat_r, Rmult_lt_compat_l; assumption).
  apply densities; auto. rewrite !scale_middle by assumption. field.
Qed.

(** One site at zero energy and the same site at a hundred thousandth: the second density is higher at
    its own site energy, because the middle of the bounds is taken as zero. *)
Lemma single_wf : forall x : CX, wf_csr 1 [[(0%nat, x)]].
Proof.
  intros x. split; [reflexivity|]. split.
  - intros [|[|i]] e He; cbn in He; try contradiction. destruct He as [<-|[]]. cbn. lia.
  - intros [|[|i]]; cbn; repeat constructor; intros [].
Qed.
Lemma single_coef : forall x : CX, coef [[(0%nat, x)]] 0 0 = x.
Proof. intros x. unfold coef, entries. cbn. unfold cx_add. destruct x. cbn. f_equal; ring. Qed.
Lemma single_density : forall lo hi (x : CX) E, lo < hi -> s_a (make_scale lo hi) = 101 / 100 -> (exists v, x = re v) ->
  -1 < scaled (make_scale lo hi) E < 1 ->
  calc_ldos Csr dirichlet plain lo hi [[(0%nat, x)]] [0%nat] 0 (8 * (101 / 100)) [E]
  = Ok [Some (2 / PI / (101 / 100) / sqrt (1 - scaled (make_scale lo hi) E * scaled (make_scale lo hi) E) * (/ 2 + (fst x - s_b (make_scale lo hi)) / (101 / 100) * scaled (make_scale lo hi) E))].
Proof.
  intros lo hi x E Hl A (v & ->) Hx.
  assert (HPI : 0 < PI <= 4) by (split; [exact PI_RGT_0|exact PI_4]).
  assert (RQ : kn_required dirichlet (8 * (101 / 100) / s_a (make_scale lo hi)) = Ok 2%nat).
  { rewrite A. replace (8 * (101 / 100) / (101 / 100)) with 8 by field. cbn [kn_required dirichlet].
    apply (required_small PI 8 0 ltac:(lra) ltac:(lra) ltac:(lra) 2%Z). reflexivity. }
  assert (HH : hermitian 1 (coef [[(0%nat, re v)]])).
  { intros [|i] [|j] Hi Hj; try lia. rewrite single_coef. solve [apply re_conj | symmetry; apply re_conj]. }
  rewrite (ldos_value Csr dirichlet plain lo hi 1 [[(0%nat, re v)]] ltac:(lia) (single_wf _) (plain_runs _ _ _ _) HH [0%nat] 0 0 _ [E] 2 RQ ltac:(lia) ltac:(reflexivity)).
  2:{ intros j [<-|[]]. lia. }
  2:{ reflexivity. }
  cbn [map]. unfold density_of. set (s := make_scale lo hi) in *. set (y := scaled s E) in *. destruct (Rlt_dec 0 (1 - y * y)) as [_|F].
  2:{ exfalso. apply F. replace (1 - y * y) with ((1 - y) * (1 + y)) by ring. apply Rmult_lt_0_compat; lra. }
  do 3 f_equal. rewrite A. f_equal. cbn [rsum weight0 kn_g dirichlet]. change (INR 0) with 0. change (INR 1) with 1.
  rewrite !Rmult_1_l, Rmult_0_l, cos_0, cos_acos by lra.
  unfold mu. rewrite !mu_site by lia. cbn [cheb]. unfold scaled_dense, delta. cbn [Nat.eqb]. rewrite single_coef.
  cbn. unfold re. cbn [fst snd]. field.
Qed.
Theorem C101_refuted : ~ C101_claim.
Proof.
  intros C. set (v := / 100000).
  destruct (C dirichlet (-1) 1 1%nat 1 v [[(0%nat, re 0)]] [[(0%nat, re v)]] (8 * (101 / 100)) [0] Csr plain Csr plain [0%nat] 0%nat 0%nat) as (ys & _ & E1 & E2); try lra; try lia.
  - right. reflexivity.
  - apply single_wf.
  - apply single_wf.
  - intros [|i] [|j] Hi Hj; try lia. rewrite single_coef. solve [apply re_conj | symmetry; apply re_conj].
  - apply plain_runs.
  - apply plain_runs.
  - intros [|i] [|j] Hi Hj; try lia. rewrite !single_coef. cbn [Nat.eqb]. cbn. unfold cx_add, cx_mul, re. cbn [fst snd]. f_equal; ring.
  - intros j [<-|[]]. lia.
  - reflexivity.
  - assert (S1 : make_scale (-1) 1 = Scale (101 / 100) 0) by exact scale_1.
    assert (S2 : make_scale (1 * -1 + v) (1 * 1 + v) = Scale (101 / 100) 0).
    { unfold make_scale, tolerance. f_equal; [unfold v; lra|]. destruct (Rlt_dec _ _) as [|F]; [reflexivity|]. exfalso. apply F.
      replace (/ 2 * (1 * 1 + v + (1 * -1 + v)) / (/ 2 * (1 * 1 + v - (1 * -1 + v)) * (1 + / 100))) with (v * / (101 / 100)) by (field; lra).
      rewrite Rabs_right; unfold v; lra. }
    rewrite (single_density (-1) 1 (re 0) 0) in E1; [|lra|rewrite S1; reflexivity|exists 0; reflexivity|rewrite S1; unfold scaled; cbn [s_a s_b]; lra].
    injection E1 as <-. cbn [map] in E2. replace (1 * (8 * (101 / 100))) with (8 * (101 / 100)) in E2 by ring.
    rewrite (single_density (1 * -1 + v) (1 * 1 + v) (re v) (1 * 0 + v)) in E2; [|lra|rewrite S2; reflexivity|exists v; reflexivity|rewrite S2; unfold scaled; cbn [s_a s_b]; unfold v; lra].
    rewrite S1, S2 in E2. unfold scaled in E2. cbn [s_a s_b per option_map] in E2. injection E2 as E2. cbn [fst re] in E2.
    replace (1 * 0 + v - 0) with v in E2 by ring. replace (v - 0) with v in E2 by ring. set (x := v / (101 / 100)) in *.
    assert (X : 0 < x < 1) by (unfold x, v; lra).
    replace (0 - 0) with 0 in E2 by ring. replace (0 / (101 / 100)) with 0 in E2 by field. rewrite !Rmult_0_r, Rminus_0_r, sqrt_1 in E2.
    assert (XX : 0 < x * x) by (apply Rmult_lt_0_compat; lra). assert (XY : x * x < 1).
    { rewrite <- (Rmult_1_l 1). apply Rmult_le_0_lt_compat; lra. }
    set (q := sqrt (1 - x * x)) in *. assert (Q0 : 0 < q) by (apply sqrt_lt_R0; lra).
    assert (Q1 : q < 1). { apply (Rlt_le_trans _ (sqrt 1)); [apply sqrt_lt_1; lra|rewrite sqrt_1; lra]. }
    pose proof PI_RGT_0 as HP.
    apply (f_equal (fun z => z * (PI * (101 / 100) * q))) in E2.
    replace (2 / PI / (101 / 100) / q * (/ 2 + x * x) * (PI * (101 / 100) * q)) with (1 + 2 * (x * x)) in E2 by (field; lra).
    replace (2 / PI / (101 / 100) / 1 * (/ 2 + 0) / 1 * (PI * (101 / 100) * q)) with q in E2 by (field; lra). lra.
Qed.

(** Electronvolts and milli-electronvolts, and a shift by a tenth. *)
Example C101_example :
  middle_kept (-1) 1 /\ middle_kept (1000 * -1 + 100) (1000 * 1 + 100) /\ ~ middle_kept (-1 + / 100000) (1 + / 100000) /\
  affine 2 1000 100 (coef dimer) (coef [[(0%nat, re 100); (1%nat, re (-1000))]; [(0%nat, re (-1000)); (1%nat, re 100)]]).
Proof.
  split; [left; ring|]. split; [right; rewrite Rabs_right; lra|]. split.
  - intros [F|F]; [lra|]. rewrite Rabs_right in F; lra.
  - intros i j Hi Hj. destruct i as [|[|i]], j as [|[|j]]; try lia; unfold coef, entries, dimer; cbn; unfold cx_add, cx_mul, re; cbn [fst snd]; f_equal; ring.
Qed.
