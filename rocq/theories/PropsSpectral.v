(* C52-C55: spectral functions reconstructed from Chebyshev moments. *)
From Verif Require Import Base Scalar Kpm KpmSpec KpmCheb KpmGram KpmCore KpmEll KpmFinal RSum Cplx RInt Spectral SpectralProofs SpectralLine SpectralKubo.
From Coq Require Import Reals Lra Ring.
Local Open Scope R_scope.
Add Ring CXring3 : (k_ring CX).

(** A Hermitian matrix in compressed rows whose energies lie between [lo] and [hi]:
    lo <v|v> <= <v|H|v> <= hi <v|v> for every vector. *)
Definition bounded_hamiltonian (N : nat) (h : list (list (nat * CX))) (lo hi : R) : Prop :=
  (0 < N)%nat /\ wf_csr N h /\ hermitian N (coef h) /\ lo < hi /\
  forall v : nat -> CX, lo * rsum (fun i => abs2 (v i)) N <= fst (braket N v (coef h) v) <= hi * rsum (fun i => abs2 (v i)) N.
Definition can_run (N : nat) (h : list (list (nat * CX))) (lo hi : R) (al : algorithm) (f : format) : Prop :=
  usable CX (re (/ s_a (make_scale lo hi))) (re (s_b (make_scale lo hi))) N h al f.

(** ** C52: densities of states are not negative *)
Definition smoothing (kn : kernel_def) : Prop := kn = jackson \/ exists lambda, lorentz lambda = Ok kn.

Lemma smoothing_positive : forall kn, smoothing kn -> positive_kernel (kn_g kn).
Proof.
  intros kn [->|(l & E)]; [exact jackson_positive|]. unfold lorentz in E. destruct (Rle_dec l 0); [discriminate|]. injection E as <-. cbn. apply lorentz_positive. lra.
Qed.
Definition offered (kn : kernel_def) : Prop := smoothing kn \/ kn = dirichlet.
Lemma offered_moments : forall kn s, offered kn -> 0 < s ->
  exists n, kn_required kn s = Ok n /\ (2 <= n)%nat /\ ((n - 2) mod 4 = 0)%nat.
Proof.
  intros kn s Hk Hs.
  assert (C : exists c, 0 < c /\ kn_required kn = required c).
  { pose proof PI_RGT_0. destruct Hk as [[->|(l & E)]| ->].
    - exists PI. auto.
    - unfold lorentz in E. destruct (Rle_dec l 0); [discriminate|]. injection E as <-. exists l. split; [lra|reflexivity].
    - exists PI. auto. }
  destruct C as (c & Hc & ->). destruct (required_ok c s Hc Hs) as (n & E & A & B & _). exists n. auto.
Qed.
Lemma offered_all : forall kn, smoothing kn -> offered kn. Proof. left. assumption. Qed.
Lemma broadening_pos : forall lo hi br, lo < hi -> 0 < br -> 0 < br / s_a (make_scale lo hi).
Proof. intros lo hi br H Hb. destruct (scale_ok lo hi H) as (A & _). apply Rdiv_lt_0_compat; assumption. Qed.
Lemma all_some : forall (F : R -> option R) (P : R -> Prop) l, (forall E, In E l -> exists y, F E = Some y /\ P y) ->
  exists ys, map F l = map Some ys /\ Forall P ys.
Proof.
  intros F P l. induction l as [|E l IH]; intros H; [exists []; split; [reflexivity|constructor]|].
  destruct IH as (ys & E1 & E2); [intros; apply H; right; assumption|]. destruct (H E) as (y & Ey & Py); [left; reflexivity|].
  exists (y :: ys). cbn [map]. rewrite E1, Ey. split; [reflexivity|constructor; assumption].
Qed.

Theorem C52_ldos : forall f kn al lo hi N h idx k i broadening energy,
  smoothing kn -> bounded_hamiltonian N h lo hi -> can_run N h lo hi al f -> 0 < broadening ->
  (forall j, In j idx -> (j < N)%nat) -> nth_error idx k = Some i -> (forall E, In E energy -> lo <= E <= hi) ->
  exists ys, calc_ldos f kn al lo hi h idx k broadening energy = Ok (map Some ys) /\ Forall (fun y => 0 <= y) ys.
Proof.
  intros f kn al lo hi N h idx k i br energy Hk (HN & Hwf & Hh & Hl & Hw) Hr Hb Hi Hki HE.
  destruct (offered_moments kn _ (offered_all kn Hk) (broadening_pos lo hi br Hl Hb)) as (num & En & N2 & N4).
  rewrite (ldos_value f kn al lo hi N h HN Hwf Hr Hh idx k i br energy num En N2 N4 Hi Hki).
  destruct (scale_ok lo hi Hl) as (Ha & _).
  destruct (all_some (density_of (kn_g kn) (make_scale lo hi) num (mu N (scaled_dense (re (/ s_a (make_scale lo hi))) (re (s_b (make_scale lo hi))) (coef h)) (at_site i))) (fun y => 0 <= y) energy) as (ys & E1 & E2).
  - intros E HEl. apply density_nonneg; auto.
    + apply smoothing_positive. exact Hk.
    + apply X_hermitian. exact Hh.
    + apply X_within; auto.
    + apply scaled_range; auto.
  - exists ys. rewrite E1. auto.
Qed.
Theorem C52_dos : forall f kn al lo hi N h r broadening energy,
  smoothing kn -> bounded_hamiltonian N h lo hi -> can_run N h lo hi al f -> 0 < broadening ->
  length r = N -> (forall E, In E energy -> lo <= E <= hi) ->
  exists ys, calc_dos f kn al lo hi h r broadening energy = Ok (map Some ys) /\ Forall (fun y => 0 <= y) ys.
Proof.
  intros f kn al lo hi N h r br energy Hk (HN & Hwf & Hh & Hl & Hw) Hr Hb Hlen HE.
  destruct (offered_moments kn _ (offered_all kn Hk) (broadening_pos lo hi br Hl Hb)) as (num & En & N2 & N4).
  rewrite (dos_value f kn al lo hi N h HN Hwf Hr Hh r br energy num En N2 N4 Hlen).
  destruct (scale_ok lo hi Hl) as (Ha & _).
  destruct (all_some (density_of (kn_g kn) (make_scale lo hi) num (mu N (scaled_dense (re (/ s_a (make_scale lo hi))) (re (s_b (make_scale lo hi))) (coef h)) (vec r))) (fun y => 0 <= y) energy) as (ys & E1 & E2).
  - intros E HEl. apply density_nonneg; auto.
    + apply smoothing_positive. exact Hk.
    + apply X_hermitian. exact Hh.
    + apply X_within; auto.
    + apply scaled_range; auto.
  - exists ys. rewrite E1. auto.
Qed.

(** *** Examples *)
Definition plain : algorithm := Algorithm false false.
(** Two sites with hopping -1: energies -1 and 1. *)
Definition dimer : list (list (nat * CX)) := [[(1%nat, re (-1))]; [(0%nat, re (-1))]].
Lemma plain_runs : forall N h lo hi, can_run N h lo hi plain Csr.
Proof. intros. split; [discriminate|intros; discriminate]. Qed.
Lemma dimer_ok : bounded_hamiltonian 2 dimer (-1) 1.
Proof.
  split; [lia|]. split.
  { split; [reflexivity|]. split.
    - intros [|[|[|i]]] e He; cbn in He; try contradiction; destruct He as [<-|[]]; cbn; lia.
    - intros [|[|[|i]]]; cbn; repeat constructor; intros []. }
  split.
  { intros [|[|i]] [|[|j]] Hi Hj; try lia; cbn; unfold cx_conj, cx_add, re; cbn; f_equal; ring. }
  split; [lra|]. intros v. unfold braket, coef, entries, dimer. cbn. unfold abs2. destruct (v 0%nat) as [p q]. destruct (v 1%nat) as [u w]. cbn [fst snd].
  pose proof (Rle_0_sqr (p - u)). pose proof (Rle_0_sqr (p + u)). pose proof (Rle_0_sqr (q - w)). pose proof (Rle_0_sqr (q + w)). unfold Rsqr in *. split; lra.
Qed.
Lemma dimer_eigen : eigenbasis 2 (coef dimer) (fun k i => match k, i with 1%nat, 1%nat => re (- / sqrt 2) | _, _ => re (/ sqrt 2) end) (fun k => match k with 0%nat => -1 | _ => 1 end).
Proof.
  assert (S2 : / sqrt 2 * / sqrt 2 = / 2).
  { assert (sqrt 2 * sqrt 2 = 2) by (apply sqrt_sqrt; lra). assert (sqrt 2 <> 0) by (intros Z; rewrite Z in *; lra). rewrite <- Rinv_mult by assumption. congruence. }
  split.
  - intros [|[|k]] [|[|i]] Hk Hi; try lia; cbn; unfold cx_mul, cx_add, re; cbn; f_equal; ring.
  - intros [|[|i]] [|[|j]] Hi Hj; try lia; cbn; unfold cx_mul, cx_add, cx_conj, re; cbn; set (q := / sqrt 2) in *; f_equal; try ring; lra.
Qed.
Lemma required_small : forall c s z, 0 < c -> 0 < s -> IZR z <= c / s < IZR z + 1 -> forall n, round_num_moments (z + 1) = Some n -> required c s = Ok (Z.to_nat n).
Proof.
  intros c s z Hc Hs Hz n E. unfold required. destruct (Req_EM_T s 0); [lra|].
  assert (Hq : 0 < c / s) by (apply Rdiv_lt_0_compat; assumption).
  destruct (trunc_range (c / s) (Rlt_le _ _ Hq)) as (_ & T1 & T2).
  assert (A : trunc (c / s) = z).
  { assert (IZR z < IZR (trunc (c / s)) + 1) by lra. assert (IZR (trunc (c / s)) < IZR z + 1) by lra. rewrite <- plus_IZR in *. apply lt_IZR in H, H0. lia. }
  rewrite A, E. reflexivity.
Qed.
Lemma scale_1 : make_scale (-1) 1 = Scale (101 / 100) 0.
Proof.
  unfold make_scale, tolerance. f_equal; [lra|]. replace (/ 2 * (1 + -1)) with 0 by lra. unfold Rdiv. rewrite Rmult_0_l, Rabs_R0. destruct (Rlt_dec _ _); [reflexivity|lra].
Qed.
(** The density at the middle of the band of the dimer with two moments. *)
Example C52_example :
  bounded_hamiltonian 2 dimer (-1) 1 /\ can_run 2 dimer (-1) 1 plain Csr /\
  calc_ldos Csr jackson plain (-1) 1 dimer [0%nat] 0 (8 * (101 / 100)) [0] = Ok [Some (100 / 101 / PI)].
Proof.
  pose proof dimer_ok as OK. split; [exact OK|]. split; [apply plain_runs|]. destruct OK as (HN & Hwf & Hh & Hl & Hw).
  assert (HPI : 0 < PI <= 4) by (split; [exact PI_RGT_0|exact PI_4]).
  assert (RQ : kn_required jackson (8 * (101 / 100) / s_a (make_scale (-1) 1)) = Ok 2%nat).
  { rewrite scale_1. cbn [s_a]. replace (8 * (101 / 100) / (101 / 100)) with 8 by field. cbn [kn_required jackson].
    apply (required_small PI 8 0 ltac:(lra) ltac:(lra) ltac:(lra) 2%Z). reflexivity. }
  rewrite (ldos_value Csr jackson plain (-1) 1 2 dimer HN Hwf (plain_runs _ _ _ _) Hh [0%nat] 0 0 _ [0] 2 RQ ltac:(lia) ltac:(reflexivity)).
  2:{ intros j [<-|[]]. lia. }
  2:{ reflexivity. }
  rewrite scale_1. cbn [map s_a s_b]. unfold density_of, scaled. cbn [s_a s_b].
  replace ((0 - 0) / (101 / 100)) with 0 by field. destruct (Rlt_dec 0 (1 - 0 * 0)); [|lra]. do 3 f_equal.
  replace (1 - 0 * 0) with 1 by ring. rewrite sqrt_1, acos_0. cbn [rsum weight0 kn_g jackson]. change (INR 0) with 0. change (INR 1) with 1.
  rewrite !Rmult_1_l, Rmult_0_l, cos_0, cos_PI2, jackson_0 by lia.
  assert (M0 : mu 2 (scaled_dense (re (/ (101 / 100))) (re 0) (coef dimer)) (at_site 0) 0 = 1).
  { unfold mu, mom, inner. cbn. ring. }
  rewrite M0. field. lra.
Qed.

(** The Dirichlet kernel gives negative densities: one site at energy zero, six moments. *)
Lemma site_ok : bounded_hamiltonian 1 [[]] (-1) 1.
Proof.
  split; [lia|]. split.
  { split; [reflexivity|]. split; intros [|[|i]]; cbn; try contradiction; constructor. }
  split; [intros [|i] [|j] Hi Hj; try lia; cbn; unfold cx_conj; cbn; f_equal; ring|]. split; [lra|].
  intros v. unfold braket, coef, entries. cbn. unfold abs2. destruct (v 0%nat) as [p q]. cbn [fst snd]. nra.
Qed.
Theorem C52_dirichlet_refuted : exists f al lo hi N h idx k i broadening E y,
  bounded_hamiltonian N h lo hi /\ can_run N h lo hi al f /\ 0 < broadening /\ (forall j, In j idx -> (j < N)%nat) /\ nth_error idx k = Some i /\ lo <= E <= hi /\
  calc_ldos f dirichlet al lo hi h idx k broadening [E] = Ok [Some y] /\ y < 0.
Proof.
  pose proof site_ok as OK. set (a := 101 / 100). set (x := cos (PI / 4)). pose proof PI_RGT_0 as HPI.
  assert (Hxx : x * x = / 2). { unfold x. rewrite cos_PI4. assert (sqrt 2 * sqrt 2 = 2) by (apply sqrt_sqrt; lra). assert (sqrt 2 <> 0) by (intros Z; rewrite Z in *; lra). replace (1 / sqrt 2 * (1 / sqrt 2)) with (/ (sqrt 2 * sqrt 2)) by (field; assumption). congruence. }
  assert (Hx : 0 < x) by (apply cos_gt_0; lra). assert (Hx1 : x < 3 / 4) by nra.
  exists Csr, plain, (-1), 1, 1%nat, [[]], [0%nat], 0%nat, 0%nat, (PI / (7 / 2) * a), (a * x).
  assert (RQ : kn_required dirichlet (PI / (7 / 2) * a / s_a (make_scale (-1) 1)) = Ok 6%nat).
  { rewrite scale_1. cbn [s_a]. replace (PI / (7 / 2) * a / (101 / 100)) with (PI / (7 / 2)) by (unfold a; field). cbn [kn_required dirichlet].
    assert (Q : PI / (PI / (7 / 2)) = 7 / 2) by (field; lra). apply (required_small PI (PI / (7 / 2)) 3 ltac:(lra) ltac:(lra) ltac:(rewrite Q; lra) 6%Z). reflexivity. }
  exists (- (2 / PI / a / sqrt (1 - x * x) * / 2)).
  split; [exact OK|]. split; [apply plain_runs|]. split; [unfold a; lra|]. split; [intros j [<-|[]]; lia|]. split; [reflexivity|]. split; [unfold a; lra|].
  destruct OK as (HN & Hwf & Hh & Hl & Hw). assert (Hp : 0 < 1 - x * x) by lra. pose proof (sqrt_lt_R0 _ Hp) as Hs. split.
  - rewrite (ldos_value Csr dirichlet plain (-1) 1 1 [[]] HN Hwf (plain_runs _ _ _ _) Hh [0%nat] 0 0 _ [a * x] 6 RQ ltac:(lia) ltac:(reflexivity)).
    2:{ intros j [<-|[]]. lia. }
    2:{ reflexivity. }
    rewrite scale_1. cbn [map s_a s_b]. unfold density_of, scaled. cbn [s_a s_b]. replace ((a * x - 0) / (101 / 100)) with x by (unfold a; field).
    destruct (Rlt_dec 0 (1 - x * x)); [|contradiction]. do 3 f_equal.
    assert (EB : eigenbasis 1 (scaled_dense (re (/ (101 / 100))) (re 0) (coef [[]])) (fun _ _ => k1) (fun _ => 0)).
    { split.
      - intros [|k] [|i] Hk Hi; try lia. cbn. unfold cx_mul, cx_add, cx_sub, cx_opp, re. cbn. unfold cx_opp. cbn. f_equal; ring.
      - intros [|i] [|j] Hi Hj; try lia. cbn. unfold cx_mul, cx_add, cx_conj. cbn. f_equal; ring. }
    assert (EM : forall n, mu 1 (scaled_dense (re (/ (101 / 100))) (re 0) (coef [[]])) (at_site 0) n = tcos 0 n).
    { intros n. rewrite (mu_eigen 1 _ (fun _ _ => k1) (fun _ => 0) EB) by (intros; lra). cbn [rsum]. rewrite (overlap_site 1 (fun _ _ => k1)) by lia. unfold abs2. cbn. ring. }
    assert (T0 : tcos 0 1 = 0) by (apply tcos_1; lra).
    assert (T2 : tcos 0 2 = -1) by (rewrite tcos_SS, T0, tcos_0 by lra; ring).
    assert (T3 : tcos 0 3 = 0) by (rewrite tcos_SS, T2, T0 by lra; ring).
    assert (T4 : tcos 0 4 = 1) by (rewrite tcos_SS, T3, T2 by lra; ring).
    assert (T5 : tcos 0 5 = 0) by (rewrite tcos_SS, T4, T3 by lra; ring).
    assert (S1 : tcos x 1 = x) by (apply tcos_1; lra).
    assert (S2 : tcos x 2 = 0) by (rewrite tcos_SS, S1, tcos_0 by lra; lra).
    assert (S3 : tcos x 3 = - x) by (rewrite tcos_SS, S2, S1 by lra; ring).
    assert (S4 : tcos x 4 = -1) by (rewrite tcos_SS, S3, S2 by lra; lra).
    cbn [rsum weight0 kn_g dirichlet]. fold (tcos x 0) (tcos x 1) (tcos x 2) (tcos x 3) (tcos x 4) (tcos x 5).
    rewrite !EM, T0, T2, T3, T4, T5, S2, S4, !tcos_0. unfold a. field. lra.
  - assert (0 < 2 / PI / a / sqrt (1 - x * x) * / 2); [|lra]. apply Rmult_lt_0_compat; [|lra]. apply Rdiv_lt_0_compat; [|exact Hs]. apply Rdiv_lt_0_compat; [|unfold a; lra]. apply Rdiv_lt_0_compat; lra.
Qed.

(** ** C53: with the Jackson kernel every state appears as a peak of area one whose spread is below
    the requested broadening *)
Record sharp_peak (peak : R -> R) (lo hi E0 broadening : R) : Prop := {
  peak_nonneg : forall E, lo < E < hi -> 0 <= peak E;
  peak_area : integral peak lo hi 1;
  peak_spread : exists v, integral (fun E => (E - E0) ^ 2 * peak E) lo hi v /\ v < broadening ^ 2
}.

Lemma jackson_peak : forall lo hi broadening num E0, lo < hi -> 0 < broadening -> lo <= E0 <= hi -> (2 <= num)%nat ->
  PI / (broadening / s_a (make_scale lo hi)) < INR num ->
  let s := make_scale lo hi in
  sharp_peak (line (jackson_g num) num (s_a s) (s_b s) E0) (s_b s - s_a s) (s_b s + s_a s) E0 broadening.
Proof.
  intros lo hi br num E0 Hl Hb H0 Hn Hnum s. destruct (scale_ok lo hi Hl) as (Ha & _). fold s in Ha, Hnum.
  pose proof (scaled_range lo hi E0 Hl H0) as Hy. fold s in Hy. change (scaled s E0) with (sc (s_a s) (s_b s) E0) in Hy.
  constructor.
  - intros E HE. apply line_nonneg; auto. lra.
  - apply line_area; auto.
  - eexists. split; [apply line_width; auto; [apply jackson_last; exact Hn|lra]|].
    pose proof (jackson_spread num Hn (sc (s_a s) (s_b s) E0)) as W. set (t := PI / (INR num + 1)) in *.
    set (v := / 2 * (1 - jackson_g num 2) + _) in *. pose proof PI_RGT_0. pose proof (pos_INR num).
    assert (T : s_a s * t < br).
    { unfold t. apply (Rmult_lt_reg_r (INR num + 1)); [lra|]. replace (s_a s * (PI / (INR num + 1)) * (INR num + 1)) with (s_a s * PI) by (field; lra).
      apply (Rmult_lt_compat_l br) in Hnum; [|exact Hb]. replace (br * (PI / (br / s_a s))) with (s_a s * PI) in Hnum by (field; lra). lra. }
    assert (P : 0 < t) by (apply Rdiv_lt_0_compat; lra). assert (0 < s_a s * t) by (apply Rmult_lt_0_compat; assumption).
    assert (s_a s * s_a s * v < s_a s * s_a s * (t * t)) by (apply Rmult_lt_compat_l; [apply Rmult_lt_0_compat; assumption|exact W]). nra.
Qed.

(** [psi k] and [en k]: states and energies of the Hamiltonian. *)
Theorem C53_ldos : forall f al lo hi N h psi en broadening,
  (0 < N)%nat -> wf_csr N h -> hermitian N (coef h) -> lo < hi -> can_run N h lo hi al f -> 0 < broadening ->
  eigenbasis N (coef h) psi en -> (forall k, (k < N)%nat -> lo <= en k <= hi) ->
  let s := make_scale lo hi in
  exists peak : R -> R -> R,
    (forall idx k i energy, (forall j, In j idx -> (j < N)%nat) -> nth_error idx k = Some i -> (forall E, In E energy -> lo <= E <= hi) ->
       calc_ldos f jackson al lo hi h idx k broadening energy = Ok (map (fun E => Some (rsum (fun m => abs2 (psi m i) * peak (en m) E) N)) energy)) /\
    (forall m, (m < N)%nat -> sharp_peak (peak (en m)) (s_b s - s_a s) (s_b s + s_a s) (en m) broadening).
Proof.
  intros f al lo hi N h psi en br HN Hwf Hh Hl Hr Hb HE Hen s. destruct (scale_ok lo hi Hl) as (Ha & _). fold s in Ha.
  destruct (required_ok PI (br / s_a s) PI_RGT_0 (broadening_pos lo hi br Hl Hb)) as (num & En & N2 & N4 & Hnum & _).
  exists (line (jackson_g num) num (s_a s) (s_b s)). split.
  - intros idx k i energy Hi Hk Hin. rewrite (ldos_value f jackson al lo hi N h HN Hwf Hr Hh idx k i br energy num En N2 N4 Hi Hk). f_equal. apply map_ext_in.
    intros E HEl. fold s. pose proof (scaled_range lo hi E Hl (Hin E HEl)) as Hx. fold s in Hx.
    assert (Hx' : forall k0, (k0 < N)%nat -> -1 <= scaled s (en k0) <= 1) by (intros k0 Hk0; pose proof (scaled_range lo hi (en k0) Hl (Hen k0 Hk0)) as Q; fold s in Q; lra).
    transitivity (density_of (kn_g jackson) s num (fun n => rsum (fun m => abs2 (psi m i) * tcos (scaled s (en m)) n) N) E).
    + unfold density_of. destruct (Rlt_dec 0 (1 - scaled s E * scaled s E)); [|reflexivity]. do 2 f_equal. apply rsum_ext. intros n _. do 3 f_equal.
      rewrite (mu_eigen N _ psi _ (eigen_scaled N (coef h) psi en s HE) Hx'). apply rsum_ext. intros m _.
      rewrite overlap_site; [reflexivity|]. apply Hi. eapply nth_error_In. exact Hk.
    + apply (density_sum (kn_g jackson) s num (fun m => abs2 (psi m i)) (fun m n => tcos (scaled s (en m)) n) N E (fun m => line (jackson_g num) num (s_a s) (s_b s) (en m) E)); [|exact Hx].
      intros m _. apply (density_line jackson_g); auto; [lia|apply jackson_0; exact N2].
  - intros m Hm. apply jackson_peak; auto.
Qed.
(** The same for the contribution of a random vector to the density of states. *)
Theorem C53_dos : forall f al lo hi N h psi en broadening,
  (0 < N)%nat -> wf_csr N h -> hermitian N (coef h) -> lo < hi -> can_run N h lo hi al f -> 0 < broadening ->
  eigenbasis N (coef h) psi en -> (forall k, (k < N)%nat -> lo <= en k <= hi) ->
  let s := make_scale lo hi in
  exists peak : R -> R -> R,
    (forall r energy, length r = N -> (forall E, In E energy -> lo <= E <= hi) ->
       calc_dos f jackson al lo hi h r broadening energy
       = Ok (map (fun E => Some (rsum (fun m => abs2 (ksum (fun i => kmul (kconj (psi m i)) (nth i r k0)) (seq 0 N)) * peak (en m) E) N)) energy)) /\
    (forall m, (m < N)%nat -> sharp_peak (peak (en m)) (s_b s - s_a s) (s_b s + s_a s) (en m) broadening).
Proof.
  intros f al lo hi N h psi en br HN Hwf Hh Hl Hr Hb HE Hen s. destruct (scale_ok lo hi Hl) as (Ha & _). fold s in Ha.
  destruct (required_ok PI (br / s_a s) PI_RGT_0 (broadening_pos lo hi br Hl Hb)) as (num & En & N2 & N4 & Hnum & _).
  exists (line (jackson_g num) num (s_a s) (s_b s)). split.
  - intros r energy Hlen Hin. rewrite (dos_value f jackson al lo hi N h HN Hwf Hr Hh r br energy num En N2 N4 Hlen). f_equal. apply map_ext_in.
    intros E HEl. fold s. pose proof (scaled_range lo hi E Hl (Hin E HEl)) as Hx. fold s in Hx.
    assert (Hx' : forall k0, (k0 < N)%nat -> -1 <= scaled s (en k0) <= 1) by (intros k0 Hk0; pose proof (scaled_range lo hi (en k0) Hl (Hen k0 Hk0)) as Q; fold s in Q; lra).
    transitivity (density_of (kn_g jackson) s num (fun n => rsum (fun m => overlap N psi (vec r) m * tcos (scaled s (en m)) n) N) E).
    + unfold density_of. destruct (Rlt_dec 0 (1 - scaled s E * scaled s E)); [|reflexivity]. do 2 f_equal. apply rsum_ext. intros n _. do 3 f_equal.
      apply (mu_eigen N _ psi _ (eigen_scaled N (coef h) psi en s HE) Hx').
    + apply (density_sum (kn_g jackson) s num (fun m => overlap N psi (vec r) m) (fun m n => tcos (scaled s (en m)) n) N E (fun m => line (jackson_g num) num (s_a s) (s_b s) (en m) E)); [|exact Hx].
      intros m _. apply (density_line jackson_g); auto; [lia|apply jackson_0; exact N2].
  - intros m Hm. apply jackson_peak; auto.
Qed.
(** The weights of all states at a site add up to one, so the local density has area one. *)
Theorem C53_weights : forall N H psi en i, eigenbasis N H psi en -> (i < N)%nat -> rsum (fun m => abs2 (psi m i)) N = 1.
Proof.
  intros N H psi en i (_ & C) Hi. pose proof (f_equal fst (C i i Hi Hi)) as E. rewrite fst_sum in E. unfold delta in E. rewrite Nat.eqb_refl in E. cbn in E.
  rewrite <- E. apply rsum_ext. intros m _. unfold abs2. ring.
Qed.
(** The dimer: energies -1 and 1 with equal weight on both sites. *)
Example C53_example : let s := make_scale (-1) 1 in exists peak : R -> R -> R,
  calc_ldos Csr jackson plain (-1) 1 dimer [0%nat; 1%nat] 1 (/ 10) [0; / 2; 1] =
    Ok (map (fun E => Some (/ 2 * peak (-1) E + / 2 * peak 1 E)) [0; / 2; 1]) /\
  sharp_peak (peak (-1)) (s_b s - s_a s) (s_b s + s_a s) (-1) (/ 10) /\ sharp_peak (peak 1) (s_b s - s_a s) (s_b s + s_a s) 1 (/ 10).
Proof.
  destruct dimer_ok as (HN & Hwf & Hh & Hl & _).
  destruct (C53_ldos Csr plain (-1) 1 2 dimer _ _ (/ 10) HN Hwf Hh Hl (plain_runs _ _ _ _) ltac:(lra) dimer_eigen ltac:(intros [|k] _; lra)) as (peak & P1 & P2).
  exists peak. split.
  - rewrite (P1 [0%nat; 1%nat] 1%nat 1%nat); [|intros j [<-|[<-|[]]]; lia|reflexivity|intros E [<-|[<-|[<-|[]]]]; lra].
    f_equal. apply map_ext. intros E. cbn [rsum]. unfold abs2, re. cbn [fst snd].
    assert (S2 : / sqrt 2 * / sqrt 2 = / 2).
    { assert (sqrt 2 * sqrt 2 = 2) by (apply sqrt_sqrt; lra). assert (sqrt 2 <> 0) by (intros Z; rewrite Z in *; lra). rewrite <- Rinv_mult by assumption. congruence. }
    f_equal. rewrite Rmult_opp_opp, S2. ring.
  - split; [apply (P2 0%nat); lia|apply (P2 1%nat); lia].
Qed.

(** ** C54: Green's function and local density agree *)
Lemma diagonal_real : forall N (X : nat -> nat -> CX) i n, hermitian N X -> (i < N)%nat -> snd (cheb N X n i i) = 0.
Proof.
  intros N X i n HX Hi. rewrite <- mu_site by exact Hi. unfold mom.
  assert (E : kconj (inner CX N (at_site i) (cv CX N X (at_site i) n)) = inner CX N (at_site i) (cv CX N X (at_site i) n)).
  { rewrite inner_conj, cv_self by exact HX. reflexivity. }
  apply (f_equal snd) in E. cbn in E. lra.
Qed.
Theorem C54 : forall f kn al lo hi N h i broadening energy, offered kn ->
  (0 < N)%nat -> wf_csr N h -> hermitian N (coef h) -> lo < hi -> can_run N h lo hi al f -> 0 < broadening -> (i < N)%nat ->
  exists gs, calc_greens f kn al lo hi h i i broadening energy = Ok gs /\ length gs = length energy /\
    calc_ldos f kn al lo hi h [i] 0 broadening energy = Ok (map (option_map (fun g => - snd g / PI)) gs).
Proof.
  intros f kn al lo hi N h i br energy Hk HN Hwf Hh Hl Hr Hb Hi. set (s := make_scale lo hi). destruct (scale_ok lo hi Hl) as (Ha & _). fold s in Ha.
  destruct (offered_moments kn _ Hk (broadening_pos lo hi br Hl Hb)) as (num & En & N2 & N4). fold s in En.
  set (X := scaled_dense (re (/ s_a s)) (re (s_b s)) (coef h)). assert (HX : hermitian N X) by (apply scaled_hermitian; exact Hh).
  unfold calc_greens, calc_ldos, can_run in *. fold s in Hr |- *. rewrite En. cbn [obind].
  rewrite (f_greens CX cx_half cx_half_ok _ _ N h HN Hwf al f Hr num i [i] N2 N4 Hi); [|discriminate|intros c [<-|[]]; exact Hi|exact HX].
  destruct (f_ldos CX cx_half cx_half_ok _ _ N h HN Hwf al f Hr num [i] N2 N4 ltac:(discriminate) ltac:(intros c [<-|[]]; exact Hi) HX) as (oh & E & D).
  rewrite E. cbn [obind map]. rewrite (D 0%nat i eq_refl). cbn [obind]. eexists. split; [reflexivity|]. split; [apply map_length|].
  f_equal. rewrite map_map. apply map_ext. intros e. symmetry. apply greens_im; [|lra]. fold X.
  intros m Hm. unfold damped, damp in Hm. apply in_map_iff in Hm. destruct Hm as ((j & v) & <- & Hm). apply in_combine_r in Hm. apply in_map_iff in Hm. destruct Hm as (n & <- & _).
  pose proof (diagonal_real N X i n HX Hi) as Z. cbn [fst snd]. destruct n as [|n]; cbn [halved]; destruct (cheb N X _ i i) as [p q]; cbn in Z; subst q; cbn; ring.
Qed.
Example C54_example : offered jackson /\ (forall lambda, 0 < lambda -> exists kn, lorentz lambda = Ok kn /\ offered kn) /\ offered dirichlet /\
  exists g, calc_greens Csr jackson plain (-1) 1 dimer 0 0 (8 * (101 / 100)) [0] = Ok [Some g] /\ - snd g / PI = 100 / 101 / PI.
Proof.
  split; [left; left; reflexivity|]. split.
  { intros l Hl. unfold lorentz. destruct (Rle_dec l 0) eqn:E; [lra|]. eexists. split; [reflexivity|]. left. right. exists l. unfold lorentz. rewrite E. reflexivity. }
  split; [right; reflexivity|].
  destruct dimer_ok as (HN & Hwf & Hh & Hl & _). destruct C52_example as (_ & _ & D).
  destruct (C54 Csr jackson plain (-1) 1 2 dimer 0 (8 * (101 / 100)) [0] ltac:(left; left; reflexivity) HN Hwf Hh Hl (plain_runs _ _ _ _) ltac:(lra) ltac:(lia)) as (gs & G & L & E).
  rewrite D in E. injection E as E. destruct gs as [|[g|] [|]]; try discriminate. exists g. split; [exact G|]. cbn in E. injection E as E. symmetry. exact E.
Qed.
(** The Lorentz kernel refuses a parameter that is not positive. *)
Theorem C54_lorentz : forall lambda, lorentz lambda = Throw <-> lambda <= 0.
Proof. intros l. unfold lorentz. destruct (Rle_dec l 0); split; intros H; auto; try discriminate; lra. Qed.

(** ** C55: the energy integral of the conductivity *)
(** The documented integrand at a scaled energy. *)
Definition kubo_gamma (en : R) (m n : nat) : CX :=
  kadd (kmul (kmul (mk en (- (INR n * sqrt (1 - en * en)))) (mk (cos (INR n * acos en)) (sin (INR n * acos en)))) (re (cos (INR m * acos en))))
       (kmul (kmul (mk en (INR m * sqrt (1 - en * en))) (mk (cos (INR m * acos en)) (- sin (INR m * acos en)))) (re (cos (INR n * acos en)))).
Definition kubo_integrand (num : nat) (ms : nat -> nat -> CX) (inv_kbt mu en : R) : CX :=
  kmul (re (/ (1 + exp ((en - mu) * inv_kbt)) / (1 - en * en) ^ 2))
       (ksum (fun n => ksum (fun m => kmul (ms m n) (kubo_gamma en m n)) (seq 0 num)) (seq 0 num)).
Definition kubo_expected (lo hi : R) (size num : nat) (ms : nat -> nat -> CX) (kbt mu : R) : CX :=
  let s := make_scale lo hi in
  let x i := scaled s lo + INR i * ((hi - lo) / INR (size - 1) / s_a s) in
  kmul (re (4 / (s_a s * s_a s))) (trapezoid x (fun i => kubo_integrand num ms (s_a s / kbt) (scaled s mu) (x i)) size).
Definition C55_claim : Prop := forall lo hi size num ms kbt mu, lo < hi -> (2 <= size)%nat -> 0 < kbt ->
  kubo_bastin lo hi size num ms kbt mu = Ok (kubo_expected lo hi size num ms kbt mu).

Lemma re_mul2 : forall a b (x : CX), kmul (re a) (kmul (re b) x) = kmul (re (a * b)) x.
Proof. intros. rewrite <- re_mul. ring. Qed.
Lemma gamma_ok : forall en m n, gamma en m n = kubo_gamma en m n.
Proof.
  intros en m n. unfold gamma, g_p, kubo_gamma, expi. rewrite !(Rmult_comm (acos en)).
  set (c := cos (INR n * acos en)). set (d := sin (INR n * acos en)). set (e := cos (INR m * acos en)). set (g := sin (INR m * acos en)). set (q := sqrt (1 - en * en)).
  cbn. unfold cx_mul, cx_add, cx_sub, cx_opp, cx_conj, cx_add, mk, re. cbn. unfold cx_opp. cbn. f_equal; ring.
Qed.
(** What is computed: the trapezoid sum times (size - 1)/size. *)
Theorem C55_partial : forall lo hi size num ms kbt mu, lo < hi -> (2 <= size)%nat -> 0 < kbt ->
  kubo_bastin lo hi size num ms kbt mu = Ok (kmul (re (INR (size - 1) / INR size)) (kubo_expected lo hi size num ms kbt mu)).
Proof.
  intros lo hi size num ms kbt mu Hl Hs Hk. rewrite kubo_value by assumption. f_equal. f_equal. unfold kubo_expected. f_equal.
  unfold trapezoid. destruct (scale_ok lo hi Hl) as (Ha & _). set (s := make_scale lo hi) in *.
  assert (G : forall en, -1 < en < 1 -> kmul (re (fermi_dirac (s_a s / kbt) (scaled s mu) en)) (sum_nm num ms en) = kubo_integrand num ms (s_a s / kbt) (scaled s mu) en).
  { intros en Hen. unfold sum_nm, kubo_integrand, fermi_dirac.
    rewrite (ksum_ext CX _ (fun n => ksum (fun m => kmul (ms m n) (kubo_gamma en m n)) (seq 0 num))) by (intros n _; apply ksum_ext; intros m _; rewrite gamma_ok; reflexivity).
    set (T := ksum _ _). pose proof (exp_pos ((en - scaled s mu) * (s_a s / kbt))). rewrite re_mul2. do 2 f_equal. field. split; nra. }
  apply ksum_ext. intros i Hi. apply in_seq in Hi.
  assert (X : forall j, (j < size)%nat -> -1 < scaled s lo + INR j * ((hi - lo) / INR (size - 1) / s_a s) < 1).
  { intros j Hj. assert (P : 0 < INR (size - 1)) by (apply lt_0_INR; lia). assert (J : INR j <= INR (size - 1)) by (apply le_INR; lia). pose proof (pos_INR j).
    assert (B : lo <= lo + INR j / INR (size - 1) * (hi - lo) <= hi).
    { assert (F : 0 <= INR j / INR (size - 1) <= 1).
      { split; [apply Rmult_le_pos; [lra|left; apply Rinv_0_lt_compat; lra]|]. apply (Rmult_le_reg_r (INR (size - 1))); [exact P|]. unfold Rdiv. rewrite Rmult_assoc, Rinv_l by lra. lra. }
      nra. }
    pose proof (scaled_range lo hi _ Hl B) as Q. fold s in Q. unfold scaled in *.
    replace ((lo - s_b s) / s_a s + INR j * ((hi - lo) / INR (size - 1) / s_a s)) with ((lo + INR j / INR (size - 1) * (hi - lo) - s_b s) / s_a s) by (field; lra). exact Q. }
  rewrite !G by (apply X; lia). reflexivity.
Qed.
Lemma gamma00 : forall en, kubo_gamma en 0 0 = re (2 * en).
Proof.
  intros en. unfold kubo_gamma. change (INR 0) with 0. rewrite !Rmult_0_l, cos_0, sin_0. cbn. unfold cx_mul, cx_add, re. cbn. f_equal; ring.
Qed.
Lemma integrand1 : forall inv_kbt mu en, kubo_integrand 1 (fun _ _ => k1) inv_kbt mu en = re (/ (1 + exp ((en - mu) * inv_kbt)) / (1 - en * en) ^ 2 * (2 * en)).
Proof.
  intros. unfold kubo_integrand, ksum. cbn [seq fold_right]. rewrite gamma00, <- (re_mul (/ (1 + exp ((en - mu) * inv_kbt)) / (1 - en * en) ^ 2) (2 * en)). ring.
Qed.
Lemma half_zero : forall v : CX, Ok (kmul (re (INR (2 - 1) / INR 2)) v) = Ok v -> fst v = 0.
Proof. intros [p q] H. injection H as H _. cbn in H |- *. lra. Qed.
(** The claim fails: two samples and the moment (0, 0) only. *)
Theorem C55_refuted : ~ C55_claim.
Proof.
  intros C. set (ms := fun _ _ : nat => @k1 CX).
  pose proof (C (-1) 1 2%nat 1%nat ms 1 0 ltac:(lra) ltac:(lia) ltac:(lra)) as A.
  rewrite (C55_partial (-1) 1 2 1 ms 1 0) in A by (lra || lia). apply half_zero in A. rename A into E.
  clear C. unfold kubo_expected in E. rewrite scale_1 in E. cbn [s_a s_b] in E. unfold trapezoid, scaled, ksum, ms in E. cbn [seq Nat.sub s_a s_b fold_right INR] in E.
  set (x := 100 / 101).
  replace ((-1 - 0) / (101 / 100) + 0 * ((1 - -1) / 1 / (101 / 100))) with (- x) in E by (unfold x; field).
  replace ((-1 - 0) / (101 / 100) + 1 * ((1 - -1) / 1 / (101 / 100))) with x in E by (unfold x; field).
  replace ((0 - 0) / (101 / 100)) with 0 in E by field. replace (101 / 100 / 1) with (101 / 100) in E by field.
  rewrite !integrand1 in E. assert (Hx : 0 < x < 1) by (unfold x; lra).
  set (u := / (1 + exp ((- x - 0) * (101 / 100))) / (1 - - x * - x) ^ 2) in E. set (v := / (1 + exp ((x - 0) * (101 / 100))) / (1 - x * x) ^ 2) in E.
  cbn in E. unfold x in E.
  assert (F : u = v) by lra. clear E. unfold u, v in F. replace (1 - - x * - x) with (1 - x * x) in F by ring.
  assert (P : 0 < (1 - x * x) ^ 2) by (apply pow_lt; nra).
  apply (f_equal (fun z => z * (1 - x * x) ^ 2)) in F. unfold Rdiv in F. rewrite !Rmult_assoc, Rinv_l, !Rmult_1_r in F by lra.
  assert (L : exp ((- x - 0) * (101 / 100)) < exp ((x - 0) * (101 / 100))) by (apply exp_increasing; lra).
  unfold Rdiv in L. pose proof (exp_pos ((- x - 0) * (101 * / 100))). pose proof (exp_pos ((x - 0) * (101 * / 100))).
  apply (f_equal Rinv) in F. rewrite !Rinv_inv in F. lra.
Qed.
(** Half of the area under a constant function is lost with two samples. *)
Example C55_example : integrate [0; 1] [re 1; re 1] = Ok (re (/ 2)) /\ trapezoid INR (fun _ => re 1) 2 = re 1.
Proof.
  split.
  - unfold integrate. cbn [max_coeff min_coeff fold_left obind]. rewrite Rmax_right, Rmin_left by lra. f_equal. cbn. unfold cx_mul, cx_sub, cx_add, cx_opp, re. cbn. f_equal; field.
  - unfold trapezoid. cbn. unfold cx_mul, cx_add, re. cbn. f_equal; field.
Qed.
