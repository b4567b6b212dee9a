(* C120: Landau levels of graphene. *)
From Coq Require Import Reals Lra Lia.
From Verif Require Import Base Scalar Cplx Materials MaterialsSpec GrapheneModifiers GrapheneStrain PropsStrain Landau LandauProofs.
Local Open Scope R_scope.

(** ** Specification *)
(** Electrons near the corner [sg] of the Brillouin zone, in first order in the momentum.  [dx] and [dy] are
    the rates of the coupling of the sublattices with the momentum.  The field of [B] tesla, as
    constant_magnetic_field makes it, shifts the momentum at the place (x, y) by (A y, 0) (C85).  The wave
    function is exp (i k x) times [u y] on A and [v y] on B; the momentum along y is -i d/dy. *)
Definition times (z : CX) (x : R) : CX := kmul z (re x).
Definition minus_i : CX := mk 0 (-1).
Definition wave_in_field (sg B k E : R) (u v : R -> R) : Prop :=
  exists dx dy A u1 v1,
    rate (fun s => shifted_coupling sg (s, 0)) dx /\ rate (fun s => shifted_coupling sg (0, s)) dy /\
    (forall x y z, exists d, rate (fun s => magnetic_coupling sg (s * B) (x, y, z)) d /\ rate (fun s => shifted_coupling sg (scale2 s (A y, 0))) d) /\
    (forall y, derivable_pt_lim u y (u1 y)) /\ (forall y, derivable_pt_lim v y (v1 y)) /\
    forall y, re (E * u y) = kadd (times dx ((k + A y) * v y)) (times (kmul dy minus_i) (v1 y)) /\
              re (E * v y) = kadd (times (kconj dx) ((k + A y) * u y)) (times (kmul (kconj dy) minus_i) (u1 y)).
(** [E] is the energy of a localised electron: the wave is not zero and decreases rapidly. *)
Definition level (sg B k E : R) : Prop :=
  exists u v, rapidly_decreasing u /\ rapidly_decreasing v /\ wave_in_field sg B k E u v /\ exists y, u y <> 0 \/ v y <> 0.

(** ** Proofs *)
Definition c0 : R := 3 / 2 * g_t * g_acc.
Definition inv_area (B : R) : R := B * magnetic_const.
Lemma const_val : magnetic_const = / 10 ^ 18 / hbar.
Proof. unfold magnetic_const, phi0, hbar. pose proof PI_RGT_0. field. lra. Qed.
Lemma hbar_pos : 0 < hbar. Proof. unfold hbar. lra. Qed.
Lemma area_pos : forall B, 0 < B -> 0 < inv_area B.
Proof. intros B HB. unfold inv_area. rewrite const_val. pose proof hbar_pos. apply Rmult_lt_0_compat; [exact HB|]. apply Rdiv_lt_0_compat; lra. Qed.
Lemma c0_neg : c0 < 0.
Proof. unfold c0, g_t, g_acc. lra. Qed.

Lemma rate_dir : forall sg q d, (sg = 1 \/ sg = -1) ->
  rate (fun s => shifted_coupling sg (scale2 s q)) d <-> d = mk (- sg * c0 * fst q) (c0 * snd q).
Proof.
  intros sg q d HS. pose proof (shifted_rate sg q) as H. rewrite (shifted_value sg q HS) in H.
  replace (mk (- sg * (3 / 2) * g_t * g_acc * fst q) (3 / 2 * g_t * g_acc * snd q)) with (mk (- sg * c0 * fst q) (c0 * snd q)) in H by (unfold c0; f_equal; ring).
  split; [intro H'; exact (rate_unique _ _ _ H' H)|intros ->; exact H].
Qed.
Lemma rate_x : forall sg d, (sg = 1 \/ sg = -1) -> rate (fun s => shifted_coupling sg (s, 0)) d <-> d = mk (- sg * c0) 0.
Proof.
  intros sg d HS. replace (mk (- sg * c0) 0) with (mk (- sg * c0 * fst (1, 0)) (c0 * snd (1, 0))) by (unfold mk; cbn [fst snd]; f_equal; ring).
  rewrite <- (rate_dir sg (1, 0) d HS). split; apply rate_ext; intro s; f_equal; unfold scale2; cbn [fst snd]; f_equal; ring.
Qed.
Lemma rate_y : forall sg d, (sg = 1 \/ sg = -1) -> rate (fun s => shifted_coupling sg (0, s)) d <-> d = mk 0 c0.
Proof.
  intros sg d HS. replace (mk 0 c0) with (mk (- sg * c0 * fst (0, 1)) (c0 * snd (0, 1))) by (unfold mk; cbn [fst snd]; f_equal; ring).
  rewrite <- (rate_dir sg (0, 1) d HS). split; apply rate_ext; intro s; f_equal; unfold scale2; cbn [fst snd]; f_equal; ring.
Qed.
Lemma rate_field : forall sg B x y z d, (sg = 1 \/ sg = -1) -> rate (fun s => magnetic_coupling sg (s * B) (x, y, z)) d <->
  d = mk (sg * c0 * inv_area B * (y - g_acc / 4)) 0.
Proof.
  intros sg B x y z d HS. pose proof (rate_scale _ _ B (magnetic_rate sg x y z HS)) as H. unfold mk in H. cbn [fst snd] in H.
  replace (B * (3 / 2 * g_t * g_acc * magnetic_const * (sg * y - g_acc * sg / 4))) with (sg * c0 * inv_area B * (y - g_acc / 4)) in H by (unfold c0, inv_area; field).
  rewrite Rmult_0_r in H. split; [intro H'; exact (rate_unique _ _ _ H' H)|intros ->; exact H].
Qed.

(** the specification in real numbers *)
Lemma wave_iff : forall sg B k E u v, (sg = 1 \/ sg = -1) -> wave_in_field sg B k E u v <->
  exists u1 v1, (forall y, derivable_pt_lim u y (u1 y)) /\ (forall y, derivable_pt_lim v y (v1 y)) /\
    forall y, E * u y = c0 * (- sg * (k - inv_area B * (y - g_acc / 4)) * v y + v1 y) /\
              E * v y = c0 * (- sg * (k - inv_area B * (y - g_acc / 4)) * u y - u1 y).
Proof.
  intros sg B k E u v HS. assert (SS : sg * sg = 1) by (destruct HS; subst; ring). pose proof c0_neg as C.
  assert (Cx : forall a b a' b' : R, (a, b) = (a', b') <-> a = a' /\ b = b') by (intros; split; [intro H; injection H; auto|intros [-> ->]; reflexivity]).
  split.
  - intros (dx & dy & A & u1 & v1 & HX & HY & HA & DU & DV & EQ). exists u1, v1. split; [exact DU|]. split; [exact DV|].
    apply rate_x in HX; [|exact HS]. apply rate_y in HY; [|exact HS]. subst dx dy.
    intro y. destruct (HA 0 y 0) as (d & H1 & H2). apply rate_field in H1; [|exact HS]. apply rate_dir in H2; [|exact HS].
    subst d. unfold mk in H2. cbn [fst snd] in H2. apply Cx in H2. destruct H2 as [H2 _].
    assert (AY : A y = - (inv_area B * (y - g_acc / 4))).
    { apply Rmult_eq_reg_l with (- sg * c0); [rewrite <- H2; ring|]. intro Z. assert (Q : sg * (- sg * c0) = 0) by (rewrite Z; ring).
      replace (sg * (- sg * c0)) with (- (sg * sg) * c0) in Q by ring. rewrite SS in Q. lra. }
    destruct (EQ y) as [E1 E2]. rewrite AY in E1, E2. unfold times, minus_i, re, mk in E1, E2. cbn in E1, E2. unfold cx_add, cx_mul, cx_conj in E1, E2. cbn [fst snd] in E1, E2.
    apply Cx in E1. apply Cx in E2. destruct E1 as [E1 _]. destruct E2 as [E2 _]. rewrite E1, E2. split; ring.
  - intros (u1 & v1 & DU & DV & EQ). exists (mk (- sg * c0) 0), (mk 0 c0), (fun y => - (inv_area B * (y - g_acc / 4))), u1, v1.
    split; [now apply rate_x|]. split; [now apply rate_y|]. split; [|split; [exact DU|split; [exact DV|]]].
    + intros x y z. exists (mk (sg * c0 * inv_area B * (y - g_acc / 4)) 0). split; [now apply rate_field|]. apply rate_dir; [exact HS|]. unfold mk. cbn [fst snd]. f_equal; ring.
    + intro y. destruct (EQ y) as [E1 E2]. unfold times, minus_i, re, mk. cbn. unfold cx_add, cx_mul, cx_conj. cbn [fst snd].
      split; apply Cx; split; try ring; [rewrite E1|rewrite E2]; ring.
Qed.

(** the two valleys: exchange of the sublattices *)
Lemma level_iff : forall sg B k E, (sg = 1 \/ sg = -1) -> 0 < B ->
  level sg B k E <-> exists n, E ^ 2 = c0 ^ 2 * (2 * inv_area B * INR n).
Proof.
  intros sg B k E HS HB. pose proof (area_pos B HB) as P. pose proof c0_neg as C. assert (C0 : c0 <> 0) by lra.
  set (b := inv_area B) in *. set (y0 := g_acc / 4 + k / b).
  assert (K : forall y, k - b * (y - g_acc / 4) = - (b * (y - y0))) by (intro y; unfold y0; field; lra).
  split.
  - intros (u & v & RU & RV & W & y & Hy). apply wave_iff in W; [|exact HS]. destruct W as (u1 & v1 & DU & DV & EQ). fold b in EQ.
    destruct HS as [-> | ->].
    + apply (dirac_levels b y0 P c0 E u v u1 v1 C0 RU RV); [|now exists y]. split; [exact DU|]. split; [exact DV|].
      intro x. destruct (EQ x) as [E1 E2]. rewrite K in E1, E2. rewrite E1, E2. split; ring.
    + replace (c0 ^ 2) with ((- c0) ^ 2) by ring.
      apply (dirac_levels b y0 P (- c0) E v u v1 u1); [lra|exact RV|exact RU| |exists y; tauto]. split; [exact DV|]. split; [exact DU|].
      intro x. destruct (EQ x) as [E1 E2]. rewrite K in E1, E2. rewrite E1, E2. split; ring.
  - intros [n HE]. destruct HS as [-> | ->].
    + destruct (dirac_states b y0 P c0 E n C0 HE) as (u & v & u1 & v1 & RU & RV & (DU & DV & EQ) & y & Hy).
      exists u, v. split; [exact RU|]. split; [exact RV|]. split; [|now exists y]. apply wave_iff; [now left|]. exists u1, v1. split; [exact DU|]. split; [exact DV|].
      intro x. fold b. destruct (EQ x) as [E1 E2]. rewrite K, E1, E2. split; ring.
    + replace (c0 ^ 2) with ((- c0) ^ 2) in HE by ring.
      destruct (dirac_states b y0 P (- c0) E n ltac:(lra) HE) as (v & u & v1 & u1 & RV & RU & (DV & DU & EQ) & y & Hy).
      exists u, v. split; [exact RU|]. split; [exact RV|]. split; [|exists y; tauto]. apply wave_iff; [now right|]. exists u1, v1. split; [exact DU|]. split; [exact DV|].
      intro x. fold b. destruct (EQ x) as [E1 E2]. rewrite K, E1, E2. split; ring.
Qed.

Lemma level_value : forall B n, 0 < B -> (0 <= n)%Z -> exists e, landau_level B n = Ok e /\ 0 <= e /\ e ^ 2 = c0 ^ 2 * (2 * inv_area B * IZR n).
Proof.
  intros B n HB HN. pose proof hbar_pos as H. unfold landau_level, math_sqrt.
  assert (Q : 0 < hbar / B) by (apply Rdiv_lt_0_compat; lra). assert (N : 0 <= IZR n) by now apply (IZR_le 0).
  destruct (Req_EM_T B 0); [lra|]. destruct (Rlt_dec (hbar / B) 0); [lra|]. cbn [obind].
  pose proof (sqrt_lt_R0 _ Q) as S. destruct (Req_EM_T (sqrt (hbar / B)) 0); [lra|].
  destruct (Rlt_dec (2 * IZR n) 0); [lra|]. cbn [obind]. eexists. split; [reflexivity|].
  assert (V : 0 < hbar * (g_vf * / 10 ^ 9)).
  { unfold g_vf. apply Rmult_lt_0_compat; [exact H|]. apply Rmult_lt_0_compat; [|lra]. apply Rmult_lt_0_compat; [|unfold g_acc; lra].
    apply Rmult_lt_0_compat; [apply Rdiv_lt_0_compat; lra|]. apply Rabs_pos_lt. unfold g_t. lra. }
  split.
  - apply Rmult_le_pos; [|apply sqrt_pos]. left. apply Rdiv_lt_0_compat; assumption.
  - rewrite Rpow_mult_distr, pow2_sqrt by lra. unfold Rdiv at 1. rewrite Rpow_mult_distr, pow_inv, pow2_sqrt by lra.
    unfold inv_area. rewrite const_val. unfold g_vf, c0. rewrite Rabs_left by (unfold g_t; lra). field. lra.
Qed.

(** In a homogeneous field of [B] > 0 tesla, for both corners of the Brillouin zone and every momentum along x,
    the energies of localised electrons are exactly plus and minus the values of landau_level. *)
Theorem C120 : forall sg B k E, (sg = 1 \/ sg = -1) -> 0 < B ->
  level sg B k E <-> exists n e, (0 <= n)%Z /\ landau_level B n = Ok e /\ (E = e \/ E = - e).
Proof.
  intros sg B k E HS HB. rewrite (level_iff sg B k E HS HB). split.
  - intros [n HE]. destruct (level_value B (Z.of_nat n) HB) as (e & L & P & Q); [lia|]. exists (Z.of_nat n), e. split; [lia|]. split; [exact L|].
    rewrite <- INR_IZR_INZ in Q. assert (X : (E - e) * (E + e) = 0) by (replace ((E - e) * (E + e)) with (E ^ 2 - e ^ 2) by ring; lra).
    destruct (Rmult_integral _ _ X); [left|right]; lra.
  - intros (n & e & HN & L & HE). destruct (level_value B n HB HN) as (e' & L' & P & Q). rewrite L in L'. injection L' as <-.
    exists (Z.to_nat n). rewrite INR_IZR_INZ, Z2Nat.id by exact HN. rewrite <- Q. destruct HE as [-> | ->]; ring.
Qed.
Print Assumptions C120.

(** A number is returned exactly for a field above zero and a level from zero. *)
Theorem C120_domain : forall B n, (exists e, landau_level B n = Ok e) <-> 0 < B /\ (0 <= n)%Z.
Proof.
  intros B n. split.
  - intros [e L]. pose proof hbar_pos as H. unfold landau_level, math_sqrt in L.
    destruct (Req_EM_T B 0) as [|NB]; [discriminate|]. destruct (Rlt_dec (hbar / B) 0) as [|NQ]; [discriminate|]. cbn [obind] in L.
    destruct (Req_EM_T (sqrt (hbar / B)) 0); [discriminate|]. destruct (Rlt_dec (2 * IZR n) 0) as [|NN]; [discriminate|]. split.
    + destruct (Rtotal_order B 0) as [X|[X|X]]; [|contradiction|exact X]. exfalso. apply NQ. unfold Rdiv.
      pose proof (Rinv_lt_0_compat _ X). nra.
    + apply le_IZR. lra.
  - intros [HB HN]. destruct (level_value B n HB HN) as (e & L & _). now exists e.
Qed.
(** The level zero is at zero energy; four times the field doubles the energies, as does the fourth level against the first. *)
Theorem C120_scaling : forall B n e, landau_level B n = Ok e ->
  (n = 0%Z -> e = 0) /\ landau_level (4 * B) n = Ok (2 * e) /\ landau_level B (4 * n) = Ok (2 * e).
Proof.
  intros B n e L. destruct (proj1 (C120_domain B n)) as [HB HN]; [now exists e|].
  destruct (level_value B n HB HN) as (e1 & L1 & P1 & Q1). rewrite L in L1. injection L1 as <-.
  assert (SQ : forall x y, 0 <= x -> 0 <= y -> x ^ 2 = y ^ 2 -> x = y) by (intros x y X Y H; nra).
  split; [|split].
  - intros ->. apply SQ; [exact P1|lra|]. rewrite Q1. ring.
  - destruct (level_value (4 * B) n ltac:(lra) HN) as (e2 & L2 & P2 & Q2). rewrite L2. f_equal. apply SQ; [exact P2|lra|].
    rewrite Q2. replace ((2 * e) ^ 2) with (4 * e ^ 2) by ring. rewrite Q1. unfold inv_area. ring.
  - destruct (level_value B (4 * n) HB ltac:(lia)) as (e2 & L2 & P2 & Q2). rewrite L2. f_equal. apply SQ; [exact P2|lra|].
    rewrite Q2. replace ((2 * e) ^ 2) with (4 * e ^ 2) by ring. rewrite Q1, mult_IZR. ring.
Qed.

(** At 100 tesla the first level is between 0.328 and 0.329 eV. *)
Example C120_example : exists e, landau_level 100 1 = Ok e /\ 328 / 1000 < e < 329 / 1000.
Proof.
  destruct (level_value 100 1 ltac:(lra) ltac:(lia)) as (e & L & P & Q). exists e. split; [exact L|].
  assert (V : c0 ^ 2 * (2 * inv_area 100 * 1) = (3 / 2 * (28 / 10) * (142 / 1000)) ^ 2 * 2 * 100 * 10 ^ 6 / 658211899).
  { unfold inv_area. rewrite const_val. unfold hbar, c0, g_t, g_acc. field. }
  rewrite V in Q. split; nra.
Qed.
