(* C85: strain modifiers of the graphene repository. *)
From Coq Require Import Reals Lra Lia.
From Verif Require Import Base Rle Blocks TablesSpec Scalar Foundation Lattice Hamiltonian HamiltonianSpec HamCor Cplx Spectral Materials MaterialsSpec GrapheneModifiers MagneticProofs PropsHamiltonian GrapheneStrain.
Local Open Scope R_scope.

(** ** Specification *)
Definition dist (p q : vec3) : R := sqrt ((vx p - vx q) ^ 2 + (vy p - vy q) ^ 2 + (vz p - vz q) ^ 2).
(** change of a hopping with its length: 1 at the length of the lattice, beta is the logarithmic slope *)
Definition strain_factor (l : R) : R := exp (g_beta * (1 - l / g_acc)).

(** Honeycomb lattice of bond length [a_cc]: bonds from a site of A to its neighbours in B, and the
    corner K of its Brillouin zone (lattice constant [sqrt 3 a_cc]); K' is the opposite corner. *)
Definition bond (n : nat) : vec3 :=
  match n with
  | 0%nat => (0, g_acc, 0) | 1%nat => (sqrt 3 / 2 * g_acc, - g_acc / 2, 0) | _ => (- (sqrt 3 / 2 * g_acc), - g_acc / 2, 0)
  end.
Definition K_angle (sg : R) (n : nat) : R := sg * (4 * PI / (3 * (sqrt 3 * g_acc))) * vx (bond n).
Definition sum3 (f : nat -> CX) : CX := kadd (kadd (f 0%nat) (f 1%nat)) (f 2%nat).

(** Coupling of the two sublattices at the corner, with the bonds at the site [r] of A as they are
    after the displacement and with the strained hoppings. *)
Definition strained_coupling (sg c : R) (r : vec3) : CX :=
  sum3 (fun n => kmul (strained_func (triaxial c r) (triaxial c (vadd r (bond n))) (re g_t)) (expi (K_angle sg n))).
(** The same for the lattice without strain at the momentum K + q. *)
Definition shifted_coupling (sg : R) (q : R * R) : CX :=
  sum3 (fun n => kmul (re g_t) (expi (K_angle sg n + (fst q * vx (bond n) + snd q * vy (bond n))))).
(** Change in first order *)
Definition rate (f : R -> CX) (d : CX) : Prop :=
  derivable_pt_lim (fun s => fst (f s)) 0 (fst d) /\ derivable_pt_lim (fun s => snd (f s)) 0 (snd d).
(** Curl of a field in the plane *)
Definition curl (q : R -> R -> R * R) (x y b : R) : Prop :=
  exists d1 d2, derivable_pt_lim (fun x => snd (q x y)) x d1 /\ derivable_pt_lim (fun y => fst (q x y)) y d2 /\ b = d1 - d2.
Definition scale2 (s : R) (q : R * R) : R * R := (s * fst q, s * snd q).

(** ** Hoppings *)
Add Ring CXr : (k_ring CX).
Lemma strained_is_factor : forall p q x, strained_func p q x = kmul x (re (strain_factor (dist p q))).
Proof. intros. unfold strained_func, strain_factor, dist. do 3 f_equal. ring. Qed.
Lemma dist_sym : forall p q, dist p q = dist q p.
Proof. intros. unfold dist. f_equal. ring. Qed.
Lemma conj_re : forall x, kconj (re x) = re x.
Proof. intro x. cbn. unfold cx_conj, re. cbn [fst snd]. f_equal. ring. Qed.

Definition strained_rule : hop_rule CX vec3 :=
  fun _ p q A => Mat (m_rows A) (m_cols A) (fun i j => strained_func p q (m_at A i j)).

(** The modifier multiplies every matrix element between two sites of a finite system by the factor of
    their distance, whatever the lattice, the number of orbitals and the other modifiers. *)
Theorem C85_elements :
  forall (sys : hsys CX vec3) om og hm hg un ph simple cap,
  wf_hsys sys -> Forall2 os_follows om og -> Forall2 hop_follows hm hg -> cap_fits CX vec3 sys cap ->
  (simple = true -> simple_bonds sys) -> hs_bounds sys = [] ->
  exists m0 m1, ham_make cap complex_type sys om hm un ph simple = Ok m0 /\
    ham_make cap complex_type sys om (hm ++ [strained_hopping]) un ph simple = Ok m1 /\
    forall s t p q i j, s <> t -> nth_error (hs_pos sys) s = Some p -> nth_error (hs_pos sys) t = Some q ->
      (i < norb_at (hs_subs sys) s)%nat -> (j < norb_at (hs_subs sys) t)%nat ->
      coeff m1 (row_of (hs_subs sys) s i) (row_of (hs_subs sys) t j)
      = kmul (coeff m0 (row_of (hs_subs sys) s i) (row_of (hs_subs sys) t j)) (re (strain_factor (dist p q))).
Proof.
  intros sys om og hm hg un ph simple cap W Ho Hh C S HB.
  assert (NT : nt_ok (@complex_type CX)) by (exact (complex_ok CX)).
  destruct (C18_elements_partial CX vec3 complex_type sys om og hm hg un ph simple cap NT W Ho Hh C S) as (m0 & E0 & _ & P0).
  assert (Hh' : Forall2 hop_follows (hm ++ [strained_hopping]) (hg ++ [strained_rule])).
  { apply Forall2_app; [exact Hh|]. constructor; [exact (each_hopping_follows strained_func)|constructor]. }
  destruct (C18_elements_partial CX vec3 complex_type sys om og _ _ un ph simple cap NT W Ho Hh' C S) as (m1 & E1 & _ & P1).
  exists m0, m1. split; [exact E0|]. split; [exact E1|]. intros s t p q i j ST Hp Hq Hi Hj.
  assert (L : length (hs_pos sys) = rle_size (hs_subs sys)) by apply W.
  assert (Hs : (s < rle_size (hs_subs sys))%nat) by (rewrite <- L; apply nth_error_Some; congruence).
  assert (Ht : (t < rle_size (hs_subs sys))%nat) by (rewrite <- L; apply nth_error_Some; congruence).
  rewrite P0, P1 by assumption.
  apply (element_scaled sys og hg (fun p q => re (strain_factor (dist p q)))); auto.
  - intros; apply strained_is_factor.
  - intros. rewrite conj_re, dist_sym. reflexivity.
  - intros ->. congruence.
Qed.
Print Assumptions C85_elements.

Lemma der_val : forall f x a b, derivable_pt_lim f x a -> a = b -> derivable_pt_lim f x b.
Proof. intros f x a b H <-. exact H. Qed.

(** The factor: positive, one exactly at the length of the lattice, smaller for longer bonds, with
    logarithmic slope beta; moves and turns of the whole system change nothing. *)
Theorem C85_factor :
  (forall l, 0 < strain_factor l) /\ (forall l, strain_factor l = 1 <-> l = g_acc) /\
  (forall l l', l < l' -> strain_factor l' < strain_factor l) /\
  derivable_pt_lim (fun s => strain_factor (g_acc * (1 + s))) 0 (- g_beta) /\
  (forall f : vec3 -> vec3, (forall p q, dist (f p) (f q) = dist p q) -> forall p q x, strained_func (f p) (f q) x = strained_func p q x).
Proof.
  assert (A : 0 < g_acc) by (unfold g_acc; lra). assert (B : 0 < g_beta) by (unfold g_beta; lra).
  assert (M : forall l l', l < l' -> strain_factor l' < strain_factor l).
  { intros l l' H. unfold strain_factor. apply exp_increasing. apply Rmult_lt_compat_l; [exact B|].
    assert (l / g_acc < l' / g_acc) by (apply Rmult_lt_compat_r; [apply Rinv_0_lt_compat|]; assumption). lra. }
  assert (O : strain_factor g_acc = 1).
  { unfold strain_factor. replace (g_beta * (1 - g_acc / g_acc)) with 0 by (field; lra). apply exp_0. }
  split; [intro; apply exp_pos|]. split.
  { intro l. split; [|intros ->; exact O]. intro E. destruct (Rtotal_order l g_acc) as [H|[H|H]]; [|exact H|]; apply M in H; lra. }
  split; [exact M|]. split.
  - assert (E : forall s, exp (- g_beta * s) = strain_factor (g_acc * (1 + s))) by (intro s; unfold strain_factor; f_equal; field; lra).
    apply derivable_pt_lim_ext with (f := fun s => exp (- g_beta * s)); [exact E|].
    apply der_val with (exp (- g_beta * 0) * (- g_beta * 1)); [|rewrite Rmult_0_r, exp_0; ring].
    apply (derivable_pt_lim_comp (fun s => - g_beta * s) exp); [|apply derivable_pt_lim_exp].
    apply (derivable_pt_lim_scal id). apply derivable_pt_lim_id.
  - intros f H p q x. rewrite !strained_is_factor, H. reflexivity.
Qed.
Print Assumptions C85_factor.

(** ** Triaxial strain *)
(** The displacement keeps the three-fold axis and the mirror of the honeycomb. *)
Definition turn (p : vec3) : vec3 :=
  (- / 2 * vx p - sqrt 3 / 2 * vy p, sqrt 3 / 2 * vx p - / 2 * vy p, vz p).
Definition mirror (p : vec3) : vec3 := (- vx p, vy p, vz p).
Lemma s3 : sqrt 3 * sqrt 3 = 3.
Proof. apply sqrt_sqrt. lra. Qed.
Theorem C85_symmetry : forall c p, triaxial c (turn p) = turn (triaxial c p) /\ triaxial c (mirror p) = mirror (triaxial c p) /\
  triaxial c (0, 0, vz p) = (0, 0, vz p) /\ turn (turn (turn p)) = p /\ turn (bond 0) = bond 2 /\ turn (bond 2) = bond 1 /\ turn (bond 1) = bond 0.
Proof.
  pose proof s3 as S. intros c [[x y] z]. unfold triaxial, turn, mirror, bond, vx, vy, vz. cbn [fst snd].
  set (w := sqrt 3) in *. clearbody w.
  repeat split; f_equal; try reflexivity; f_equal; field [S].
Qed.
Print Assumptions C85_symmetry.

Lemma acc_pos : 0 < g_acc.
Proof. unfold g_acc. lra. Qed.
Lemma re_expi : forall x a, kmul (re x) (expi a) = mk (x * cos a) (x * sin a).
Proof. intros. cbn. unfold cx_mul, expi, re, mk. cbn [fst snd]. f_equal; ring. Qed.
Lemma fst_sum3 : forall f, fst (sum3 f) = fst (f 0%nat) + fst (f 1%nat) + fst (f 2%nat).
Proof. reflexivity. Qed.
Lemma snd_sum3 : forall f, snd (sum3 f) = snd (f 0%nat) + snd (f 1%nat) + snd (f 2%nat).
Proof. reflexivity. Qed.

Lemma angles : forall sg, (sg = 1 \/ sg = -1) ->
  cos (K_angle sg 0) = 1 /\ sin (K_angle sg 0) = 0 /\
  cos (K_angle sg 1) = -1/2 /\ sin (K_angle sg 1) = sg * (sqrt 3 / 2) /\
  cos (K_angle sg 2) = -1/2 /\ sin (K_angle sg 2) = - sg * (sqrt 3 / 2).
Proof.
  intros sg HS. pose proof acc_pos as A. pose proof s3 as S. assert (S0 : sqrt 3 <> 0) by (intro E; rewrite E in S; lra).
  assert (E0 : K_angle sg 0 = 0) by (unfold K_angle, bond, vx; cbn [fst snd]; ring).
  assert (E1 : K_angle sg 1 = sg * (2 * (PI / 3))) by (unfold K_angle, bond, vx; cbn [fst snd]; field; split; lra).
  assert (E2 : K_angle sg 2 = - (sg * (2 * (PI / 3)))) by (unfold K_angle, bond, vx; cbn [fst snd]; field; split; lra).
  rewrite E0, E1, E2, cos_0, sin_0, cos_neg, sin_neg.
  destruct HS as [-> | ->].
  - rewrite Rmult_1_l, cos_2PI3, sin_2PI3. repeat split; lra.
  - replace (-1 * (2 * (PI / 3))) with (- (2 * (PI / 3))) by ring. rewrite cos_neg, sin_neg, cos_2PI3, sin_2PI3. repeat split; lra.
Qed.

(** one bond *)
Lemma bond_rate : forall b c, derivable_pt_lim (fun s => exp (- g_beta * (sqrt (g_acc ^ 2 + b * s + c * s ^ 2) / g_acc - 1))) 0 (- g_beta / g_acc * (b / (2 * g_acc))).
Proof.
  intros b c. pose proof acc_pos as A.
  assert (P : derivable_pt_lim (fun s => g_acc ^ 2 + b * s + c * s ^ 2) 0 b).
  { apply der_val with (0 + b * 1 + c * (INR 2 * 0 ^ Nat.pred 2)); [|cbn; ring].
    apply derivable_pt_lim_plus; [apply derivable_pt_lim_plus|].
    - apply derivable_pt_lim_const.
    - apply (derivable_pt_lim_scal id). apply derivable_pt_lim_id.
    - apply (derivable_pt_lim_scal (fun s => s ^ 2)). apply derivable_pt_lim_pow. }
  assert (Q : sqrt (g_acc ^ 2 + b * 0 + c * 0 ^ 2) = g_acc) by (replace (g_acc ^ 2 + b * 0 + c * 0 ^ 2) with (g_acc ^ 2) by ring; apply sqrt_pow2; lra).
  assert (R : derivable_pt_lim (fun s => sqrt (g_acc ^ 2 + b * s + c * s ^ 2)) 0 (/ (2 * g_acc) * b)).
  { apply (derivable_pt_lim_comp (fun s => g_acc ^ 2 + b * s + c * s ^ 2) sqrt); [exact P|]. rewrite <- Q at 2. apply derivable_pt_lim_sqrt. nra. }
  assert (T : derivable_pt_lim (fun s => - g_beta * (sqrt (g_acc ^ 2 + b * s + c * s ^ 2) / g_acc - 1)) 0 (- g_beta / g_acc * (b / (2 * g_acc)))).
  { apply derivable_pt_lim_ext with (f := fun s => - g_beta / g_acc * sqrt (g_acc ^ 2 + b * s + c * s ^ 2) + g_beta).
    - intro s. field. lra.
    - apply der_val with (- g_beta / g_acc * (/ (2 * g_acc) * b) + 0); [|field; lra].
      apply derivable_pt_lim_plus; [|apply derivable_pt_lim_const].
      apply (derivable_pt_lim_scal (fun s => sqrt (g_acc ^ 2 + b * s + c * s ^ 2))). exact R. }
  apply der_val with (exp (- g_beta * (sqrt (g_acc ^ 2 + b * 0 + c * 0 ^ 2) / g_acc - 1)) * (- g_beta / g_acc * (b / (2 * g_acc)))).
  - apply (derivable_pt_lim_comp (fun s => - g_beta * (sqrt (g_acc ^ 2 + b * s + c * s ^ 2) / g_acc - 1)) exp); [exact T|apply derivable_pt_lim_exp].
  - rewrite Q. replace (- g_beta * (g_acc / g_acc - 1)) with 0 by (field; lra). rewrite exp_0. ring.
Qed.

(** relative displacement of the ends of a bond, for c = 1 *)
Definition rel (x y : R) (n : nat) : R * R :=
  let dx := vx (bond n) in let dy := vy (bond n) in
  (2 * (x + dx) * (y + dy) - 2 * x * y, ((x + dx) ^ 2 - (y + dy) ^ 2) - (x ^ 2 - y ^ 2)).
Definition stretch (x y : R) (n : nat) : R := vx (bond n) * fst (rel x y n) + vy (bond n) * snd (rel x y n).
Lemma bond_length : forall n, vx (bond n) ^ 2 + vy (bond n) ^ 2 = g_acc ^ 2.
Proof. pose proof s3 as S. intros [|[|n]]; unfold bond, vx, vy; cbn [fst snd]; set (w := sqrt 3) in *; clearbody w; field [S]. Qed.
Lemma strained_bond : forall c x y z n,
  strained_func (triaxial c (x, y, z)) (triaxial c (vadd (x, y, z) (bond n))) (re g_t)
  = re (g_t * exp (- g_beta * (sqrt (g_acc ^ 2 + 2 * stretch x y n * c + (fst (rel x y n) ^ 2 + snd (rel x y n) ^ 2) * c ^ 2) / g_acc - 1))).
Proof.
  intros c x y z n. unfold strained_func. rewrite <- (bond_length n).
  assert (Z : vz (bond n) = 0) by (destruct n as [|[|n]]; reflexivity).
  match goal with |- kmul _ (re (exp (- g_beta * (sqrt ?a / g_acc - 1)))) = re (_ * exp (- g_beta * (sqrt ?b / g_acc - 1))) => replace a with b end.
  - unfold re. cbn. unfold cx_mul. cbn [fst snd]. f_equal; ring.
  - unfold triaxial, vadd, stretch, rel. unfold vx, vy, vz in *. cbn [fst snd]. rewrite Z. ring.
Qed.

Lemma der_sum3 : forall f g h x a b c, derivable_pt_lim f x a -> derivable_pt_lim g x b -> derivable_pt_lim h x c ->
  derivable_pt_lim (fun s => f s + g s + h s) x (a + b + c).
Proof. intros. repeat apply derivable_pt_lim_plus; assumption. Qed.

Lemma strained_rate : forall sg x y z, rate (fun c => strained_coupling sg c (x, y, z))
  (sum3 (fun n => mk (g_t * cos (K_angle sg n) * (- g_beta / g_acc * (2 * stretch x y n / (2 * g_acc))))
                     (g_t * sin (K_angle sg n) * (- g_beta / g_acc * (2 * stretch x y n / (2 * g_acc)))))).
Proof.
  intros sg x y z.
  set (E := fun n c => exp (- g_beta * (sqrt (g_acc ^ 2 + 2 * stretch x y n * c + (fst (rel x y n) ^ 2 + snd (rel x y n) ^ 2) * c ^ 2) / g_acc - 1))).
  assert (D : forall n k, derivable_pt_lim (fun c => g_t * k * E n c) 0 (g_t * k * (- g_beta / g_acc * (2 * stretch x y n / (2 * g_acc))))).
  { intros n k. apply (derivable_pt_lim_scal (E n)). apply bond_rate. }
  assert (X : forall c n, kmul (strained_func (triaxial c (x, y, z)) (triaxial c (vadd (x, y, z) (bond n))) (re g_t)) (expi (K_angle sg n))
     = mk (g_t * cos (K_angle sg n) * E n c) (g_t * sin (K_angle sg n) * E n c)).
  { intros c n. rewrite strained_bond, re_expi. unfold mk. f_equal; unfold E; ring. }
  split.
  - apply derivable_pt_lim_ext with (f := fun c => g_t * cos (K_angle sg 0) * E 0%nat c + g_t * cos (K_angle sg 1) * E 1%nat c + g_t * cos (K_angle sg 2) * E 2%nat c).
    + intro c. unfold strained_coupling. rewrite fst_sum3, !X. reflexivity.
    + rewrite fst_sum3. apply der_sum3; apply D.
  - apply derivable_pt_lim_ext with (f := fun c => g_t * sin (K_angle sg 0) * E 0%nat c + g_t * sin (K_angle sg 1) * E 1%nat c + g_t * sin (K_angle sg 2) * E 2%nat c).
    + intro c. unfold strained_coupling. rewrite snd_sum3, !X. reflexivity.
    + rewrite snd_sum3. apply der_sum3; apply D.
Qed.

Lemma turned_rate : forall a th, derivable_pt_lim (fun s => cos (a + s * th)) 0 (- sin a * th) /\ derivable_pt_lim (fun s => sin (a + s * th)) 0 (cos a * th).
Proof.
  intros a th. assert (L : derivable_pt_lim (fun s => a + s * th) 0 th).
  { apply der_val with (0 + (1 * th + 0 * 0)); [|ring]. apply derivable_pt_lim_plus; [apply derivable_pt_lim_const|].
    apply (derivable_pt_lim_mult id (fct_cte th)); [apply derivable_pt_lim_id|apply derivable_pt_lim_const]. }
  assert (Z : a + 0 * th = a) by ring.
  split.
  - apply (derivable_pt_lim_comp (fun s => a + s * th) cos); [exact L|]. rewrite Z. apply derivable_pt_lim_cos.
  - apply (derivable_pt_lim_comp (fun s => a + s * th) sin); [exact L|]. rewrite Z. apply derivable_pt_lim_sin.
Qed.
Definition dot2 (q : R * R) (n : nat) : R := fst q * vx (bond n) + snd q * vy (bond n).
Lemma shifted_rate : forall sg q, rate (fun s => shifted_coupling sg (scale2 s q))
  (sum3 (fun n => mk (g_t * (- sin (K_angle sg n) * dot2 q n)) (g_t * (cos (K_angle sg n) * dot2 q n)))).
Proof.
  intros sg q.
  assert (X : forall s n, kmul (re g_t) (expi (K_angle sg n + (fst (scale2 s q) * vx (bond n) + snd (scale2 s q) * vy (bond n))))
    = mk (g_t * cos (K_angle sg n + s * dot2 q n)) (g_t * sin (K_angle sg n + s * dot2 q n))).
  { intros s n. rewrite re_expi. unfold scale2, dot2, mk. cbn [fst snd]. f_equal; do 2 f_equal; ring. }
  split.
  - apply derivable_pt_lim_ext with (f := fun s => g_t * cos (K_angle sg 0 + s * dot2 q 0) + g_t * cos (K_angle sg 1 + s * dot2 q 1) + g_t * cos (K_angle sg 2 + s * dot2 q 2)).
    + intro s. unfold shifted_coupling. rewrite fst_sum3, !X. reflexivity.
    + rewrite fst_sum3. apply der_sum3; apply (derivable_pt_lim_scal (fun s => cos (_ + s * _))); apply turned_rate.
  - apply derivable_pt_lim_ext with (f := fun s => g_t * sin (K_angle sg 0 + s * dot2 q 0) + g_t * sin (K_angle sg 1 + s * dot2 q 1) + g_t * sin (K_angle sg 2 + s * dot2 q 2)).
    + intro s. unfold shifted_coupling. rewrite snd_sum3, !X. reflexivity.
    + rewrite snd_sum3. apply der_sum3; apply (derivable_pt_lim_scal (fun s => sin (_ + s * _))); apply turned_rate.
Qed.

(** values of the two rates *)
Lemma strained_value : forall sg x y, (sg = 1 \/ sg = -1) ->
  sum3 (fun n => mk (g_t * cos (K_angle sg n) * (- g_beta / g_acc * (2 * stretch x y n / (2 * g_acc))))
                     (g_t * sin (K_angle sg n) * (- g_beta / g_acc * (2 * stretch x y n / (2 * g_acc)))))
  = mk (3 * g_beta * g_t * y) (sg * 3 * g_beta * g_t * x).
Proof.
  intros sg x y HS. destruct (angles sg HS) as (C0 & S0 & C1 & S1 & C2 & S2). pose proof acc_pos as A. pose proof s3 as S.
  unfold sum3. rewrite C0, S0, C1, S1, C2, S2. unfold stretch, rel, bond, vx, vy. cbn [fst snd]. cbn. unfold cx_add, mk. cbn [fst snd].
  set (w := sqrt 3) in *. clearbody w. f_equal; field [S]; lra.
Qed.
Lemma shifted_value : forall sg q, (sg = 1 \/ sg = -1) ->
  sum3 (fun n => mk (g_t * (- sin (K_angle sg n) * dot2 q n)) (g_t * (cos (K_angle sg n) * dot2 q n)))
  = mk (- sg * (3 / 2) * g_t * g_acc * fst q) (3 / 2 * g_t * g_acc * snd q).
Proof.
  intros sg q HS. destruct (angles sg HS) as (C0 & S0 & C1 & S1 & C2 & S2). pose proof s3 as S.
  unfold sum3. rewrite C0, S0, C1, S1, C2, S2. unfold dot2, bond, vx, vy. cbn [fst snd]. cbn. unfold cx_add, mk. cbn [fst snd].
  set (w := sqrt 3) in *. clearbody w. f_equal; field [S].
Qed.

(** ** The field *)
(** A change of the hoppings, in first order in its strength, acts on the electrons of the valley [sg] as a
    vector potential does: as a shift [q] of the momentum that depends on the place.  Its curl is [b]
    everywhere. *)
Definition acts_as_field (sg : R) (coupling : R -> vec3 -> CX) (b : R) : Prop :=
  exists q : R -> R -> R * R,
    (forall x y z, exists d, rate (fun s => coupling s (x, y, z)) d /\ rate (fun s => shifted_coupling sg (scale2 s (q x y))) d /\
       forall q', rate (fun s => shifted_coupling sg (scale2 s q')) d -> q' = q x y) /\
    forall x y, curl q x y b.
(** The hoppings in a real magnetic field of [B] tesla (C70). *)
Definition magnetic_coupling (sg B : R) (r : vec3) : CX :=
  sum3 (fun n => kmul (magnetic_func B r (vadd r (bond n)) (re g_t)) (expi (K_angle sg n))).

Lemma rate_unique : forall f d d', rate f d -> rate f d' -> d = d'.
Proof.
  intros f [d1 d2] [e1 e2] [A B] [C D]. cbn [fst snd] in *. f_equal; eapply uniqueness_limite; eassumption.
Qed.
Lemma rate_scale : forall f d k, rate f d -> rate (fun s => f (s * k)) (mk (k * fst d) (k * snd d)).
Proof.
  intros f d k [A B].
  assert (L : derivable_pt_lim (fun s => s * k) 0 k).
  { apply der_val with (1 * k + 0 * 0); [|ring]. apply (derivable_pt_lim_mult id (fct_cte k)); [apply derivable_pt_lim_id|apply derivable_pt_lim_const]. }
  split; unfold mk; cbn [fst snd]; rewrite Rmult_comm.
  - apply (derivable_pt_lim_comp (fun s => s * k) (fun s => fst (f s))); [exact L|]. now rewrite Rmult_0_l.
  - apply (derivable_pt_lim_comp (fun s => s * k) (fun s => snd (f s))); [exact L|]. now rewrite Rmult_0_l.
Qed.
Lemma rate_ext : forall f g d, (forall s, f s = g s) -> rate f d -> rate g d.
Proof. intros f g d H [A B]. split; [apply derivable_pt_lim_ext with (fun s => fst (f s))|apply derivable_pt_lim_ext with (fun s => snd (f s))]; auto; intro s; now rewrite H. Qed.

(** a shift is determined by its rate *)
Lemma shift_of : forall sg d, (sg = 1 \/ sg = -1) ->
  let q := (- sg * fst d / (3 / 2 * g_t * g_acc), snd d / (3 / 2 * g_t * g_acc)) in
  rate (fun s => shifted_coupling sg (scale2 s q)) d /\ forall q', rate (fun s => shifted_coupling sg (scale2 s q')) d -> q' = q.
Proof.
  intros sg d HS q. pose proof acc_pos as A. assert (T : g_t <> 0) by (unfold g_t; lra).
  assert (SS : sg * sg = 1) by (destruct HS; subst; ring).
  split.
  - pose proof (shifted_rate sg q) as H. rewrite (shifted_value sg q HS) in H.
    replace d with (mk (- sg * (3 / 2) * g_t * g_acc * fst q) (3 / 2 * g_t * g_acc * snd q)); [exact H|].
    destruct d as [d1 d2]. unfold q, mk. cbn [fst snd]. f_equal; field [SS]; lra.
  - intros q' H'. pose proof (shifted_rate sg q') as H. rewrite (shifted_value sg q' HS) in H.
    pose proof (rate_unique _ _ _ H H') as E. subst d. destruct q' as [q1 q2]. unfold q, mk. cbn [fst snd]. f_equal; field [SS]; lra.
Qed.

Lemma magnetic_rate : forall sg x y z, (sg = 1 \/ sg = -1) -> rate (fun B => magnetic_coupling sg B (x, y, z))
  (mk (3 / 2 * g_t * g_acc * magnetic_const * (sg * y - g_acc * sg / 4 )) 0).
Proof.
  intros sg x y z HS.
  set (th := fun n => - (magnetic_const * (y + vy (bond n) / 2) * vx (bond n))).
  assert (X : forall s n, kmul (magnetic_func s (x, y, z) (vadd (x, y, z) (bond n)) (re g_t)) (expi (K_angle sg n))
    = mk (g_t * cos (K_angle sg n + s * th n)) (g_t * sin (K_angle sg n + s * th n))).
  { intros s n. unfold magnetic_func. rewrite <- re_expi.
    replace (K_angle sg n + s * th n) with (magnetic_const * (1 / 2 * s * (vy (x, y, z) + vy (vadd (x, y, z) (bond n))) * (vx (x, y, z) - vx (vadd (x, y, z) (bond n)))) + K_angle sg n).
    - rewrite <- expi_add. ring.
    - unfold th, vadd, vx, vy. cbn [fst snd]. field. }
  assert (R : rate (fun B => magnetic_coupling sg B (x, y, z))
    (sum3 (fun n => mk (g_t * (- sin (K_angle sg n) * th n)) (g_t * (cos (K_angle sg n) * th n))))).
  { split.
    - apply derivable_pt_lim_ext with (f := fun s => g_t * cos (K_angle sg 0 + s * th 0%nat) + g_t * cos (K_angle sg 1 + s * th 1%nat) + g_t * cos (K_angle sg 2 + s * th 2%nat)).
      + intro s. unfold magnetic_coupling. rewrite fst_sum3, !X. reflexivity.
      + rewrite fst_sum3. apply der_sum3; apply (derivable_pt_lim_scal (fun s => cos (_ + s * _))); apply turned_rate.
    - apply derivable_pt_lim_ext with (f := fun s => g_t * sin (K_angle sg 0 + s * th 0%nat) + g_t * sin (K_angle sg 1 + s * th 1%nat) + g_t * sin (K_angle sg 2 + s * th 2%nat)).
      + intro s. unfold magnetic_coupling. rewrite snd_sum3, !X. reflexivity.
      + rewrite snd_sum3. apply der_sum3; apply (derivable_pt_lim_scal (fun s => sin (_ + s * _))); apply turned_rate. }
  replace (mk (3 / 2 * g_t * g_acc * magnetic_const * (sg * y - g_acc * sg / 4)) 0) with (sum3 (fun n => mk (g_t * (- sin (K_angle sg n) * th n)) (g_t * (cos (K_angle sg n) * th n)))); [exact R|].
  destruct (angles sg HS) as (C0 & S0 & C1 & S1 & C2 & S2). pose proof s3 as S.
  unfold sum3. rewrite C0, S0, C1, S1, C2, S2. unfold th, bond, vx, vy. cbn [fst snd]. cbn. unfold cx_add, mk. cbn [fst snd].
  set (w := sqrt 3) in *. clearbody w. f_equal; field [S].
Qed.

Lemma curl_linear : forall (q : R -> R -> R * R) a b c a' b' c', (forall x y, q x y = (a * x + b * y + c, a' * x + b' * y + c')) ->
  forall x y, curl q x y (a' - b).
Proof.
  intros q a b c a' b' c' H x y. exists a', b. split; [|split; [|reflexivity]].
  - apply derivable_pt_lim_ext with (f := fun x => a' * x + (b' * y + c')); [intro t; rewrite H; cbn [snd]; ring|].
    apply der_val with (a' * 1 + 0); [|ring]. apply derivable_pt_lim_plus; [|apply derivable_pt_lim_const].
    apply (derivable_pt_lim_scal id). apply derivable_pt_lim_id.
  - apply derivable_pt_lim_ext with (f := fun y => b * y + (a * x + c)); [intro t; rewrite H; cbn [fst]; ring|].
    apply der_val with (b * 1 + 0); [|ring]. apply derivable_pt_lim_plus; [|apply derivable_pt_lim_const].
    apply (derivable_pt_lim_scal id). apply derivable_pt_lim_id.
Qed.

(** The strain made for a pseudo-magnetic field of [B] tesla acts, in first order, on the electrons at K as the
    real field of [B] tesla does (curl [B / hbar], with [B] per nm^2 and the charge one), everywhere; and on
    those at K' as the opposite field. *)
Theorem C85 : forall sg B, (sg = 1 \/ sg = -1) ->
  acts_as_field sg (fun s r => strained_coupling sg (field_to_strain (s * B)) r) (sg * (B / 10 ^ 18 / hbar)) /\
  acts_as_field sg (fun s r => magnetic_coupling sg (s * B) r) (B / 10 ^ 18 / hbar).
Proof.
  intros sg B HS. pose proof acc_pos as A. assert (T : g_t <> 0) by (unfold g_t; lra).
  assert (HB : 0 < hbar) by (unfold hbar; lra). assert (BE : 0 < g_beta) by (unfold g_beta; lra).
  assert (SS : sg * sg = 1) by (destruct HS; subst; ring).
  split.
  - set (k := field_to_strain B).
    exists (fun x y => (- sg * (k * (3 * g_beta * g_t * y)) / (3 / 2 * g_t * g_acc), k * (sg * 3 * g_beta * g_t * x) / (3 / 2 * g_t * g_acc))).
    split.
    + intros x y z. exists (mk (k * (3 * g_beta * g_t * y)) (k * (sg * 3 * g_beta * g_t * x))). split.
      * apply rate_ext with (fun s => strained_coupling sg (s * k) (x, y, z)).
        { intro s. f_equal. unfold k, field_to_strain. field. lra. }
        pose proof (strained_rate sg x y z) as H. rewrite (strained_value sg x y HS) in H. exact (rate_scale _ _ k H).
      * exact (shift_of sg (mk (k * (3 * g_beta * g_t * y)) (k * (sg * 3 * g_beta * g_t * x))) HS).
    + intros x y. replace (sg * (B / 10 ^ 18 / hbar)) with (sg * (2 * k * g_beta / g_acc) - - (sg * (2 * k * g_beta / g_acc))).
      * apply (curl_linear _ 0 (- (sg * (2 * k * g_beta / g_acc))) 0 (sg * (2 * k * g_beta / g_acc)) 0 0).
        intros u v. f_equal; field; lra.
      * unfold k, field_to_strain. field. lra.
  - set (m := fun y => 3 / 2 * g_t * g_acc * magnetic_const * (sg * y - g_acc * sg / 4)).
    exists (fun x y => (- sg * (B * m y) / (3 / 2 * g_t * g_acc), B * 0 / (3 / 2 * g_t * g_acc))).
    split.
    + intros x y z. exists (mk (B * m y) (B * 0)). split.
      * exact (rate_scale _ _ B (magnetic_rate sg x y z HS)).
      * exact (shift_of sg (mk (B * m y) (B * 0)) HS).
    + intros x y. replace (B / 10 ^ 18 / hbar) with (0 - - (B * magnetic_const)).
      * apply (curl_linear _ 0 (- (B * magnetic_const)) (B * magnetic_const * g_acc / 4) 0 0 0).
        intros u v. unfold m. f_equal; field [SS]; lra.
      * unfold magnetic_const, phi0. pose proof PI_RGT_0. field. lra.
Qed.
Print Assumptions C85.

(** A displaced site, and a bond of twice the length. *)
Example C85_example : triaxial (1 / 1000) (3, 4, 5) = (3024 / 1000, 3993 / 1000, 5) /\
  strained_func (0, 0, 0) (0, 2 * g_acc, 0) (re g_t) = re (g_t * exp (- g_beta)).
Proof.
  pose proof acc_pos as A. split; [unfold triaxial, vx, vy, vz; cbn [fst snd]; f_equal; f_equal; field|].
  unfold strained_func, vx, vy, vz. cbn [fst snd].
  replace ((0 - 0) ^ 2 + (0 - 2 * g_acc) ^ 2 + (0 - 0) ^ 2) with ((2 * g_acc) ^ 2) by ring. rewrite sqrt_pow2 by lra.
  replace (- g_beta * (2 * g_acc / g_acc - 1)) with (- g_beta) by (field; lra). unfold re. cbn. unfold cx_mul. cbn [fst snd]. f_equal; ring.
Qed.
