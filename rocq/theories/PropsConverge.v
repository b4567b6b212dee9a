(* C111: the computed density of states converges to the exact one. *)
From Verif Require Import Base Scalar Kpm KpmSpec KpmCheb KpmGram KpmCore KpmEll KpmFinal RSum Cplx RInt RIntMore Spectral SpectralProofs SpectralLine PropsSpectral SpectralTheorem RandomProofs PropsEigen Converge.
From Coq Require Import Reals Lra Ranalysis Rtopology.
Local Open Scope R_scope.

(** Nearly constant up to a parabola. *)
Lemma lipschitz_parabola : forall g L sigma x y, 0 < sigma -> 0 <= L -> Rabs (g x - g y) <= L * Rabs (x - y) ->
  Rabs (g x - g y) <= L * sigma / 2 + L / (2 * sigma) * (x - y) ^ 2.
Proof.
  intros g L sigma x y Hs HL H. eapply Rle_trans; [exact H|]. rewrite <- (pow2_abs (x - y)). set (d := Rabs (x - y)).
  assert (Q : L * sigma / 2 + L / (2 * sigma) * d ^ 2 - L * d = L / (2 * sigma) * (d - sigma) ^ 2) by (field; lra).
  assert (0 <= L / (2 * sigma) * (d - sigma) ^ 2); [|lra].
  apply Rmult_le_pos; [|apply pow2_ge_0]. apply Rmult_le_pos; [exact HL|]. apply Rlt_le, Rinv_0_lt_compat. lra.
Qed.
Lemma continuous_parabola : forall g lo hi eps, lo < hi -> continuity g -> 0 < eps ->
  exists K, 0 <= K /\ forall x y, lo < x < hi -> lo < y < hi -> Rabs (g x - g y) <= eps + K * (x - y) ^ 2.
Proof.
  intros g lo hi eps Hl C He.
  destruct (Heine g (fun c => lo <= c <= hi) (compact_P3 lo hi) (fun x _ => C x) (mkposreal eps He)) as (d & Hd). cbn [pos] in Hd.
  destruct (continuity_ab_maj g lo hi (Rlt_le _ _ Hl) (fun c _ => C c)) as (xM & HM & _).
  destruct (continuity_ab_min g lo hi (Rlt_le _ _ Hl) (fun c _ => C c)) as (xm & Hm & _).
  set (V := g xM - g xm). pose proof (cond_pos d) as Pd.
  assert (HV : 0 <= V) by (unfold V; pose proof (HM lo ltac:(lra)); pose proof (Hm lo ltac:(lra)); lra).
  exists (V / d ^ 2). split; [apply Rmult_le_pos; [exact HV|apply Rlt_le, Rinv_0_lt_compat; nra]|].
  intros x y Hx Hy. assert (0 <= V / d ^ 2) by (apply Rmult_le_pos; [exact HV|apply Rlt_le, Rinv_0_lt_compat; nra]). pose proof (pow2_ge_0 (x - y)).
  destruct (Rlt_le_dec (Rabs (x - y)) d) as [Hn|Hf].
  - specialize (Hd x y ltac:(lra) ltac:(lra) Hn). nra.
  - assert (A : Rabs (g x - g y) <= V).
    { unfold V. pose proof (HM x ltac:(lra)). pose proof (Hm x ltac:(lra)). pose proof (HM y ltac:(lra)). pose proof (Hm y ltac:(lra)). apply Rabs_le. lra. }
    assert (B : d ^ 2 <= (x - y) ^ 2) by (rewrite <- (pow2_abs (x - y)); nra).
    assert (V <= V / d ^ 2 * (x - y) ^ 2); [|lra].
    replace V with (V / d ^ 2 * d ^ 2) at 1 by (field; lra). apply Rmult_le_compat_l; assumption.
Qed.

(** ** What is compared *)
(** [D] are the values that [calc_ldos] returns at an orbital for all energies between the ends of the
    scaled range (all for which it returns a number). *)
Definition open_range (lo hi E : R) : Prop := s_b (make_scale lo hi) - s_a (make_scale lo hi) < E < s_b (make_scale lo hi) + s_a (make_scale lo hi).
Definition ldos_values f al lo hi h broadening (i : nat) (D : R -> R) : Prop :=
  forall energy, (forall E, In E energy -> open_range lo hi E) -> calc_ldos f jackson al lo hi h [i] 0 broadening energy = Ok (map (fun E => Some (D E)) energy).
Definition dos_values f al lo hi h broadening (r : list CX) (D : R -> R) : Prop :=
  forall energy, (forall E, In E energy -> open_range lo hi E) -> calc_dos f jackson al lo hi h r broadening energy = Ok (map (fun E => Some (D E)) energy).
Definition over_range (g : R -> R) (lo hi v : R) : Prop := integral g (s_b (make_scale lo hi) - s_a (make_scale lo hi)) (s_b (make_scale lo hi) + s_a (make_scale lo hi)) v.
(** The weight of a state in a vector. *)
Definition weight_in (N : nat) (r : list CX) (state : nat -> CX) : R := abs2 (ksum (fun i => kmul (kconj (state i)) (nth i r k0)) (seq 0 N)).

Section Proofs.
  Variables (f : format) (al : algorithm) (lo hi : R) (N : nat) (h : list (list (nat * CX))) (psi : nat -> nat -> CX) (en : nat -> R).
  Hypothesis HB : bounded_hamiltonian N h lo hi.
  Hypothesis HR : can_run N h lo hi al f.
  Hypothesis HE : eigenbasis N (coef h) psi en.
  Notation s := (make_scale lo hi).
  Variable broadening : R.
  Hypothesis Hb : 0 < broadening.
  Lemma scale_pos : 0 < s_a s. Proof. destruct HB as (_ & _ & _ & Hl & _). apply (scale_ok lo hi Hl). Qed.
  Lemma average_with : forall w g eps K num, (forall m, (m < N)%nat -> 0 <= w m) -> continuity g -> 0 <= K ->
    (forall x y, open_range lo hi x -> open_range lo hi y -> Rabs (g x - g y) <= eps + K * (x - y) ^ 2) ->
    (forall m, (m < N)%nat -> sharp_peak (line (jackson_g num) num (s_a s) (s_b s) (en m)) (s_b s - s_a s) (s_b s + s_a s) (en m) broadening) ->
    exists v, over_range (fun E => g E * rsum (fun m => w m * line (jackson_g num) num (s_a s) (s_b s) (en m) E) N) lo hi v /\
      Rabs (v - rsum (fun m => w m * g (en m)) N) <= (eps + K * broadening ^ 2) * rsum w N.
  Proof.
    intros w g eps K num Hw Cg HK Hg Hp. pose proof scale_pos as Ha.
    apply (sum_average N w en (fun m => line (jackson_g num) num (s_a s) (s_b s) (en m)) _ _ broadening); auto; [lra| |].
    - intros m Hm. apply (energies_open lo hi N h psi en HB HE m Hm).
    - intros m Hm. apply line_integrable; assumption.
  Qed.
End Proofs.

(** ** Averages over the energy: the error is the broadening times the largest slope *)
Theorem C111_average : forall f al lo hi N h psi en broadening i g L,
  bounded_hamiltonian N h lo hi -> can_run N h lo hi al f -> eigenbasis N (coef h) psi en -> 0 < broadening -> (i < N)%nat ->
  (forall x y, Rabs (g x - g y) <= L * Rabs (x - y)) ->
  exists D v, ldos_values f al lo hi h broadening i D /\ over_range (fun E => g E * D E) lo hi v /\
    Rabs (v - rsum (fun m => abs2 (psi m i) * g (en m)) N) <= L * broadening.
Proof.
  intros f al lo hi N h psi en br i g L HB HR HE Hb Hi Hg.
  assert (HL : 0 <= L).
  { specialize (Hg 1 0). pose proof (Rabs_pos (g 1 - g 0)). replace (1 - 0) with 1 in Hg by ring. rewrite Rabs_R1 in Hg. lra. }
  assert (Cg : continuity g).
  { intros x e He. exists (e / (L + 1)). split; [apply Rdiv_lt_0_compat; lra|]. intros y (_ & Hy). cbn in *. unfold R_dist in *.
    eapply Rle_lt_trans; [apply Hg|]. apply (Rmult_lt_compat_l (L + 1)) in Hy; [|lra]. replace ((L + 1) * (e / (L + 1))) with e in Hy by (field; lra).
    pose proof (Rabs_pos (y - x)). nra. }
  destruct (peaks f al lo hi N h psi en HB HR HE br Hb) as (num & P & Q & _).
  destruct (average_with lo hi N h psi en HB HE br (fun m => abs2 (psi m i)) g (L * br / 2) (L / (2 * br)) num) as (v & Iv & Bv); auto.
  - intros. apply abs2_nonneg.
  - apply Rmult_le_pos; [exact HL|apply Rlt_le, Rinv_0_lt_compat; lra].
  - intros x y _ _. apply lipschitz_parabola; auto.
  - eexists. exists v. split; [|split; [exact Iv|]].
    + intros energy Hen. apply (Q [i] 0%nat i energy); [intros j [<-|[]]; exact Hi|reflexivity|exact Hen].
    + rewrite (C53_weights N (coef h) psi en i HE Hi) in Bv. eapply Rle_trans; [exact Bv|]. right. field. lra.
Qed.
Print Assumptions C111_average.

(** ** Any continuous function: the average tends to the exact one as the broadening goes to zero *)
Theorem C111_limit : forall lo hi N h psi en i g eps,
  bounded_hamiltonian N h lo hi -> eigenbasis N (coef h) psi en -> (i < N)%nat -> continuity g -> 0 < eps ->
  exists beta, 0 < beta /\ forall f al broadening, can_run N h lo hi al f -> 0 < broadening < beta ->
  exists D v, ldos_values f al lo hi h broadening i D /\ over_range (fun E => g E * D E) lo hi v /\
    Rabs (v - rsum (fun m => abs2 (psi m i) * g (en m)) N) < eps.
Proof.
  intros lo hi N h psi en i g eps HB HE Hi Cg He.
  pose proof (scale_pos lo hi N h HB) as Ha.
  destruct (continuous_parabola g (s_b (make_scale lo hi) - s_a (make_scale lo hi)) (s_b (make_scale lo hi) + s_a (make_scale lo hi)) (eps / 2) ltac:(lra) Cg ltac:(lra)) as (K & HK & Hg).
  assert (HK1 : 0 < 2 * K + 1) by lra.
  exists (Rmin 1 (eps / (2 * K + 1))). split; [apply Rmin_glb_lt; [lra|apply Rdiv_lt_0_compat; lra]|]. intros f al br HR (Hb & Hbb).
  pose proof (Rmin_l 1 (eps / (2 * K + 1))). pose proof (Rmin_r 1 (eps / (2 * K + 1))).
  assert (B2 : (2 * K + 1) * br < eps).
  { assert (br < eps / (2 * K + 1)) as T by lra. apply (Rmult_lt_compat_l (2 * K + 1)) in T; [|lra]. replace ((2 * K + 1) * (eps / (2 * K + 1))) with eps in T by (field; lra). exact T. }
  destruct (peaks f al lo hi N h psi en HB HR HE br Hb) as (num & P & Q & _).
  destruct (average_with lo hi N h psi en HB HE br (fun m => abs2 (psi m i)) g (eps / 2) K num) as (v & Iv & Bv); auto.
  - intros. apply abs2_nonneg.
  - eexists. exists v. split; [|split; [exact Iv|]].
    + intros energy Hen. apply (Q [i] 0%nat i energy); [intros j [<-|[]]; exact Hi|reflexivity|exact Hen].
    + rewrite (C53_weights N (coef h) psi en i HE Hi) in Bv. nra.
Qed.
Print Assumptions C111_limit.

(** ** The weight in a window of energies *)
Theorem C111_window : forall f al lo hi N h psi en broadening i x y d,
  bounded_hamiltonian N h lo hi -> can_run N h lo hi al f -> eigenbasis N (coef h) psi en -> 0 < broadening -> (i < N)%nat ->
  open_range lo hi x -> open_range lo hi y -> x < y -> 0 < d ->
  exists D v, ldos_values f al lo hi h broadening i D /\ integral D x y v /\
    rsum (fun m => abs2 (psi m i) * inside (x + d) (y - d) (en m)) N - (broadening / d) ^ 2 <= v
    <= rsum (fun m => abs2 (psi m i) * inside (x - d) (y + d) (en m)) N + (broadening / d) ^ 2.
Proof.
  intros f al lo hi N h psi en br i x y d HB HR HE Hb Hi Hx Hy Hxy Hd. pose proof (scale_pos lo hi N h HB) as Ha. unfold open_range in Hx, Hy.
  destruct (peaks f al lo hi N h psi en HB HR HE br Hb) as (num & P & Q & _).
  destruct (sum_window N (fun m => abs2 (psi m i)) en (fun m => line (jackson_g num) num (s_a (make_scale lo hi)) (s_b (make_scale lo hi)) (en m)) _ _ br ltac:(intros; apply abs2_nonneg) P x y d ltac:(lra) Hxy ltac:(lra) Hd) as (v & Iv & Bv).
  eexists. exists v. split; [|split; [exact Iv|]].
  - intros energy Hen. apply (Q [i] 0%nat i energy); [intros j [<-|[]]; exact Hi|reflexivity|exact Hen].
  - rewrite (C53_weights N (coef h) psi en i HE Hi) in Bv. rewrite Rmult_1_r in Bv. exact Bv.
Qed.
Print Assumptions C111_window.

(** ** Counting states: the local densities of all orbitals together *)
Theorem C111_count : forall f al lo hi N h psi en broadening x y d,
  bounded_hamiltonian N h lo hi -> can_run N h lo hi al f -> eigenbasis N (coef h) psi en -> 0 < broadening ->
  open_range lo hi x -> open_range lo hi y -> x < y -> 0 < d ->
  exists D v, (forall i, (i < N)%nat -> ldos_values f al lo hi h broadening i (D i)) /\ integral (fun E => rsum (fun i => D i E) N) x y v /\
    rsum (fun m => inside (x + d) (y - d) (en m)) N - INR N * (broadening / d) ^ 2 <= v
    <= rsum (fun m => inside (x - d) (y + d) (en m)) N + INR N * (broadening / d) ^ 2.
Proof.
  intros f al lo hi N h psi en br x y d HB HR HE Hb Hx Hy Hxy Hd. pose proof (scale_pos lo hi N h HB) as Ha. unfold open_range in Hx, Hy.
  destruct (peaks f al lo hi N h psi en HB HR HE br Hb) as (num & P & Q & _).
  destruct (sum_window N (fun _ => 1) en (fun m => line (jackson_g num) num (s_a (make_scale lo hi)) (s_b (make_scale lo hi)) (en m)) _ _ br ltac:(intros; lra) P x y d ltac:(lra) Hxy ltac:(lra) Hd) as (v & Iv & Bv).
  exists (fun i E => rsum (fun m => abs2 (psi m i) * line (jackson_g num) num (s_a (make_scale lo hi)) (s_b (make_scale lo hi)) (en m) E) N), v. split; [|split].
  - intros i Hi energy Hen. apply (Q [i] 0%nat i energy); [intros j [<-|[]]; exact Hi|reflexivity|exact Hen].
  - refine (integral_ext _ _ x y v _ Iv). intros E _. rewrite rsum_swap. apply rsum_ext. intros m Hm.
    rewrite rsum_scal_r. f_equal. symmetry. exact (norm_psi N N psi (orthonormal_of N _ psi en HE) m Hm).
  - assert (T : rsum (fun _ => 1) N = INR N).
    { clear. induction N as [|n IH]; [reflexivity|]. cbn [rsum]. rewrite IH, S_INR. reflexivity. }
    rewrite T in Bv. rewrite (rsum_ext (fun m => inside (x + d) (y - d) (en m)) (fun m => 1 * inside (x + d) (y - d) (en m))) by (intros; ring).
    rewrite (rsum_ext (fun m => inside (x - d) (y + d) (en m)) (fun m => 1 * inside (x - d) (y + d) (en m))) by (intros; ring). lra.
Qed.
Print Assumptions C111_count.

(** ** The contribution of a start vector to the density of states *)
Lemma overlap_total : forall lo hi N h psi en r, bounded_hamiltonian N h lo hi -> eigenbasis N (coef h) psi en ->
  rsum (fun m => overlap N psi r m) N = norm2 N r.
Proof.
  intros lo hi N h psi en r HB HE. pose proof (scale_pos lo hi N h HB) as Ha. pose proof (energies_open lo hi N h psi en HB HE) as Ho.
  assert (Hx : forall k0, (k0 < N)%nat -> -1 <= scaled (make_scale lo hi) (en k0) <= 1) by (intros k Hk; pose proof (scaled_open (make_scale lo hi) (en k) Ha (Ho k Hk)); lra).
  pose proof (mu_eigen N _ psi _ (eigen_scaled N (coef h) psi en (make_scale lo hi) HE) Hx r 0) as Q.
  rewrite (rsum_ext (fun m => overlap N psi r m) (fun m => overlap N psi r m * tcos (scaled (make_scale lo hi) (en m)) 0)) by (intros; rewrite tcos_0; ring).
  rewrite <- Q. unfold mu, mom. rewrite <- inner_norm. reflexivity.
Qed.
Theorem C111_dos : forall f al lo hi N h psi en broadening r g L,
  bounded_hamiltonian N h lo hi -> can_run N h lo hi al f -> eigenbasis N (coef h) psi en -> 0 < broadening -> length r = N ->
  (forall x y, Rabs (g x - g y) <= L * Rabs (x - y)) ->
  exists D v, dos_values f al lo hi h broadening r D /\ over_range (fun E => g E * D E) lo hi v /\
    Rabs (v - rsum (fun m => weight_in N r (psi m) * g (en m)) N) <= L * broadening * rsum (fun i => abs2 (nth i r k0)) N.
Proof.
  intros f al lo hi N h psi en br r g L HB HR HE Hb Hr Hg.
  assert (HL : 0 <= L).
  { specialize (Hg 1 0). pose proof (Rabs_pos (g 1 - g 0)). replace (1 - 0) with 1 in Hg by ring. rewrite Rabs_R1 in Hg. lra. }
  assert (Cg : continuity g).
  { intros x e He. exists (e / (L + 1)). split; [apply Rdiv_lt_0_compat; lra|]. intros y (_ & Hy). cbn in *. unfold R_dist in *.
    eapply Rle_lt_trans; [apply Hg|]. apply (Rmult_lt_compat_l (L + 1)) in Hy; [|lra]. replace ((L + 1) * (e / (L + 1))) with e in Hy by (field; lra).
    pose proof (Rabs_pos (y - x)). nra. }
  destruct (peaks f al lo hi N h psi en HB HR HE br Hb) as (num & P & _ & Q).
  destruct (average_with lo hi N h psi en HB HE br (fun m => overlap N psi (vec r) m) g (L * br / 2) (L / (2 * br)) num) as (v & Iv & Bv); auto.
  - intros. apply abs2_nonneg.
  - apply Rmult_le_pos; [exact HL|apply Rlt_le, Rinv_0_lt_compat; lra].
  - intros x y _ _. apply lipschitz_parabola; auto.
  - eexists. exists v. split; [|split; [exact Iv|]].
    + intros energy Hen. apply (Q r energy Hr Hen).
    + rewrite (overlap_total lo hi N h psi en (vec r) HB HE) in Bv. eapply Rle_trans; [exact Bv|]. right. unfold norm2, vec. set (n2 := rsum _ N). field. lra.
Qed.
Print Assumptions C111_dos.

(** ** The dimer: energies -1 and 1, half of the weight of a site on each *)
Example C111_example_average : exists D v, ldos_values Csr plain (-1) 1 dimer (/ 100) 0 D /\ over_range (fun E => Rabs E * D E) (-1) 1 v /\ Rabs (v - 1) <= / 100.
Proof.
  destruct (C111_average Csr plain (-1) 1 2 dimer _ _ (/ 100) 0 Rabs 1 dimer_ok (plain_runs _ _ _ _) dimer_eigen ltac:(lra) ltac:(lia)) as (D & v & A & B & C).
  - intros x y. rewrite Rmult_1_l. apply Rabs_triang_inv2.
  - exists D, v. split; [exact A|]. split; [exact B|]. rewrite Rmult_1_l in C. eapply Rle_trans; [|exact C]. right. do 2 f_equal.
    cbn [rsum]. pose proof (C53_weights 2 _ _ _ 0%nat dimer_eigen ltac:(lia)) as W. cbn [rsum] in W. rewrite Rabs_left, Rabs_right by lra. lra.
Qed.
Example C111_example_window : exists D v, ldos_values Csr plain (-1) 1 dimer (/ 1000) 0 D /\ integral D 0 (1009 / 1000) v /\ / 2 - / 25 <= v <= / 2 + / 25.
Proof.
  assert (HS : make_scale (-1) 1 = Scale (101 / 100) 0) by exact scale_1.
  destruct (C111_window Csr plain (-1) 1 2 dimer _ _ (/ 1000) 0 0 (1009 / 1000) (/ 200) dimer_ok (plain_runs _ _ _ _) dimer_eigen ltac:(lra) ltac:(lia)) as (D & v & A & B & C); try (unfold open_range; rewrite HS; cbn [s_a s_b]; lra); try lra.
  exists D, v. split; [exact A|]. split; [exact B|].
  assert (S2 : / sqrt 2 * / sqrt 2 = / 2).
  { assert (sqrt 2 * sqrt 2 = 2) by (apply sqrt_sqrt; lra). assert (sqrt 2 <> 0) by (intros Z; rewrite Z in *; lra). rewrite <- Rinv_mult by assumption. congruence. }
  assert (I1 : inside (0 + / 200) (1009 / 1000 - / 200) (-1) = 0) by (unfold inside; destruct (Rle_dec _ _); [lra|reflexivity]).
  assert (I2 : inside (0 + / 200) (1009 / 1000 - / 200) 1 = 1) by (unfold inside; destruct (Rle_dec _ _); [destruct (Rle_dec _ _); [reflexivity|lra]|lra]).
  assert (I3 : inside (0 - / 200) (1009 / 1000 + / 200) (-1) = 0) by (unfold inside; destruct (Rle_dec _ _); [lra|reflexivity]).
  assert (I4 : inside (0 - / 200) (1009 / 1000 + / 200) 1 = 1) by (unfold inside; destruct (Rle_dec _ _); [destruct (Rle_dec _ _); [reflexivity|lra]|lra]).
  cbn [rsum] in C. rewrite I1, I2, I3, I4 in C. unfold abs2, re in C. cbn [fst snd] in C. replace (/ 1000 / / 200) with (/ 5) in C by field. nra.
Qed.
