(* C61: the energy bounds found for the KPM.  C62: the eigenvalues of a tridiagonal matrix. *)
From Verif Require Import Base Scalar Kpm KpmSpec KpmVec KpmCheb RSum Cplx Spectral Lanczos TridiagProofs LanczosProofs LanczosOrtho LanczosKrylov LanczosWitness.
From Coq Require Import Reals Lra.
Local Open Scope R_scope.
Add Ring CXring3 : (k_ring CX).

(** ** Specification *)
(** The symmetric tridiagonal matrix with diagonal [d] and subdiagonal [e]. *)
Definition tri (d e : list R) (i j : nat) : R :=
  if (i =? j)%nat then nth i d 0 else if (i + 1 =? j)%nat then nth i e 0 else if (j + 1 =? i)%nat then nth j e 0 else 0.
Definition quad (n : nat) (T : nat -> nat -> R) (x : nat -> R) : R := rsum (fun i => rsum (fun j => T i j * x i * x j) n) n.
Definition sqnorm (n : nat) (x : nat -> R) : R := rsum (fun i => x i * x i) n.
Definition orthogonal (n : nat) (O : nat -> nat -> R) : Prop :=
  forall i j, (i < n)%nat -> (j < n)%nat -> rsum (fun k => O k i * O k j) n = if (i =? j)%nat then 1 else 0.
Definition mulv (n : nat) (O : nat -> nat -> R) (x : nat -> R) (i : nat) : R := rsum (fun j => O i j * x j) n.

(** [<x, H x>] and [<x, x>] of the sparse matrix [m] *)
Definition energy (N : nat) (m : csr CX) (x : nat -> CX) : R :=
  fst (ksum (fun i => kmul (kconj (x i)) (ksum (fun j => kmul (coef m i j) (x j)) (seq 0 N))) (seq 0 N)).
Definition norm2 (N : nat) (x : nat -> CX) : R := fst (ksum (fun i => kmul (kconj (x i)) (x i)) (seq 0 N)).
(** [H^k x] *)
Fixpoint power (N : nat) (m : csr CX) (x : nat -> CX) (k : nat) : nat -> CX :=
  match k with O => x | S l => fun i => ksum (fun j => kmul (coef m i j) (power N m x l j)) (seq 0 N) end.

(** ** Connection *)
Lemma quad_qf : forall d e x n, (n <= length d)%nat -> quad n (tri d e) x = qf n (arr d) (arr e) x.
Proof.
  intros d e x n. unfold quad, qf. induction n as [|n IH]; intros Hn; [cbn; ring|]. cbn [rsum]. rewrite rsum_add. specialize (IH ltac:(lia)).
  assert (D : tri d e n n = arr d n) by (unfold tri; rewrite Nat.eqb_refl; reflexivity).
  rewrite D. destruct n as [|k].
  - cbn. ring.
  - replace (S (S k) - 1)%nat with (S k) by lia. replace (S k - 1)%nat with k in IH by lia.
    assert (A : rsum (fun i => tri d e i (S k) * x i * x (S k)) (S k) = arr e k * x k * x (S k)).
    { cbn [rsum]. rewrite rsum_0.
      - unfold tri, arr. destruct (Nat.eqb_spec k (S k)); [lia|]. destruct (Nat.eqb_spec (k + 1) (S k)); [ring|lia].
      - intros i Hi. unfold tri. destruct (Nat.eqb_spec i (S k)); [lia|]. destruct (Nat.eqb_spec (i + 1) (S k)); [lia|]. destruct (Nat.eqb_spec (S k + 1) i); [lia|]. ring. }
    assert (B : rsum (fun j => tri d e (S k) j * x (S k) * x j) (S k) = arr e k * x k * x (S k)).
    { cbn [rsum]. rewrite rsum_0.
      - unfold tri, arr. destruct (Nat.eqb_spec (S k) k); [lia|]. destruct (Nat.eqb_spec (S k + 1) k); [lia|]. destruct (Nat.eqb_spec (k + 1) (S k)); [ring|lia].
      - intros i Hi. unfold tri. destruct (Nat.eqb_spec (S k) i); [lia|]. destruct (Nat.eqb_spec (S k + 1) i); [lia|]. destruct (Nat.eqb_spec (i + 1) (S k)); [lia|]. ring. }
    rewrite IH, A, B. cbn [rsum]. replace (k + 1)%nat with (S k) by lia. ring.
Qed.
Lemma sqnorm_nrm : forall n x, sqnorm n x = nrm n x.
Proof. intros. unfold sqnorm, nrm. apply rsum_ext. intros; ring. Qed.
Lemma energy_crip : forall N m x, energy N m x = crip N x (cA N (coef m) x). Proof. reflexivity. Qed.
Lemma norm2_crip : forall N x, norm2 N x = crip N x x. Proof. reflexivity. Qed.
Lemma power_pw : forall N m x k, power N m x k = pw N (coef m) x k.
Proof. intros N m x k. induction k as [|k IH]; [reflexivity|]. cbn [power pw]. rewrite IH. reflexivity. Qed.
Lemma qf_ext : forall n d e x y, (forall i, (i < n)%nat -> x i = y i) -> qf n d e x = qf n d e y.
Proof.
  intros n d e x y H. unfold qf. f_equal; [|f_equal]; apply rsum_ext; intros i Hi; rewrite !H by lia; reflexivity.
Qed.
Lemma diag_ext : forall n l x y, (forall i, (i < n)%nat -> x i = y i) -> diag_form n l x = diag_form n l y.
Proof. intros n l x y H. unfold diag_form. apply rsum_ext. intros i Hi. rewrite H by exact Hi. reflexivity. Qed.

(** ** C62 *)
(** Every call ends, without reading outside the arrays, either in the declared failure or with as many
    values as the matrix has rows; there are orthogonal coordinates in which the matrix is the diagonal
    of these values, up to the subdiagonal elements that were dropped as small. *)
Theorem C62 : forall eps alpha beta M, 0 <= eps -> length beta = length alpha -> 0 <= M ->
  (forall x, Rabs (quad (length alpha) (tri alpha beta) x) <= M * sqnorm (length alpha) x) ->
  tridiagonal_eigenvalues eps alpha beta = Throw \/
  exists ev O, tridiagonal_eigenvalues eps alpha beta = Ok ev /\ length ev = length alpha /\ orthogonal (length alpha) O /\
    forall x, Rabs (rsum (fun i => nth i ev 0 * (x i * x i)) (length alpha) - quad (length alpha) (tri alpha beta) (mulv (length alpha) O x))
              <= M * ((1 + 2 * eps) ^ (length alpha - 1) - 1) * sqnorm (length alpha) x.
Proof.
  intros eps alpha beta M He HL HM B. set (n := length alpha) in *.
  destruct (tridiagonal_ok eps alpha beta M He HL HM) as [T|(ev & T & L & NF)].
  - intros x. fold n. rewrite <- quad_qf by (unfold n; lia). rewrite <- sqnorm_nrm. apply B.
  - left. exact T.
  - right. fold n in NF, L. destruct (near_matrix n _ _ _ NF) as (O & HO & K).
    + intros x y H. apply qf_ext. exact H.
    + intros x y H. apply diag_ext. exact H.
    + exists ev, O. split; [exact T|]. split; [exact L|]. split; [exact HO|]. intros x. specialize (K x). rewrite quad_qf by (unfold n; lia). rewrite sqnorm_nrm.
      unfold diag_form in K. rewrite (rsum_ext (fun i => nth i ev 0 * (x i * x i)) (fun i => arr ev i * x i ^ 2)) by (intros; unfold arr; ring). exact K.
Qed.

(** A number [M] for every matrix. *)
Theorem C62_bound : forall alpha beta, exists M, 0 <= M /\
  forall x, Rabs (quad (length alpha) (tri alpha beta) x) <= M * sqnorm (length alpha) x.
Proof.
  intros alpha beta. exists (tri_bound (length alpha) (arr alpha) (arr beta)). split; [apply tri_bound_nonneg|]. intros x. rewrite quad_qf by lia. rewrite sqnorm_nrm. apply tri_bounded.
Qed.

(** The least and the greatest value enclose the matrix. *)
Theorem C62_extremes : forall eps alpha beta M ev lo hi, 0 <= eps -> length beta = length alpha -> 0 <= M ->
  (forall x, Rabs (quad (length alpha) (tri alpha beta) x) <= M * sqnorm (length alpha) x) ->
  tridiagonal_eigenvalues eps alpha beta = Ok ev -> (forall y, In y ev -> lo <= y <= hi) ->
  forall x, let delta := M * ((1 + 2 * eps) ^ (length alpha - 1) - 1) in
    (lo - delta) * sqnorm (length alpha) x <= quad (length alpha) (tri alpha beta) x <= (hi + delta) * sqnorm (length alpha) x.
Proof.
  intros eps alpha beta M ev lo hi He HL HM B T HE x delta. set (n := length alpha) in *.
  destruct (tridiagonal_ok eps alpha beta M He HL HM) as [T'|(ev' & T' & L & NF)].
  - intros y. fold n. rewrite <- quad_qf by (unfold n; lia). rewrite <- sqnorm_nrm. apply B.
  - rewrite T' in T. discriminate.
  - rewrite T' in T. injection T as ->. fold n in NF, L. destruct NF as (G & Gi & Iso & H). specialize (H (Gi x)). rewrite (iso_inv _ _ _ Iso), (iso_nrm_inv _ _ _ Iso) in H.
    destruct (diag_between n ev lo hi (Gi x) L HE) as [A C]. rewrite (iso_nrm_inv _ _ _ Iso) in A, C. rewrite quad_qf by (unfold n; lia). rewrite sqnorm_nrm.
    fold delta in H. revert H. unfold Rabs. destruct (Rcase_abs _); intros; lra.
Qed.

(** The matrix [[1, 1/2], [1/2, 1]] has the eigenvalues [3/2] and [1/2]. *)
Example C62_example : tridiagonal_eigenvalues (/ 1000) [1; 1] [/ 2; 7] = Ok [1 + / 2; 1 - / 2].
Proof. apply tri_two; lra. Qed.

(** ** C61 *)
(** The claim: the bounds are good for the KPM, that is, the scaled Hamiltonian is within [-1, 1]. *)
Definition C61_claim (eps : R) (start : list CX) : Prop :=
  forall N m precision lo hi loops, wf_csr N m -> hermitian N (coef m) -> length start = N -> 0 < precision <= 2 / 1000 ->
    minmax_eigenvalues eps m start precision = Ok (lo, hi, loops) ->
    forall x, norm2 N x = 1 -> Rabs (scaled (make_scale lo hi) (energy N m x)) <= 1.

(** True: the procedure never reads outside the arrays; the bounds are never outside of the spectrum
    (by more than the dropped elements allow), and the mean energy of the start vector is between
    them; a division by zero needs a start vector with a linear relation between the powers. *)
Theorem C61_partial : forall eps N m start precision M, 0 <= eps -> wf_csr N m -> hermitian N (coef m) -> length start = N ->
  (exists x, In x start /\ x <> k0) -> 0 <= M -> (forall x, Rabs (energy N m x) <= M * norm2 N x) ->
  match minmax_eigenvalues eps m start precision with
  | Throw => True
  | UB => exists k c, (k < 1000)%nat /\ forall i, (i < N)%nat ->
      power N m (vec start) (S k) i = ksum (fun j => kmul (re (c j)) (power N m (vec start) j i)) (seq 0 (S k))
  | Ok (lo, hi, loops) =>
      let delta := M * ((1 + 2 * eps) ^ loops - 1) in
      (loops < 1000)%nat /\ lo <= hi /\
      (exists x, norm2 N x = 1 /\ Rabs (lo - energy N m x) <= delta) /\
      (exists x, norm2 N x = 1 /\ Rabs (hi - energy N m x) <= delta) /\
      (lo - delta) * norm2 N (vec start) <= energy N m (vec start) <= (hi + delta) * norm2 N (vec start)
  end.
Proof.
  intros eps N m start precision M He Hwf Hh Ls Hs HM B.
  assert (Hr : in_range CX m N) by (split; apply Hwf).
  destruct (normalize_ok start Hs) as (f & Pf & Uf & En). rewrite Ls in Uf.
  set (v := normalize start) in *. assert (Lv : length v = N) by (rewrite En, map_length; exact Ls).
  assert (Vv : forall i, vec v i = kmul (re f) (vec start i)).
  { intros i. destruct (Nat.lt_ge_cases i N) as [Hi|Hi]; [rewrite En; apply vec_map_list; lia|].
    unfold vec. rewrite !nth_overflow by lia. ring. }
  assert (Uv : crip N (vec v) (vec v) = 1).
  { rewrite (crip_ext N _ _ (clin f (vec start) 0 (vec start)) (clin f (vec start) 0 (vec start)));
      try (intros i _; rewrite Vv; unfold clin; rewrite re_0; ring).
    rewrite crip_lin, crip_sym, crip_lin. rewrite <- Uf. ring. }
  assert (Ev : energy N m (vec v) = f * f * energy N m (vec start)).
  { rewrite !energy_crip.
    rewrite (crip_ext N _ _ (clin f (vec start) 0 (vec start)) (clin f (cA N (coef m) (vec start)) 0 (cA N (coef m) (vec start)))).
    - rewrite crip_lin, crip_sym, crip_lin, (crip_sym N (cA _ _ _)). ring.
    - intros i _; rewrite Vv; unfold clin; rewrite re_0; ring.
    - intros i _. rewrite (cA_ext N (coef m) (vec v) (clin f (vec start) 0 (vec start))) by (intros j _; rewrite Vv; unfold clin; rewrite re_0; ring). apply cA_comb. }
  assert (Tr : tracks N m v 0 (LState (repeat k0 (length m)) v [] [] None)).
  { unfold tracks. cbn [l_v0 l_v1 l_alpha l_beta]. rewrite repeat_length. repeat split; auto; try apply Hwf.
    - intros i Hi. unfold vec. rewrite nth_repeat. reflexivity.
    - intros; lia. }
  unfold minmax_eigenvalues. fold v.
  destruct (loop_tracks eps N m v He Hr Lv loop_limit 0 (precision / 100) 0 _ Tr) as [E|[(E & j & Hj & Zj & NZ)|(j & ev & lo & hi & E & NZ & T & Tlo & Thi)]]; rewrite E.
  - exact I.
  - destruct (exhausted N m v j Hh NZ Zj) as (c & Hc). exists j, c. split; [unfold loop_limit in Hj; lia|]. intros i Hi. rewrite power_pw.
    assert (P : forall k i, pw N (coef m) (vec v) k i = kmul (re f) (pw N (coef m) (vec start) k i)).
    { induction k as [|k IH]; intros l; [apply Vv|]. cbn [pw]. unfold cA, ap. rewrite <- ksum_mul_l. apply ksum_ext. intros q _. rewrite IH. ring. }
    specialize (Hc i Hi). rewrite P in Hc.
    assert (G : kmul (re (/ f)) (re f) = k1) by (rewrite <- re_mult, <- re_1; f_equal; field; lra).
    transitivity (kmul (kmul (re (/ f)) (re f)) (pw N (coef m) (vec start) (S j) i)); [rewrite G; ring|].
    transitivity (kmul (re (/ f)) (kmul (re f) (pw N (coef m) (vec start) (S j) i))); [ring|]. rewrite Hc, <- ksum_mul_l.
    apply ksum_ext. intros q _. rewrite P, power_pw. transitivity (kmul (kmul (re (/ f)) (re f)) (kmul (re (c q)) (pw N (coef m) (vec start) q i))); [ring|]. rewrite G. ring.
  - cbn [Nat.add] in *. destruct (result_ok eps N m v He Hh Lv Uv j ev lo hi M NZ T Tlo Thi HM) as (R1 & R2).
    { intros x. apply B. }
    set (delta := M * ((1 + 2 * eps) ^ j - 1)) in *. split; [|split; [|split; [|split]]].
    + assert (G : forall limit i p st r, lanczos_loop eps limit i m p st = Ok r -> (snd r < i + limit)%nat).
      { clear. induction limit as [|l IH]; intros i p st r H; [discriminate|]. cbn [lanczos_loop] in H. destruct (lanczos_turn eps m st) as [[[st' lo] hi]| |]; cbn [obind] in H; try discriminate.
        destruct (_ && _)%bool; [injection H as <-; cbn; lia|]. destruct (is0 _); [discriminate|]. apply IH in H. lia. }
      specialize (G _ _ _ _ _ E). cbn [snd] in G. unfold loop_limit in G. lia.
    + destruct (min_coeff_ok _ _ Tlo) as (_ & G). apply G. apply (max_coeff_ok _ _ Thi).
    + apply R1. apply (min_coeff_ok _ _ Tlo).
    + apply R1. apply (max_coeff_ok _ _ Thi).
    + rewrite <- energy_crip, Ev in R2. rewrite norm2_crip. set (s := crip N (vec start) (vec start)) in *. set (g := energy N m (vec start)) in *.
      assert (Hg : g = f * f * g * s) by (transitivity (f * f * s * g); [rewrite Uf; ring|ring]).
      assert (Ps : 0 < s). { destruct (Rle_lt_dec s 0); [|auto]. exfalso. assert (f * f * s <= 0) by nra. lra. }
      rewrite Hg. nra.
Qed.

(** False: for every real start vector of three numbers (the program always uses the same one) there is
    a Hermitian matrix for which the procedure stops at bounds that leave out most of the spectrum. *)
Theorem C61_refuted : forall eps x y z, 0 <= eps <= / 1000000 -> [re x; re y; re z] <> [k0; k0; k0] -> ~ C61_claim eps [re x; re y; re z].
Proof.
  intros eps x y z He Hn Cl.
  assert (N0 : x * x + y * y + z * z <> 0).
  { intros E. apply Hn. pose proof (Rle_0_sqr x). pose proof (Rle_0_sqr y). pose proof (Rle_0_sqr z). unfold Rsqr in *. assert (x = 0) by nra. assert (y = 0) by nra. assert (z = 0) by nra. subst. reflexivity. }
  destruct (early_stop eps x y z He N0) as (m & Wf & Hh & E & u & Hu & Hg).
  specialize (Cl 3%nat m (2 / 1000) _ _ _ Wf Hh eq_refl ltac:(lra) E u Hu). rewrite energy_crip, Hg in Cl.
  assert (T : tiny = / 100000) by reflexivity.
  unfold scaled, make_scale in Cl. cbn [s_a s_b] in Cl. rewrite T in Cl.
  replace (/ 2 * (1 + / 100000 - (1 - / 100000)) * (1 + tolerance)) with (101 / 10000000) in Cl by (unfold tolerance; field).
  replace (/ 2 * (1 + / 100000 + (1 - / 100000))) with 1 in Cl by field.
  destruct (Rlt_dec _ _) as [A|A].
  - revert A. unfold tolerance. rewrite Rabs_right by lra. lra.
  - rewrite Rabs_right in Cl by lra. lra.
Qed.

(** A single site: the residual vanishes at once. *)
Example C61_one_site : minmax_eigenvalues (/ 1000) [[(0%nat, re 2)]] [re 1] (2 / 1000) = UB.
Proof.
  unfold minmax_eigenvalues, loop_limit. change 1000%nat with (S 999). remember 999%nat as l. clear Heql.
  assert (En : normalize [re 1] = [re 1]).
  { unfold normalize. cbn [map fold_right]. replace (abs2 (re 1) + 0) with 1 by (unfold abs2, re; cbn; ring). rewrite ltb_t by lra. rewrite sqrt_1. unfold re. cbn. unfold cx_mul. cbn. do 2 f_equal; field. }
  rewrite En. cbn [lanczos_loop]. unfold lanczos_turn. cbn [l_beta l_v0 l_v1 last length repeat].
  assert (E1 : lanczos_spmv 0 [[(0%nat, re 2)]] [re 1] [k0] = Ok (2, [re 2])).
  { unfold lanczos_spmv, re. cbn. unfold cx_sub, cx_add, cx_opp, cx_mul, real_dot. cbn. f_equal. f_equal; [ring|]. f_equal. f_equal; ring. }
  rewrite E1. cbn [obind fst snd].
  assert (E2 : lanczos_axpy 2 [re 1] [re 2] = Ok (0, [re 0])).
  { unfold lanczos_axpy, re. cbn. unfold cx_sub, cx_add, cx_opp, cx_mul, abs2. cbn. f_equal. f_equal.
    - transitivity (sqrt 0); [f_equal; ring|apply sqrt_0].
    - f_equal. f_equal; ring. }
  rewrite E2. cbn [obind fst snd app l_alpha].
  assert (E3 : tridiagonal_eigenvalues (/ 1000) [2] [0] = Ok [2]) by reflexivity.
  rewrite E3. cbn [obind min_coeff max_coeff fold_left l_prev option_map converged andb l_beta last]. rewrite is0_0. reflexivity.
Qed.
(** The witness of the refutation is not empty: its spectrum reaches 100 but the bounds are close to 1. *)
Example C61_witness : exists m, minmax_eigenvalues 0 m [re 1; re 1; re 1] (2 / 1000) = Ok (1 - tiny, 1 + tiny, 1%nat).
Proof. destruct (early_stop 0 1 1 1) as (m & _ & _ & E & _); [lra|lra|]. exists m. exact E. Qed.

Print Assumptions C61_partial.
Print Assumptions C61_refuted.
Print Assumptions C62.
Print Assumptions C62_bound.
Print Assumptions C62_extremes.
