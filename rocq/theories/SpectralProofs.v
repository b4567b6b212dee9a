(* Positivity and meaning of spectral functions reconstructed with the Jackson kernel. *)
From Verif Require Import Base Scalar Kpm KpmSpec KpmCheb KpmGram KpmCore KpmEnd KpmEll KpmFinal RSum Cplx Spectral.
From Coq Require Import Reals Lra.
Local Open Scope R_scope.

(** ** Number of moments *)
Lemma trunc_range : forall x, 0 <= x -> (0 <= trunc x)%Z /\ IZR (trunc x) <= x /\ x < IZR (trunc x) + 1.
Proof.
  intros x H. unfold trunc. destruct (Rle_dec 0 x); [|lra]. destruct (base_Int_part x) as (A & B).
  assert (-1 < IZR (Int_part x)) by lra. apply lt_IZR in H0. repeat split; [lia|lra|lra].
Qed.
Lemma required_ok : forall c s, 0 < c -> 0 < s -> exists n, required c s = Ok n /\ (2 <= n)%nat /\ ((n - 2) mod 4 = 0)%nat /\
  c / s < INR n <= c / s + 4.
Proof.
  intros c s Hc Hs. unfold required. destruct (Req_EM_T s 0) as [E|_]; [lra|].
  assert (Hq : 0 < c / s) by (apply Rdiv_lt_0_compat; auto).
  destruct (trunc_range (c / s) (Rlt_le _ _ Hq)) as (T0 & T1 & T2). destruct (round_ok (trunc (c / s) + 1)) as (r & -> & R1 & R2 & R3 & R4).
  exists (Z.to_nat r). split; [reflexivity|]. split; [lia|]. split.
  { apply Nat2Z.inj. rewrite Nat2Z.inj_mod, Nat2Z.inj_sub, Z2Nat.id by lia. exact R3. }
  rewrite INR_IZR_INZ, Z2Nat.id by lia. split.
  - apply Rlt_le_trans with (IZR (trunc (c / s) + 1)); [rewrite plus_IZR; lra|]. apply IZR_le. exact R1.
  - assert (L : (r <= trunc (c / s) + 4)%Z).
    { set (q := trunc (c / s)) in *. apply Z.le_trans with (q + 1 + (2 - (q + 1)) mod 4)%Z; [apply R4|pose proof (Z.mod_pos_bound (2 - (q + 1)) 4); lia].
      - pose proof (Z.mod_pos_bound (2 - (q + 1)) 4). lia.
      - pose proof (Z.mod_pos_bound (2 - (q + 1)) 4). pose proof (Z.mod_eq (2 - (q + 1)) 4). lia.
      - apply Z.mod_divide; [lia|]. pose proof (Z.mod_eq (2 - (q + 1)) 4). exists (- ((2 - (q + 1)) / 4))%Z. lia. }
    apply IZR_le in L. rewrite plus_IZR in L. lra.
Qed.

(** ** Scaling factors *)
Lemma scale_ok : forall lo hi, lo < hi -> let s := make_scale lo hi in
  0 < s_a s /\ s_b s - s_a s < lo /\ hi < s_b s + s_a s.
Proof.
  intros lo hi H s. unfold s, make_scale, tolerance. cbn [s_a s_b].
  set (a := / 2 * (hi - lo) * (1 + / 100)). set (b := / 2 * (hi + lo)).
  assert (Ha : 0 < a) by (unfold a; lra). split; [exact Ha|].
  destruct (Rlt_dec (Rabs (b / a)) (/ 100 * / 100)) as [Hb|_]; [|unfold a, b; lra].
  assert (Hb' : Rabs b < / 100 * / 100 * a).
  { unfold Rdiv in Hb. rewrite Rabs_mult, (Rabs_right (/ a)) in Hb by (left; apply Rinv_0_lt_compat; exact Ha).
    apply (Rmult_lt_compat_r a) in Hb; [|exact Ha]. rewrite Rmult_assoc, Rinv_l in Hb by lra. lra. }
  apply Rabs_def2 in Hb'. unfold a, b in *. lra.
Qed.
Lemma scaled_range : forall lo hi E, lo < hi -> lo <= E <= hi -> -1 < scaled (make_scale lo hi) E < 1.
Proof.
  intros lo hi E H (H1 & H2). destruct (scale_ok lo hi H) as (Ha & Hl & Hh). unfold scaled. set (s := make_scale lo hi) in *.
  split.
  - apply (Rmult_lt_reg_r (s_a s)); [exact Ha|]. unfold Rdiv. rewrite Rmult_assoc, Rinv_l by lra. lra.
  - apply (Rmult_lt_reg_r (s_a s)); [exact Ha|]. unfold Rdiv. rewrite Rmult_assoc, Rinv_l by lra. lra.
Qed.

(** ** Vectors and matrices over the complex numbers *)
Local Notation dm := (nat -> nat -> CX).
Definition norm2 (N : nat) (v : nat -> CX) : R := rsum (fun i => abs2 (v i)) N.
(** Expectation value of a Hermitian matrix. *)
Definition expect (N : nat) (H : dm) (v : nat -> CX) : R := fst (braket N v H v).
(** All energies are between [lo] and [hi]. *)
Definition within (N : nat) (H : dm) (lo hi : R) : Prop := forall v, lo * norm2 N v <= expect N H v <= hi * norm2 N v.

Lemma inner_norm : forall N v, fst (inner CX N v v) = norm2 N v.
Proof. intros N v. unfold inner, norm2. rewrite fst_sum. apply rsum_ext. intros i _. rewrite abs2_conj. reflexivity. Qed.
Lemma norm2_nonneg : forall N v, 0 <= norm2 N v.
Proof. intros. apply rsum_nonneg. intros. apply abs2_nonneg. Qed.
Lemma inner_expect : forall N H v, fst (inner CX N v (ap CX N H v)) = expect N H v.
Proof. intros. unfold expect. rewrite <- inner_braket. reflexivity. Qed.

Lemma rest_nonneg : forall N X w, hermitian N X -> within N X (-1) 1 -> 0 <= fst (inner CX N w (rest CX N X w)).
Proof.
  intros N X w HX Hw. pose proof (f_equal fst (rest_split CX N X HX w)) as E. cbv zeta in E. rewrite !fst_add, fst_sub in E.
  set (p := vadd CX w (ap CX N X w)) in *. set (q := vsub CX w (ap CX N X w)) in *. rewrite !inner_expect, !inner_norm in E.
  destruct (Hw p) as (_ & P). destruct (Hw q) as (Q & _). lra.
Qed.

Section Moments.
  Variable N : nat.
  Variable X : dm.
  Hypothesis HX : hermitian N X.
  Hypothesis Hb : within N X (-1) 1.
  Variable r : nat -> CX.
  (** Real parts of the moments <r| T_n |r>. *)
  Definition mu (n : nat) : R := fst (mom CX N X r n).

  Lemma moments_nonneg : forall x M, 0 <= rsum (fun n => rsum (fun m => x n * x m * mu ((n - m) + (m - n))%nat) M) M.
  Proof.
    intros x M. pose proof (f_equal fst (gram_sum CX N X HX r (fun n => re (x n)) M (fun n => re_conj (x n)))) as E.
    rewrite fst_add, inner_norm, fst_sum in E.
    replace (rsum (fun n => rsum (fun m => x n * x m * mu (n - m + (m - n))) M) M)
      with (norm2 N (comb CX (fun n => re (x n)) (tv CX N X r) M) +
            fst (inner CX N (comb CX (fun n => re (x n)) (uv CX N X r) M) (rest CX N X (comb CX (fun n => re (x n)) (uv CX N X r) M)))).
    - pose proof (norm2_nonneg N (comb CX (fun n => re (x n)) (tv CX N X r) M)). pose proof (rest_nonneg N X (comb CX (fun n => re (x n)) (uv CX N X r) M) HX Hb). lra.
    - rewrite E. apply rsum_ext. intros n _. rewrite fst_sum. apply rsum_ext. intros m _. rewrite !fst_re_mul. unfold mu. ring.
  Qed.

  (** The Jackson sum at angle [f]. *)
  Lemma jackson_coef : forall M n, (2 <= M)%nat -> (n <= M)%nat -> jackson_g M n = 2 / (INR M + 1) * corr (jsin M) M n.
  Proof.
    intros M n HM Hn. rewrite jackson_corr by lia. unfold jackson_g. pose proof (pos_INR M).
    replace (PI * INR n / (INR M + 1)) with (INR n * (PI / (INR M + 1))) by (field; lra).
    set (A := _ + _ / _). field. lra.
  Qed.
  (** Sums weighted with the correlations of a sequence. *)
  Lemma corr_sum_nonneg : forall a M f,
    0 <= rsum (fun n => (match n with O => / 2 | _ => 1 end) * mu n * corr a M n * cos (INR n * f)) M.
  Proof.
    intros a M f.
    assert (E : rsum (fun n => (match n with O => / 2 | _ => 1 end) * mu n * corr a M n * cos (INR n * f)) M
      = / 2 * rsum (fun n => rsum (fun m => a n * a m * (mu ((n - m) + (m - n))%nat * cos (INR ((n - m) + (m - n)) * f))) M) M).
    { rewrite (toeplitz a (fun n => mu n * cos (INR n * f))). destruct M as [|M]; [cbn; unfold corr; cbn; lra|]. rewrite rsum_S_l. replace (S M - 1)%nat with M by lia.
      rewrite Rmult_plus_distr_l. f_equal; [field|]. rewrite <- !Rmult_assoc, <- rsum_scal. apply rsum_ext. intros n Hn. field. }
    rewrite E. apply Rmult_le_pos; [lra|].
    replace (rsum (fun n => rsum (fun m => a n * a m * (mu ((n - m) + (m - n))%nat * cos (INR ((n - m) + (m - n)) * f))) M) M)
      with (rsum (fun n => rsum (fun m => (a n * cos (INR n * f)) * (a m * cos (INR m * f)) * mu ((n - m) + (m - n))%nat) M) M
          + rsum (fun n => rsum (fun m => (a n * sin (INR n * f)) * (a m * sin (INR m * f)) * mu ((n - m) + (m - n))%nat) M) M).
    - pose proof (moments_nonneg (fun n => a n * cos (INR n * f)) M). pose proof (moments_nonneg (fun n => a n * sin (INR n * f)) M). lra.
    - rewrite <- rsum_add. apply rsum_ext. intros n _. rewrite <- rsum_add. apply rsum_ext. intros m _. rewrite <- cos_diff. ring.
  Qed.
  Lemma jackson_sum_nonneg : forall M f, (2 <= M)%nat ->
    0 <= rsum (fun n => (match n with O => / 2 | _ => 1 end) * mu n * jackson_g M n * cos (INR n * f)) M.
  Proof.
    intros M f HM. pose proof (pos_INR M) as HP.
    replace (rsum (fun n => (match n with O => / 2 | _ => 1 end) * mu n * jackson_g M n * cos (INR n * f)) M)
      with (2 / (INR M + 1) * rsum (fun n => (match n with O => / 2 | _ => 1 end) * mu n * corr (jsin M) M n * cos (INR n * f)) M).
    - apply Rmult_le_pos; [left; apply Rdiv_lt_0_compat; lra|apply corr_sum_nonneg].
    - rewrite <- rsum_scal. apply rsum_ext. intros n Hn. rewrite jackson_coef by lia. field. lra.
  Qed.

  (** Convex kernels that reach zero: sums of triangles with weights not below zero. *)
  Section Convex.
    Variable g : nat -> R.
    Variable M : nat.
    Hypothesis HgM : g M = 0.
    Hypothesis HM : (0 < M)%nat.
    Hypothesis Hlast : 0 <= g (M - 1)%nat.
    Hypothesis Hconv : forall n, (S n < M)%nat -> 0 <= g n - 2 * g (S n) + g (S (S n)).
    Let w (k : nat) : R := if (k =? M)%nat then g (M - 1)%nat else g (k - 1)%nat - 2 * g k + g (S k).
    Definition tri (k n : nat) : R := INR (k - n).
    Let G (n : nat) : R := rsum (fun k => w (S k) * tri (S k) n) M.
    Lemma tri_corr : forall k n, corr (fun _ => 1) k n = tri k n.
    Proof. intros k n. unfold corr, tri. rewrite (rsum_ext _ (fun _ => 1)) by (intros; ring). rewrite rsum_const. ring. Qed.
    Lemma tri_diff : forall k n, tri k n - 2 * tri k (S n) + tri k (S (S n)) = if (k =? S n)%nat then 1 else 0.
    Proof.
      intros k n. unfold tri. destruct (Nat.eqb_spec k (S n)) as [->|H].
      - replace (S n - n)%nat with 1%nat by lia. rewrite Nat.sub_diag. replace (S n - S (S n))%nat with 0%nat by lia. cbn. ring.
      - destruct (Nat.lt_ge_cases k (S n)).
        + replace (k - n)%nat with 0%nat by lia. replace (k - S n)%nat with 0%nat by lia. replace (k - S (S n))%nat with 0%nat by lia. cbn. ring.
        + rewrite !minus_INR by lia. rewrite !S_INR. ring.
    Qed.
    Lemma G_diff : forall n, (S n <= M)%nat -> G n - 2 * G (S n) + G (S (S n)) = w (S n).
    Proof.
      intros n Hn. unfold G. transitivity (rsum (fun k => w (S k) * (if (S k =? S n)%nat then 1 else 0)) M).
      - rewrite (rsum_ext (fun k => w (S k) * (if (S k =? S n)%nat then 1 else 0)) (fun k => w (S k) * tri (S k) n + (-2 * (w (S k) * tri (S k) (S n)) + w (S k) * tri (S k) (S (S n))))).
        + rewrite !rsum_add, rsum_scal. ring.
        + intros k _. rewrite <- tri_diff. ring.
      - assert (Q : forall K, rsum (fun k => w (S k) * (if (S k =? S n)%nat then 1 else 0)) K = if (S n <=? K)%nat then w (S n) else 0).
        { induction K as [|K IH]; cbn [rsum]; [destruct (Nat.leb_spec (S n) 0); [lia|reflexivity]|].
          rewrite IH. destruct (Nat.leb_spec (S n) K), (Nat.leb_spec (S n) (S K)), (Nat.eqb_spec (S K) (S n)); try lia; try ring. injection e as ->. ring. }
        rewrite Q. destruct (Nat.leb_spec (S n) M); [reflexivity|lia].
    Qed.
    Lemma G_out : forall n, (M <= n)%nat -> G n = 0.
    Proof. intros n H. apply rsum_0. intros k Hk. unfold tri. replace (S k - n)%nat with 0%nat by lia. cbn. ring. Qed.
    Lemma G_g : forall j n, (n + j = M)%nat -> G n = g n /\ ((0 < j)%nat -> G (S n) = g (S n)).
    Proof.
      induction j as [|j IH]; intros n H.
      - split; [|lia]. replace n with M by lia. rewrite G_out, HgM by lia. reflexivity.
      - destruct (IH (S n) ltac:(lia)) as (A & B). split; [|intros _; exact A].
        pose proof (G_diff n ltac:(lia)) as D. unfold w in D. destruct (Nat.eqb_spec (S n) M) as [E|E].
        + rewrite A, (G_out (S (S n))) in D by lia. rewrite E, HgM in D. replace n with (M - 1)%nat by lia. replace (M - 1)%nat with n in * by lia. lra.
        + rewrite A, (B ltac:(lia)) in D. replace (S n - 1)%nat with n in D by lia. lra.
    Qed.
    Lemma convex_sum_nonneg : forall f,
      0 <= rsum (fun n => (match n with O => / 2 | _ => 1 end) * mu n * g n * cos (INR n * f)) M.
    Proof.
      intros f. set (z n := (match n with O => / 2 | _ => 1 end) * mu n * cos (INR n * f)).
      apply Rle_trans with (rsum (fun k => w (S k) * rsum (fun n => z n * tri (S k) n) M) M).
      - apply rsum_nonneg. intros k Hk. apply Rmult_le_pos.
        + unfold w. destruct (Nat.eqb_spec (S k) M); [exact Hlast|]. replace (S k - 1)%nat with k by lia. apply Hconv. lia.
        + assert (Q : forall K, (S k <= K)%nat -> rsum (fun n => z n * tri (S k) n) K = rsum (fun n => z n * tri (S k) n) (S k)).
          { induction K as [|K IH]; intros HK; [lia|]. destruct (Nat.eq_dec (S k) (S K)) as [->|Hne]; [reflexivity|]. 
            change (rsum (fun n => z n * tri (S k) n) (S K)) with (rsum (fun n => z n * tri (S k) n) K + z K * tri (S k) K). rewrite IH by lia. unfold tri at 2. replace (S k - K)%nat with 0%nat by lia. cbn [INR]. ring. }
          rewrite (Q M) by lia. pose proof (corr_sum_nonneg (fun _ => 1) (S k) f) as P.
          rewrite (rsum_ext _ (fun n => z n * tri (S k) n)) in P; [exact P|]. intros n _. rewrite tri_corr. unfold z. ring.
      - right. transitivity (rsum (fun k => rsum (fun n => w (S k) * (z n * tri (S k) n)) M) M); [apply rsum_ext; intros; rewrite rsum_scal; reflexivity|].
        rewrite rsum_swap. apply rsum_ext. intros n Hn. rewrite <- (proj1 (G_g (M - n) n ltac:(lia))). unfold G.
        transitivity (rsum (fun k => z n * (w (S k) * tri (S k) n)) M); [apply rsum_ext; intros; ring|]. rewrite rsum_scal. unfold z. ring.
    Qed.
  End Convex.

  Lemma cosh_ge_1 : forall x, 1 <= cosh x.
  Proof.
    intros x. unfold cosh. pose proof (exp_pos x) as P. pose proof (exp_pos (- x)) as P'.
    assert (E : exp x * exp (- x) = 1) by (rewrite <- exp_plus, Rplus_opp_r; apply exp_0).
    pose proof (Rle_0_sqr (exp x - exp (- x))) as Q. unfold Rsqr in Q. set (u := exp x) in *. set (v := exp (- x)) in *. destruct (Rlt_le_dec (u + v) 2) as [L|L]; [|lra]. assert ((u + v) * (u + v) < 4) by nra. nra.
  Qed.
  Lemma sinh_pos : forall x, 0 < x -> 0 < sinh x.
  Proof. intros x H. rewrite <- sinh_0. apply sinh_lt. exact H. Qed.
  Lemma sinh_triple : forall x d, sinh (x + d) + sinh (x - d) = 2 * cosh d * sinh x.
  Proof.
    intros x d. unfold sinh, cosh. replace (- (x + d)) with (- x + - d) by ring. replace (- (x - d)) with (- x + d) by ring. unfold Rminus.
    rewrite !exp_plus. field.
  Qed.
  Lemma lorentz_sum_nonneg : forall lambda M f, 0 < lambda -> (0 < M)%nat ->
    0 <= rsum (fun n => (match n with O => / 2 | _ => 1 end) * mu n * lorentz_g lambda M n * cos (INR n * f)) M.
  Proof.
    intros lambda M f Hl HM. assert (PM : 0 < INR M) by (apply lt_0_INR; exact HM). pose proof (sinh_pos lambda Hl) as PS.
    assert (Hp : forall n, (n <= M)%nat -> 0 <= lorentz_g lambda M n).
    { intros n Hn. unfold lorentz_g. apply Rmult_le_pos; [|left; apply Rinv_0_lt_compat; exact PS].
      assert (A : 0 <= lambda * (1 - INR n / INR M)).
      { apply Rmult_le_pos; [lra|]. apply le_INR in Hn. assert (INR n / INR M <= 1); [|lra]. apply (Rmult_le_reg_r (INR M)); [exact PM|]. unfold Rdiv. rewrite Rmult_assoc, Rinv_l by lra. lra. }
      destruct A as [A|<-]; [left; apply sinh_pos; exact A|rewrite sinh_0; lra]. }
    apply convex_sum_nonneg; [|exact HM|apply Hp; lia|].
    - unfold lorentz_g. replace (lambda * (1 - INR M / INR M)) with 0 by (field; lra). rewrite sinh_0. unfold Rdiv. ring.
    - intros n Hn. unfold lorentz_g. set (x := lambda * (1 - INR (S n) / INR M)). set (d := lambda / INR M).
      replace (lambda * (1 - INR n / INR M)) with (x + d) by (unfold x, d; rewrite S_INR; field; lra).
      replace (lambda * (1 - INR (S (S n)) / INR M)) with (x - d) by (unfold x, d; rewrite !S_INR; field; lra).
      replace (sinh (x + d) / sinh lambda - 2 * (sinh x / sinh lambda) + sinh (x - d) / sinh lambda) with ((sinh (x + d) + sinh (x - d) - 2 * sinh x) * / sinh lambda) by (field; lra).
      rewrite sinh_triple. replace (2 * cosh d * sinh x - 2 * sinh x) with (2 * (cosh d - 1) * sinh x) by ring.
      pose proof (cosh_ge_1 d). specialize (Hp (S n) ltac:(lia)). unfold lorentz_g in Hp. fold x in Hp. unfold Rdiv in Hp. rewrite Rmult_assoc. apply Rmult_le_pos; [lra|exact Hp].
  Qed.
End Moments.

(** ** From the Hamiltonian to the scaled matrix *)
Section Scaled.
  Variable N : nat.
  Variable H : dm.
  Variables a b : R.
  Hypothesis Ha : 0 < a.
  Let X := scaled_dense (re (/ a)) (re b) H.

  Lemma scaled_hermitian : hermitian N H -> hermitian N X.
  Proof.
    intros HH i j Hi Hj. unfold X, scaled_dense. rewrite kconj_mul, kconj_sub, kconj_mul, HH, !re_conj by assumption. do 3 f_equal.
    unfold delta. rewrite (Nat.eqb_sym j i). destruct (i =? j)%nat; [rewrite kconj_1|rewrite kconj_0]; reflexivity.
  Qed.
  Lemma ap_scaled : forall v i, (i < N)%nat -> ap CX N X v i = kmul (re (/ a)) (ksub (ap CX N H v i) (kmul (re b) (v i))).
  Proof.
    intros v i Hi. transitivity (kmul (re (/ a)) (ksub (ap CX N H v i) (kmul (re b) (ap CX N delta v i)))); [|rewrite ap_delta by exact Hi; reflexivity].
    unfold ap. rewrite <- ksum_mul_l, <- ksum_sub, <- ksum_mul_l. apply ksum_ext. intros j _. unfold X, scaled_dense.
    destruct (H i j), (v j), (@delta CX i j). cbn. unfold cx_mul, cx_sub, cx_add, cx_opp. cbn. f_equal; ring.
  Qed.
  Lemma expect_scaled : forall v, expect N X v = (expect N H v - b * norm2 N v) / a.
  Proof.
    intros v. rewrite <- !inner_expect, <- inner_norm. unfold inner.
    transitivity (fst (kmul (re (/ a)) (ksub (ksum (fun i => kmul (kconj (v i)) (ap CX N H v i)) (seq 0 N)) (kmul (re b) (ksum (fun i => kmul (kconj (v i)) (v i)) (seq 0 N)))))).
    - f_equal. rewrite <- ksum_mul_l, <- ksum_sub, <- ksum_mul_l. apply ksum_ext. intros i Hi. apply in_seq in Hi. rewrite ap_scaled by lia.
      destruct (v i), (ap CX N H v i). cbn. unfold cx_mul, cx_sub, cx_add, cx_opp, cx_conj. cbn. f_equal; ring.
    - rewrite fst_re_mul, fst_sub, fst_re_mul. unfold Rdiv. ring.
  Qed.
  Lemma scaled_within : forall lo hi, within N H lo hi -> b - a <= lo -> hi <= b + a -> within N X (-1) 1.
  Proof.
    intros lo hi W Hl Hh v. destruct (W v) as (W1 & W2). pose proof (norm2_nonneg N v) as P. rewrite expect_scaled.
    assert (A1 : (b - a) * norm2 N v <= lo * norm2 N v) by (apply Rmult_le_compat_r; auto).
    assert (A2 : hi * norm2 N v <= (b + a) * norm2 N v) by (apply Rmult_le_compat_r; auto).
    assert (Q : (expect N H v - b * norm2 N v) / a * a = expect N H v - b * norm2 N v) by (field; lra).
    split; apply (Rmult_le_reg_r a); auto; rewrite Q; lra.
  Qed.
End Scaled.

(** ** Expectation values of Chebyshev polynomials *)
Definition at_site (s : nat) : nat -> CX := fun i => delta i s.
Lemma mu_site : forall N X s n, (s < N)%nat -> mom CX N X (at_site s) n = cheb N X n s s.
Proof.
  intros N X s n Hs. unfold mom. rewrite inner_cheb. unfold braket.
  rewrite (ksum_single CX _ N s Hs).
  - rewrite (ksum_single CX _ N s Hs).
    + unfold at_site, delta. rewrite Nat.eqb_refl. rewrite kconj_1. destruct (cheb N X n s s). cbn. unfold cx_mul. cbn. f_equal; ring.
    + intros j _ Hj. unfold at_site, delta. apply Nat.eqb_neq in Hj. rewrite Hj. cbn. unfold cx_mul. cbn. f_equal; ring.
  - intros j _ Hj. apply ksum_0. intros k _. unfold at_site, delta. apply Nat.eqb_neq in Hj. rewrite Hj. rewrite kconj_0. cbn. unfold cx_mul. cbn. f_equal; ring.
Qed.

(** ** Damped moments *)
Definition weight0 (n : nat) : R := match n with O => / 2 | _ => 1 end.
Lemma halved_fst : forall n v, fst (halved cx_half n v) = weight0 n * fst v.
Proof. intros [|n] v; cbn [halved weight0]; [unfold cx_half; rewrite fst_re_mul; reflexivity|lra]. Qed.
Lemma damp_nth : forall g (m : nat -> CX) M n, (n < M)%nat ->
  nth n (damp CX g (map m (seq 0 M))) k0 = kmul (m n) (g M n).
Proof.
  intros g m M n Hn. unfold damp. rewrite map_length, seq_length.
  assert (E : combine (seq 0 M) (map m (seq 0 M)) = map (fun i => (i, m i)) (seq 0 M)).
  { generalize (seq 0 M). induction l as [|x l IH]; cbn [map combine]; [reflexivity|]. rewrite IH. reflexivity. }
  rewrite E, map_map. cbn [fst snd]. rewrite nth_indep with (d' := kmul (m 0%nat) (g M 0%nat)) by (rewrite map_length, seq_length; exact Hn).
  rewrite (map_nth (fun i => kmul (m i) (g M i)) (seq 0 M) 0%nat n), seq_nth by exact Hn. reflexivity.
Qed.
Lemma damp_length : forall g (m : nat -> CX) M, length (damp CX g (map m (seq 0 M))) = M.
Proof. intros. unfold damp. rewrite map_length, combine_length, !map_length, !seq_length. apply Nat.min_id. Qed.

(** The density from moments [m_n] before halving and damping. *)
Definition density_of (g : nat -> nat -> R) (s : scale) (M : nat) (m : nat -> R) (E : R) : option R :=
  let x := scaled s E in
  if Rlt_dec 0 (1 - x * x)
  then Some (2 / PI / s_a s / sqrt (1 - x * x) * rsum (fun n => weight0 n * m n * g M n * cos (INR n * acos x)) M)
  else None.
Lemma density_moments : forall kn s (m : nat -> CX) M E,
  spectral_density s (map fst (damped kn (map (fun n => halved cx_half n (m n)) (seq 0 M)))) E
  = density_of (kn_g kn) s M (fun n => fst (m n)) E.
Proof.
  intros kn s m M E. unfold spectral_density, density_of, damped. rewrite map_length, damp_length.
  destruct (Rlt_dec 0 (1 - scaled s E * scaled s E)); [|reflexivity]. do 2 f_equal. apply rsum_ext. intros n Hn. f_equal.
  change 0 with (fst (@k0 CX)). rewrite map_nth, damp_nth by exact Hn. rewrite fst_mul_re, halved_fst. reflexivity.
Qed.

Definition positive_kernel (g : nat -> nat -> R) : Prop := forall N X r M f, hermitian N X -> within N X (-1) 1 -> (2 <= M)%nat ->
  0 <= rsum (fun n => weight0 n * mu N X r n * g M n * cos (INR n * f)) M.
Lemma jackson_positive : positive_kernel jackson_g.
Proof. intros N X r M f HX Hw HM. apply (jackson_sum_nonneg N X HX Hw r). exact HM. Qed.
Lemma lorentz_positive : forall lambda, 0 < lambda -> positive_kernel (lorentz_g lambda).
Proof. intros lambda Hl N X r M f HX Hw HM. apply (lorentz_sum_nonneg N X HX Hw r); [exact Hl|lia]. Qed.
Lemma density_nonneg : forall g N X r s M E, positive_kernel g -> hermitian N X -> within N X (-1) 1 -> 0 < s_a s -> (2 <= M)%nat -> -1 < scaled s E < 1 ->
  exists y, density_of g s M (mu N X r) E = Some y /\ 0 <= y.
Proof.
  intros g N X r s M E Hg HX Hw Ha HM Hx. unfold density_of. set (x := scaled s E) in *.
  assert (Hp : 0 < 1 - x * x) by nra. destruct (Rlt_dec 0 (1 - x * x)); [|contradiction].
  eexists. split; [reflexivity|]. pose proof PI_RGT_0. pose proof (sqrt_lt_R0 _ Hp).
  apply Rmult_le_pos.
  - apply Rmult_le_pos; [apply Rmult_le_pos; [apply Rmult_le_pos; [lra|]|]|]; left; apply Rinv_0_lt_compat; assumption.
  - apply Hg; assumption.
Qed.

(** ** Columns of [calc_ldos] and [calc_dos] *)
Section Columns.
  Variable f : format.
  Variable kn : kernel_def.
  Variable al : algorithm.
  Variables lo hi : R.
  Hypothesis Hlohi : lo < hi.
  Let s := make_scale lo hi.
  Variable N : nat.
  Variable h : list (list (nat * CX)).
  Hypothesis HN : (0 < N)%nat.
  Hypothesis Hwf : wf_csr N h.
  Hypothesis Hus : usable CX (re (/ s_a s)) (re (s_b s)) N h al f.
  Hypothesis Hh : hermitian N (coef h).
  Let X := scaled_dense (re (/ s_a s)) (re (s_b s)) (coef h).

  Lemma X_hermitian : hermitian N X.
  Proof. apply scaled_hermitian. exact Hh. Qed.
  Lemma X_within : within N (coef h) lo hi -> within N X (-1) 1.
  Proof. intros W. destruct (scale_ok lo hi Hlohi) as (A & B & C). apply (scaled_within N (coef h) (s_a s) (s_b s) A lo hi W); unfold s; lra. Qed.

  Lemma ldos_value : forall idx k i broadening energy num, kn_required kn (broadening / s_a s) = Ok num ->
    (2 <= num)%nat -> ((num - 2) mod 4 = 0)%nat -> (forall j, In j idx -> (j < N)%nat) -> nth_error idx k = Some i ->
    calc_ldos f kn al lo hi h idx k broadening energy = Ok (map (density_of (kn_g kn) s num (mu N X (at_site i))) energy).
  Proof.
    intros idx k i broadening energy num Hr H2 H4 Hi Hk. unfold calc_ldos. fold s. rewrite Hr. cbn [obind].
    assert (Hne : idx <> []) by (intros ->; destruct k; discriminate).
    destruct (f_ldos CX cx_half cx_half_ok _ _ N h HN Hwf al f Hus num idx H2 H4 Hne Hi X_hermitian) as (oh & E & D).
    rewrite E. cbn [obind]. rewrite (D k i Hk). cbn [obind]. f_equal. apply map_ext. intros e. fold X. rewrite (density_moments kn s (fun n => cheb N X n i i)).
    unfold density_of. destruct (Rlt_dec 0 (1 - scaled s e * scaled s e)); [|reflexivity]. do 2 f_equal. apply rsum_ext. intros n _. unfold mu.
    rewrite mu_site by (apply Hi; eapply nth_error_In; exact Hk). reflexivity.
  Qed.
  Lemma dos_value : forall r broadening energy num, kn_required kn (broadening / s_a s) = Ok num ->
    (2 <= num)%nat -> ((num - 2) mod 4 = 0)%nat -> length r = N ->
    calc_dos f kn al lo hi h r broadening energy = Ok (map (density_of (kn_g kn) s num (mu N X (vec r))) energy).
  Proof.
    intros r broadening energy num Hr H2 H4 Hl. unfold calc_dos. fold s. rewrite Hr. cbn [obind].
    destruct (f_dos CX cx_half cx_half_ok _ _ N h HN Hwf al f Hus num H2 H4 X_hermitian) as (oh & E & D).
    rewrite E. cbn [obind]. rewrite (D r Hl). cbn [obind]. f_equal. apply map_ext. intros e. fold X. rewrite (density_moments kn s (fun n => braket N (vec r) (cheb N X n) (vec r))).
    unfold density_of. destruct (Rlt_dec 0 (1 - scaled s e * scaled s e)); [|reflexivity]. do 2 f_equal. apply rsum_ext. intros n _. unfold mu, mom.
    rewrite inner_cheb. reflexivity.
  Qed.
End Columns.
