(* Moduli of complex numbers and lengths of vectors: triangle inequality, scalar products, matrices with
   bounded row and column sums (C109). *)
From Verif Require Import Base Scalar Kpm KpmSpec KpmCheb KpmGram RSum Cplx Spectral SpectralProofs.
From Coq Require Import Reals Lra Ring Psatz.
Local Open Scope R_scope.
Local Notation dm := (nat -> nat -> CX).
Add Ring CXringN : (k_ring CX).

Lemma hyp_triangle : forall a b c d, sqrt ((a + b) * (a + b) + (c + d) * (c + d)) <= sqrt (a * a + c * c) + sqrt (b * b + d * d).
Proof.
  intros a b c d. set (s := sqrt (a * a + c * c)). set (t := sqrt (b * b + d * d)).
  assert (S0 : 0 <= s) by apply sqrt_pos. assert (T0 : 0 <= t) by apply sqrt_pos.
  assert (S2 : s * s = a * a + c * c) by (apply sqrt_sqrt; nra). assert (T2 : t * t = b * b + d * d) by (apply sqrt_sqrt; nra).
  assert (K : a * b + c * d <= s * t).
  { apply Rsqr_incr_0_var; [|apply Rmult_le_pos; assumption]. unfold Rsqr. replace (s * t * (s * t)) with ((s * s) * (t * t)) by ring. rewrite S2, T2. pose proof (Rle_0_sqr (a * d - c * b)) as Q. unfold Rsqr in Q. lra. }
  rewrite <- (sqrt_square (s + t)) by lra. apply sqrt_le_1_alt. nra.
Qed.
Lemma hyp_mono : forall a b c d, 0 <= a -> 0 <= c -> a <= b -> c <= d -> sqrt (a * a + c * c) <= sqrt (b * b + d * d).
Proof. intros. apply sqrt_le_1_alt. nra. Qed.
Lemma hyp_scal : forall k a c, 0 <= k -> sqrt ((k * a) * (k * a) + (k * c) * (k * c)) = k * sqrt (a * a + c * c).
Proof. intros k a c H. replace ((k * a) * (k * a) + (k * c) * (k * c)) with (k * k * (a * a + c * c)) by ring. rewrite sqrt_mult by nra. rewrite sqrt_square by exact H. reflexivity. Qed.

(** ** Modulus *)
Definition cabs (z : CX) : R := sqrt (abs2 z).
Lemma cabs_pos : forall z, 0 <= cabs z. Proof. intros. apply sqrt_pos. Qed.
Lemma cabs_sqr : forall z, cabs z * cabs z = abs2 z. Proof. intros z. apply sqrt_sqrt. apply abs2_nonneg. Qed.
Lemma cabs_add : forall z w, cabs (kadd z w) <= cabs z + cabs w.
Proof. intros [a c] [b d]. unfold cabs, abs2. cbn. apply hyp_triangle. Qed.
Lemma cabs_opp : forall z, cabs (kopp z) = cabs z.
Proof. intros [a c]. unfold cabs, abs2. cbn. f_equal. ring. Qed.
Lemma cabs_conj : forall z, cabs (kconj z) = cabs z.
Proof. intros [a c]. unfold cabs, abs2. cbn. f_equal. ring. Qed.
Lemma cabs_sub : forall z w, cabs (ksub z w) <= cabs z + cabs w.
Proof. intros z w. replace (ksub z w) with (kadd z (kopp w)) by ring. rewrite <- (cabs_opp w). apply cabs_add. Qed.
Lemma cabs_mul : forall z w, cabs (kmul z w) = cabs z * cabs w.
Proof. intros [a c] [b d]. unfold cabs. rewrite <- sqrt_mult by (apply abs2_nonneg). f_equal. unfold abs2. cbn. ring. Qed.
Lemma cabs_0 : cabs k0 = 0.
Proof. unfold cabs, abs2. cbn. replace (0 * 0 + 0 * 0) with 0 by ring. apply sqrt_0. Qed.
Lemma cabs_re : forall x, cabs (re x) = Rabs x.
Proof. intros x. unfold cabs, abs2, re. cbn [fst snd]. replace (x * x + 0 * 0) with (Rsqr x) by (unfold Rsqr; ring). apply sqrt_Rsqr_abs. Qed.
Lemma cabs_diff : forall z w, cabs z <= cabs w + cabs (ksub z w).
Proof. intros z w. replace z with (kadd w (ksub z w)) at 1 by ring. apply cabs_add. Qed.
Lemma cabs_sym : forall z w, cabs (ksub z w) = cabs (ksub w z).
Proof. intros z w. rewrite <- (cabs_opp (ksub z w)). f_equal. ring. Qed.

(** ** Length *)
Definition nrm (N : nat) (v : nat -> CX) : R := sqrt (norm2 N v).
Lemma nrm_pos : forall N v, 0 <= nrm N v. Proof. intros. apply sqrt_pos. Qed.
Lemma nrm_sqr : forall N v, nrm N v * nrm N v = norm2 N v. Proof. intros. apply sqrt_sqrt. apply norm2_nonneg. Qed.
Lemma nrm_S : forall N v, nrm (S N) v = sqrt (nrm N v * nrm N v + cabs (v N) * cabs (v N)).
Proof. intros N v. rewrite nrm_sqr, cabs_sqr. reflexivity. Qed.
Lemma nrm_0 : forall v, nrm 0 v = 0. Proof. intros v. unfold nrm, norm2. cbn. apply sqrt_0. Qed.
Lemma nrm_ext : forall N u v, (forall i, (i < N)%nat -> u i = v i) -> nrm N u = nrm N v.
Proof. intros N u v H. unfold nrm, norm2. f_equal. apply rsum_ext. intros i Hi. rewrite H by exact Hi. reflexivity. Qed.
Lemma nrm_mono : forall N u v, (forall i, (i < N)%nat -> cabs (u i) <= cabs (v i)) -> nrm N u <= nrm N v.
Proof.
  intros N u v H. induction N as [|N IH]; [rewrite !nrm_0; lra|]. rewrite !nrm_S. apply hyp_mono; [apply nrm_pos|apply cabs_pos|apply IH; intros; apply H; lia|apply H; lia].
Qed.
Lemma nrm_add : forall N u v, nrm N (fun i => kadd (u i) (v i)) <= nrm N u + nrm N v.
Proof.
  intros N u v. induction N as [|N IH]; [rewrite !nrm_0; lra|]. rewrite !nrm_S.
  apply Rle_trans with (sqrt ((nrm N u + nrm N v) * (nrm N u + nrm N v) + (cabs (u N) + cabs (v N)) * (cabs (u N) + cabs (v N)))); [|apply hyp_triangle].
  apply hyp_mono; [apply nrm_pos|apply cabs_pos|exact IH|apply cabs_add].
Qed.
Lemma nrm_scal : forall N c v, nrm N (fun i => kmul c (v i)) = cabs c * nrm N v.
Proof.
  intros N c v. induction N as [|N IH]; [rewrite !nrm_0; ring|]. rewrite !nrm_S, IH, cabs_mul. apply hyp_scal. apply cabs_pos.
Qed.
Lemma nrm_opp : forall N v, nrm N (fun i => kopp (v i)) = nrm N v.
Proof. intros N v. apply Rle_antisym; apply nrm_mono; intros; rewrite cabs_opp; lra. Qed.
Lemma nrm_sub : forall N u v, nrm N (fun i => ksub (u i) (v i)) <= nrm N u + nrm N v.
Proof.
  intros N u v. rewrite <- (nrm_opp N v). rewrite (nrm_ext N _ (fun i => kadd (u i) (kopp (v i)))) by (intros; ring). apply nrm_add.
Qed.
Lemma nrm_zero : forall N v, (forall i, (i < N)%nat -> v i = k0) -> nrm N v = 0.
Proof. intros N v H. induction N as [|N IH]; [apply nrm_0|]. rewrite nrm_S, IH by (intros; apply H; lia). rewrite H by lia. rewrite cabs_0. replace (0 * 0 + 0 * 0) with 0 by ring. apply sqrt_0. Qed.
Lemma nrm_diff : forall N u v, nrm N u <= nrm N v + nrm N (fun i => ksub (u i) (v i)).
Proof. intros N u v. rewrite (nrm_ext N u (fun i => kadd (v i) (ksub (u i) (v i)))) by (intros; ring). apply nrm_add. Qed.
Lemma cabs_nrm : forall N v i, (i < N)%nat -> cabs (v i) <= nrm N v.
Proof.
  intros N v i Hi. induction N as [|N IH]; [lia|]. rewrite nrm_S. destruct (Nat.eq_dec i N) as [->|].
  - rewrite <- (sqrt_square (cabs (v N))) at 1 by apply cabs_pos. apply sqrt_le_1_alt. pose proof (nrm_pos N v). nra.
  - apply Rle_trans with (nrm N v); [apply IH; lia|]. rewrite <- (sqrt_square (nrm N v)) at 1 by apply nrm_pos. apply sqrt_le_1_alt. pose proof (cabs_pos (v N)). nra.
Qed.
(** Real vectors *)
Definition rv (f : nat -> R) : nat -> CX := fun i => re (f i).
Lemma cauchy : forall N u v, rsum (fun i => cabs (u i) * cabs (v i)) N <= nrm N u * nrm N v.
Proof.
  intros N u v. induction N as [|N IH]; [rewrite !nrm_0; cbn; lra|]. cbn [rsum]. rewrite !nrm_S.
  set (s := nrm N u) in *. set (t := nrm N v) in *. set (a := cabs (u N)). set (b := cabs (v N)).
  assert (0 <= s) by apply nrm_pos. assert (0 <= t) by apply nrm_pos. assert (0 <= a) by apply cabs_pos. assert (0 <= b) by apply cabs_pos.
  apply Rle_trans with (s * t + a * b); [lra|]. rewrite <- sqrt_mult by nra. rewrite <- (sqrt_square (s * t + a * b)) by nra. apply sqrt_le_1_alt.
  pose proof (Rle_0_sqr (s * b - a * t)) as Q. unfold Rsqr in Q. lra.
Qed.
Lemma cabs_ksum : forall (f : nat -> CX) N, cabs (ksum f (seq 0 N)) <= rsum (fun i => cabs (f i)) N.
Proof.
  intros f N. induction N as [|N IH]; [change (cabs k0 <= 0); rewrite cabs_0; lra|]. rewrite seq_S, ksum_app. cbn [rsum]. eapply Rle_trans; [apply cabs_add|].
  assert (E : ksum f [(0 + N)%nat] = f N) by (rewrite ksum_cons, ksum_nil; cbn [Nat.add]; ring). rewrite E. lra.
Qed.
Lemma inner_cauchy : forall N u v, cabs (inner CX N u v) <= nrm N u * nrm N v.
Proof.
  intros N u v. unfold inner. eapply Rle_trans; [apply cabs_ksum|]. eapply Rle_trans; [|apply cauchy]. right. apply rsum_ext. intros i _. rewrite cabs_mul, cabs_conj. reflexivity.
Qed.
Lemma rsum_le : forall f g n, (forall i, (i < n)%nat -> f i <= g i) -> rsum f n <= rsum g n.
Proof. intros f g n H. induction n as [|n IH]; [cbn; lra|]. cbn [rsum]. pose proof (H n ltac:(lia)). assert (rsum f n <= rsum g n) by (apply IH; intros; apply H; lia). lra. Qed.

(** A matrix of non-negative numbers whose rows and columns add up to at most [S]. *)
Lemma schur : forall N (a : nat -> nat -> R) S (x : nat -> R), 0 <= S -> (forall i j, 0 <= a i j) -> (forall i, 0 <= x i) ->
  (forall i, (i < N)%nat -> rsum (a i) N <= S) -> (forall j, (j < N)%nat -> rsum (fun i => a i j) N <= S) ->
  nrm N (rv (fun i => rsum (fun j => a i j * x j) N)) <= S * nrm N (rv x).
Proof.
  intros N a S x HS Ha Hx Hr Hc.
  assert (C : forall i, (i < N)%nat -> rsum (fun j => a i j * x j) N * rsum (fun j => a i j * x j) N <= S * rsum (fun j => a i j * (x j * x j)) N).
  { intros i Hi. pose proof (cauchy N (rv (fun j => sqrt (a i j))) (rv (fun j => sqrt (a i j) * x j))) as K.
    assert (E1 : rsum (fun j => cabs (rv (fun j => sqrt (a i j)) j) * cabs (rv (fun j => sqrt (a i j) * x j) j)) N = rsum (fun j => a i j * x j) N).
    { apply rsum_ext. intros j _. unfold rv. rewrite !cabs_re, !Rabs_pos_eq; try apply sqrt_pos; [|apply Rmult_le_pos; [apply sqrt_pos|apply Hx]]. rewrite <- Rmult_assoc, sqrt_sqrt by apply Ha. reflexivity. }
    rewrite E1 in K.
    assert (N1 : nrm N (rv (fun j => sqrt (a i j))) * nrm N (rv (fun j => sqrt (a i j))) = rsum (a i) N).
    { rewrite nrm_sqr. apply rsum_ext. intros j _. unfold rv, re, abs2. cbn [fst snd]. rewrite sqrt_sqrt by apply Ha. ring. }
    assert (N2 : nrm N (rv (fun j => sqrt (a i j) * x j)) * nrm N (rv (fun j => sqrt (a i j) * x j)) = rsum (fun j => a i j * (x j * x j)) N).
    { rewrite nrm_sqr. apply rsum_ext. intros j _. unfold rv, re, abs2. cbn [fst snd]. pose proof (sqrt_sqrt (a i j) (Ha i j)) as Q.
      replace (sqrt (a i j) * x j * (sqrt (a i j) * x j) + 0 * 0) with (sqrt (a i j) * sqrt (a i j) * (x j * x j)) by ring. rewrite Q. reflexivity. }
    assert (P : 0 <= rsum (fun j => a i j * x j) N) by (apply rsum_nonneg; intros; apply Rmult_le_pos; auto).
    set (p := nrm N (rv (fun j => sqrt (a i j)))) in *. set (q := nrm N (rv (fun j => sqrt (a i j) * x j))) in *. set (w := rsum (fun j => a i j * x j) N) in *.
    assert (W : w * w <= (p * q) * (p * q)) by (apply Rmult_le_compat; assumption). replace (p * q * (p * q)) with ((p * p) * (q * q)) in W by ring. rewrite N1, N2 in W.
    pose proof (Hr i Hi). assert (0 <= rsum (fun j => a i j * (x j * x j)) N) by (apply rsum_nonneg; intros j _; apply Rmult_le_pos; [apply Ha|nra]). nra. }
  assert (T : norm2 N (rv (fun i => rsum (fun j => a i j * x j) N)) <= S * S * norm2 N (rv x)).
  { unfold norm2. apply Rle_trans with (rsum (fun i => S * rsum (fun j => a i j * (x j * x j)) N) N).
    - apply rsum_le. intros i Hi. unfold rv, re, abs2 at 1. cbn [fst snd]. pose proof (C i Hi). lra.
    - rewrite rsum_scal, rsum_swap. rewrite Rmult_assoc. apply Rmult_le_compat_l; [exact HS|]. rewrite <- rsum_scal. apply rsum_le. intros j Hj.
      rewrite rsum_scal_r. unfold rv, re, abs2. cbn [fst snd]. pose proof (Hc j Hj). assert (0 <= x j * x j) by nra. nra. }
  unfold nrm at 1. pose proof (nrm_pos N (rv x)) as P. rewrite <- (sqrt_square (S * nrm N (rv x))) by (apply Rmult_le_pos; assumption). apply sqrt_le_1_alt.
  replace (S * nrm N (rv x) * (S * nrm N (rv x))) with (S * S * (nrm N (rv x) * nrm N (rv x))) by ring. rewrite nrm_sqr. exact T.
Qed.
Lemma nrm_abs : forall N v, nrm N (rv (fun i => cabs (v i))) = nrm N v.
Proof. intros N v. apply Rle_antisym; apply nrm_mono; intros i _; unfold rv; rewrite cabs_re, Rabs_pos_eq by apply cabs_pos; lra. Qed.

(** ** Chebyshev polynomials of a matrix with spectrum in [-1, 1] *)
Section Cheb.
  Variables (N : nat) (X : dm).
  Hypothesis HX : hermitian N X.
  Hypothesis HW : within N X (-1) 1.
  Notation A := (ap CX N X).

  Lemma cheb_nrm : forall r n, nrm N (cv CX N X r n) <= nrm N r.
  Proof.
    intros r n. unfold nrm. apply sqrt_le_1_alt. pose proof (gram_ok CX N X HX r n n) as G. replace (n - n + (n - n))%nat with O in G by lia.
    unfold gram in G. apply (f_equal fst) in G. rewrite fst_add in G. pose proof (rest_nonneg N X (uv CX N X r n) HX HW) as P.
    unfold mom in G. change (cv CX N X r 0) with r in G. rewrite !inner_norm in G.
    assert (E : norm2 N (tv CX N X r n) = norm2 N (cv CX N X r n)) by (apply rsum_ext; intros i _; rewrite tv_cv; reflexivity). lra.
  Qed.
  Lemma ap_nrm : forall v, nrm N (A v) <= nrm N v.
  Proof. intros v. exact (cheb_nrm v 1). Qed.
  Lemma uv_nrm : forall r n, nrm N (uv CX N X r n) <= INR n * nrm N r.
  Proof.
    intros r n. induction n as [|n IH].
    - rewrite nrm_zero by reflexivity. cbn. lra.
    - rewrite uv_S, S_INR. unfold vadd. eapply Rle_trans; [apply nrm_add|]. pose proof (ap_nrm (uv CX N X r n)) as B. pose proof (cheb_nrm r n) as C.
      rewrite <- (nrm_ext N (tv CX N X r n) (cv CX N X r n)) in C by (intros; apply tv_cv). lra.
  Qed.
  Lemma uv_SS : forall r n i, uv CX N X r (S (S n)) i = ksub (kmul (kadd k1 k1) (A (uv CX N X r (S n)) i)) (uv CX N X r n i).
  Proof.
    intros r n i. rewrite (uv_S CX N X r (S n)). unfold vadd. rewrite tv_S. unfold rest, vsub.
    assert (E : A (uv CX N X r (S n)) i = kadd (A (tv CX N X r n) i) (A (A (uv CX N X r n)) i)) by (rewrite uv_S; apply ap_add).
    rewrite E. ring.
  Qed.
End Cheb.
