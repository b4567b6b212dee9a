(* For every start vector of three numbers there is a matrix for which the Lanczos procedure stops too
   early. *)
From Verif Require Import Base Scalar Kpm KpmSpec KpmVec KpmCheb RSum Cplx Lanczos TridiagProofs LanczosProofs.
From Coq Require Import Reals Lra.
Local Open Scope R_scope.

Definition dot3 (f g : nat -> R) : R := f 0%nat * g 0%nat + f 1%nat * g 1%nat + f 2%nat * g 2%nat.
Definition v3 (x y z : R) (i : nat) : R := match i with O => x | S O => y | _ => z end.

(** Two more vectors to a given one. *)
Lemma triad : forall x y z, x * x + y * y + z * z = 1 -> exists q r : nat -> R,
  dot3 q q = 1 /\ dot3 r r = 1 /\ dot3 (v3 x y z) q = 0 /\ dot3 (v3 x y z) r = 0 /\ dot3 q r = 0.
Proof.
  intros x y z H. destruct (Req_EM_T (x * x + y * y) 0) as [Z|Z].
  - assert (x = 0) by nra. assert (y = 0) by nra. subst x y. exists (v3 1 0 0), (v3 0 1 0). unfold dot3, v3. repeat split; ring.
  - assert (P : 0 < x * x + y * y) by (pose proof (Rle_0_sqr x); pose proof (Rle_0_sqr y); unfold Rsqr in *; lra).
    set (s := sqrt (x * x + y * y)). assert (S : s * s = x * x + y * y) by (apply sqrt_sqrt; lra).
    assert (S0 : s <> 0) by (intros E; rewrite E in S; lra).
    exists (v3 (- y / s) (x / s) 0), (v3 (- z * x / s) (- z * y / s) s). unfold dot3, v3.
    repeat split.
    + replace (- y / s * (- y / s) + x / s * (x / s) + 0 * 0) with ((x * x + y * y) / (s * s)) by (field; exact S0). rewrite S. field. exact Z.
    + replace (- z * x / s * (- z * x / s) + - z * y / s * (- z * y / s) + s * s) with (z * z * ((x * x + y * y) / (s * s)) + s * s) by (field; exact S0).
      rewrite S. replace ((x * x + y * y) / (x * x + y * y)) with 1 by (field; exact Z). lra.
    + field. exact S0.
    + replace (x * (- z * x / s) + y * (- z * y / s) + z * s) with (z / s * (s * s - (x * x + y * y))) by (field; exact S0). rewrite S. ring.
    + field. exact S0.
Qed.

Section Witness.
  Variables (p q r : nat -> R) (t : R).
  Hypothesis Hpp : dot3 p p = 1.
  Hypothesis Hqq : dot3 q q = 1.
  Hypothesis Hrr : dot3 r r = 1.
  Hypothesis Hpq : dot3 p q = 0.
  Hypothesis Hpr : dot3 p r = 0.
  Hypothesis Hqr : dot3 q r = 0.
  Definition helem (i j : nat) : R :=
    p i * p j + t * (p i * q j + q i * p j) + q i * q j + (q i * r j + r i * q j) + 100 * (r i * r j).
  Definition hmat : csr CX := map (fun i => map (fun j => (j, re (helem i j))) [0;1;2]%nat) [0;1;2]%nat.
  Definition rv (f : nat -> R) : nat -> CX := fun i => re (f i).

  Lemma helem_sym : forall i j, helem i j = helem j i. Proof. intros. unfold helem. ring. Qed.
  Lemma hmat_coef : forall i j, (i < 3)%nat -> (j < 3)%nat -> coef hmat i j = re (helem i j).
  Proof.
    intros i j Hi Hj. unfold coef, ksum. destruct i as [|[|[|]]]; try lia; destruct j as [|[|[|]]]; try lia; cbn; unfold cx_add, re; cbn; f_equal; ring.
  Qed.
  Lemma hmat_range : in_range CX hmat 3.
  Proof.
    split; [reflexivity|]. intros i e H. destruct i as [|[|[|i]]].
    1,2,3: cbn in H; destruct H as [<-|[<-|[<-|[]]]]; cbn; lia.
    unfold entries in H. rewrite nth_overflow in H by (cbn; lia). destruct H.
  Qed.
  Lemma hmat_wf : wf_csr 3 hmat.
  Proof.
    split; [reflexivity|]. split; [apply hmat_range|]. intros i. destruct i as [|[|[|i]]].
    1,2,3: cbn; repeat constructor; cbn; intuition congruence.
    unfold entries. rewrite nth_overflow by (cbn; lia). constructor.
  Qed.
  Lemma hmat_herm : hermitian 3 (coef hmat).
  Proof.
    intros i j Hi Hj. rewrite !hmat_coef by lia. rewrite helem_sym. cbn. unfold cx_conj, re. cbn. f_equal. ring.
  Qed.
  Lemma hmat_act : forall f i, (i < 3)%nat ->
    cA 3 (coef hmat) (rv f) i = re (p i * dot3 p f + t * (p i * dot3 q f + q i * dot3 p f) + q i * dot3 q f + (q i * dot3 r f + r i * dot3 q f) + 100 * (r i * dot3 r f)).
  Proof.
    intros f i Hi. unfold cA, ap, ksum. cbn [seq fold_right]. rewrite !hmat_coef by lia. unfold rv, re, helem, dot3. cbn. unfold cx_add, cx_mul. cbn. f_equal; ring.
  Qed.
  Lemma crip_rv : forall f g, crip 3 (rv f) (rv g) = dot3 f g.
  Proof. intros. rewrite crip_sum. unfold dot3, rv, re. cbn. ring. Qed.
  Lemma crip_rv' : forall u w f g, (forall i, (i < 3)%nat -> u i = re (f i)) -> (forall i, (i < 3)%nat -> w i = re (g i)) -> crip 3 u w = dot3 f g.
  Proof. intros u w f g H1 H2. rewrite <- crip_rv. apply crip_ext; auto. Qed.

  Lemma sym3 : forall f g, dot3 f g = dot3 g f. Proof. intros. unfold dot3. ring. Qed.
  Lemma act_p : forall u i, (forall i, (i < 3)%nat -> u i = re (p i)) -> (i < 3)%nat -> cA 3 (coef hmat) u i = re (p i + t * q i).
  Proof.
    intros u i H Hi. rewrite (cA_ext 3 _ u (rv p)) by exact H. rewrite hmat_act by exact Hi. rewrite Hpp, (sym3 q p), (sym3 r p), Hpq, Hpr. f_equal. ring.
  Qed.
  Lemma act_q : forall u i, (forall i, (i < 3)%nat -> u i = re (q i)) -> (i < 3)%nat -> cA 3 (coef hmat) u i = re (t * p i + q i + r i).
  Proof.
    intros u i H Hi. rewrite (cA_ext 3 _ u (rv q)) by exact H. rewrite hmat_act by exact Hi. rewrite Hqq, (sym3 r q), Hpq, Hqr. f_equal. ring.
  Qed.
  Lemma act_r : forall u i, (forall i, (i < 3)%nat -> u i = re (r i)) -> (i < 3)%nat -> cA 3 (coef hmat) u i = re (q i + 100 * r i).
  Proof.
    intros u i H Hi. rewrite (cA_ext 3 _ u (rv r)) by exact H. rewrite hmat_act by exact Hi. rewrite Hrr, Hpr, Hqr. f_equal. ring.
  Qed.

  Variable v : list CX.
  Hypothesis Hv : forall i, (i < 3)%nat -> vec v i = re (p i).
  Hypothesis Ht : 0 < t.
  Lemma w_la0 : la 3 hmat v 0 = 1.
  Proof.
    unfold la, al, vk. cbn [lz fst snd]. rewrite (crip_rv' _ _ p (fun i => p i + t * q i)); [|exact Hv|intros; apply act_p; auto].
    transitivity (dot3 p p + t * dot3 p q); [unfold dot3; ring|]. rewrite Hpp, Hpq. ring.
  Qed.
  Lemma w_w0 : forall i, (i < 3)%nat -> wk (nat -> CX) czero clin (crip 3) (cA 3 (coef hmat)) (vec v) 0 i = re (t * q i).
  Proof.
    intros i Hi. pose proof w_la0 as A. unfold la, al in A. unfold wk, resid. rewrite A. unfold pk, bp, vk. cbn [lz fst snd]. unfold clin, czero.
    rewrite act_p, Hv by auto. unfold re. cbn. unfold cx_add, cx_mul. cbn. f_equal; ring.
  Qed.
  Lemma w_lb0 : lb 3 hmat v 0 = t.
  Proof.
    unfold lb, bt. rewrite (crip_rv' _ _ (fun i => t * q i) (fun i => t * q i)) by exact w_w0.
    replace (dot3 _ _) with (t * t) by (transitivity (t * t * dot3 q q); [rewrite Hqq; ring|unfold dot3; ring]). apply sqrt_square. lra.
  Qed.
  Lemma w_v1 : forall i, (i < 3)%nat -> vk (nat -> CX) czero clin (crip 3) (cA 3 (coef hmat)) (vec v) 1 i = re (q i).
  Proof.
    intros i Hi. rewrite vk_S. pose proof w_lb0 as B. unfold lb in B. rewrite B. unfold clin. rewrite w_w0 by exact Hi.
    unfold re. cbn. unfold cx_add, cx_mul. cbn. f_equal; field; lra.
  Qed.
  Lemma w_la1 : la 3 hmat v 1 = 1.
  Proof.
    unfold la, al. rewrite (crip_rv' _ _ q (fun i => t * p i + q i + r i)); [|exact w_v1|intros; apply act_q; [exact w_v1|auto]].
    transitivity (t * dot3 p q + dot3 q q + dot3 q r); [unfold dot3; ring|]. rewrite Hqq, Hpq, Hqr. ring.
  Qed.
  Lemma w_lb1 : lb 3 hmat v 1 = 1.
  Proof.
    unfold lb, bt. rewrite (crip_rv' _ _ r r).
    - rewrite Hrr. apply sqrt_1.
    - intros i Hi. unfold wk, resid. rewrite pk_S, bp_S. pose proof w_la1 as A. unfold la, al in A. rewrite A. pose proof w_lb0 as B. unfold lb in B. rewrite B.
      unfold clin. rewrite act_q by (auto using w_v1). rewrite w_v1 by exact Hi. unfold vk. cbn [lz fst snd]. rewrite Hv by exact Hi.
      unfold re. cbn. unfold cx_add, cx_mul. cbn. f_equal; ring.
    - intros i Hi. unfold wk, resid. rewrite pk_S, bp_S. pose proof w_la1 as A. unfold la, al in A. rewrite A. pose proof w_lb0 as B. unfold lb in B. rewrite B.
      unfold clin. rewrite act_q by (auto using w_v1). rewrite w_v1 by exact Hi. unfold vk. cbn [lz fst snd]. rewrite Hv by exact Hi.
      unfold re. cbn. unfold cx_add, cx_mul. cbn. f_equal; ring.
  Qed.
  Lemma w_form : exists x, crip 3 x x = 1 /\ crip 3 x (cA 3 (coef hmat) x) = 100.
  Proof.
    exists (rv r). rewrite crip_rv. split; [exact Hrr|]. rewrite (crip_rv' _ _ r (fun i => q i + 100 * r i)); [|reflexivity|intros; apply act_r; auto].
    transitivity (dot3 q r + 100 * dot3 r r); [unfold dot3; ring|]. rewrite Hqr, Hrr. ring.
  Qed.
End Witness.

(** The two small eigenvalue problems. *)
Lemma tri_one : forall eps b, tridiagonal_eigenvalues eps [1] [b] = Ok [1].
Proof. intros. unfold tridiagonal_eigenvalues, fuel_for, max_iterations. cbn. reflexivity. Qed.

Lemma is0_0 : is0 0 = true. Proof. unfold is0. destruct (Req_EM_T 0 0); [reflexivity|lra]. Qed.
Lemma is0_n : forall x, x <> 0 -> is0 x = false. Proof. intros. unfold is0. destruct (Req_EM_T x 0); [lra|reflexivity]. Qed.
Lemma ltb_t : forall x y, x < y -> ltb x y = true. Proof. intros. unfold ltb. destruct (Rlt_dec x y); [reflexivity|lra]. Qed.
Lemma ltb_f : forall x y, y <= x -> ltb x y = false. Proof. intros. unfold ltb. destruct (Rlt_dec x y); [lra|reflexivity]. Qed.

Lemma qr_step_two : forall t b, 0 < t -> tridiagonal_qr_step [1; 1] [t; b] 0 1 = Ok ([1 + t; 1 - t], [0; b]).
Proof.
  intros t b Ht. unfold tridiagonal_qr_step. cbn [aget nth_error obind Nat.sub seq ofold omap].
  assert (Sh : qr_shift 1 1 t = 1 - t).
  { unfold qr_shift. replace ((1 - 1) * (1 / 2)) with 0 by field. rewrite is0_0, Rabs_right by lra. reflexivity. }
  change (nth_error [t; b] (1 - 1)) with (Some t). cbn. rewrite Sh.
  assert (Gv : make_givens (1 - (1 - t)) t = (1 / sqrt 2, - (1 / sqrt 2))).
  { replace (1 - (1 - t)) with t by ring. unfold make_givens. rewrite !is0_n by lra. rewrite (ltb_f (Rabs t)) by lra. rewrite ltb_f by lra.
    replace (t / t) with 1 by (field; lra). replace (1 + 1 * 1) with 2 by ring. f_equal. ring. }
  assert (S2 : sqrt 2 * sqrt 2 = 2) by (apply sqrt_sqrt; lra). assert (N2 : sqrt 2 <> 0) by (intros E; rewrite E in S2; lra).
  unfold qr_turn. rewrite Gv. cbn.
  assert (Q : forall x, x / sqrt 2 / sqrt 2 = x / 2) by (intros; rewrite <- S2 at 3; field; exact N2).
  set (c := 1 / sqrt 2). assert (C2 : c * c = / 2) by (unfold c; transitivity (1 / (sqrt 2 * sqrt 2)); [field; exact N2|rewrite S2; field]).
  do 2 f_equal; [f_equal; [|f_equal]|f_equal].
  - transitivity (c * c * (2 + 2 * t)); [ring|]. rewrite C2. field.
  - transitivity (c * c * (2 - 2 * t)); [ring|]. rewrite C2. field.
  - ring.
Qed.

Lemma tri_two : forall eps t b, 0 < t -> 2 * eps <= t -> tridiagonal_eigenvalues eps [1; 1] [t; b] = Ok [1 + t; 1 - t].
Proof.
  intros eps t b Ht He. unfold tridiagonal_eigenvalues. change (fuel_for (length [1; 1])) with (S (S 60)). cbn [length Nat.sub].
  remember 60%nat as f. clear Heqf.
  assert (D : deflate eps [1; 1] 0 1 [t; b] = Ok [t; b]).
  { unfold deflate. cbn. rewrite !Rabs_right by lra. rewrite ltb_f by lra. reflexivity. }
  assert (Sk : shrink [t; b] 1 = Ok 1%nat) by (cbn; rewrite is0_n by lra; reflexivity).
  assert (D2 : exists x, deflate eps [1 + t; 1 - t] 0 1 [0; b] = Ok [x; b] /\ x = 0).
  { unfold deflate. cbn. destruct (ltb (Rabs 0) _); eexists; split; reflexivity. }
  destruct D2 as (x & D2 & ->).
  assert (Sk2 : shrink [0; b] 1 = Ok 0%nat) by (cbn; rewrite is0_0; reflexivity).
  cbn [qr_loop Nat.eqb]. rewrite D, Sk. cbn [Nat.eqb length max_iterations Nat.mul Nat.add Nat.ltb Nat.leb Nat.sub block_start].
  rewrite qr_step_two by exact Ht. cbn [Nat.eqb]. rewrite D2, Sk2. cbn [Nat.eqb]. reflexivity.
Qed.

(** the entries of the normalised start vector *)
Lemma normalize_real : forall x y z, x * x + y * y + z * z <> 0 -> exists a b c,
  normalize [re x; re y; re z] = [re a; re b; re c] /\ a * a + b * b + c * c = 1.
Proof.
  intros x y z H. set (n := x * x + y * y + z * z).
  assert (P : 0 < n) by (unfold n in *; pose proof (Rle_0_sqr x); pose proof (Rle_0_sqr y); pose proof (Rle_0_sqr z); unfold Rsqr in *; lra).
  assert (S : sqrt n * sqrt n = n) by (apply sqrt_sqrt; lra). assert (N : sqrt n <> 0) by (intros E; rewrite E in S; lra).
  exists (x / sqrt n), (y / sqrt n), (z / sqrt n). split.
  - unfold normalize. cbn [map fold_right]. replace (abs2 (re x) + (abs2 (re y) + (abs2 (re z) + 0))) with n by (unfold abs2, re, n; cbn; ring).
    rewrite ltb_t by exact P.
    assert (K : forall w, kmul (re (1 / sqrt n)) (re w) = re (w / sqrt n)) by (intros w; unfold re; cbn; unfold cx_mul; cbn; f_equal; field; exact N).
    rewrite !K. reflexivity.
  - replace (x / sqrt n * (x / sqrt n) + y / sqrt n * (y / sqrt n) + z / sqrt n * (z / sqrt n)) with (n / (sqrt n * sqrt n)) by (unfold n at 1; field; exact N).
    rewrite S. field. lra.
Qed.

Definition tiny : R := / 100000.
Lemma early_stop : forall eps x y z, 0 <= eps <= / 1000000 -> x * x + y * y + z * z <> 0 ->
  exists m, wf_csr 3 m /\ hermitian 3 (coef m) /\
    minmax_eigenvalues eps m [re x; re y; re z] (2 / 1000) = Ok (1 - tiny, 1 + tiny, 1%nat) /\
    exists u, crip 3 u u = 1 /\ crip 3 u (cA 3 (coef m) u) = 100.
Proof.
  intros eps x y z He Hn. destruct (normalize_real x y z Hn) as (a & b & c & En & Hu).
  destruct (triad a b c Hu) as (q & r & Hqq & Hrr & Hpq & Hpr & Hqr). set (p := v3 a b c) in *.
  assert (Hpp : dot3 p p = 1) by exact Hu.
  assert (T0 : 0 < tiny) by (unfold tiny; lra).
  exists (hmat p q r tiny). split; [apply hmat_wf|]. split; [apply hmat_herm|]. split; [|apply w_form; assumption].
  set (m := hmat p q r tiny). set (v := [re a; re b; re c]).
  assert (Hv : forall i, (i < 3)%nat -> vec v i = re (p i)) by (intros [|[|[|]]] Hi; try lia; reflexivity).
  unfold minmax_eigenvalues. rewrite En. fold v. change (length m) with 3%nat.
  assert (A0 : la 3 m v 0 = 1) by (apply w_la0; assumption).
  assert (B0 : lb 3 m v 0 = tiny) by (apply w_lb0; assumption).
  assert (A1 : la 3 m v 1 = 1) by (apply w_la1; assumption).
  assert (B1 : lb 3 m v 1 = 1) by (apply w_lb1; assumption).
  assert (Tr : tracks 3 m v 0 (LState (repeat k0 3) v [] [] None)).
  { unfold tracks. cbn [l_v0 l_v1 l_alpha l_beta]. repeat split; try reflexivity.
    - intros i Hi. destruct i as [|[|[|]]]; try lia; reflexivity.
    - intros j Hj. lia. }
  assert (Heps : 0 <= eps) by lra.
  destruct (turn_eq eps 3 m v (hmat_range p q r tiny) eq_refl 0%nat _ Tr) as (w1 & E1 & Tr1).
  specialize (Tr1 ltac:(rewrite B0; lra)). cbn [seq map] in E1, Tr1. rewrite A0, B0, tri_one in E1. rewrite A0, B0 in Tr1.
  cbn [obind min_coeff max_coeff fold_left] in E1.
  destruct (turn_eq eps 3 m v (hmat_range p q r tiny) eq_refl 1%nat _ (Tr1 (Some (1, 1)))) as (w2 & E2 & _).
  cbn [seq map] in E2. rewrite A0, A1, B0, B1, tri_two in E2 by (unfold tiny; lra). cbn [obind min_coeff max_coeff fold_left] in E2.
  rewrite Rmin_right in E2 by lra. rewrite Rmax_left in E2 by lra.
  unfold loop_limit. change 1000%nat with (S (S 998)). remember 998%nat as lim. clear Heqlim. cbn [lanczos_loop]. rewrite E1. cbn [obind option_map l_prev converged andb l_beta last].
  rewrite is0_n by lra. rewrite E2. cbn [obind option_map l_prev fst snd converged].
  assert (C1 : ltb (Rabs ((1 - (1 - tiny)) / (1 - tiny))) (2 / 1000 / 100) = true).
  { apply ltb_t. unfold tiny. rewrite Rabs_right; lra. }
  assert (C2 : ltb (Rabs ((1 - (1 + tiny)) / (1 + tiny))) (2 / 1000 / 100) = true).
  { apply ltb_t. unfold tiny. rewrite Rabs_left; lra. }
  rewrite !is0_n by (unfold tiny; lra). rewrite C1, C2. reflexivity.
Qed.
