(* The numerical integral of the conductivity, and the Green's function. *)
From Verif Require Import Base Scalar Kpm KpmSpec KpmCheb KpmGram KpmCore KpmEll KpmFinal RSum Cplx RInt Spectral SpectralProofs SpectralLine.
From Coq Require Import Reals Lra Ring.
Local Open Scope R_scope.
Add Ring CXring2 : (k_ring CX).

(** Trapezoids between consecutive samples. *)
Definition trapezoid (x : nat -> R) (f : nat -> CX) (n : nat) : CX :=
  ksum (fun i => kmul (re ((x (S i) - x i) / 2)) (kadd (f i) (f (S i)))) (seq 0 (n - 1)).

Lemma fold_max : forall l x, (forall y, In y l -> x <= y) -> (forall i j, (i < j)%nat -> (j < length l)%nat -> nth i l 0 <= nth j l 0) ->
  fold_left Rmax l x = last l x.
Proof.
  induction l as [|y l IH]; intros x Hx Hs; [reflexivity|]. cbn [fold_left].
  rewrite Rmax_right by (apply Hx; left; reflexivity). rewrite IH.
  - destruct l; [reflexivity|]. cbn. destruct l; reflexivity || (clear; revert r0; induction l; intros; cbn in *; auto).
  - intros z Hz. apply In_nth with (d := 0) in Hz. destruct Hz as (k & Hk & <-). apply (Hs 0%nat (S k)); cbn; lia.
  - intros i j Hij Hj. apply (Hs (S i) (S j)); cbn; lia.
Qed.
Lemma fold_min : forall l x, (forall y, In y l -> x <= y) -> fold_left Rmin l x = x.
Proof.
  induction l as [|y l IH]; intros x Hx; [reflexivity|]. cbn [fold_left].
  rewrite Rmin_left by (apply Hx; left; reflexivity). apply IH. intros z Hz. apply Hx. right. exact Hz.
Qed.

Section Samples.
  Variable n : nat.
  Hypothesis Hn : (2 <= n)%nat.
  Variables x0 d : R.
  Hypothesis Hd : 0 <= d.
  Let x i := x0 + INR i * d.
  Let xs := map x (seq 0 n).
  Lemma xs_len : length xs = n. Proof. unfold xs. rewrite map_length, seq_length. reflexivity. Qed.
  Lemma xs_split : xs = x 0%nat :: map x (seq 1 (n - 1)).
  Proof. unfold xs. destruct n as [|m]; [lia|]. replace (S m - 1)%nat with m by lia. reflexivity. Qed.
  Lemma x_mono : forall i j, (i <= j)%nat -> x i <= x j.
  Proof. intros i j H. unfold x. apply le_INR in H. nra. Qed.
  Lemma samples_max : max_coeff xs = Ok (x (n - 1)%nat).
  Proof.
    rewrite xs_split. cbn [max_coeff]. rewrite fold_max.
    - f_equal. replace (n - 1)%nat with (S (n - 2)) by lia. rewrite seq_S, map_app. cbn [map]. rewrite last_last. f_equal.
    - intros y Hy. apply in_map_iff in Hy. destruct Hy as (i & <- & _). apply x_mono. lia.
    - rewrite map_length, seq_length. intros i j Hij Hj.
      rewrite !(nth_indep _ 0 (x 0%nat)) by (rewrite map_length, seq_length; lia). rewrite !map_nth, !seq_nth by lia. apply x_mono. lia.
  Qed.
  Lemma samples_min : min_coeff xs = Ok (x 0%nat).
  Proof.
    rewrite xs_split. cbn [min_coeff]. rewrite fold_min; [reflexivity|].
    intros y Hy. apply in_map_iff in Hy. destruct Hy as (i & <- & _). apply x_mono. lia.
  Qed.
  Lemma ends_twice : forall (f : nat -> CX) k, (1 <= k)%nat ->
    ksum (fun i => kadd (f i) (f (S i))) (seq 0 k) = ksub (ksub (kmul (re 2) (ksum f (seq 0 (S k)))) (f 0%nat)) (f k).
  Proof.
    assert (T : re 2 = kadd (@k1 CX) k1) by (cbn; unfold cx_add, re; cbn; f_equal; ring).
    intros f k Hk. rewrite T. induction k as [|k IH]; [lia|]. destruct k as [|k].
    - cbn [seq ksum fold_right map]. unfold ksum. cbn [fold_right map]. ring.
    - rewrite (seq_S (S k) 0), ksum_app, IH, (seq_S (S (S k)) 0), ksum_app by lia.
      unfold ksum at 2 4. cbn [fold_right map Nat.add]. ring.
  Qed.
  Lemma integrate_factor : forall f : R -> CX,
    integrate xs (map f xs) = Ok (kmul (re (INR (n - 1) / INR n)) (trapezoid x (fun i => f (x i)) n)).
  Proof.
    intros f. unfold integrate. rewrite samples_max, samples_min. cbn [obind]. f_equal. rewrite map_length, xs_len.
    assert (N0 : nth 0 (map f xs) k0 = f (x 0%nat)) by (rewrite xs_split; reflexivity).
    assert (N1 : nth (n - 1) (map f xs) k0 = f (x (n - 1)%nat)).
    { rewrite (nth_indep _ k0 (f 0)) by (rewrite map_length, xs_len; lia). rewrite map_nth. f_equal. unfold xs.
      rewrite (nth_indep _ 0 (x 0%nat)) by (rewrite map_length, seq_length; lia). rewrite map_nth, seq_nth by lia. f_equal. }
    assert (NS : ksum (fun y => y) (map f xs) = ksum (fun i => f (x i)) (seq 0 n)).
    { unfold xs. rewrite map_map, ksum_map. reflexivity. }
    rewrite N0, N1, NS. pose proof (ends_twice (fun i => f (x i)) (n - 1) ltac:(lia)) as T. replace (S (n - 1)) with n in T by lia. cbv beta in T. rewrite <- T.
    unfold trapezoid. rewrite <- !ksum_mul_l. apply ksum_ext. intros i _. 
    assert (Q : (x (n - 1)%nat - x 0%nat) / INR (2 * n) = INR (n - 1) / INR n * ((x (S i) - x i) / 2)).
    { unfold x. rewrite S_INR, mult_INR. replace (INR 2) with 2 by (cbn [INR]; ring). change (INR 0) with 0.
      assert (0 < INR n) by (apply lt_0_INR; lia). field. lra. }
    rewrite Q, <- re_mul. ring.
  Qed.
End Samples.

Lemma linspaced_scaled : forall s lo hi size, (2 <= size)%nat -> s_a s <> 0 ->
  map (scaled s) (linspaced size lo hi) = map (fun i => scaled s lo + INR i * ((hi - lo) / INR (size - 1) / s_a s)) (seq 0 size).
Proof.
  intros s lo hi size H Ha. unfold linspaced. destruct (Nat.eqb_spec size 1); [lia|]. rewrite map_map. apply map_ext. intros i. unfold scaled.
  assert (INR (size - 1) <> 0) by (apply not_0_INR; lia). field. split; auto.
Qed.
Lemma kubo_value : forall lo hi size num ms kbt mu, lo < hi -> (2 <= size)%nat ->
  let s := make_scale lo hi in
  let x i := scaled s lo + INR i * ((hi - lo) / INR (size - 1) / s_a s) in
  kubo_bastin lo hi size num ms kbt mu =
  Ok (kmul (re (INR (size - 1) / INR size)) (kmul (re (4 / (s_a s * s_a s)))
     (trapezoid x (fun i => kmul (re (fermi_dirac (s_a s / kbt) (scaled s mu) (x i))) (sum_nm num ms (x i))) size))).
Proof.
  intros lo hi size num ms kbt mu H Hs s x. unfold kubo_bastin. fold s. destruct (scale_ok lo hi H) as (Ha & _). fold s in Ha.
  rewrite linspaced_scaled by (auto; lra). fold x.
  rewrite (integrate_factor size Hs (scaled s lo) ((hi - lo) / INR (size - 1) / s_a s)).
  - cbn [obind]. f_equal. unfold x. ring.
  - unfold Rdiv. apply Rmult_le_pos; [apply Rmult_le_pos; [lra|]|]; left; apply Rinv_0_lt_compat; [apply lt_0_INR; lia|exact Ha].
Qed.

(** ** Green's function and density *)
Lemma greens_im : forall s (ms : list CX) E, (forall m, In m ms -> snd m = 0) -> s_a s <> 0 ->
  option_map (fun g => - snd g / PI) (greens_function s ms E) = spectral_density s (map fst ms) E.
Proof.
  intros s ms E Hr Ha. unfold greens_function, spectral_density. rewrite map_length. set (x := scaled s E).
  destruct (Rlt_dec 0 (1 - x * x)) as [Hp|]; [|reflexivity]. cbn [option_map]. f_equal.
  pose proof PI_RGT_0. pose proof (sqrt_lt_R0 _ Hp).
  assert (F : fst (ksum (fun n => kmul (nth n ms k0) (mk (cos (INR n * acos x)) (- sin (INR n * acos x)))) (seq 0 (length ms)))
    = rsum (fun n => nth n (map fst ms) 0 * cos (INR n * acos x)) (length ms)).
  { rewrite fst_sum. apply rsum_ext. intros n Hn. assert (Q : nth n (map fst ms) 0 = fst (nth n ms (@k0 CX))) by exact (map_nth fst ms (@k0 CX) n). rewrite Q. pose proof (Hr (nth n ms k0) (nth_In ms k0 Hn)) as Z. destruct (nth n ms k0) as [p q]. cbn in Z |- *. rewrite Z. ring. }
  etransitivity; [|apply (f_equal (Rmult (2 / PI / s_a s / sqrt (1 - x * x)))); exact F].
  set (S0 := ksum _ _). destruct S0 as [p q]. cbn. field. lra.
Qed.
