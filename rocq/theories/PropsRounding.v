(* Property C109: rounding errors of the Chebyshev moments. *)
From Verif Require Import Base Scalar Kpm KpmSpec KpmVec KpmLoops KpmOptimized KpmRun KpmCheb RSum Cplx Spectral SpectralProofs NormProofs Rounding RoundingProofs RoundingLoops RoundingMoments RoundingKernels RoundingReal.
From Coq Require Import Reals Lra Ring.
Local Open Scope R_scope.
Add Ring CXringRq : (k_ring CX).

(** The scaled matrix: the code stores twice of it. *)
Definition scaled (m : list (list (nat * CX))) (i j : nat) : CX := kmul cx_half (coef m i j).
(** At most [W] entries per row, and the absolute values of each row add up to at most [S]. *)
Definition row_limits (N : nat) (m : list (list (nat * CX))) (W : nat) (S : R) : Prop :=
  (forall i, (length (entries m i) <= W)%nat) /\ (forall i, (i < N)%nat -> rsum (fun j => cabs (coef m i j)) N <= S).
(** Error per step, relative to the vectors. *)
Definition per_step (u : R) (W : nat) (S : R) : R := 2 * ((INR W + 2) * (1 + S)) * u.
(** Both storage formats. *)
Definition kernel_of (ellpack : bool) (F : arith) (m : list (list (nat * CX))) : kernel CX := if ellpack then fl_ell_kernel F m else fl_kernel F m.
(** With the size option the start vector must be on the source slices of the map. *)
Definition start_on (N : nat) (sm : slice_map) (al : algorithm) (r0 : list CX) : Prop :=
  length r0 = N /\ (al_size al = true -> forall i, (i < N)%nat -> (sm_src sm < layer sm i)%nat -> vec r0 i = k0).

Lemma pow_linear : forall u n, 0 <= u -> INR n * u <= / 2 -> (1 + u) ^ n - 1 <= 2 * (INR n * u).
Proof.
  intros u n Hu. induction n as [|n IH]; intros H; [cbn; lra|]. rewrite S_INR in *. assert (G : INR n * u <= / 2) by nra. specialize (IH G). cbn [pow]. pose proof (pos_INR n) as P.
  assert (0 <= INR n * u) by nra. assert (INR n * u * u <= / 2 * u) by (apply Rmult_le_compat_r; assumption). nra.
Qed.
Lemma rate_le : forall u W S, 0 <= u -> 0 <= S -> (INR W + 2) * u <= / 2 -> rate S (row_rate u W) <= per_step u W S.
Proof.
  intros u W S Hu HS H. unfold rate, row_rate, per_step. pose proof (pow_linear u (W + 2) Hu) as P. rewrite plus_INR in P. change (INR 2) with 2 in P. specialize (P H).
  apply Rmult_le_compat_r with (r := 1 + S) in P; [|lra]. lra.
Qed.
Lemma kernel_rounded : forall u F N m W ellpack, accurate u F -> wf_csr N m -> (0 < N)%nat -> (forall i, (length (entries m i) <= W)%nat) ->
  exists cell start, rounded u m N cell start (row_rate u W) (kernel_of ellpack F m).
Proof.
  intros u F N m W [|] HF Hm HN HW; [apply ell_kernel_rounded; assumption|]. exists (csr_cell F m), (csr_start F m). apply csr_rounded; assumption.
Qed.

(** Moments between different states: the error of moment [n] is at most proportional to [n (n + 1)]. *)
Theorem units_close : forall u F N m W S kr cell start sm al num dest r0,
  accurate u F -> wf_csr N m -> row_limits N m W S -> hermitian N (scaled m) -> within N (scaled m) (-1) 1 -> rounded u m N cell start (row_rate u W) kr ->
  layered CX m N sm -> start_on N sm al r0 -> (2 <= num)%nat -> (al_inter al = true -> Nat.even num = true) ->
  (forall d, In d dest -> (d < N)%nat /\ (al_size al = true -> (layer sm d <= sm_dest sm)%nat)) ->
  (INR W + 2) * u <= / 2 -> per_step u W S * (INR num * INR num) <= 1 ->
  exists res, run_units CX cx_half kr sm al num dest r0 = Ok res /\ length res = length dest /\
    forall p n, (p < length dest)%nat -> (n < num)%nat ->
      cabs (ksub (nth n (nth p res []) k0) (halved cx_half n (ap CX N (cheb N (scaled m) n) (vec r0) (nth p dest 0%nat))))
      <= per_step u W S * (INR n * INR (n + 1)) * nrm N (vec r0).
Proof.
  intros u F N m W S kr cell start sm al num dest r0 HF Hm (HW & HS) HX HB Hk Hlay (Hr0 & Hsrc) Hnum Hev Hd Hu2 Hnum2. pose proof (acc_pos _ _ HF) as Hu.
  eexists. split; [apply (run_units_steps u m N Hm sm Hlay cell start _ kr Hk r0 Hr0 al Hsrc num dest Hev Hnum Hd)|]. split; [rewrite map_length; reflexivity|].
  intros p n Hp Hn. assert (Hin : (nth p dest 0%nat < N)%nat) by (apply Hd; apply nth_In; exact Hp). assert (HN : (0 < N)%nat) by lia.
  assert (S0 : 0 <= S) by (apply (S0_pos m N S HS HN)). pose proof (rate_le u W S Hu S0 Hu2) as RL. pose proof (row_rate_pos u F HF W) as G0.
  set (t := steps cell start (vec r0)).
  rewrite (nth_indep _ [] (map (fun n => halved cx_half n (t n 0%nat)) (seq 0 num))) by (rewrite map_length; exact Hp).
  rewrite (map_nth (fun d => map (fun n => halved cx_half n (t n d)) (seq 0 num)) dest 0%nat p).
  change (nth n (map (fun n => halved cx_half n (t n (nth p dest 0%nat))) (seq 0 num)) k0) with (vec (map (fun n => halved cx_half n (t n (nth p dest 0%nat))) (seq 0 num)) n).
  rewrite (vec_map CX) by exact Hn.
  eapply Rle_trans; [apply (units_error u m N Hm cell start _ G0 kr Hk r0 Hr0 S HS HX HB HN num n (nth p dest 0%nat)); [|exact Hn|exact Hin]|].
  - apply Rle_trans with (per_step u W S * (INR num * INR num)); [|exact Hnum2].
    assert (A : INR (num - 1) * INR num <= INR num * INR num) by (apply Rmult_le_compat_r; [apply pos_INR|apply le_INR; lia]).
    assert (B : 0 <= INR (num - 1) * INR num) by (apply Rmult_le_pos; apply pos_INR).
    apply Rmult_le_compat; [apply (rate_pos m N _ G0 S HS HN)|exact B|exact RL|exact A].
  - rewrite Nat.add_1_r. apply Rmult_le_compat_r; [apply nrm_pos|]. apply Rmult_le_compat_r; [apply Rmult_le_pos; apply pos_INR|exact RL].
Qed.
Theorem C109_units : forall u F N m W S ellpack sm al num dest r0,
  accurate u F -> wf_csr N m -> (0 < N)%nat -> row_limits N m W S -> hermitian N (scaled m) -> within N (scaled m) (-1) 1 ->
  layered CX m N sm -> start_on N sm al r0 -> (2 <= num)%nat -> (al_inter al = true -> Nat.even num = true) ->
  (forall d, In d dest -> (d < N)%nat /\ (al_size al = true -> (layer sm d <= sm_dest sm)%nat)) ->
  (INR W + 2) * u <= / 2 -> per_step u W S * (INR num * INR num) <= 1 ->
  exists res, run_units CX cx_half (kernel_of ellpack F m) sm al num dest r0 = Ok res /\ length res = length dest /\
    forall p n, (p < length dest)%nat -> (n < num)%nat ->
      cabs (ksub (nth n (nth p res []) k0) (halved cx_half n (ap CX N (cheb N (scaled m) n) (vec r0) (nth p dest 0%nat))))
      <= per_step u W S * (INR n * INR (n + 1)) * nrm N (vec r0).
Proof.
  intros u F N m W S ellpack sm al num dest r0 HF Hm HN HL HX HB Hlay Hs Hnum Hev Hd Hu2 Hnum2.
  destruct (kernel_rounded u F N m W ellpack HF Hm HN (proj1 HL)) as (cell & start & Hk). apply (units_close u F N m W S _ cell start); assumption.
Qed.

(** Moments of one state, computed two at a time with half as many vectors. *)
Theorem diagonal_close : forall u F N m W S kr cell start sm al L r0,
  accurate u F -> wf_csr N m -> (0 < N)%nat -> row_limits N m W S -> hermitian N (scaled m) -> within N (scaled m) (-1) 1 -> rounded u m N cell start (row_rate u W) kr ->
  layered CX m N sm -> start_on N sm al r0 -> (al_size al = true -> sm_src sm = sm_dest sm) -> (1 <= L)%nat -> (al_inter al = true -> Nat.odd L = true) ->
  (INR W + 2) * u <= / 2 -> (3 * INR N + 2) * u <= / 2 -> per_step u W S * (INR L * INR (L + 1)) <= 1 ->
  exists res, fl_run_diag F kr sm al (2 * L) r0 = Ok res /\ length res = (2 * L)%nat /\
    forall n, (n < 2 * L)%nat ->
      cabs (ksub (nth n res k0) (halved cx_half n (braket N (vec r0) (cheb N (scaled m) n) (vec r0))))
      <= (9 * (per_step u W S * (INR L * INR (L + 1))) + 72 * ((INR N + 2) * u)) * (nrm N (vec r0) * nrm N (vec r0)).
Proof.
  intros u F N m W S kr cell start sm al L r0 HF Hm HN (HW & HS) HX HB Hk Hlay (Hr0 & Hsrc) Hsd HL Hodd Hu2 HuN Hrate. pose proof (acc_pos _ _ HF) as Hu.
  assert (Hev : Nat.even (2 * L) = true) by (apply Nat.even_spec; exists L; reflexivity). assert (H2 : (2 <= 2 * L)%nat) by lia.
  assert (H4 : al_inter al = true -> ((2 * L - 2) mod 4 = 0)%nat).
  { intros Hi. specialize (Hodd Hi). apply Nat.odd_spec in Hodd. destruct Hodd as (k & ->). replace (2 * (2 * k + 1) - 2)%nat with (k * 4)%nat by lia. apply Nat.mod_mul. lia. }
  destruct (run_diag_steps u F HF m N Hm sm Hlay cell start _ kr Hk r0 Hr0 al Hsrc (2 * L) Hev H2 H4 Hsd) as (f2 & f3 & E & Hf). replace (2 * L / 2)%nat with L in Hf by (rewrite Nat.mul_comm; symmetry; apply Nat.div_mul; lia).
  eexists. split; [exact E|]. split; [rewrite map_length, seq_length; reflexivity|].
  intros n Hn. assert (S0 : 0 <= S) by (apply (S0_pos m N S HS HN)). pose proof (rate_le u W S Hu S0 Hu2) as RL. pose proof (row_rate_pos u F HF W) as G0. pose proof (rate_pos m N _ G0 S HS HN) as R0.
  change (nth n (map (fl_moment F N start r0 f2 f3) (seq 0 (2 * L))) k0) with (vec (map (fl_moment F N start r0 f2 f3) (seq 0 (2 * L))) n). rewrite (vec_map CX) by exact Hn.
  rewrite Nat.add_1_r in *. set (Q := INR L * INR (Datatypes.S L)) in *. assert (Q0 : 0 <= Q) by (apply Rmult_le_pos; apply pos_INR).
  assert (D1 : rate S (row_rate u W) * Q <= per_step u W S * Q) by (apply Rmult_le_compat_r; assumption). assert (D0 : 0 <= rate S (row_rate u W) * Q) by (apply Rmult_le_pos; assumption).
  assert (HD : rate S (row_rate u W) * Q <= 1) by lra.
  eapply Rle_trans; [apply (moment_close u F HF m N Hm cell start _ G0 kr Hk r0 Hr0 S HS HX HB HN L HD HL f2 f3 Hf n Hn)|]. unfold moment_bound. fold Q.
  apply Rmult_le_compat_r; [apply Rmult_le_pos; apply nrm_pos|].
  pose proof (pow_linear u (3 * N + 2) Hu) as P. rewrite plus_INR, mult_INR in P. change (INR 2) with 2 in P. replace (INR 3) with 3 in P by (cbn; lra). specialize (P HuN). pose proof (pow_ge1 u (3 * N + 2) Hu) as P1.
  unfold pieces. set (e := (1 + u) ^ (3 * N + 2) - 1) in *. set (d := rate S (row_rate u W) * Q) in *. assert (N0 : 1 <= INR N) by (change 1 with (INR 1); apply le_INR; lia). assert (U4 : u <= / 10) by nra.
  assert (E1 : 3 * d + 4 * e <= 7) by (unfold e in *; lra). assert (E0 : 0 <= 3 * d + 4 * e) by (unfold e in *; lra). set (eta := 3 * d + 4 * e) in *.
  assert (U2 : u * u <= / 10 * u) by (apply Rmult_le_compat_r; assumption). assert (UE : u * eta <= 7 * u) by (replace (7 * u) with (u * 7) by ring; apply Rmult_le_compat_l; assumption).
  assert (UUE : u * u * eta <= / 10 * u * 7) by (apply Rmult_le_compat; try assumption; nra).
  assert (T : (1 + u) * ((1 + u) * (1 + eta)) - 1 = eta + 2 * u + u * u + 2 * (u * eta) + u * u * eta) by ring. rewrite T. unfold eta at 1. lra.
Qed.
Theorem C109_diagonal : forall u F N m W S ellpack sm al L r0,
  accurate u F -> wf_csr N m -> (0 < N)%nat -> row_limits N m W S -> hermitian N (scaled m) -> within N (scaled m) (-1) 1 ->
  layered CX m N sm -> start_on N sm al r0 -> (al_size al = true -> sm_src sm = sm_dest sm) -> (1 <= L)%nat -> (al_inter al = true -> Nat.odd L = true) ->
  (INR W + 2) * u <= / 2 -> (3 * INR N + 2) * u <= / 2 -> per_step u W S * (INR L * INR (L + 1)) <= 1 ->
  exists res, fl_run_diag F (kernel_of ellpack F m) sm al (2 * L) r0 = Ok res /\ length res = (2 * L)%nat /\
    forall n, (n < 2 * L)%nat ->
      cabs (ksub (nth n res k0) (halved cx_half n (braket N (vec r0) (cheb N (scaled m) n) (vec r0))))
      <= (9 * (per_step u W S * (INR L * INR (L + 1))) + 72 * ((INR N + 2) * u)) * (nrm N (vec r0) * nrm N (vec r0)).
Proof.
  intros u F N m W S ellpack sm al L r0 HF Hm HN HL HX HB Hlay Hs Hsd HL1 Hodd Hu2 HuN Hrate.
  destruct (kernel_rounded u F N m W ellpack HF Hm HN (proj1 HL)) as (cell & start & Hk). apply (diagonal_close u F N m W S _ cell start); assumption.
Qed.

(** ** With the matrix and slices that the code prepares *)
Section Prepared.
  Variables (inv_a b : CX) (N : nat) (h : list (list (nat * CX))) (idx : indices) (oh : optimized CX) (pi : nat -> nat).
  Hypothesis Hrep : represents CX inv_a b N h idx oh pi.
  Notation X := (scaled_dense inv_a b (coef h)).
  Notation Y := (scaled (oh_matrix oh)).
  Lemma half_twice : forall z : CX, kmul cx_half (kmul (kadd k1 k1) z) = z.
  Proof. intros [x y]. unfold cx_half, re. cbn. unfold cx_mul, cx_add. cbn. f_equal; lra. Qed.
  Lemma moved_entries : forall i j, (i < N)%nat -> (j < N)%nat -> Y (pi i) (pi j) = X i j.
  Proof. intros i j Hi Hj. unfold scaled. rewrite (rp_coef _ _ _ _ _ _ _ _ Hrep) by assumption. apply half_twice. Qed.
  Lemma moved_braket : forall v w, (forall i, (i < N)%nat -> w (pi i) = v i) -> braket N w Y w = braket N v X v.
  Proof.
    intros v w H. unfold braket. rewrite (ksum_renumber CX N pi _ (rp_pi _ _ _ _ _ _ _ _ Hrep)). apply ksum_ext. intros i Hi. apply in_seq in Hi.
    rewrite (ksum_renumber CX N pi _ (rp_pi _ _ _ _ _ _ _ _ Hrep)). apply ksum_ext. intros j Hj. apply in_seq in Hj. rewrite moved_entries, !H by lia. reflexivity.
  Qed.
  Lemma moved_norm : forall v w, (forall i, (i < N)%nat -> w (pi i) = v i) -> norm2 N w = norm2 N v.
  Proof. intros v w H. rewrite <- !inner_norm. f_equal. apply (inner_renumber CX N pi); [apply (rp_pi _ _ _ _ _ _ _ _ Hrep)|exact H|exact H]. Qed.
  Lemma moved_within : forall lo hi, within N X lo hi -> within N Y lo hi.
  Proof.
    intros lo hi H w. specialize (H (fun i => w (pi i))). rewrite (moved_norm (fun i => w (pi i)) w) by reflexivity. unfold expect in *. rewrite (moved_braket (fun i => w (pi i)) w) by reflexivity. exact H.
  Qed.
  Lemma moved_hermitian : hermitian N X -> hermitian N Y.
  Proof.
    intros H i j Hi Hj. pose proof (rp_pi _ _ _ _ _ _ _ _ Hrep) as P. destruct (renumbering_onto N pi i P Hi) as (i' & Hi' & <-). destruct (renumbering_onto N pi j P Hj) as (j' & Hj' & <-).
    rewrite !moved_entries by assumption. apply H; assumption.
  Qed.
  Lemma moved_ap : forall v w, (forall i, (i < N)%nat -> w (pi i) = v i) -> forall i, (i < N)%nat -> ap CX N Y w (pi i) = ap CX N X v i.
  Proof.
    intros v w H i Hi. unfold ap. rewrite (ksum_renumber CX N pi _ (rp_pi _ _ _ _ _ _ _ _ Hrep)). apply ksum_ext. intros j Hj. apply in_seq in Hj. rewrite moved_entries, H by lia. reflexivity.
  Qed.
  Lemma moved_cv : forall v w, (forall i, (i < N)%nat -> w (pi i) = v i) -> forall n i, (i < N)%nat -> cv CX N Y w n (pi i) = cv CX N X v n i.
  Proof.
    intros v w H. assert (G : forall n, (forall i, (i < N)%nat -> cv CX N Y w n (pi i) = cv CX N X v n i) /\ (forall i, (i < N)%nat -> cv CX N Y w (S n) (pi i) = cv CX N X v (S n) i)).
    { induction n as [|n (A & B)]; [split; [exact H|apply (moved_ap v w H)]|]. split; [exact B|]. intros i Hi. rewrite !cv_SS. rewrite (moved_ap _ _ B i Hi), A by exact Hi. reflexivity. }
    intros n. apply G.
  Qed.
  Lemma moved_self : forall v w, (forall i, (i < N)%nat -> w (pi i) = v i) -> forall n, braket N w (cheb N Y n) w = braket N v (cheb N X n) v.
  Proof.
    intros v w H n. rewrite <- !inner_cheb. apply (inner_renumber CX N pi); [apply (rp_pi _ _ _ _ _ _ _ _ Hrep)|exact H|apply moved_cv; exact H].
  Qed.
  (** The start vector is nonzero on the sources only. *)
  Lemma prepared_start : forall al v r0, length r0 = N -> (forall i, (i < N)%nat -> vec r0 (pi i) = v i) -> (forall i, (i < N)%nat -> ~ In i (ix_src idx) -> v i = k0) -> start_on N (oh_map oh) al r0.
  Proof.
    intros al v r0 Hl Hv Hz. split; [exact Hl|]. intros _ i Hi Hs. destruct (renumbering_onto N pi i (rp_pi _ _ _ _ _ _ _ _ Hrep) Hi) as (j & Hj & <-). rewrite Hv by exact Hj. apply Hz; [exact Hj|].
    intros Hin. pose proof (rp_src _ _ _ _ _ _ _ _ Hrep j Hin). lia.
  Qed.
End Prepared.

(** Rounding on top of the whole preparation: scaling, reordering, slices.  [W] and [S] limit the rows
    of the prepared matrix. *)
Theorem C109_prepared : forall u F inv_a b N h reorder idx,
  accurate u F -> wf_csr N h -> (reorder = true -> sym_pattern h /\ connected N h) -> (0 < N)%nat -> ix_src idx <> [] -> ix_dest idx <> [] ->
  (forall i, In i (ix_src idx) -> (i < N)%nat) -> (forall i, In i (ix_dest idx) -> (i < N)%nat) ->
  hermitian N (scaled_dense inv_a b (coef h)) -> within N (scaled_dense inv_a b (coef h)) (-1) 1 ->
  exists oh pi, optimize CX inv_a b h reorder idx = Ok oh /\ renumbering N pi /\
    forall W S ellpack al v r0, row_limits N (oh_matrix oh) W S -> (INR W + 2) * u <= / 2 ->
      length r0 = N -> (forall i, (i < N)%nat -> vec r0 (pi i) = v i) -> (forall i, (i < N)%nat -> ~ In i (ix_src idx) -> v i = k0) ->
      (forall num, (2 <= num)%nat -> (al_inter al = true -> Nat.even num = true) -> per_step u W S * (INR num * INR num) <= 1 ->
        exists res, run_units CX cx_half (kernel_of ellpack F (oh_matrix oh)) (oh_map oh) al num (ix_dest (oh_idx oh)) r0 = Ok res /\
          length res = length (ix_dest idx) /\
          forall p n, (p < length (ix_dest idx))%nat -> (n < num)%nat ->
            cabs (ksub (nth n (nth p res []) k0) (halved cx_half n (ap CX N (cheb N (scaled_dense inv_a b (coef h)) n) v (nth p (ix_dest idx) 0%nat))))
            <= per_step u W S * (INR n * INR (n + 1)) * nrm N v) /\
      (forall L, ix_src idx = ix_dest idx -> (1 <= L)%nat -> (al_inter al = true -> Nat.odd L = true) -> (3 * INR N + 2) * u <= / 2 -> per_step u W S * (INR L * INR (L + 1)) <= 1 ->
        exists res, fl_run_diag F (kernel_of ellpack F (oh_matrix oh)) (oh_map oh) al (2 * L) r0 = Ok res /\ length res = (2 * L)%nat /\
          forall n, (n < 2 * L)%nat ->
            cabs (ksub (nth n res k0) (halved cx_half n (braket N v (cheb N (scaled_dense inv_a b (coef h)) n) v)))
            <= (9 * (per_step u W S * (INR L * INR (L + 1))) + 72 * ((INR N + 2) * u)) * (nrm N v * nrm N v)).
Proof.
  intros u F inv_a b N h reorder idx HF Hh Hre HN Hs0 Hd0 Hs Hd HX HB. destruct (optimize_ok CX inv_a b N h reorder idx Hh Hre HN Hs0 Hd0 Hs Hd) as (oh & pi & E & Hrep & _).
  exists oh, pi. split; [exact E|]. split; [apply (rp_pi _ _ _ _ _ _ _ _ Hrep)|]. intros W S ellpack al v r0 HL Hu2 Hl Hv Hz.
  pose proof (rp_wf _ _ _ _ _ _ _ _ Hrep) as Hm. pose proof (rp_layered _ _ _ _ _ _ _ _ Hrep) as Hlay. pose proof (moved_hermitian _ _ _ _ _ _ _ Hrep HX) as HX'. pose proof (moved_within _ _ _ _ _ _ _ Hrep _ _ HB) as HB'.
  pose proof (prepared_start _ _ _ _ _ _ _ Hrep al v r0 Hl Hv Hz) as Hst.
  assert (Hn : nrm N (vec r0) = nrm N v) by (unfold nrm; rewrite (moved_norm _ _ _ _ _ _ _ Hrep v (vec r0) Hv); reflexivity). split.
  - intros num Hnum Hev Hps.
    destruct (C109_units u F N (oh_matrix oh) W S ellpack (oh_map oh) al num (ix_dest (oh_idx oh)) r0 HF Hm HN HL HX' HB' Hlay Hst Hnum Hev) as (res & Er & Lr & Br); try assumption.
    + rewrite (rp_idx _ _ _ _ _ _ _ _ Hrep). cbn [ix_dest]. intros d Hin. apply in_map_iff in Hin. destruct Hin as (i & <- & Hin). split; [apply (proj1 (rp_pi _ _ _ _ _ _ _ _ Hrep)); apply Hd; exact Hin|].
      intros _. apply (rp_dest _ _ _ _ _ _ _ _ Hrep i Hin).
    + assert (Ld : length (ix_dest (oh_idx oh)) = length (ix_dest idx)) by (rewrite (rp_idx _ _ _ _ _ _ _ _ Hrep); cbn [ix_dest]; apply map_length).
      exists res. split; [exact Er|]. split; [rewrite Lr; exact Ld|]. intros p n Hp Hnn. rewrite Ld in Br. specialize (Br p n Hp Hnn). rewrite Hn in Br.
      assert (Hi : (nth p (ix_dest idx) 0 < N)%nat) by (apply Hd; apply nth_In; exact Hp).
      assert (Dp : nth p (ix_dest (oh_idx oh)) 0%nat = pi (nth p (ix_dest idx) 0%nat)).
      { rewrite (rp_idx _ _ _ _ _ _ _ _ Hrep). cbn [ix_dest]. rewrite (nth_indep _ 0%nat (pi 0%nat)) by (rewrite map_length; exact Hp). apply map_nth. }
      rewrite Dp in Br. rewrite <- (cv_cheb CX) in Br by (apply (proj1 (rp_pi _ _ _ _ _ _ _ _ Hrep)); exact Hi). rewrite (moved_cv _ _ _ _ _ _ _ Hrep v (vec r0) Hv) in Br by exact Hi.
      rewrite <- (cv_cheb CX) by exact Hi. exact Br.
  - intros L Hsd HL1 Hodd HuN Hps.
    destruct (C109_diagonal u F N (oh_matrix oh) W S ellpack (oh_map oh) al L r0 HF Hm HN HL HX' HB' Hlay Hst (fun _ => rp_diag _ _ _ _ _ _ _ _ Hrep Hsd) HL1 Hodd Hu2 HuN Hps) as (res & Er & Lr & Br).
    exists res. split; [exact Er|]. split; [exact Lr|]. intros n Hnn. specialize (Br n Hnn). rewrite Hn, (moved_self _ _ _ _ _ _ _ Hrep v (vec r0) Hv) in Br. exact Br.
Qed.

(** The contract holds for complex arithmetic built from real operations with relative error [u], in
    the order of compute/detail.hpp and with sums added up along any tree. *)
Theorem C109_complex : forall u a ord, real_accurate u a -> u <= / 3 -> (forall n, (1 <= n)%nat -> leaves (ord n) = n) -> accurate (3 * u) (complex_arith a ord).
Proof. intros u a ord Ha H Ho. apply complex_accurate; assumption. Qed.
(** Rounding to the nearest number with [p] binary digits: the bound is [2^-p] per real operation. *)
Theorem C109_digits : forall p ord, (2 <= p)%nat -> (forall n, (1 <= n)%nat -> leaves (ord n) = n) -> accurate (3 * / 2 ^ p) (complex_arith (digits p) ord).
Proof.
  intros p ord Hp Ho. apply complex_accurate; [apply digits_accurate| |exact Ho]. apply Rinv_le_contravar; [lra|]. apply Rle_trans with (2 ^ 2); [cbn; lra|]. apply Rle_pow; [lra|exact Hp].
Qed.

(** The growth is real: an arithmetic that meets the contract and whose moments of the one state
    matrix 1 are wrong by at least [u n (n - 1) / 2]. *)
Definition high (u : R) : arith := Arith kadd (fun z w => kmul (re (1 + u)) (ksub z w)) kmul (fun l => ksum (fun z => z) l).
Lemma high_accurate : forall u, 0 <= u -> accurate u (high u).
Proof.
  intros u Hu. constructor; cbn [high f_add f_sub f_mul f_sum]; [exact Hu| | | |].
  - intros z w. replace (ksub (kadd z w) (kadd z w)) with (@k0 CX) by ring. rewrite cabs_0. apply Rmult_le_pos; [exact Hu|apply cabs_pos].
  - intros z w. replace (ksub (kmul (re (1 + u)) (ksub z w)) (ksub z w)) with (kmul (re u) (ksub z w)); [rewrite cabs_mul, cabs_re, Rabs_pos_eq by exact Hu; lra|].
    replace (re (1 + u)) with (kadd k1 (re u)); [ring|]. unfold re. cbn. unfold cx_add. cbn. f_equal; ring.
  - intros z w. replace (ksub (kmul z w) (kmul z w)) with (@k0 CX) by ring. rewrite cabs_0. apply Rmult_le_pos; [exact Hu|apply cabs_pos].
  - intros l. replace (ksub (ksum (fun z => z) l) (ksum (fun z => z) l)) with (@k0 CX) by ring. rewrite cabs_0. apply Rmult_le_pos; [pose proof (pow_ge1 u (length l) Hu); lra|apply asum_pos].
Qed.
Definition one_state : list (list (nat * CX)) := [[(0%nat, re 2)]].
Lemma one_wf : wf_csr 1 one_state.
Proof.
  split; [reflexivity|]. split.
  - intros [|[|i]] e He; cbn in He; [destruct He as [<-|[]]; cbn; lia|destruct He|destruct He].
  - intros [|[|i]]; cbn; repeat constructor; intros [].
Qed.
Fixpoint growing (u : R) (n : nat) : R := match n with O => 1 | S k => match k with O => 1 | S j => (1 + u) * (2 * growing u k - growing u j) end end.
Lemma growing_SS : forall u n, growing u (S (S n)) = (1 + u) * (2 * growing u (S n) - growing u n). Proof. reflexivity. Qed.
Lemma growing_bound : forall u, 0 <= u -> forall n, 1 + u * (INR n * (INR n - 1)) / 2 <= growing u n /\ INR n * u <= growing u (S n) - growing u n /\ 1 <= growing u n.
Proof.
  intros u Hu n. induction n as [|n (B & D & O)]; [cbn; lra|]. rewrite growing_SS. rewrite S_INR. pose proof (pos_INR n) as P. assert (0 <= INR n * u) by nra.
  set (x := growing u n) in *. set (y := growing u (S n)) in *. assert (1 <= y) by lra. assert (u * 1 <= u * (2 * y - x)) by (apply Rmult_le_compat_l; lra). repeat split; lra.
Qed.
Lemma one_steps : forall u n, steps (csr_cell (high u) one_state) (csr_start (high u) one_state) (vec [re 1]) n 0%nat = re (growing u n).
Proof.
  intros u. set (t := steps (csr_cell (high u) one_state) (csr_start (high u) one_state) (vec [re 1])).
  assert (G : forall n, t n 0%nat = re (growing u n) /\ t (S n) 0%nat = re (growing u (S n))).
  { induction n as [|n (A & B)].
    - split; [reflexivity|]. unfold t. cbn. unfold csr_start, row_value, row_from. cbn. unfold cx_half, re, cx_add, cx_mul, cx_sub, cx_opp. cbn. f_equal; lra.
    - split; [exact B|]. unfold t in *. rewrite steps_SS, growing_SS. unfold csr_cell at 1. set (t' := steps _ _ _) in *. unfold row_value, row_from. change (entries one_state 0) with [(0%nat, re 2)]. cbn [fold_left fst snd]. rewrite A, B. cbn [high f_add f_mul f_sub]. unfold re. cbn. unfold cx_add, cx_mul, cx_sub, cx_opp, cx_add. cbn. f_equal; ring. }
  intros n. apply G.
Qed.
Lemma one_layered : layered CX one_state 1 (slice_map_simple 1).
Proof.
  split; [discriminate|]. split; [cbn; intros; lia|]. split; [reflexivity|]. intros i e Hi He. assert (i = 0%nat) by lia. subst i. destruct He as [<-|[]]. cbn. lia.
Qed.
Lemma one_cheb : forall n, cv CX 1 (half_of one_state) (vec [re 1]) n 0%nat = re 1.
Proof.
  assert (E : forall v, ap CX 1 (half_of one_state) v 0%nat = v 0%nat).
  { intros v. unfold ap. cbn [seq]. rewrite ksum_cons, ksum_nil. unfold half_of, coef, entries, one_state. cbn [nth]. rewrite ksum_cons, ksum_nil. cbn [fst snd Nat.eqb].
    destruct (v 0%nat) as [x y]. unfold cx_half, re. cbn. unfold cx_add, cx_mul. cbn. f_equal; lra. }
  assert (G : forall n, cv CX 1 (half_of one_state) (vec [re 1]) n 0%nat = re 1 /\ cv CX 1 (half_of one_state) (vec [re 1]) (S n) 0%nat = re 1).
  { induction n as [|n (A & B)]; [split; [reflexivity|cbn [cv]; rewrite E; reflexivity]|]. split; [exact B|]. rewrite cv_SS, E, A, B. unfold re. cbn. unfold cx_sub, cx_opp, cx_add, cx_mul. cbn. f_equal; ring. }
  intros n. apply G.
Qed.
Theorem C109_growth : forall u, 0 <= u -> accurate u (high u) /\ forall num, (2 <= num)%nat ->
  exists res, run_units CX cx_half (fl_kernel (high u) one_state) (slice_map_simple 1) (Algorithm false false) num [0%nat] [re 1] = Ok [res] /\
    forall n, (n < num)%nat -> u * (INR n * (INR n - 1)) / 2 <= cabs (ksub (nth n res k0) (halved cx_half n (ap CX 1 (cheb 1 (scaled one_state) n) (vec [re 1]) 0%nat))).
Proof.
  intros u Hu. pose proof (high_accurate u Hu) as HF. split; [exact HF|]. intros num Hnum. eexists. split.
  - rewrite (run_units_steps u one_state 1 one_wf (slice_map_simple 1) one_layered (csr_cell (high u) one_state) (csr_start (high u) one_state) (row_rate u 1) (fl_kernel (high u) one_state)); [cbn [map]; reflexivity| |reflexivity|discriminate|discriminate|exact Hnum|intros d [<-|[]]; split; [lia|discriminate]].
    apply csr_rounded; [exact HF|exact one_wf|]. intros [|[|i]]; cbn; lia.
  - intros n Hn. match goal with |- _ <= cabs (ksub (nth n ?l k0) _) => change (nth n l k0) with (vec l n) end. rewrite (vec_map CX) by exact Hn. rewrite one_steps.
    rewrite <- (cv_cheb CX) by lia. change (scaled one_state) with (half_of one_state). rewrite one_cheb. destruct (growing_bound u Hu n) as (B & _ & _). destruct n as [|n].
    + cbn [INR]. replace (u * (0 * (0 - 1)) / 2) with 0 by lra. apply cabs_pos.
    + cbn [halved]. replace (ksub (re (growing u (S n))) (re 1)) with (re (growing u (S n) - 1)) by (unfold re; cbn; unfold cx_sub, cx_add, cx_opp; cbn; f_equal; ring).
      rewrite cabs_re. eapply Rle_trans; [|apply Rle_abs]. lra.
Qed.

(** Exact arithmetic is the case without error. *)
Example C109_exact : accurate 0 exact.
Proof.
  constructor; cbn [exact f_add f_sub f_mul f_sum]; [lra| | | |]; intros.
  - replace (ksub (kadd z w) (kadd z w)) with (@k0 CX) by ring. rewrite cabs_0. lra.
  - replace (ksub (ksub z w) (ksub z w)) with (@k0 CX) by ring. rewrite cabs_0. lra.
  - replace (ksub (kmul z w) (kmul z w)) with (@k0 CX) by ring. rewrite cabs_0. lra.
  - replace (ksub (ksum (fun z => z) l) (ksum (fun z => z) l)) with (@k0 CX) by ring. rewrite cabs_0. replace (1 + 0) with 1 by lra. rewrite pow1. lra.
Qed.
(** 53 digits, one accumulator, two coupled states: ten thousand moments are right to six decimals. *)
Fixpoint left_to_right (n : nat) : order := match n with O => One | S O => One | S k => Both (left_to_right k) One end.
Definition two_states : list (list (nat * CX)) := [[(1%nat, re 2)]; [(0%nat, re 2)]].
Lemma two_entries : forall i j, scaled two_states i j = match i, j with 0%nat, 1%nat => re 1 | 1%nat, 0%nat => re 1 | _, _ => re 0 end.
Proof.
  intros i j. unfold scaled, coef, entries, two_states, cx_half, re.
  destruct i as [|[|[|i]]]; destruct j as [|[|j]]; cbn; unfold cx_mul, cx_add; cbn; f_equal; lra.
Qed.
Lemma two_hermitian : hermitian 2 (scaled two_states).
Proof.
  intros i j Hi Hj. rewrite !two_entries. destruct i as [|[|i]]; [| |lia]; (destruct j as [|[|j]]; [| |lia]); unfold re; cbn; unfold cx_conj; cbn; f_equal; lra.
Qed.
Lemma two_within : within 2 (scaled two_states) (-1) 1.
Proof.
  intros v. unfold expect, braket, norm2. cbn [seq rsum]. rewrite !ksum_cons, !ksum_nil. rewrite !two_entries. destruct (v 0%nat) as [a b] eqn:E0, (v 1%nat) as [c d] eqn:E1.
  unfold abs2, re. cbn. unfold cx_mul, cx_add, cx_conj. cbn. pose proof (Rle_0_sqr (a - c)). pose proof (Rle_0_sqr (b - d)). pose proof (Rle_0_sqr (a + c)). pose proof (Rle_0_sqr (b + d)). unfold Rsqr in *. lra.
Qed.
Lemma left_leaves : forall n, (1 <= n)%nat -> leaves (left_to_right n) = n.
Proof.
  induction n as [|n IH]; intros H; [lia|]. destruct n as [|n]; [reflexivity|]. change (left_to_right (S (S n))) with (Both (left_to_right (S n)) One). cbn [leaves]. rewrite IH by lia. lia.
Qed.
(** Each state in its own slice, all options on. *)
Definition two_slices : slice_map := SliceMap [1%nat; 2%nat] 0 1.
Example C109_example : forall ellpack num, (2 <= num)%nat -> Nat.even num = true -> INR num <= 10000 ->
  exists res, run_units CX cx_half (kernel_of ellpack (complex_arith (digits 53) left_to_right) two_states) two_slices (Algorithm true true) num [0%nat; 1%nat] [re 1; re 0] = Ok res /\
    forall p n, (p < 2)%nat -> (n < num)%nat ->
      cabs (ksub (nth n (nth p res []) k0) (halved cx_half n (ap CX 2 (cheb 2 (scaled two_states) n) (vec [re 1; re 0]) p))) <= / 1000000.
Proof.
  intros ellpack num Hnum Hev Hle.
  assert (U : 0 < / 2 ^ 53 <= / 9000000000000000).
  { split; [apply Rinv_0_lt_compat; apply pow_lt; lra|]. apply Rinv_le_contravar; [lra|]. cbn; lra. }
  assert (PS : per_step (3 * / 2 ^ 53) 1 2 <= 54 * / 9000000000000000) by (unfold per_step; cbn [INR]; lra).
  assert (PS0 : 0 <= per_step (3 * / 2 ^ 53) 1 2) by (unfold per_step; cbn [INR]; lra). pose proof (pos_INR num) as N0.
  assert (NN : INR num * INR num <= 10000 * 10000) by (apply Rmult_le_compat; assumption).
  destruct (C109_units (3 * / 2 ^ 53) (complex_arith (digits 53) left_to_right) 2 two_states 1 2 ellpack two_slices (Algorithm true true) num [0%nat; 1%nat] [re 1; re 0]) as (res & E & L & B).
  - apply C109_digits; [lia|exact left_leaves].
  - split; [reflexivity|]. split.
    + intros [|[|[|i]]] e He; cbn in He; destruct He as [<-|[]] || destruct He; cbn; lia.
    + intros [|[|[|i]]]; cbn; repeat constructor; intros [].
  - lia.
  - split.
    + intros [|[|[|i]]]; cbn; lia.
    + intros i Hi. assert (C : forall j, cabs (coef two_states i j) = 2 * cabs (scaled two_states i j)).
      { intros j. unfold scaled. rewrite cabs_mul. unfold cx_half. rewrite cabs_re, Rabs_pos_eq by lra. lra. }
      cbn [rsum]. rewrite !C, !two_entries. destruct i as [|[|i]]; [| |lia]; rewrite !cabs_re, Rabs_R0, Rabs_R1; lra.
  - exact two_hermitian.
  - exact two_within.
  - split; [discriminate|]. split; [intros [|k]; cbn; intros; lia|]. split; [reflexivity|]. intros i e Hi He. destruct i as [|[|i]]; [| |lia]; destruct He as [<-|[]]; cbn; lia.
  - split; [reflexivity|]. intros _ i Hi Hl. destruct i as [|[|i]]; [cbn in Hl; lia|reflexivity|lia].
  - exact Hnum.
  - intros _. exact Hev.
  - intros d [<-|[<-|[]]]; split; try lia; intros _; cbn; lia.
  - cbn [INR]. lra.
  - apply Rle_trans with (54 * / 9000000000000000 * (10000 * 10000)); [|lra]. apply Rmult_le_compat; try assumption. apply Rmult_le_pos; assumption.
  - exists res. split; [exact E|]. intros p n Hp Hn. specialize (B p n Hp Hn). replace (nth p [0%nat; 1%nat] 0%nat) with p in B by (destruct p as [|[|p]]; [reflexivity|reflexivity|lia]).
    eapply Rle_trans; [exact B|]. assert (V : nrm 2 (vec [re 1; re 0]) = 1).
    { unfold nrm, norm2, vec, abs2, re. cbn. replace (0 + (1 * 1 + 0 * 0) + (0 * 0 + 0 * 0)) with 1 by ring. apply sqrt_1. }
    rewrite V, Rmult_1_r. assert (M : INR n * INR (n + 1) <= 10000 * 10000).
    { apply Rmult_le_compat; try apply pos_INR; (apply Rle_trans with (INR num); [apply le_INR; lia|exact Hle]). }
    apply Rle_trans with (54 * / 9000000000000000 * (10000 * 10000)); [|lra]. apply Rmult_le_compat; try assumption. apply Rmult_le_pos; apply pos_INR.
Qed.
