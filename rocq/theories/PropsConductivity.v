(* C97: the conductivity is right and real on average and obeys Onsager reciprocity. *)
From Verif Require Import Base Scalar Kpm KpmSpec KpmVec KpmCheb KpmGram KpmCore KpmEll KpmFinal KpmBatch RSum Cplx RInt Spectral SpectralProofs SpectralLine SpectralKubo PropsKpm PropsSpectral Mean Random RandomProofs PropsRandom Conductivity ConductivityProofs.
From Coq Require Import Reals Lra Ring.
Local Open Scope R_scope.
Add Ring CXringC2 : (k_ring CX).
Local Notation csr := (list (list (nat * CX))).

(** Commutator of the matrix with a coordinate: i hbar times the velocity. *)
Definition commutator (h : nat -> nat -> CX) (x : list R) (i j : nat) : CX := kmul (h i j) (re (nth i x 0 - nth j x 0)).
(** g_m g_n tr((R T_n)^+ T_m L), halved for m = 0 and for n = 0; no random vectors. *)
Definition exact_moment (g : nat -> R) (N : nat) (h : nat -> nat -> CX) (s : scale) (left_coords right_coords : list R) (m n : nat) : CX :=
  let T := cheb N (scaled_dense (re (/ s_a s)) (re (s_b s)) h) in
  kmul (halved cx_half m (halved cx_half n
          (ksum (fun a => ksum (fun i => kmul (kconj (dmul N (commutator h right_coords) (T n) i a)) (dmul N (T m) (commutator h left_coords) i a)) (seq 0 N)) (seq 0 N))))
       (re (g m * g n)).

Lemma commutator_antihermitian : forall N h x, hermitian N h -> antihermitian N (commutator h x).
Proof. intros N h x H i j Hi Hj. unfold commutator. rewrite (kconj_mul CX), H, re_conj by assumption. generalize (h j i). intros [p q]. cbn. unfold cx_mul, cx_opp, re. cbn. f_equal; ring. Qed.
Lemma scaled_hermitian : forall N h a b, hermitian N h -> hermitian N (scaled_dense (re a) (re b) h).
Proof.
  intros N h a b H i j Hi Hj. unfold scaled_dense, delta. rewrite (kconj_mul CX), (kconj_sub CX), (kconj_mul CX), !re_conj, H by assumption.
  rewrite (Nat.eqb_sym j i). destruct (i =? j)%nat; [rewrite kconj_1|rewrite kconj_0]; reflexivity.
Qed.
Lemma commutator_conj : forall N (h h' : nat -> nat -> CX) x, (forall i j, (i < N)%nat -> (j < N)%nat -> h' i j = kconj (h i j)) ->
  forall i j, (i < N)%nat -> (j < N)%nat -> commutator h' x i j = kconj (commutator h x i j).
Proof. intros N h h' x E i j Hi Hj. unfold commutator. rewrite (kconj_mul CX), re_conj, E by assumption. reflexivity. Qed.

Lemma half_conj : kconj cx_half = cx_half.
Proof. apply re_conj. Qed.
Lemma halved_conj : forall n v, kconj (halved cx_half n v) = halved cx_half n (kconj v).
Proof. intros [|n] v; unfold halved; [rewrite (kconj_mul CX), half_conj|]; reflexivity. Qed.
Lemma halved_comm : forall m n v, halved cx_half m (halved cx_half n v) = halved cx_half n (halved cx_half m v).
Proof. intros [|m] [|n] v; unfold halved; reflexivity. Qed.

Lemma exact_pair : forall g N h s lc rc m n,
  exact_moment g N h s lc rc m n = kmul (halved cx_half m (halved cx_half n (pair_trace N (cheb N (scaled_dense (re (/ s_a s)) (re (s_b s)) h)) (commutator h lc) (commutator h rc) m n))) (re (g m * g n)).
Proof. reflexivity. Qed.
Lemma exact_conj : forall g N h s lc rc m n, hermitian N h -> kconj (exact_moment g N h s lc rc m n) = exact_moment g N h s lc rc n m.
Proof.
  intros g N h s lc rc m n H. rewrite !exact_pair, (kconj_mul CX), re_conj, !halved_conj, pair_trace_conj.
  - rewrite (Rmult_comm (g m)), halved_comm. reflexivity.
  - intros k. apply cheb_hermitian, scaled_hermitian, H.
  - apply commutator_antihermitian, H.
  - apply commutator_antihermitian, H.
Qed.
(** Complex conjugation of the matrix (reversal of time) exchanges the two directions. *)
Lemma exact_reversed : forall g N h h' s lc rc m n, hermitian N h -> (forall i j, (i < N)%nat -> (j < N)%nat -> h' i j = kconj (h i j)) ->
  exact_moment g N h' s rc lc m n = exact_moment g N h s lc rc m n.
Proof.
  intros g N h h' s lc rc m n H E. rewrite !exact_pair. do 3 f_equal.
  apply pair_trace_reversed.
  - intros k. apply cheb_hermitian, scaled_hermitian, H.
  - apply commutator_antihermitian, H.
  - apply commutator_antihermitian, H.
  - intros k i j Hi Hj. apply cheb_conj; try assumption. intros p q Hp Hq. unfold scaled_dense. rewrite E by assumption.
    rewrite (kconj_mul CX), (kconj_sub CX), (kconj_mul CX), !re_conj. unfold delta. destruct (p =? q)%nat; [rewrite kconj_1|rewrite kconj_0]; reflexivity.
  - intros i j Hi Hj. split; apply (commutator_conj N); assumption.
Qed.

Lemma Ok_inj : forall (A : Type) (a b : A), Ok a = Ok b -> a = b.
Proof. intros A a b E. injection E. auto. Qed.

Section Run.
  Variables (f : format) (al : algorithm) (lo hi : R) (N : nat) (h : csr) (is_real : bool) (M v size : nat).
  Hypothesis HN : (0 < N)%nat.
  Hypothesis Hwf : wf_csr N h.
  Hypothesis Hr : can_run N h lo hi al f.
  Hypothesis Hh : hermitian N (coef h).
  Hypothesis Hlo : lo < hi.
  Hypothesis Hv : (0 < v)%nat.
  Hypothesis Hs : (2 <= size)%nat.
  Hypothesis Hf : fair is_real M.

  Lemma velocity_run : forall x, length x = N -> exists V, velocity CX h (map re x) = Ok V /\ in_range CX V N /\ forall i j, (i < N)%nat -> (j < N)%nat -> coef V i j = commutator (coef h) x i j.
  Proof using Hwf.
    intros x Lx. destruct (C95_velocity N h (map re x)) as (V & E & R & C); [split; [apply Hwf|intros i e; apply Hwf]|rewrite map_length; exact Lx|].
    exists V. split; [exact E|]. split; [exact R|]. intros i j Hi Hj. rewrite C by assumption. unfold commutator. f_equal.
    assert (Z : forall k, (k < N)%nat -> nth k (map re x) k0 = re (nth k x 0)).
    { intros k Hk. rewrite (nth_indep _ k0 (re 0)) by (rewrite map_length, Lx; exact Hk). apply map_nth. }
    rewrite !Z by assumption. change (cx_sub (re (nth i x 0)) (re (nth j x 0)) = re (nth i x 0 - nth j x 0)). unfold cx_sub, cx_add, cx_opp, re. cbn [fst snd]. f_equal; ring.
  Qed.

  Lemma core_mean : forall kn lc rc chem broadening kbt num, kn_required kn (broadening / s_a (make_scale lo hi)) = Ok num -> (2 <= num)%nat -> ((num - 2) mod 4 = 0)%nat ->
    length lc = N -> length rc = N ->
    exists sigma : list nat -> CX,
      (forall u, core_conductivity f al lo hi h is_real (numbers M u) kn lc rc chem broadening kbt v size = Ok (sigma u)) /\
      Ok (cmean M (v * N) sigma) = kubo_bastin lo hi size num (exact_moment (kn_g kn num) N (coef h) (make_scale lo hi) lc rc) kbt chem.
  Proof using HN Hwf Hr Hlo Hv Hs Hf.
    intros kn lc rc chem broadening kbt num Hn H2 H4 Ll Lr.
    destruct (velocity_run lc Ll) as (L & EL & RL & CL). destruct (velocity_run rc Lr) as (V & EV & RV & CV).
    destruct (C95_conductivity f al lo hi N h num v L V is_real M HN Hwf Hr H2 H4 Hv RL RV Hf) as (mu & Emu & Mmu).
    destruct (kubo_mean M (fair_pos _ _ Hf) lo hi size num (fun u => damped_matrix kn num (mu u)) kbt chem (v * N) Hlo Hs) as (sigma & E1 & E2).
    exists sigma. split.
    - intros u. unfold core_conductivity. rewrite Hn. cbn [obind]. rewrite EL, EV. cbn [obind]. rewrite Emu. cbn [obind]. apply E1.
    - rewrite <- E2. apply kubo_ext; [exact Hlo|exact Hs|]. intros m n Hm Hn'.
      assert (Q : cmean M (v * N) (fun u => damped_matrix kn num (mu u) m n) = kmul (re (kn_g kn num m * kn_g kn num n)) (cmean M (v * N) (fun u => nth n (nth m (mu u) []) k0))).
      { rewrite <- (cmean_mul M (fair_pos _ _ Hf)). unfold damped_matrix. apply (cmean_ext is_real M Hf). intros u. ring. }
      rewrite Q, Mmu by assumption. unfold exact_moment.
      transitivity (kmul (re (kn_g kn num m * kn_g kn num n)) (halved cx_half m (halved cx_half n
        (ksum (fun a => ksum (fun i => kmul (kconj (dmul N (commutator (coef h) rc) (cheb N (scaled_dense (re (/ s_a (make_scale lo hi))) (re (s_b (make_scale lo hi))) (coef h)) n) i a))
          (dmul N (cheb N (scaled_dense (re (/ s_a (make_scale lo hi))) (re (s_b (make_scale lo hi))) (coef h)) m) (commutator (coef h) lc) i a)) (seq 0 N)) (seq 0 N))))); [|ring].
      do 3 f_equal. apply ksum_ext. intros a Ha. apply in_seq in Ha. apply ksum_ext. intros i Hi. apply in_seq in Hi. f_equal.
      + f_equal. unfold dmul. apply ksum_ext. intros k Hk. apply in_seq in Hk. rewrite CV by lia. reflexivity.
      + unfold dmul. apply ksum_ext. intros k Hk. apply in_seq in Hk. rewrite CL by lia. reflexivity.
  Qed.
End Run.

(** The average of the complex result has no imaginary part, so that the real part returned is all of it, and is
    the trapezoid sum of the Kubo-Bastin formula with exact traces (times (size - 1)/size, see C55). *)
Theorem C97_mean : forall f al lo hi N h is_real M v size kn lc rc chem broadening kbt,
  (0 < N)%nat -> wf_csr N h -> hermitian N (coef h) -> lo < hi -> can_run N h lo hi al f -> (0 < v)%nat -> (2 <= size)%nat -> fair is_real M ->
  offered kn -> 0 < broadening -> 0 < kbt -> length lc = N -> length rc = N ->
  exists num sigma, kn_required kn (broadening / s_a (make_scale lo hi)) = Ok num /\
    (forall u, core_conductivity f al lo hi h is_real (numbers M u) kn lc rc chem broadening kbt v size = Ok (sigma u)) /\
    (forall u, calc_conductivity f al lo hi h is_real (numbers M u) kn lc rc chem broadening kbt v size = Ok (fst (sigma u))) /\
    mean M (v * N) (fun u => snd (sigma u)) = 0 /\
    re (mean M (v * N) (fun u => fst (sigma u)))
    = kmul (re (INR (size - 1) / INR size)) (kubo_expected lo hi size num (exact_moment (kn_g kn num) N (coef h) (make_scale lo hi) lc rc) kbt chem).
Proof.
  intros f al lo hi N h is_real M v size kn lc rc chem broadening kbt HN Hwf Hh Hl Hr Hv Hs Hf Hk Hb Hkbt Ll Lr.
  destruct (scale_ok lo hi Hl) as (Ha & _).
  destruct (offered_moments kn (broadening / s_a (make_scale lo hi)) Hk) as (num & E & H2 & H4); [apply Rdiv_lt_0_compat; assumption|].
  destruct (core_mean f al lo hi N h is_real M v size HN Hwf Hr Hl Hv Hs Hf kn lc rc chem broadening kbt num E H2 H4 Ll Lr) as (sigma & S1 & S2).
  exists num, sigma. split; [exact E|]. split; [exact S1|]. split; [intros u; unfold calc_conductivity; rewrite S1; reflexivity|].
  destruct (kubo_real lo hi size num (exact_moment (kn_g kn num) N (coef h) (make_scale lo hi) lc rc) kbt chem Hl Hs) as (r & Er); [intros; apply exact_conj, Hh|].
  assert (Q : cmean M (v * N) sigma = re r) by (rewrite Er in S2; apply Ok_inj in S2; exact S2).
  split; [exact (f_equal snd Q)|]. rewrite (C55_partial lo hi size num _ kbt chem Hl Hs Hkbt) in S2. apply Ok_inj in S2. rewrite <- S2, Q. f_equal. exact (f_equal fst Q).
Qed.

(** The format, the algorithm, the scalar type and the number of random vectors do not change the average, and
    neither does reversing time (conjugating the matrix) together with exchanging the directions. *)
Theorem C97_onsager : forall lo hi N h h' kn lc rc chem broadening kbt size f al is_real M v f' al' is_real' M' v',
  (0 < N)%nat -> wf_csr N h -> wf_csr N h' -> hermitian N (coef h) ->
  (forall i j, (i < N)%nat -> (j < N)%nat -> coef h' i j = kconj (coef h i j)) -> lo < hi -> (2 <= size)%nat ->
  can_run N h lo hi al f -> (0 < v)%nat -> fair is_real M ->
  can_run N h' lo hi al' f' -> (0 < v')%nat -> fair is_real' M' ->
  offered kn -> 0 < broadening -> length lc = N -> length rc = N ->
  exists s s',
    (forall u, calc_conductivity f al lo hi h is_real (numbers M u) kn lc rc chem broadening kbt v size = Ok (s u)) /\
    (forall u, calc_conductivity f' al' lo hi h' is_real' (numbers M' u) kn rc lc chem broadening kbt v' size = Ok (s' u)) /\
    mean M (v * N) s = mean M' (v' * N) s'.
Proof.
  intros lo hi N h h' kn lc rc chem broadening kbt size f al is_real M v f' al' is_real' M' v' HN Hwf Hwf' Hh E Hl Hs Hr Hv Hf Hr' Hv' Hf' Hk Hb Ll Lr.
  destruct (scale_ok lo hi Hl) as (Ha & _).
  destruct (offered_moments kn (broadening / s_a (make_scale lo hi)) Hk) as (num & En & H2 & H4); [apply Rdiv_lt_0_compat; assumption|].
  destruct (core_mean f al lo hi N h is_real M v size HN Hwf Hr Hl Hv Hs Hf kn lc rc chem broadening kbt num En H2 H4 Ll Lr) as (s & S1 & S2).
  destruct (core_mean f' al' lo hi N h' is_real' M' v' size HN Hwf' Hr' Hl Hv' Hs Hf' kn rc lc chem broadening kbt num En H2 H4 Lr Ll) as (s' & S1' & S2').
  exists (fun u => fst (s u)), (fun u => fst (s' u)). split; [intros u; unfold calc_conductivity; rewrite S1; reflexivity|].
  split; [intros u; unfold calc_conductivity; rewrite S1'; reflexivity|].
  assert (Q : cmean M (v * N) s = cmean M' (v' * N) s').
  { apply Ok_inj. rewrite S2, S2'. apply kubo_ext; [exact Hl|exact Hs|]. intros m n _ _. symmetry. apply exact_reversed; assumption. }
  exact (f_equal fst Q).
Qed.
(** A real matrix: the conductivity tensor is symmetric. *)
Theorem C97_symmetric : forall lo hi N (h : csr) kn lc rc chem broadening kbt size f al is_real M v,
  (0 < N)%nat -> wf_csr N h -> hermitian N (coef h) ->
  (forall i j, (i < N)%nat -> (j < N)%nat -> snd (coef h i j : CX) = 0) -> lo < hi -> (2 <= size)%nat ->
  can_run N h lo hi al f -> (0 < v)%nat -> fair is_real M ->
  offered kn -> 0 < broadening -> length lc = N -> length rc = N ->
  exists s s',
    (forall u, calc_conductivity f al lo hi h is_real (numbers M u) kn lc rc chem broadening kbt v size = Ok (s u)) /\
    (forall u, calc_conductivity f al lo hi h is_real (numbers M u) kn rc lc chem broadening kbt v size = Ok (s' u)) /\
    mean M (v * N) s = mean M (v * N) s'.
Proof.
  intros lo hi N h kn lc rc chem broadening kbt size f al is_real M v HN Hwf Hh E Hl Hs Hr Hv Hf Hk Hb Ll Lr.
  apply (C97_onsager lo hi N h h); auto. intros i j Hi Hj. specialize (E i j Hi Hj). revert E. generalize (coef h i j). intros [p q] E. cbn in E. subst q. cbn. unfold cx_conj. cbn. f_equal. ring.
Qed.

Lemma sum_2 : forall F : nat -> CX, ksum F (seq 0 2) = kadd (F 0%nat) (F 1%nat).
Proof. intros F. cbn [seq]. rewrite !ksum_cons, ksum_nil. ring. Qed.
Lemma dimer_moments : forall a m n, (m < 2)%nat -> (n < 2)%nat ->
  exact_moment (fun _ => 1) 2 (coef dimer) (Scale a 0) [0; 1] [0; 1] m n
  = match m, n with 0%nat, 0%nat => re (/ 2) | 1%nat, 1%nat => re (- 2 * (/ a * / a)) | _, _ => re 0 end.
Proof.
  intros a m n Hm Hn. unfold exact_moment. cbn [s_a s_b].
  assert (C : forall i j, coef dimer i j = match i, j with 0%nat, 1%nat | 1%nat, 0%nat => re (-1) | _, _ => re 0 end).
  { intros [|[|[|i]]] [|[|j]]; unfold coef, entries, dimer; cbn; try reflexivity; unfold cx_add, re; cbn [fst snd]; f_equal; ring. }
  assert (V : forall i j, (i < 2)%nat -> (j < 2)%nat -> commutator (coef dimer) [0; 1] i j = match i, j with 0%nat, 1%nat => re 1 | 1%nat, 0%nat => re (-1) | _, _ => re 0 end).
  { intros i j Hi Hj. unfold commutator. rewrite C. destruct i as [|[|i]], j as [|[|j]]; try lia; cbn [nth]; rewrite re_mul; f_equal; ring. }
  set (b := / a).
  assert (T : forall k i j, (k < 2)%nat -> (i < 2)%nat -> (j < 2)%nat -> cheb 2 (scaled_dense (re b) (re 0) (coef dimer)) k i j =
     match k, i, j with 0%nat, 0%nat, 0%nat | 0%nat, 1%nat, 1%nat => re 1 | 1%nat, 0%nat, 1%nat | 1%nat, 1%nat, 0%nat => re (- b) | _, _, _ => re 0 end).
  { intros k i j Hk Hi Hj. destruct k as [|[|k]]; [| |lia]; cbn [cheb]; unfold scaled_dense, delta; try rewrite C;
      destruct i as [|[|i]], j as [|[|j]]; try lia; cbn [Nat.eqb]; try reflexivity; cbn; unfold cx_mul, cx_sub, cx_add, cx_opp, re; cbn [fst snd]; f_equal; ring. }
  unfold dmul. rewrite !sum_2. rewrite !T, !V by lia.
  assert (A : forall p q, kadd (re p) (re q) = re (p + q)) by (intros p q; cbn; unfold cx_add, re; cbn [fst snd]; f_equal; ring).
  change cx_half with (re (/ 2)).
  destruct m as [|[|m]], n as [|[|n]]; try lia; unfold halved; repeat (rewrite re_mul || rewrite A || rewrite re_conj); f_equal; field.
Qed.
Lemma dimer_integrand : forall a ms inv_kbt mu en, -1 < en < 1 ->
  (forall m n, (m < 2)%nat -> (n < 2)%nat -> ms m n = match m, n with 0%nat, 0%nat => re (/ 2) | 1%nat, 1%nat => re (- 2 * (/ a * / a)) | _, _ => re 0 end) ->
  kubo_integrand 2 ms inv_kbt mu en = re (/ (1 + exp ((en - mu) * inv_kbt)) / (1 - en * en) ^ 2 * (en * (1 - 4 * (/ a * / a)))).
Proof.
  intros a ms inv_kbt mu en He Hms. unfold kubo_integrand. rewrite !sum_2, !Hms by lia. generalize (/ (1 + exp ((en - mu) * inv_kbt)) / (1 - en * en) ^ 2). intros w0.
  assert (G0 : kubo_gamma en 0 0 = re (2 * en)).
  { unfold kubo_gamma. change (INR 0) with 0. rewrite !Rmult_0_l, cos_0, sin_0. cbn. unfold cx_add, cx_mul, mk, re. cbn [fst snd]. f_equal; ring. }
  assert (G1 : kubo_gamma en 1 1 = re (2 * en)).
  { unfold kubo_gamma. change (INR 1) with 1. rewrite !Rmult_1_l, cos_acos, sin_acos by lra. unfold Rsqr. set (q := sqrt (1 - en * en)).
    assert (Q : q * q = 1 - en * en) by (apply sqrt_sqrt; assert (0 <= (1 - en) * (1 + en)) by (apply Rmult_le_pos; lra); lra).
    cbn. unfold cx_add, cx_mul, mk, re. cbn [fst snd]. f_equal; [|ring]. transitivity ((en * en + q * q) * en * 2); [ring|]. rewrite Q. ring. }
  rewrite G0, G1. generalize (kubo_gamma en 0 1), (kubo_gamma en 1 0). intros [p q] [u w]. generalize (/ a * / a). intros t.
  cbn. unfold cx_add, cx_mul, re. cbn [fst snd]. f_equal; field.
Qed.

(** Two sites at 0 and 1, Dirichlet kernel, two moments, two energies: the average is a number which is not zero. *)
Example C97_example : let c := 100 / 101 in
  exists sigma, (forall u, calc_conductivity Csr plain (-1) 1 dimer true (numbers 2 u) dirichlet [0; 1] [0; 1] 0 (8 * (101 / 100)) (101 / 100) 1 2 = Ok (sigma u)) /\
    mean 2 2 sigma = 2 * (c * c) * (c * c) * (4 * (c * c) - 1) / (1 - c * c) ^ 2 * (/ (1 + exp (- c)) - / (1 + exp c)).
Proof.
  intros c. destruct dimer_ok as (HN & Hwf & Hh & Hl & _). assert (HPI : 0 < PI <= 4) by (split; [exact PI_RGT_0|exact PI_4]).
  assert (RQ : kn_required dirichlet (8 * (101 / 100) / s_a (make_scale (-1) 1)) = Ok 2%nat).
  { rewrite scale_1. cbn [s_a]. replace (8 * (101 / 100) / (101 / 100)) with 8 by field. cbn [kn_required dirichlet].
    apply (required_small PI 8 0 ltac:(lra) ltac:(lra) ltac:(lra) 2%Z). reflexivity. }
  destruct (C97_mean Csr plain (-1) 1 2 dimer true 2 1 2 dirichlet [0; 1] [0; 1] 0 (8 * (101 / 100)) (101 / 100)) as (num & s & E & _ & S & _ & V);
    auto using plain_runs; try lra; try lia.
  { exists 1%nat. lia. }
  { right. reflexivity. }
  rewrite RQ in E. injection E as <-. exists (fun u => fst (s u)). split; [exact S|]. apply (f_equal fst) in V. change (fst (re ?x)) with x in V.
  change (1 * 2)%nat with 2%nat in V.
  pose proof (dimer_moments (101 / 100)) as D. unfold kubo_expected in V. rewrite scale_1 in V. cbn [s_a s_b] in V.
  assert (IC : / (101 / 100) = c) by (unfold c; field).
  change (kn_g dirichlet 2) with (fun _ : nat => 1) in V.
  revert V D. generalize (exact_moment (fun _ => 1) 2 (coef dimer) (Scale (101 / 100) 0) [0; 1] [0; 1]). intros ms V D.
  unfold trapezoid, scaled in V. cbn [s_a s_b Nat.sub seq] in V. rewrite ksum_cons, ksum_nil in V. change (INR 0) with 0 in V. change (INR 1) with 1 in V. change (INR 2) with 2 in V.
  replace ((-1 - 0) / (101 / 100) + 0 * ((1 - -1) / 1 / (101 / 100))) with (- c) in V by (unfold c; field).
  replace ((-1 - 0) / (101 / 100) + 1 * ((1 - -1) / 1 / (101 / 100))) with c in V by (unfold c; field).
  rewrite !(dimer_integrand (101 / 100) ms _ _ _) in V by (assumption || (unfold c; lra)).
  rewrite IC in V. replace (101 / 100 / (101 / 100)) with 1 in V by field. replace ((0 - 0) / (101 / 100)) with 0 in V by field.
  rewrite V. replace (4 / (101 / 100 * (101 / 100))) with (4 * (c * c)) by (rewrite <- IC; field).
  replace ((- c - 0) * 1) with (- c) by ring. replace ((c - 0) * 1) with c by ring.
  assert (C1 : (1 - c * c) ^ 2 <> 0) by (unfold c; cbn [pow]; lra).
  replace (1 - - c * - c) with (1 - c * c) by ring. clear V D IC. revert C1. generalize (/ (1 + exp (- c))), (/ (1 + exp c)), ((1 - c * c) ^ 2). intros f0 f1 d C1.
  cbn. unfold cx_add, cx_mul, re. cbn [fst snd]. field. exact C1.
Qed.
