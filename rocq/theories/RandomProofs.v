(* Random start vectors: averages over the draws. *)
From Verif Require Import Base Scalar Kpm KpmSpec KpmCheb KpmGram KpmCore KpmEll KpmFinal KpmBatch KpmBatchProofs RSum Cplx RInt Spectral SpectralProofs SpectralLine SpectralTheorem Mean Random.
From Coq Require Import Reals Lra Ring.
Local Open Scope R_scope.
Add Ring CXringR : (k_ring CX).

(** ** The phases *)
Definition phase (is_real : bool) (M : nat) (k : nat) : CX := random_entry is_real (INR k / INR M).
(** As many draws below one half as above; at least two phases. *)
Definition fair (is_real : bool) (M : nat) : Prop := if is_real then (exists p, (0 < p)%nat /\ M = (2 * p)%nat) else (2 <= M)%nat.
Lemma fair_pos : forall b M, fair b M -> (0 < M)%nat.
Proof. intros [] M H; cbn in H; [destruct H as (p & ? & ->); lia|lia]. Qed.
Lemma phase_unit : forall b M k, abs2 (phase b M k) = 1.
Proof.
  intros b M k. unfold phase, random_entry, abs2. destruct b; [destruct (Rlt_dec _ _); cbn; ring|]. cbn.
  set (t := 2 * PI * (INR k / INR M)). pose proof (sin2_cos2 t) as Q. unfold Rsqr in Q. lra.
Qed.
Lemma rsum_app : forall f a b, rsum f (a + b) = rsum f a + rsum (fun i => f (a + i)%nat) b.
Proof. intros f a b. induction b as [|b IH]; [rewrite Nat.add_0_r; cbn; ring|]. rewrite Nat.add_succ_r. cbn [rsum]. rewrite IH. ring. Qed.
Lemma geometric : forall t n, kmul (ksub (mk (cos t) (sin t)) k1) (ksum (fun k => mk (cos (INR k * t)) (sin (INR k * t))) (seq 0 n)) = ksub (mk (cos (INR n * t)) (sin (INR n * t))) k1.
Proof.
  intros t n. induction n as [|n IH].
  - cbn [seq INR]. rewrite ksum_nil, Rmult_0_l, cos_0, sin_0. unfold mk. change (1, 0) with (@k1 CX). ring.
  - rewrite ksum_S. transitivity (kadd (kmul (ksub (mk (cos t) (sin t)) k1) (ksum (fun k => mk (cos (INR k * t)) (sin (INR k * t))) (seq 0 n))) (kmul (ksub (mk (cos t) (sin t)) k1) (mk (cos (INR n * t)) (sin (INR n * t))))); [ring|].
    rewrite IH, S_INR. replace ((INR n + 1) * t) with (INR n * t + t) by ring. rewrite cos_plus, sin_plus.
    cbn. unfold cx_add, cx_sub, cx_add, cx_opp, cx_mul, mk. cbn. f_equal; ring.
Qed.
Lemma phase_sum : forall b M, fair b M -> ksum (phase b M) (seq 0 M) = k0.
Proof.
  intros [] M H.
  - destruct H as (p & Hp & ->). assert (P : 0 < INR (2 * p)) by (apply lt_0_INR; lia). rewrite mult_INR in P. cbn [INR] in P.
    assert (L : forall k, (k < p)%nat -> phase true (2 * p) k = re (-1)).
    { intros k Hk. unfold phase, random_entry. destruct (Rlt_dec _ _) as [_|Q]; [reflexivity|]. exfalso. apply Q. apply lt_INR in Hk. rewrite mult_INR. cbn [INR].
      apply (Rmult_lt_reg_r ((1 + 1) * INR p)); [exact P|]. unfold Rdiv. rewrite Rmult_assoc, Rinv_l by lra. lra. }
    assert (G : forall k, phase true (2 * p) (p + k)%nat = re 1).
    { intros k. unfold phase, random_entry. destruct (Rlt_dec _ _) as [Q|_]; [|reflexivity]. exfalso. pose proof (pos_INR k). rewrite plus_INR, mult_INR in Q. cbn [INR] in Q.
      apply (Rmult_lt_compat_r ((1 + 1) * INR p)) in Q; [|exact P]. unfold Rdiv in Q. rewrite Rmult_assoc, Rinv_l in Q by lra. lra. }
    apply injective_projections.
    + rewrite fst_sum. assert (X : forall m, m = (p + p)%nat -> rsum (fun i => fst (phase true (2 * p) i)) m = 0); [|apply X; lia]. intros m ->. rewrite rsum_app.
      rewrite (rsum_ext (fun i => fst (phase true (2 * p) i)) (fun _ => -1)) by (intros i Hi; rewrite L by exact Hi; reflexivity).
      rewrite (rsum_ext (fun i => fst (phase true (2 * p) (p + i))) (fun _ => 1)) by (intros i Hi; rewrite G; reflexivity). rewrite !rsum_const. ring.
    + rewrite snd_sum. apply rsum_0. intros i _. unfold phase, random_entry. destruct (Rlt_dec _ _); reflexivity.
  - cbn in H. set (t := 2 * PI / INR M). assert (P : 2 <= INR M) by (apply le_INR in H; exact H).
    assert (E : forall k, phase false M k = mk (cos (INR k * t)) (sin (INR k * t))).
    { intros k. unfold phase, random_entry, t. replace (2 * PI * (INR k / INR M)) with (INR k * (2 * PI / INR M)) by (field; lra). reflexivity. }
    rewrite (ksum_ext CX _ (fun k => mk (cos (INR k * t)) (sin (INR k * t)))) by (intros; apply E).
    pose proof (geometric t M) as G. replace (INR M * t) with (2 * PI) in G by (unfold t; field; lra). rewrite cos_2PI, sin_2PI in G.
    assert (Z : ksub (mk (cos t) (sin t)) k1 <> k0).
    { intros Q. assert (C : cos t = 1) by (apply (f_equal fst) in Q; cbn in Q; lra). pose proof PI_RGT_0 as PP.
      assert (T : 0 < t) by (unfold t; apply Rdiv_lt_0_compat; lra).
      assert (T' : t <= PI). { unfold t. apply (Rmult_le_reg_r (INR M)); [lra|]. unfold Rdiv. rewrite Rmult_assoc, Rinv_l by lra. nra. }
      assert (cos t < cos 0) by (apply cos_decreasing_1; lra). rewrite cos_0 in *. lra. }
    set (w := ksub (mk (cos t) (sin t)) k1) in *. set (S0 := ksum _ _) in *.
    transitivity (kmul (cinv w) (kmul w S0)).
    + transitivity (kmul (kmul (cinv w) w) S0); [rewrite cinv_l by exact Z; ring|ring].
    + rewrite G. unfold mk. change (1, 0) with (@k1 CX). ring.
Qed.

(** ** Mean of a matrix element *)
Definition cmean (M n : nat) (F : list nat -> CX) : CX := mk (mean M n (fun l => fst (F l))) (mean M n (fun l => snd (F l))).
Lemma braket_quad : forall N (A : nat -> nat -> CX) (v : nat -> CX), fst (braket N v A v) = quad N A v.
Proof. intros N A v. unfold braket, quad. rewrite fst_sum. apply rsum_ext. intros i _. rewrite fst_sum. reflexivity. Qed.
Lemma braket_quad_im : forall N (A : nat -> nat -> CX) (v : nat -> CX), snd (braket N v A v) = quad N (fun i j => kmul (mk 0 (-1)) (A i j)) v.
Proof.
  intros N A v. unfold braket, quad. rewrite snd_sum. apply rsum_ext. intros i _. rewrite snd_sum. apply rsum_ext. intros j _.
  destruct (v i), (v j), (A i j). cbn. ring.
Qed.
Lemma trace_im : forall N A, trace N (fun i j => kmul (mk 0 (-1)) (A i j)) = snd (ksum (fun i => A i i) (seq 0 N)).
Proof. intros N A. unfold trace. rewrite snd_sum. apply rsum_ext. intros i _. destruct (A i i). cbn. ring. Qed.
Lemma trace_re : forall N A, trace N A = fst (ksum (fun i => A i i) (seq 0 N)).
Proof. intros N A. unfold trace. rewrite fst_sum. reflexivity. Qed.

Section Draws.
  Variable is_real : bool.
  Variable M : nat.
  Hypothesis HM : fair is_real M.
  Variable N : nat.
  (** The draw [k] stands for the number k/M. *)
  Definition numbers (u : list nat) (i : nat) : R := INR (nth i u 0%nat) / INR M.
  Definition start_vector (u : list nat) (k : nat) : list CX := random_vector is_real (numbers u) N (k * N).
  Lemma start_length : forall u k, length (start_vector u k) = N.
  Proof. intros u k. unfold start_vector, random_vector. rewrite map_length, seq_length. reflexivity. Qed.
  Lemma start_vec : forall u k i, (i < N)%nat -> vec (start_vector u k) i = chunk (phase is_real M) N u k i.
  Proof.
    intros u k i Hi. unfold vec, start_vector, random_vector, chunk, phases, phase.
    rewrite (nth_indep _ _ ((fun i => random_entry is_real (numbers u (k * N + i)%nat)) 0%nat)) by (rewrite map_length, seq_length; exact Hi).
    rewrite (map_nth (fun i => random_entry is_real (numbers u (k * N + i)%nat)) (seq 0 N) 0%nat i), seq_nth by exact Hi. reflexivity.
  Qed.
  Let zu := fun (k : nat) (_ : (k < M)%nat) => phase_unit is_real M k.
  Let zs := phase_sum is_real M HM.

  Definition vsum (v : nat) (A : nat -> nat -> CX) (u : list nat) : CX :=
    ksum (fun k => braket N (vec (start_vector u k)) A (vec (start_vector u k))) (seq 0 v).
  Lemma braket_start : forall A u k, fst (braket N (vec (start_vector u k)) A (vec (start_vector u k))) = quad N A (chunk (phase is_real M) N u k).
  Proof. intros A u k. rewrite braket_quad. apply quad_ext. intros i Hi. apply start_vec. exact Hi. Qed.
  Lemma vsum_re : forall v A u, fst (vsum v A u) = rsum (fun k => quad N A (chunk (phase is_real M) N u k)) v.
  Proof. intros v A u. unfold vsum. rewrite fst_sum. apply rsum_ext. intros k _. apply braket_start. Qed.
  Lemma vsum_im : forall v A u, snd (vsum v A u) = rsum (fun k => quad N (fun i j => kmul (mk 0 (-1)) (A i j)) (chunk (phase is_real M) N u k)) v.
  Proof. intros v A u. unfold vsum. rewrite snd_sum. apply rsum_ext. intros k _. rewrite braket_quad_im. apply quad_ext. intros i Hi. apply start_vec. exact Hi. Qed.
  Lemma mean_vsum : forall v A, cmean M (v * N) (vsum v A) = kmul (re (INR v)) (ksum (fun i => A i i) (seq 0 N)).
  Proof.
    intros v A. unfold cmean. pose proof (fair_pos _ _ HM) as HP.
    rewrite (mean_ext M (fair_pos _ _ HM) (v * N)%nat (fun l => fst (vsum v A l)) (fun u => rsum (fun k => quad N A (chunk (phase is_real M) N u k)) v)) by (intros; apply vsum_re).
    rewrite (mean_ext M (fair_pos _ _ HM) (v * N)%nat (fun l => snd (vsum v A l)) (fun u => rsum (fun k => quad N (fun i j => kmul (mk 0 (-1)) (A i j)) (chunk (phase is_real M) N u k)) v)) by (intros; apply vsum_im).
    rewrite !(mean_several M HP _ zu zs). rewrite trace_im, trace_re. destruct (ksum (fun i => A i i) (seq 0 N)) as [x y]. cbn. unfold cx_mul, mk, re. cbn. f_equal; ring.
  Qed.
  Lemma mean_inv : forall v A, (0 < v)%nat -> cmean M (v * N) (fun u => kmul (re (/ INR v)) (vsum v A u)) = ksum (fun i => A i i) (seq 0 N).
  Proof.
    intros v A Hv. pose proof (mean_vsum v A) as Q. unfold cmean in *. assert (P : 0 < INR v) by (apply lt_0_INR; exact Hv).
    rewrite (mean_ext M (fair_pos _ _ HM) (v * N)%nat _ (fun u => / INR v * fst (vsum v A u))) by (intros; destruct (vsum v A l); cbn; ring).
    rewrite (mean_ext M (fair_pos _ _ HM) (v * N)%nat (fun l => snd _) (fun u => / INR v * snd (vsum v A u))) by (intros; destruct (vsum v A l); cbn; ring).
    rewrite !mean_scal. destruct (ksum (fun i => A i i) (seq 0 N)) as [x y]. unfold mk in *.
    pose proof (f_equal fst Q) as Q1. pose proof (f_equal snd Q) as Q2. cbn in Q1, Q2. rewrite Q1, Q2. cbn. f_equal; field; lra.
  Qed.
  Lemma cmean_ext : forall n F G, (forall l, F l = G l) -> cmean M n F = cmean M n G.
  Proof. intros n F G H. unfold cmean. f_equal; apply (mean_ext M (fair_pos _ _ HM)); intros; rewrite H; reflexivity. Qed.
  Lemma dev_inv : forall v A, (0 < v)%nat -> hermitian N A ->
    mean M (v * N) (fun u => (/ INR v * fst (vsum v A u) - trace N A) ^ 2) <= 2 * square N A / INR v.
  Proof.
    intros v A Hv HA. pose proof (fair_pos _ _ HM) as HP. assert (P : 0 < INR v) by (apply lt_0_INR; exact Hv).
    pose proof (dev_several M HP _ zu zs N v A HA) as Q.
    rewrite (mean_ext M (fair_pos _ _ HM) (v * N)%nat _ (fun u => / INR v * / INR v * ((rsum (fun k => quad N A (chunk (phase is_real M) N u k)) v - INR v * trace N A) * (rsum (fun k => quad N A (chunk (phase is_real M) N u k)) v - INR v * trace N A)))).
    2: { intros u _ _. rewrite vsum_re. field. lra. }
    rewrite mean_scal. apply (Rmult_le_compat_l (/ INR v * / INR v)) in Q; [|apply Rlt_le, Rmult_lt_0_compat; apply Rinv_0_lt_compat; exact P].
    eapply Rle_trans; [exact Q|]. right. field. lra.
  Qed.
End Draws.

(** ** A run exists *)
Lemma run_exists : forall (R0 : scalar) bs M v (inv_v : R0) mom, (0 < bs)%nat -> (0 < v)%nat -> (forall k, length (mom k) = M) -> forall threads d,
  exists st, reach R0 bs mom (accumulator R0) (accumulate R0 M v inv_v) (start bs v (accumulator R0) threads (0%nat, d)) st /\ finished (accumulator R0) st.
Proof.
  intros R0 bs M v inv_v mom Hb Hv Hl threads d. set (s0 := start bs v (accumulator R0) threads (0%nat, d)).
  assert (G : forall n s, (nsum steps_left (st_tasks s) <= n)%nat -> reach R0 bs mom (accumulator R0) (accumulate R0 M v inv_v) s0 s ->
    exists st, reach R0 bs mom (accumulator R0) (accumulate R0 M v inv_v) s0 st /\ finished (accumulator R0) st).
  { induction n as [|n IH]; intros s Hn Hs.
    - destruct (bool_dec (forallb is_done (st_tasks s)) true) as [F|F]; [exists s; auto|].
      destruct (schedule_progress R0 bs mom (accumulator R0) (accumulate R0 M v inv_v) s F) as (o & Ho).
      destruct (accumulate_result R0 bs M v inv_v mom Hb Hv Hl threads d s Hs) as (A & _). destruct (A o Ho) as (s' & ->).
      pose proof (schedule_finite R0 bs v mom Hb Hv _ _ _ _ Ho). lia.
    - destruct (bool_dec (forallb is_done (st_tasks s)) true) as [F|F]; [exists s; auto|].
      destruct (schedule_progress R0 bs mom (accumulator R0) (accumulate R0 M v inv_v) s F) as (o & Ho).
      destruct (accumulate_result R0 bs M v inv_v mom Hb Hv Hl threads d s Hs) as (A & _). destruct (A o Ho) as (s' & ->).
      pose proof (schedule_finite R0 bs v mom Hb Hv _ _ _ _ Ho). apply (IH s'); [lia|]. eapply reach_step; eauto. }
  apply (G _ s0 (le_n _)). apply reach_start.
Qed.

(** ** Functions of the Hamiltonian in its states *)
Lemma orthonormal_of : forall N H psi en, eigenbasis N H psi en -> forall k l, (k < N)%nat -> (l < N)%nat -> inner CX N (psi k) (psi l) = delta k l.
Proof.
  intros N H psi en (_ & C) k l Hk Hl.
  pose proof (complete N (fun i k => kconj (psi k i))) as Q. specialize (Q ltac:(intros i j Hi Hj; rewrite <- C by assumption; unfold inner; apply ksum_ext; intros m _; rewrite (kconj_conj CX); reflexivity) k l Hk Hl).
  cbn beta in Q. rewrite <- Q. unfold inner. apply ksum_ext. intros i _. rewrite (kconj_conj CX). reflexivity.
Qed.
Section Functions.
  Variable N : nat.
  Variable psi : nat -> nat -> CX.
  Hypothesis orth : forall k l, (k < N)%nat -> (l < N)%nat -> inner CX N (psi k) (psi l) = delta k l.
  Variable t : nat -> R.
  Local Notation A := (fn N psi t).
  Lemma fn_hermitian : hermitian N A.
  Proof.
    intros i j Hi Hj. unfold fn. rewrite ksum_conj. apply ksum_ext. intros k _. rewrite !(kconj_mul CX), re_conj, (kconj_conj CX). ring.
  Qed.
  Lemma fn_braket : forall r, braket N r A r = re (rsum (fun m => overlap N psi r m * t m) N).
  Proof.
    intros r. assert (E : braket N r A r = ksum (fun k => re (overlap N psi r k * t k)) (seq 0 N)).
    { unfold braket. transitivity (ksum (fun i => ksum (fun j => ksum (fun k => kmul (re (t k)) (kmul (kmul (kconj (r i)) (psi k i)) (kmul (kconj (psi k j)) (r j)))) (seq 0 N)) (seq 0 N)) (seq 0 N)).
      { apply ksum_ext. intros i Hi. apply ksum_ext. intros j Hj. unfold fn. rewrite <- ksum_mul_l, <- ksum_mul_r. apply ksum_ext. intros k _. ring. }
      transitivity (ksum (fun i => ksum (fun k => ksum (fun j => kmul (re (t k)) (kmul (kmul (kconj (r i)) (psi k i)) (kmul (kconj (psi k j)) (r j)))) (seq 0 N)) (seq 0 N)) (seq 0 N)).
      { apply ksum_ext. intros i _. apply ksum_swap. }
      rewrite ksum_swap. apply ksum_ext. intros k _.
      transitivity (kmul (re (t k)) (kmul (inner CX N r (psi k)) (inner CX N (psi k) r))).
      { unfold inner at 1. rewrite <- ksum_mul_r, <- ksum_mul_l. apply ksum_ext. intros i _. unfold inner. rewrite <- !ksum_mul_l. apply ksum_ext. intros j _. ring. }
      rewrite <- (inner_conj CX N (psi k) r), abs2_conj, re_mul. unfold overlap. f_equal. ring. }
    rewrite E. apply injective_projections; [rewrite fst_sum; reflexivity|]. rewrite snd_sum. apply rsum_0. reflexivity.
  Qed.
  Lemma fn_trace : trace N A = rsum t N.
  Proof.
    rewrite trace_re. unfold fn. rewrite ksum_swap, fst_sum. apply rsum_ext. intros k Hk. rewrite ksum_mul_l, fst_re_mul.
    assert (E : ksum (fun a => kmul (psi k a) (kconj (psi k a))) (seq 0 N) = k1).
    { transitivity (inner CX N (psi k) (psi k)); [unfold inner; apply ksum_ext; intros; ring|]. rewrite orth by exact Hk. unfold delta. rewrite Nat.eqb_refl. reflexivity. }
    rewrite E. cbn. ring.
  Qed.
  (** [A^2] *)
  Lemma fn_square : square N A = rsum (fun m => t m * t m) N.
  Proof.
    assert (E : forall i, (i < N)%nat -> rsum (fun j => abs2 (A i j)) N = fst (fn N psi (fun k => t k * t k) i i)).
    { intros i Hi. transitivity (fst (dmul N A A i i)).
      - unfold dmul. rewrite fst_sum. apply rsum_ext. intros j Hj. rewrite <- (fn_hermitian i j) by assumption. destruct (A i j). unfold abs2. cbn. ring.
      - f_equal. unfold dmul. unfold fn at 1.
        transitivity (ksum (fun k => ksum (fun l => kmul (kmul (re (t k)) (psi k i)) (kmul (kconj (psi k l)) (A l i))) (seq 0 N)) (seq 0 N)).
        { rewrite ksum_swap. apply ksum_ext. intros l _. rewrite <- ksum_mul_r. apply ksum_ext. intros k _. ring. }
        unfold fn at 2. apply ksum_ext. intros k Hk. apply in_seq in Hk. rewrite ksum_mul_l.
        assert (E : ksum (fun l => kmul (kconj (psi k l)) (A l i)) (seq 0 N) = kmul (re (t k)) (kconj (psi k i))).
        { unfold fn. transitivity (ksum (fun m => kmul (kmul (re (t m)) (kconj (psi m i))) (inner CX N (psi k) (psi m))) (seq 0 N)).
          - transitivity (ksum (fun l => ksum (fun m => kmul (kmul (re (t m)) (kconj (psi m i))) (kmul (kconj (psi k l)) (psi m l))) (seq 0 N)) (seq 0 N)).
            + apply ksum_ext. intros l _. rewrite <- ksum_mul_l. apply ksum_ext. intros m _. ring.
            + rewrite ksum_swap. apply ksum_ext. intros m _. rewrite ksum_mul_l. reflexivity.
          - assert (Hk' : (k < N)%nat) by lia. rewrite (ksum_single CX _ N k Hk').
            + rewrite orth by exact Hk'. unfold delta. rewrite Nat.eqb_refl. ring.
            + intros m Hm Hne. rewrite orth by lia. unfold delta. destruct (Nat.eqb_spec k m); [congruence|]. ring. }
        rewrite E, <- re_mul. ring. }
    unfold square. rewrite (rsum_ext _ (fun i => fst (fn N psi (fun k => t k * t k) i i))) by exact E. clear E.
    change (rsum (fun i => fst (fn N psi (fun k => t k * t k) i i)) N) with (trace N (fn N psi (fun k => t k * t k))).
    rewrite trace_re. unfold fn. rewrite ksum_swap, fst_sum. apply rsum_ext. intros k Hk. rewrite ksum_mul_l, fst_re_mul.
    assert (E : ksum (fun a => kmul (psi k a) (kconj (psi k a))) (seq 0 N) = k1).
    { transitivity (inner CX N (psi k) (psi k)); [unfold inner; apply ksum_ext; intros; ring|]. rewrite orth by exact Hk. unfold delta. rewrite Nat.eqb_refl. reflexivity. }
    rewrite E. cbn. ring.
  Qed.
End Functions.
