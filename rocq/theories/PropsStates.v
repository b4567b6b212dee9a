(* C94: densities from exact diagonalisation belong to the Hamiltonian, not to the states that the
   eigensolver happens to return. *)
From Verif Require Import Base Scalar Rle RleProofs Kpm KpmSpec KpmCheb KpmGram RSum Cplx Spectral SpectralProofs SpectralLine SpectralTheorem EigenProofs SolverPost SolverPostProofs.
From Coq Require Import Reals Lra Ring Sorted Permutation.
Local Open Scope R_scope.
Local Notation dm := (nat -> nat -> CX).
Add Ring CXring5 : (k_ring CX).

(** What an eigensolver returns: energies [vals] and orthonormal columns [psi] of [N] rows, not
    necessarily all of them (arpack(k), feast). *)
Record eigenpairs (N : nat) (H : dm) (vals : list R) (psi : dm) : Prop := {
  ep_energy : forall n i, (n < length vals)%nat -> (i < N)%nat -> ksum (fun j => kmul (H i j) (psi j n)) (seq 0 N) = kmul (re (nth n vals 0)) (psi i n);
  ep_orth : forall k l, (k < length vals)%nat -> (l < length vals)%nat -> ksum (fun i => kmul (kconj (psi i k)) (psi i l)) (seq 0 N) = if (k =? l)%nat then k1 else k0
}.
(** No level is cut: a state with one of the energies is a combination of the returned ones. *)
Definition whole_levels (N : nat) (H : dm) (vals : list R) (psi : dm) : Prop :=
  forall x e, In e vals -> (forall i, (i < N)%nat -> ksum (fun j => kmul (H i j) (x j)) (seq 0 N) = kmul (re e) (x i)) ->
  exists c, forall i, (i < N)%nat -> x i = ksum (fun n => kmul (c n) (psi i n)) (seq 0 (length vals)).
(** The results of two calls agree. *)
Definition same_densities (N : nat) (vals vals' : list R) (psi psi' : dm) : Prop :=
  forall b E,
    calc_dos vals b E = calc_dos vals' b E /\
    calc_dos_cpp vals b E = calc_dos_cpp vals' b E /\
    spatial_ldos vals psi N b E = spatial_ldos vals' psi' N b E /\
    spatial_ldos_cpp vals psi N b E = spatial_ldos_cpp vals' psi' N b E /\
    forall d, calc_spatial_ldos vals psi N d b E = calc_spatial_ldos vals' psi' N d b E /\
    forall site, calc_ldos vals psi N d site b E = calc_ldos vals' psi' N d site b E.

Lemma lsum_rsum : forall f n, lsum (map f (seq 0 n)) = rsum f n.
Proof.
  intros f n. induction n as [|n IH]; [reflexivity|]. rewrite seq_S, map_app, lsum_app, IH. cbn. ring.
Qed.

Section Same.
  Variables (N : nat) (H : dm) (vals vals' : list R) (psi psi' : dm).
  Hypothesis HH : hermitian N H.
  Hypothesis P : eigenpairs N H vals psi.
  Hypothesis P' : eigenpairs N H vals' psi'.
  Hypothesis S1 : forall k i, (k < length vals)%nat -> (i < N)%nat -> psi i k = ksum (fun l => kmul (inner CX N (col psi' l) (col psi k)) (psi' i l)) (seq 0 (length vals')).
  Hypothesis S2 : forall l i, (l < length vals')%nat -> (i < N)%nat -> psi' i l = ksum (fun k => kmul (inner CX N (col psi k) (col psi' l)) (psi i k)) (seq 0 (length vals)).

  Lemma weights_eq : forall f i, (i < N)%nat ->
    rsum (fun k => f (nth k vals 0) * abs2 (psi i k)) (length vals) = rsum (fun k => f (nth k vals' 0) * abs2 (psi' i k)) (length vals').
  Proof.
    intros f i Hi. apply (same_weights N H HH (length vals) (length vals') psi psi' (fun k => nth k vals 0) (fun k => nth k vals' 0)); auto.
    - intros n j Hn Hj. apply (ep_energy _ _ _ _ P); assumption.
    - intros n j Hn Hj. apply (ep_energy _ _ _ _ P'); assumption.
  Qed.
  Lemma density_eq : forall g b i, (i < N)%nat -> local_density vals psi g b i = local_density vals' psi' g b i.
  Proof.
    intros g b i Hi. unfold local_density. f_equal. rewrite !lsum_rsum.
    rewrite (rsum_ext _ (fun k => g (nth k vals 0) * abs2 (psi i k))) by (intros; ring). rewrite weights_eq by exact Hi. apply rsum_ext. intros; ring.
  Qed.
  Lemma norm_one : forall vals psi, eigenpairs N H vals psi -> forall n, (n < length vals)%nat -> lsum (map (fun r => abs2 (psi r n)) (seq 0 N)) = 1.
  Proof.
    intros v p Q n Hn. rewrite lsum_rsum. pose proof (f_equal fst (ep_orth _ _ _ _ Q n n Hn Hn)) as E. rewrite Nat.eqb_refl, fst_sum in E. cbn in E. rewrite <- E.
    apply rsum_ext. intros i _. unfold abs2. ring.
  Qed.
  (** sums over all energies *)
  Lemma total_eq : forall f, lsum (map f vals) = lsum (map f vals').
  Proof.
    intros f. pose proof (total_density vals psi N f 1 (norm_one vals psi P)) as A. pose proof (total_density vals' psi' N f 1 (norm_one vals' psi' P')) as B.
    assert (G : gauss_scale 1 <> 0).
    { unfold gauss_scale. assert (0 < sqrt (2 * PI)) by (apply sqrt_lt_R0; pose proof PI_RGT_0; lra). apply Rgt_not_eq. apply Rdiv_lt_0_compat; lra. }
    apply (Rmult_eq_reg_l (gauss_scale 1)); [|exact G]. rewrite <- A, <- B. apply lsum_ext. intros r Hr. apply in_seq in Hr. apply density_eq. lia.
  Qed.
  Lemma densities_eq : same_densities N vals vals' psi psi'.
  Proof.
    intros b E. unfold calc_dos, calc_dos_cpp. rewrite !total_eq. split; [reflexivity|]. split; [reflexivity|].
    assert (A : spatial_ldos vals psi N b E = spatial_ldos vals' psi' N b E) by (apply map_ext_in; intros r Hr; apply in_seq in Hr; apply density_eq; lia).
    split; [exact A|]. split; [apply map_ext_in; intros r Hr; apply in_seq in Hr; apply density_eq; lia|].
    intros d. split; [unfold calc_spatial_ldos; now rewrite A|]. intros site. unfold calc_ldos. destruct site as [s| |]; try reflexivity. cbn [obind].
    destruct (to_hamiltonian_indices d s) as [ix| |]; try reflexivity. cbn [obind]. destruct (forallb _ ix) eqn:F; [|reflexivity]. f_equal.
    rewrite forallb_forall in F. apply map_ext_in. intros r Hr. specialize (F r Hr). apply Nat.ltb_lt in F. apply density_eq. exact F.
  Qed.
  Lemma count_eq : forall x, count_occ Req_EM_T vals x = count_occ Req_EM_T vals' x.
  Proof.
    intros x. assert (C : forall l, lsum (map (fun v => if Req_EM_T v x then 1 else 0) l) = INR (count_occ Req_EM_T l x)).
    { induction l as [|a l IH]; [reflexivity|]. cbn [map count_occ]. unfold lsum in *. cbn [fold_right]. rewrite IH. destruct (Req_EM_T a x); [rewrite S_INR; ring|ring]. }
    apply INR_eq. rewrite <- !C. apply total_eq.
  Qed.
  Lemma energies_perm : Permutation vals vals'.
  Proof. apply (Permutation_count_occ Req_EM_T). apply count_eq. Qed.
End Same.

Lemma sorted_perm : forall l l' : list R, StronglySorted Rle l -> StronglySorted Rle l' -> Permutation l l' -> l = l'.
Proof.
  induction l as [|a l IH]; intros l' S S' Pm; [symmetry; apply Permutation_nil; exact Pm|].
  destruct l' as [|b l']; [apply Permutation_sym, Permutation_nil in Pm; discriminate|].
  apply StronglySorted_inv in S, S'. destruct S as [S F], S' as [S' F']. rewrite Forall_forall in F, F'.
  assert (a = b) as <-.
  { assert (A : In a (b :: l')) by (apply (Permutation_in a Pm); now left). assert (B : In b (a :: l)) by (apply (Permutation_in b (Permutation_sym Pm)); now left).
    destruct A as [->|A]; [reflexivity|]. destruct B as [->|B]; [reflexivity|]. pose proof (F b B). pose proof (F' a A). lra. }
  f_equal. apply IH; auto. eapply Permutation_cons_inv, Pm.
Qed.

(** The full claim: whatever states are returned for the same energies. *)
Definition C94_claim : Prop := forall N H vals psi psi', hermitian N H ->
  eigenpairs N H vals psi -> eigenpairs N H vals psi' -> same_densities N vals vals psi psi'.

(** It holds when no level is cut. *)
Theorem C94_partial : forall N H vals psi vals' psi', hermitian N H ->
  eigenpairs N H vals psi -> eigenpairs N H vals' psi' -> whole_levels N H vals psi -> whole_levels N H vals' psi' ->
  (forall e, In e vals <-> In e vals') ->
  same_densities N vals vals' psi psi' /\ Permutation vals vals'.
Proof.
  intros N H vals psi vals' psi' HH P P' W W' I.
  assert (S1 : forall k i, (k < length vals)%nat -> (i < N)%nat -> psi i k = ksum (fun l => kmul (inner CX N (col psi' l) (col psi k)) (psi' i l)) (seq 0 (length vals'))).
  { intros k i Hk Hi. apply (coordinates N (length vals') psi' (col psi k) (ep_orth _ _ _ _ P')); [|exact Hi].
    apply (W' (col psi k) (nth k vals 0)); [apply I, nth_In; exact Hk|]. intros j Hj. apply (ep_energy _ _ _ _ P); assumption. }
  assert (S2 : forall l i, (l < length vals')%nat -> (i < N)%nat -> psi' i l = ksum (fun k => kmul (inner CX N (col psi k) (col psi' l)) (psi i k)) (seq 0 (length vals))).
  { intros l i Hl Hi. apply (coordinates N (length vals) psi (col psi' l) (ep_orth _ _ _ _ P)); [|exact Hi].
    apply (W (col psi' l) (nth l vals' 0)); [apply I, nth_In; exact Hl|]. intros j Hj. apply (ep_energy _ _ _ _ P'); assumption. }
  split; [eapply densities_eq; eauto|eapply energies_perm; eauto].
Qed.
Print Assumptions C94_partial.

(** It holds without any condition for solvers that return all states (lapack), and the energies, which are in
    ascending order, are the same numbers. *)
Theorem C94_all : forall N H vals psi vals' psi', hermitian N H ->
  eigenpairs N H vals psi -> eigenpairs N H vals' psi' -> length vals = N -> length vals' = N ->
  same_densities N vals vals' psi psi' /\ (StronglySorted Rle vals -> StronglySorted Rle vals' -> vals = vals').
Proof.
  intros N H vals psi vals' psi' HH P P' L L'.
  assert (O : forall k l, (k < N)%nat -> (l < N)%nat -> inner CX N (col psi k) (col psi l) = delta k l) by (intros; apply (ep_orth _ _ _ _ P); lia).
  assert (O' : forall k l, (k < N)%nat -> (l < N)%nat -> inner CX N (col psi' k) (col psi' l) = delta k l) by (intros; apply (ep_orth _ _ _ _ P'); lia).
  assert (S1 : forall k i, (k < length vals)%nat -> (i < N)%nat -> psi i k = ksum (fun l => kmul (inner CX N (col psi' l) (col psi k)) (psi' i l)) (seq 0 (length vals'))).
  { intros k i Hk Hi. rewrite L'. exact (all_spanned N psi' (col psi k) O' i Hi). }
  assert (S2 : forall l i, (l < length vals')%nat -> (i < N)%nat -> psi' i l = ksum (fun k => kmul (inner CX N (col psi k) (col psi' l)) (psi i k)) (seq 0 (length vals))).
  { intros l i Hl Hi. rewrite L. exact (all_spanned N psi (col psi' l) O i Hi). }
  split; [eapply densities_eq; eauto|]. intros A B. apply sorted_perm; auto. eapply energies_perm; eauto.
Qed.
Print Assumptions C94_all.

(** There are always such states. *)
Theorem C94_exists : forall N H, hermitian N H -> exists vals psi, eigenpairs N H vals psi /\ length vals = N.
Proof.
  intros N H HH. destruct (states N H HH N (le_n N)) as (psi & en & O & E). exists (map en (seq 0 N)), (fun i n => psi n i).
  assert (L : length (map en (seq 0 N)) = N) by (rewrite map_length; apply seq_length). split; [|exact L].
  constructor; rewrite L.
  - intros n i Hn Hi. rewrite (nth_indep _ 0 (en 0%nat)) by lia. rewrite map_nth, seq_nth by exact Hn. apply (E n i); assumption.
  - intros k l Hk Hl. apply O; assumption.
Qed.
Print Assumptions C94_exists.

(** A level that is cut: the zero matrix with one of its two states. *)
Lemma zero_pair : forall s, (s < 2)%nat -> eigenpairs 2 (fun _ _ => k0) [0] (fun i _ => if (i =? s)%nat then k1 else k0).
Proof.
  intros s Hs. constructor.
  - intros [|n] i Hn Hi; [|cbn in Hn; lia]. destruct s as [|[|s]]; try lia; destruct i as [|[|i]]; try lia; cbn; unfold cx_mul, cx_add, re; cbn; f_equal; ring.
  - intros [|k] [|l] Hk Hl; cbn in Hk, Hl; try lia. destruct s as [|[|s]]; try lia; cbn; unfold cx_mul, cx_conj, cx_add; cbn; f_equal; ring.
Qed.
Theorem C94_refuted : ~ C94_claim.
Proof.
  intros C. assert (HH : hermitian 2 (fun _ _ : nat => @k0 CX)) by (intros i j _ _; apply kconj_0).
  destruct (C 2%nat _ _ _ _ HH (zero_pair 0 ltac:(lia)) (zero_pair 1 ltac:(lia)) 1 0) as (_ & _ & A & _).
  unfold spatial_ldos in A. cbn [seq map] in A. injection A as A _. unfold local_density in A. cbn [seq map length lsum fold_right nth Nat.eqb] in A.
  unfold gaussian, abs2 in A. cbn [k0 k1 CX fst snd] in A.
  assert (G : 0 < gauss_scale 1) by (unfold gauss_scale; apply Rdiv_lt_0_compat; [lra|]; assert (0 < sqrt (2 * PI)) by (apply sqrt_lt_R0; pose proof PI_RGT_0; lra); lra).
  pose proof (exp_pos (- (1 / 2) * (0 - 0) ^ 2 / 1 ^ 2)) as X. unfold lsum in A. cbn [fold_right] in A. cbn in A. set (e := exp _) in *. nra.
Qed.
Print Assumptions C94_refuted.

(** Two sets of states of the same matrix that differ: the zero matrix with the sites or with the two combinations of them. *)
Example C94_example : exists psi psi', psi <> psi' /\ same_densities 2 [0; 0] [0; 0] psi psi'.
Proof.
  set (psi := fun i n : nat => if (i =? n)%nat then @k1 CX else k0).
  set (psi' := fun i n : nat => if (i =? n)%nat then re (3 / 5) else if (i <? n)%nat then re (4 / 5) else re (- (4 / 5))).
  exists psi, psi'. split.
  - intros E. pose proof (f_equal (fun f => fst (f 0%nat 0%nat)) E) as Q. cbn in Q. lra.
  - apply (C94_all 2 (fun _ _ => k0)); try reflexivity.
    + intros i j _ _. apply kconj_0.
    + constructor.
      * intros n i Hn Hi. destruct n as [|[|n]]; cbn in Hn; try lia; destruct i as [|[|i]]; try lia; cbn; unfold cx_mul, cx_add, re; cbn; f_equal; ring.
      * intros k l Hk Hl. destruct k as [|[|k]], l as [|[|l]]; cbn in Hk, Hl; try lia; cbn; unfold cx_mul, cx_conj, cx_add; cbn; f_equal; ring.
    + constructor.
      * intros n i Hn Hi. destruct n as [|[|n]]; cbn in Hn; try lia; destruct i as [|[|i]]; try lia; cbn; unfold cx_mul, cx_add, re; cbn; f_equal; ring.
      * intros k l Hk Hl. destruct k as [|[|k]], l as [|[|l]]; cbn in Hk, Hl; try lia; cbn; unfold cx_mul, cx_conj, cx_add; cbn; f_equal; field.
Qed.
