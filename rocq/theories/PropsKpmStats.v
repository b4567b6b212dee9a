(* Property C104: the workload that the report of a kernel polynomial calculation gives. *)
From Verif Require Import Base Scalar Kpm KpmSpec KpmLoops KpmOptimized KpmEll KpmCore KpmEnd KpmFinal KpmStats KpmStatsProofs GaussQ.

(** A calculation that can be run: the matrix, the options and the target indices. *)
Record calculation {R : scalar} (inv_a b : R) (N : nat) (h : list (list (nat * R))) (al : algorithm) (idx : indices)
    (oh : optimized R) : Prop := Calculation {
  ca_size : 0 < N;
  ca_wf : wf_csr N h;
  ca_options : al_reorder al = true -> sym_pattern h /\ connected N h;
  ca_src : ix_src idx <> []; ca_dest : ix_dest idx <> [];
  ca_src_in : forall i, In i (ix_src idx) -> i < N;
  ca_dest_in : forall i, In i (ix_dest idx) -> i < N;
  ca_optimized : optimize R inv_a b h (al_reorder al) idx = Ok oh
}.

Lemma nat_list_eqb_eq : forall a b, nat_list_eqb a b = true <-> a = b.
Proof.
  induction a as [|x a IH]; intros [|y b]; cbn; try (split; congruence).
  rewrite Bool.andb_true_iff, Nat.eqb_eq, IH. split; [intros (-> & ->); auto|intros E; injection E; auto].
Qed.

Lemma calc_facts : forall (R : scalar) (inv_a b : R) N h al idx oh, calculation inv_a b N h al idx oh ->
  length (oh_matrix oh) = N /\ borders_ok (oh_map oh) N /\ (ix_src idx = ix_dest idx -> sm_src (oh_map oh) = sm_dest (oh_map oh))
  /\ (is_diagonal (oh_idx oh) = true <-> ix_src idx = ix_dest idx).
Proof.
  intros R inv_a b N h al idx oh [HN Hw Ho Hs Hd Hsi Hdi Eo].
  assert (X : exists pi, represents R inv_a b N h idx oh pi).
  { destruct (al_reorder al) eqn:Er.
    - destruct (Ho eq_refl) as (Hy & Hc). destruct (create_reordered_ok R inv_a b N h idx Hw Hy Hc Hs Hd Hsi Hdi) as (oh' & pi & E & Rp & _).
      unfold optimize in Eo. rewrite E in Eo. injection Eo as <-. exists pi. auto.
    - destruct (create_scaled_ok R inv_a b N h idx Hw HN Hsi Hdi) as (oh' & E & Rp & _). rewrite E in Eo. injection Eo as <-. eexists. exact Rp. }
  destruct X as (pi & Rp). destruct (rp_layered _ _ _ _ _ _ _ _ Rp) as (L1 & L2 & L3 & _).
  split; [apply (rp_wf _ _ _ _ _ _ _ _ Rp)|]. split; [split; auto|]. split; [apply (rp_diag _ _ _ _ _ _ _ _ Rp)|].
  rewrite (rp_idx _ _ _ _ _ _ _ _ Rp). unfold is_diagonal. cbn [ix_src ix_dest]. rewrite nat_list_eqb_eq. split; [|intros ->; auto].
  intros E. destruct (rp_pi _ _ _ _ _ _ _ _ Rp) as (_ & Hinj). clear -E Hinj Hsi Hdi. destruct idx as [sr ds]. cbn [ix_src ix_dest] in *.
  revert ds E Hdi. induction sr as [|x sr IH]; intros [|y ds] E Hdi; cbn in E; try discriminate; [auto|]. injection E as E1 E2.
  f_equal; [apply Hinj; auto; [apply Hsi|apply Hdi]; left; auto|]. apply IH; auto; intros; [apply Hsi|apply Hdi]; right; auto.
Qed.

Section C104.
  Variable R : scalar.
  Variable inv_a b : R.
  Variable N : nat.
  Variable h : list (list (nat * R)).
  Variable al : algorithm.
  Variable idx : indices.
  Variable oh : optimized R.
  Hypothesis Hc : calculation inv_a b N h al idx oh.
  Variable f : format.
  (** The options of the moment loop (some calculations switch the size optimisation off,
      Core.cpp:40, 81, 128). *)
  Variable run : algorithm.
  Local Notation per_row := (row_work f (oh_matrix oh)).
  (** Elements that one product with the whole matrix goes through. *)
  Local Notation full := (work per_row 0 N).

  (** The report exists, and the optimisation never adds work: the percentage that the report
      calls removed lies between 0 and 100. *)
  Theorem C104_removed : forall num mult, exists s, stats_reset f oh run num mult = Ok s
    /\ st_opt_nnz s <= st_nnz s /\ st_opt_vec s <= st_vec s /\ st_mult s = mult
    /\ (al_size run = false -> st_opt_nnz s = st_nnz s /\ st_opt_vec s = st_vec s).
  Proof.
    intros num mult. destruct (calc_facts _ _ _ _ _ _ _ _ Hc) as (Hl & Hb & _ & _). unfold stats_reset.
    rewrite (nnz_plain R f oh N Hl). cbn [obind]. rewrite (vec_plain R oh N Hl). cbn [obind].
    destruct (al_size run).
    - rewrite (nnz_opt R f oh N Hl Hb). cbn [obind]. destruct (vec_opt R oh N Hl Hb num) as (v & -> & Hv). cbn [obind].
      eexists. split; [reflexivity|]. cbn. split; [apply halve_mono, opt_le; auto|]. split; [apply halve_mono; auto|]. split; [auto|discriminate].
    - rewrite (nnz_plain R f oh N Hl). cbn [obind]. rewrite (vec_plain R oh N Hl). cbn [obind].
      eexists. split; [reflexivity|]. cbn. auto.
  Qed.

  (** Same source and destination (local density of states, diagonal Green's function): the
      reported number of elements is what the moment loop goes through, exactly when the size is
      not optimised, and up to two products with the whole matrix when it is. *)
  Theorem C104_diagonal : forall num mult, ix_src idx = ix_dest idx -> 2 <= num -> (num - 2) mod 4 = 0 ->
    exists s done, stats_reset f oh run num mult = Ok s /\ count_diag per_row N (oh_map oh) run num = Ok (Z.of_nat done)
    /\ (al_size run = false -> done = st_opt_nnz s)
    /\ st_opt_nnz s <= done <= st_opt_nnz s + 2 * full.
  Proof.
    intros num mult Ei H2 H4. destruct (calc_facts _ _ _ _ _ _ _ _ Hc) as (Hl & Hb & Hsd & Hdg).
    specialize (Hsd Ei). pose proof (proj2 Hdg Ei) as Dg.
    assert (Hm : exists k, num = 2 * k /\ num / 2 = k /\ 1 <= k).
    { exists (num / 2). pose proof (Nat.div_mod (num - 2) 4 ltac:(lia)). pose proof (Nat.div_mod num 2 ltac:(lia)). pose proof (Nat.mod_upper_bound num 2 ltac:(lia)). lia. }
    destruct Hm as (k & Ek & Ek2 & Hk).
    rewrite (count_diag_ok per_row N (oh_map oh) Hb run num H2 H4). rewrite Ek2.
    destruct (C104_removed num mult) as (s & Es & _ & _ & _ & Hpl). exists s. eexists. split; [exact Es|]. split; [reflexivity|].
    unfold stats_reset in Es. rewrite (nnz_plain R f oh N Hl) in Es. cbn [obind] in Es. rewrite (vec_plain R oh N Hl) in Es. cbn [obind] in Es.
    unfold halve in Es. rewrite Dg in Es.
    assert (Hh : num * full / 2 = k * full).
    { rewrite Ek. replace (2 * k * full) with (k * full * 2) by lia. apply Nat.div_mul. lia. }
    destruct (al_size run).
    - rewrite (nnz_opt R f oh N Hl Hb) in Es. cbn [obind] in Es. destruct (vec_opt R oh N Hl Hb num) as (v & Ev & Hv). rewrite Ev in Es. cbn [obind] in Es.
      injection Es as <-. cbn [st_opt_nnz]. split; [discriminate|]. unfold halve. rewrite Dg. rewrite Ek.
      rewrite (total_twice per_row (oh_map oh)) by auto. rewrite Nat.mul_comm, Nat.div_mul by lia.
      apply (diag_against per_row N (oh_map oh) Hb k Hk Hsd).
    - rewrite (nnz_plain R f oh N Hl) in Es. cbn [obind] in Es. rewrite (vec_plain R oh N Hl) in Es. cbn [obind] in Es.
      injection Es as <-. cbn [st_opt_nnz]. rewrite (total_plain per_row N (oh_map oh) Hb). rewrite seq_length. unfold halve. rewrite Dg, Hh.
      assert (Q : full + (k - 1) * full = k * full) by (destruct k; [lia|cbn; rewrite Nat.sub_0_r; lia]). split; [auto|lia].
  Qed.

  (** Different source and destination: the report counts one product too many when the size is
      not optimised, and differs by at most one product with the whole matrix when it is. *)
  Theorem C104_off : forall num mult, ix_src idx <> ix_dest idx -> 2 <= num -> Nat.even num = true ->
    exists s done, stats_reset f oh run num mult = Ok s /\ count_off per_row N (oh_map oh) run num = Ok (Z.of_nat done)
    /\ (al_size run = false -> st_opt_nnz s = done + full)
    /\ done <= st_opt_nnz s + full /\ st_opt_nnz s <= done + full.
  Proof.
    intros num mult Ei H2 H4. destruct (calc_facts _ _ _ _ _ _ _ _ Hc) as (Hl & Hb & _ & Hdg).
    assert (Dg : is_diagonal (oh_idx oh) = false) by (destruct (is_diagonal (oh_idx oh)); auto; exfalso; apply Ei, Hdg; auto).
    rewrite (count_off_ok per_row N (oh_map oh) Hb run num H2 H4).
    destruct (C104_removed num mult) as (s & Es & _). exists s. eexists. split; [exact Es|]. split; [reflexivity|].
    unfold stats_reset in Es. rewrite (nnz_plain R f oh N Hl) in Es. cbn [obind] in Es. rewrite (vec_plain R oh N Hl) in Es. cbn [obind] in Es.
    unfold halve in Es. rewrite Dg in Es.
    destruct (al_size run).
    - rewrite (nnz_opt R f oh N Hl Hb) in Es. cbn [obind] in Es. destruct (vec_opt R oh N Hl Hb num) as (v & Ev & Hv). rewrite Ev in Es. cbn [obind] in Es.
      injection Es as <-. cbn [st_opt_nnz]. split; [discriminate|]. unfold halve. rewrite Dg.
      pose proof (off_against per_row N (oh_map oh) num H2) as Q.
      assert (Hr : forall n, n < num -> work per_row 0 (rows_of (oh_map oh) true n num) <= full) by (intros; apply W_mono, (rows_le N (oh_map oh) Hb); auto).
      pose proof (Hr 0 ltac:(lia)). pose proof (Hr 1 ltac:(lia)). lia.
    - rewrite (nnz_plain R f oh N Hl) in Es. cbn [obind] in Es. rewrite (vec_plain R oh N Hl) in Es. cbn [obind] in Es.
      injection Es as <-. cbn [st_opt_nnz]. rewrite (total_plain per_row N (oh_map oh) Hb). rewrite seq_length. unfold halve. rewrite Dg.
      assert (Q : num * full = (num - 2) * full + 2 * full) by (rewrite <- Nat.mul_add_distr_r; f_equal; lia). lia.
  Qed.

  (** When the report says that the whole system is used, some step of the calculation goes
      through all rows. *)
  Theorem C104_full : forall num, uses_full_system (oh_map oh) num = true ->
    exists n, n < num /\ optimal_size (oh_map oh) n num = Ok N.
  Proof.
    intros num H. destruct (calc_facts _ _ _ _ _ _ _ _ Hc) as (Hl & Hb & _ & _).
    destruct (full_sound (fun _ => 0) N (oh_map oh) Hb num H) as (n & Hn & E). exists n. split; [auto|].
    rewrite (optimal_rows R oh N Hb n num Hn), E. reflexivity.
  Qed.
  (** For the same source and destination: exactly which calculations use the whole system. *)
  Theorem C104_full_exact : forall k, 2 <= k -> ix_src idx = ix_dest idx ->
    ((exists n, 2 <= n <= k /\ optimal_size (oh_map oh) n (2 * k) = Ok N) <-> length (sm_data (oh_map oh)) <= k + sm_src (oh_map oh)).
  Proof.
    intros k Hk Ei. destruct (calc_facts _ _ _ _ _ _ _ _ Hc) as (Hl & Hb & Hsd & _). specialize (Hsd Ei).
    split.
    - intros (n & Hn & E). apply (full_diagonal N (oh_map oh) Hb k ltac:(lia) Hsd). exists n. split; [lia|].
      rewrite (optimal_rows R oh N Hb n (2 * k) ltac:(lia)) in E. congruence.
    - intros H. exists k. split; [lia|]. rewrite (optimal_rows R oh N Hb k (2 * k) ltac:(lia)).
      rewrite (full_middle N (oh_map oh) Hb k ltac:(lia) Hsd H). reflexivity.
  Qed.

  (** [Core::conductivity] runs the loop for different vectors twice for every random vector
      (Core.cpp:141-145) but reports as if it had run the loop for equal vectors once. *)
  Theorem C104_conductivity : forall num mult, ix_src idx = ix_dest idx -> 2 <= num -> Nat.even num = true -> al_size run = false ->
    exists s done, stats_reset f oh run num mult = Ok s /\ count_off per_row N (oh_map oh) run num = Ok (Z.of_nat done)
    /\ 4 * reported s = mult * (2 * done) + 2 * mult * full.
  Proof.
    intros num mult Ei H2 H4 Hr. destruct (calc_facts _ _ _ _ _ _ _ _ Hc) as (Hl & Hb & _ & Hdg). pose proof (proj2 Hdg Ei) as Dg.
    rewrite (count_off_ok per_row N (oh_map oh) Hb run num H2 H4).
    destruct (C104_removed num mult) as (s & Es & _ & _ & Em & _). exists s. eexists. split; [exact Es|]. split; [reflexivity|].
    unfold stats_reset in Es. rewrite Hr in Es |- *. rewrite !(nnz_plain R f oh N Hl) in Es. cbn [obind] in Es. rewrite !(vec_plain R oh N Hl) in Es. cbn [obind] in Es.
    injection Es as <-. unfold reported. cbn [st_opt_nnz st_mult]. rewrite (total_plain per_row N (oh_map oh) Hb). rewrite seq_length. unfold halve. rewrite Dg.
    apply Nat.even_spec in H4. destruct H4 as (k & Ek). rewrite Ek.
    replace (2 * k * full) with (k * full * 2) by lia. rewrite Nat.div_mul by lia. destruct k as [|k]; [lia|].
    replace (2 * S k - 2) with (2 * k) by lia. ring.
  Qed.
End C104.

(** ** Where the report is wrong *)

(** "Would calculating this number of moments ever do a full matrix-vector multiplication?"
    (OptimizedHamiltonian.hpp:87) *)
Definition C104_full_claim : Prop :=
  forall (R : scalar) (inv_a b : R) N h al idx oh, calculation inv_a b N h al idx oh -> al_size al = true ->
  forall num, 2 <= num -> (num - 2) mod 4 = 0 ->
  (uses_full_system (oh_map oh) num = true <-> exists n, 2 <= n <= num / 2 /\ optimal_size (oh_map oh) n num = Ok N).

(** A chain of three sites, looked at from one end, with six moments: the third product goes
    through the whole matrix, the report denies it. *)
Definition z (p : Z) : GQ := gq_z p 0.
Definition chain : list (list (nat * GQ)) := [[(1, z 1)]; [(0, z 1); (2, z 1)]; [(1, z 1)]].
Definition end_of_chain : indices := Indices [2] [2].
Definition all_on : algorithm := Algorithm true true.
Definition chain_oh : optimized GQ :=
  match optimize GQ (@k1 GQ) (@k0 GQ) chain true end_of_chain with Ok oh => oh | _ => Optimized [] (Indices [] []) (SliceMap [] 0 0) [] end.

Lemma chain_calculation : calculation (@k1 GQ) (@k0 GQ) 3 chain all_on end_of_chain chain_oh.
Proof.
  assert (L : forall i j, i < 3 -> j < 3 -> (S i = j \/ S j = i) -> linked chain i j).
  { intros i j Hi Hj H. destruct i as [|[|[|i]]], j as [|[|[|j]]]; try lia; cbn; auto. }
  constructor; try (cbn; discriminate); try (cbn; lia).
  - split; [reflexivity|]. split.
    + intros i e H. destruct i as [|[|[|i]]]; cbn in H; [| | |destruct i]; repeat (destruct H as [<-|H]; [cbn; lia|]); contradiction.
    + intros i. destruct i as [|[|[|i]]]; cbn; [| | |destruct i; cbn]; repeat constructor; cbn; intuition discriminate.
  - intros _. split.
    + intros i j H. destruct i as [|[|[|i]]]; cbn in H; [| | |destruct i; contradiction]; repeat (destruct H as [<-|H]; [cbn; auto|]); contradiction.
    + intros i j Hi Hj. assert (U : forall d a, a + d < 3 -> exists n, walk chain n a (a + d)).
      { induction d as [|d IH]; intros a Ha; [exists 0; rewrite Nat.add_0_r; constructor|]. destruct (IH a ltac:(lia)) as (n & Hn).
        exists (S n). econstructor; [exact Hn|]. apply L; lia. }
      assert (V : forall d a, a + d < 3 -> exists n, walk chain n (a + d) a).
      { induction d as [|d IH]; intros a Ha; [exists 0; rewrite Nat.add_0_r; constructor|]. destruct (IH (S a) ltac:(lia)) as (n & Hn).
        exists (S n). replace (a + S d) with (S a + d) by lia. econstructor; [exact Hn|]. apply L; lia. }
      destruct (Nat.le_ge_cases i j) as [H|H].
      * replace j with (i + (j - i)) by lia. apply U. lia.
      * replace i with (j + (i - j)) by lia. apply V. lia.
  - vm_compute. reflexivity.
Qed.

Theorem C104_full_refuted : ~ C104_full_claim.
Proof.
  intros C. pose proof (C GQ _ _ 3 chain all_on end_of_chain chain_oh chain_calculation eq_refl 6 ltac:(lia) eq_refl) as H.
  assert (E : uses_full_system (oh_map chain_oh) 6 = true).
  { apply H. exists 3. split; [cbn; lia|]. vm_compute. reflexivity. }
  vm_compute in E. discriminate E.
Qed.

(** The elements per second of a conductivity calculation, or of moments with an operator, are
    not those that were processed. *)
Definition C104_conductivity_claim : Prop :=
  forall (R : scalar) (inv_a b : R) N h al idx oh, calculation inv_a b N h al idx oh -> ix_src idx = ix_dest idx ->
  forall f num mult s done, 2 <= num -> (num - 2) mod 4 = 0 -> stats_reset f oh (no_size al) num mult = Ok s ->
  count_off (row_work f (oh_matrix oh)) N (oh_map oh) (no_size al) num = Ok (Z.of_nat done) -> reported s = mult * (2 * done).
Theorem C104_conductivity_refuted : ~ C104_conductivity_claim.
Proof.
  intros C. pose proof (C GQ _ _ 3 chain all_on end_of_chain chain_oh chain_calculation eq_refl Csr 6 1 (Stats 6 false 12 12 9 9 1) 20
    ltac:(lia) eq_refl eq_refl eq_refl) as H. vm_compute in H. discriminate H.
Qed.

(** The chain again, ten moments in ELLPACK format with both optimisations: the loop makes five
    products with the whole matrix (30 elements), the report says that 24 of 30 were left. *)
Example C104_example :
  stats_reset EllGeneric chain_oh all_on 10 1 = Ok (Stats 10 true 30 24 15 12 1)
  /\ count_diag (row_work EllGeneric (oh_matrix chain_oh)) 3 (oh_map chain_oh) all_on 10 = Ok 30%Z
  /\ sm_data (oh_map chain_oh) = [1; 2; 3].
Proof. vm_compute. auto. Qed.

(** A Green's function between the ends, six moments: the loop stops looking at the far end in
    time. *)
Definition ends_oh : optimized GQ :=
  match optimize GQ (@k1 GQ) (@k0 GQ) chain true (Indices [2] [0]) with Ok oh => oh | _ => Optimized [] (Indices [] []) (SliceMap [] 0 0) [] end.
Example C104_example_ends :
  omap (fun s => (st_nnz s, st_opt_nnz s)) (stats_reset Csr ends_oh all_on 6 1) = Ok (24, 20)
  /\ count_off (row_work Csr (oh_matrix ends_oh)) 3 (oh_map ends_oh) all_on 6 = Ok 20%Z
  /\ count_off (row_work Csr (oh_matrix ends_oh)) 3 (oh_map ends_oh) (Algorithm false false) 6 = Ok 20%Z.
Proof. vm_compute. auto. Qed.
