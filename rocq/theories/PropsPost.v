(* C57-C58: what the solver reports from eigenvalues and eigenvectors. *)
From Verif Require Import Base Scalar Rle RleProofs RSum Cplx SolverPost SolverPostProofs.
From Coq Require Import Reals Lra Sorted.
Local Open Scope R_scope.

(** ** C57: spatial LDOS, LDOS and DOS fit together *)
(** The wave functions are normalised: the squared moduli of every eigenvector add up to 1. *)
Definition normalised (vals : list R) (psi : nat -> nat -> CX) (rows : nat) : Prop :=
  forall n, (n < length vals)%nat -> fold_right Rplus 0 (map (fun r => fst (psi r n) ^ 2 + snd (psi r n) ^ 2) (seq 0 rows)) = 1.

Theorem C57 : forall vals psi d b E,
  b > 0 -> (forall e, In e d -> (0 < e_norb e)%nat) ->
  exists out,
    calc_spatial_ldos vals psi (hamiltonian_size d) d b E = Ok out /\
    (* one value for each site, the same value [calc_ldos] gives for that site *)
    length out = rle_size d /\
    (forall s, (s < rle_size d)%nat -> calc_ldos_reduced vals psi (hamiltonian_size d) d (Ok s) b E = Ok (nth s out 0)) /\
    (* never negative *)
    (forall s, 0 <= nth s out 0) /\
    (* summed over all sites: the density of states *)
    (normalised vals psi (hamiltonian_size d) -> fold_right Rplus 0 out = calc_dos vals b E) /\
    (* the C++ and the Python formulas are the same *)
    calc_dos_cpp vals b E = calc_dos vals b E /\
    spatial_ldos_cpp vals psi (hamiltonian_size d) b E = spatial_ldos vals psi (hamiltonian_size d) b E.
Proof.
  intros vals psi d b E Hb Hn. set (N := hamiltonian_size d).
  destruct (with_data_ok d (spatial_ldos vals psi N b E) Hn) as (out & W & L & T & P); [unfold spatial_ldos; rewrite map_length, seq_length; reflexivity|].
  exists out. split; [exact W|]. split; [exact L|].
  assert (Len : length (spatial_ldos vals psi N b E) = N) by (unfold spatial_ldos; rewrite map_length, seq_length; reflexivity).
  assert (NT : forall r, (r < N)%nat -> nth r (spatial_ldos vals psi N b E) 0 = local_density vals psi (gaussian b E) b r).
  { intros r Hr. unfold spatial_ldos. rewrite (nth_indep _ 0 (local_density vals psi (gaussian b E) b O)) by (rewrite map_length, seq_length; exact Hr).
    rewrite map_nth, seq_nth by exact Hr. reflexivity. }
  split; [|split; [|split; [|split]]].
  - intros s Hs. destruct (P s Hs) as (ix & E1 & R1 & V). unfold calc_ldos_reduced, calc_ldos. cbn [obind]. rewrite E1. cbn [obind].
    rewrite Len in R1. replace (forallb (fun r => (r <? N)%nat) ix) with true.
    2:{ symmetry. apply forallb_forall. intros r Hr. apply Nat.ltb_lt, R1, Hr. }
    cbn [omap obind]. f_equal. rewrite V. apply lsum_ext. intros r Hr. symmetry. apply NT, R1, Hr.
  - intros s. destruct (Nat.lt_ge_cases s (rle_size d)) as [Hs|Hs]; [|rewrite nth_overflow by lia; lra].
    destruct (P s Hs) as (ix & _ & R1 & V). rewrite V. apply lsum_nonneg. apply Forall_forall. intros x Hx. apply in_map_iff in Hx.
    destruct Hx as (r & <- & Hr). apply R1 in Hr. rewrite Len in Hr. rewrite NT by exact Hr. unfold local_density. apply Rmult_le_pos.
    + unfold gauss_scale. apply Rlt_le, Rdiv_lt_0_compat; [lra|]. apply Rmult_lt_0_compat; [lra|]. apply sqrt_lt_R0. pose proof PI_RGT_0. lra.
    + apply lsum_nonneg, Forall_forall. intros x Hx. apply in_map_iff in Hx. destruct Hx as (n & <- & _). apply Rmult_le_pos; [apply abs2_nonneg|].
      unfold gaussian. apply Rlt_le, exp_pos.
  - intros HN. change (lsum out = calc_dos vals b E). rewrite T. unfold spatial_ldos, calc_dos. apply total_density.
    intros n Hnn. rewrite <- (HN n Hnn). apply lsum_ext. intros r _. unfold abs2. ring.
  - unfold calc_dos_cpp, calc_dos. f_equal. apply lsum_ext. intros; apply gaussian_same; lra.
  - unfold spatial_ldos_cpp, spatial_ldos. apply map_ext. intros r. apply local_density_ext. intros; apply gaussian_same; lra.
Qed.

(** Two sublattices, the first with two orbitals: three Hamiltonian rows and two sites. *)
Example C57_example :
  let d := [Elem 0 1 2; Elem 1 1 1] in
  let psi := fun r n : nat => if (r =? n)%nat then mk 1 0 else mk 0 0 in
  hamiltonian_size d = 3%nat /\ rle_size d = 2%nat /\ normalised [1; 2; 3] psi 3 /\
  calc_spatial_ldos [1; 2; 3] psi 3 d 1 2 =
    Ok [gauss_scale 1 * exp (-(1 / 2)) + gauss_scale 1; gauss_scale 1 * exp (-(1 / 2))].
Proof.
  cbn zeta. split; [reflexivity|]. split; [reflexivity|]. split.
  - intros n Hn. destruct n as [|[|[|n]]]; [cbn; ring|cbn; ring|cbn; ring|cbn in Hn; lia].
  - unfold calc_spatial_ldos, with_data, reduce_orbitals, spatial_ldos. cbn [map seq length Nat.eqb rle_size hamiltonian_size fold_right e_num e_norb site_counts orbital_counts combine ofold fst snd negb firstn skipn Nat.add Nat.mul Nat.sub].
    cbn. unfold local_density. cbn [length seq map Nat.eqb nth]. unfold lsum, abs2, gaussian, mk. cbn [fold_right fst snd].
    replace (- (1 / 2) * (1 - 2) ^ 2 / 1 ^ 2) with (- (1 / 2)) by field.
    replace (- (1 / 2) * (2 - 2) ^ 2 / 1 ^ 2) with 0 by field.
    replace (- (1 / 2) * (3 - 2) ^ 2 / 1 ^ 2) with (- (1 / 2)) by field.
    rewrite exp_0. f_equal. f_equal; [|f_equal]; ring.
Qed.

(** ** C58: the groups of degenerate states are the maximal runs of close levels *)
(** Levels [i] and [i + 1] are closer than the tolerance. *)
Definition near (vals : list R) (tol : R) (i : nat) : Prop := Rabs (nth (i + 1) vals 0 - nth i vals 0) < tol.
(** The levels [a..b]: at least two, every neighbouring pair close, and not extendable on either side. *)
Definition maximal_run (vals : list R) (tol : R) (a b : nat) : Prop :=
  (a < b < length vals)%nat /\ (forall i, (a <= i < b)%nat -> near vals tol i) /\
  (a = O \/ ~ near vals tol (a - 1)) /\ ((b + 1)%nat = length vals \/ ~ near vals tol b).

Lemma groups_runs : forall vals tol g,
  In g (find_degenerate_states vals tol) <-> exists a b, maximal_run vals tol a b /\ g = seq a (b - a + 1).
Proof.
  intros vals tol g. rewrite find_runs. set (idx := filter _ _).
  assert (HS : StronglySorted lt idx) by apply filter_seq_sorted.
  assert (C : forall i, In i idx <-> (i + 1 < length vals)%nat /\ near vals tol i) by (intros; apply close_spec).
  assert (ML : forall h, In h (runs idx) -> forall z, In z h -> In z idx).
  { intros h Hh z Hz. rewrite <- (runs_concat idx). apply in_concat. eauto. }
  split.
  - intros H. apply in_map_iff in H. destruct H as (r & <- & Hr). destruct (runs_spec idx HS r Hr) as (a & m & E & A & B). subst r.
    exists a, (a + S m)%nat. split; [|rewrite ext_seq; f_equal; lia].
    assert (Q : In (a + m)%nat idx) by (apply (ML _ Hr), in_seq; lia). apply C in Q. split; [lia|]. split; [|split].
    + intros i Hi. apply C, (ML _ Hr), in_seq. lia.
    + destruct A as [->|A]; [auto|]. destruct a as [|a]; [auto|]. right. intros H. apply A, C. split; [lia|exact H].
    + destruct (Nat.eq_dec (a + S m + 1) (length vals)); [auto|]. right. intros H. apply B, C. split; [lia|exact H].
  - intros (a & b & (Hab & Hin & A & B) & ->). replace (b - a + 1)%nat with (S (S (b - a - 1))) by lia. rewrite <- ext_seq. apply in_map.
    apply runs_complete; [exact HS| | |].
    + intros z Hz. apply in_seq in Hz. apply C. split; [lia|]. apply Hin. lia.
    + destruct A as [->|A]; [auto|]. right. intros H. apply C in H. apply A, H.
    + intros H. replace (a + S (b - a - 1))%nat with b in H by lia. apply C in H. destruct B as [B|B]; [lia|]. apply B, H.
Qed.

(** Every close pair of neighbours lies in a maximal run. *)
Lemma run_around : forall vals tol i, (i + 1 < length vals)%nat -> near vals tol i ->
  exists a b, maximal_run vals tol a b /\ (a <= i)%nat /\ (i + 1 <= b)%nat.
Proof.
  intros vals tol i Hi Hn.
  assert (LEFT : exists a, (a <= i)%nat /\ (forall p, (a <= p < i)%nat -> near vals tol p) /\ (a = O \/ ~ near vals tol (a - 1))).
  { clear -i vals. induction i as [|i IH]; [exists O; split; [lia|split; [intros; lia|auto]]|].
    destruct (Rlt_dec (Rabs (nth (i + 1) vals 0 - nth i vals 0)) tol) as [Y|N].
    - destruct IH as (a & A1 & A2 & A3). exists a. split; [lia|]. split; [|exact A3]. intros p Hp.
      destruct (Nat.eq_dec p i) as [->|]; [exact Y|apply A2; lia].
    - exists (S i). split; [lia|]. split; [intros; lia|]. right. cbn [Nat.sub]. rewrite Nat.sub_0_r. exact N. }
  assert (RIGHT : forall j, (j < length vals)%nat -> exists b, (j <= b < length vals)%nat /\ (forall p, (j <= p < b)%nat -> near vals tol p) /\ ((b + 1)%nat = length vals \/ ~ near vals tol b)).
  { clear. intros j Hj. remember (length vals - 1 - j)%nat as k eqn:Ek. revert j Hj Ek. induction k as [|k IH]; intros j Hj Ek.
    - exists j. split; [lia|]. split; [intros; lia|left; lia].
    - destruct (Rlt_dec (Rabs (nth (j + 1) vals 0 - nth j vals 0)) tol) as [Y|N].
      + destruct (IH (j + 1)%nat) as (b & B1 & B2 & B3); [lia|lia|]. exists b. split; [lia|]. split; [|exact B3]. intros p Hp.
        destruct (Nat.eq_dec p j) as [->|]; [exact Y|apply B2; lia].
      + exists j. split; [lia|]. split; [intros; lia|right; exact N]. }
  destruct LEFT as (a & A1 & A2 & A3). destruct (RIGHT (i + 1)%nat Hi) as (b & B1 & B2 & B3).
  exists a, b. split; [|lia]. split; [lia|]. split; [|split; [exact A3|exact B3]]. intros p Hp.
  destruct (Nat.lt_ge_cases p i); [apply A2; lia|]. destruct (Nat.eq_dec p i) as [->|]; [exact Hn|apply B2; lia].
Qed.

Theorem C58 : forall vals tol,
  (* the groups are exactly the maximal runs *)
  (forall g, In g (find_degenerate_states vals tol) <-> exists a b, maximal_run vals tol a b /\ g = seq a (b - a + 1)) /\
  (* listed in ascending order; no level is listed twice *)
  StronglySorted lt (concat (find_degenerate_states vals tol)) /\
  (* for sorted energies in which different levels are at least the tolerance apart, two levels
     share a group exactly if they have the same energy *)
  (0 < tol -> (forall i j, (i < j < length vals)%nat -> nth i vals 0 <= nth j vals 0) ->
   (forall i j, (i < length vals)%nat -> (j < length vals)%nat -> nth i vals 0 = nth j vals 0 \/ tol <= Rabs (nth i vals 0 - nth j vals 0)) ->
   forall i j, (i < length vals)%nat -> (j < length vals)%nat -> i <> j ->
     ((exists g, In g (find_degenerate_states vals tol) /\ In i g /\ In j g) <-> nth i vals 0 = nth j vals 0)).
Proof.
  intros vals tol. split; [apply groups_runs|]. split.
  { rewrite find_runs. apply runs_sorted, filter_seq_sorted. }
  intros Ht Srt Sep.
  assert (NE : forall i, (i + 1 < length vals)%nat -> near vals tol i <-> nth i vals 0 = nth (i + 1) vals 0).
  { intros i Hi. unfold near. split; intros H.
    - destruct (Sep (i + 1)%nat i) as [E|E]; [lia|lia|auto|lra].
    - rewrite H, Rminus_diag_eq, Rabs_R0 by reflexivity. exact Ht. }
  assert (K : forall i j, (i < j)%nat -> (j < length vals)%nat -> (exists g, In g (find_degenerate_states vals tol) /\ In i g /\ In j g) <-> nth i vals 0 = nth j vals 0).
  { intros i j Lij Hj. split.
    - intros (g & Hg & Ig & Jg). apply groups_runs in Hg. destruct Hg as (a & b & (Hab & Hin & _) & ->). apply in_seq in Ig. apply in_seq in Jg.
      assert (G : forall k, (i + k <= b)%nat -> nth i vals 0 = nth (i + k) vals 0).
      { induction k as [|k IHk]; intros Hk; [rewrite Nat.add_0_r; reflexivity|]. rewrite IHk by lia.
        replace (i + S k)%nat with (i + k + 1)%nat by lia. apply NE; [lia|]. apply Hin. lia. }
      replace j with (i + (j - i))%nat by lia. apply G. lia.
    - intros E.
      assert (M : forall p, (i <= p < j)%nat -> near vals tol p).
      { intros p Hp. apply NE; [lia|]. assert (nth i vals 0 <= nth p vals 0) by (destruct (Nat.eq_dec i p); [subst; lra|apply Srt; lia]).
        assert (nth p vals 0 <= nth (p + 1) vals 0) by (apply Srt; lia).
        assert (nth (p + 1) vals 0 <= nth j vals 0) by (destruct (Nat.eq_dec (p + 1) j) as [<-|]; [lra|apply Srt; lia]). lra. }
      destruct (run_around vals tol i) as (a & b & Rn & Hai & Hib); [lia|apply M; lia|]. exists (seq a (b - a + 1)).
      split; [apply groups_runs; eauto|]. split; [apply in_seq; lia|]. apply in_seq.
      destruct (Nat.lt_ge_cases b j) as [Hbj|]; [|lia]. exfalso. destruct Rn as (R1 & R2 & R3 & [R4|R4]); [lia|].
      apply R4, M. lia. }
  intros i j Hi Hj Hne. destruct (Nat.lt_ge_cases i j) as [H|H]; [apply K; auto|].
  split; [intros (g & A & B & C); symmetry; apply K; [lia|auto|eauto]|]. intros E. destruct (proj2 (K j i ltac:(lia) Hi)) as (g & A & B & C); [auto|eauto].
Qed.

(** The example in the documentation of [find_degenerate_states]. *)
Example C58_example :
  find_degenerate_states [1; 1; 2; 5; 5; 5; 7; 8; 8] (1 / 2) = [[0; 1]; [3; 4; 5]; [7; 8]]%nat.
Proof.
  unfold find_degenerate_states. cbn [length Nat.sub seq filter]. unfold close_above. cbn [Nat.add nth].
  repeat match goal with |- context [Rlt_dec (Rabs ?x) ?t] => destruct (Rlt_dec (Rabs x) t) as [H|H];
    [first [exfalso; clear -H; unfold Rabs in H; destruct (Rcase_abs x); lra|clear H]|first [exfalso; apply H; clear; unfold Rabs; destruct (Rcase_abs x); lra|clear H]] end.
  vm_compute. reflexivity.
Qed.

(** Members of a group need not be within the tolerance of each other: the groups chain. *)
Example C58_chain :
  exists vals, find_degenerate_states vals 1 = [[0; 1; 2]]%nat /\ ~ Rabs (nth 2 vals 0 - nth 0 vals 0) < 1.
Proof.
  exists [0; 9 / 10; 18 / 10]. split.
  - unfold find_degenerate_states. cbn [length Nat.sub seq filter]. unfold close_above. cbn [Nat.add nth].
    repeat match goal with |- context [Rlt_dec (Rabs ?x) ?t] => destruct (Rlt_dec (Rabs x) t) as [H|H];
      [clear H|exfalso; apply H; clear; unfold Rabs; destruct (Rcase_abs x); lra] end.
    vm_compute. reflexivity.
  - cbn. unfold Rabs. destruct (Rcase_abs _); lra.
Qed.

(** ** C57, second half: [calc_probability] *)
(** One value for each site: the probabilities of all states within [tol] of state [n], summed over
    the orbitals of the site; over all sites they add up to the number of those states. *)
Theorem C57_probability : forall vals psi d n tol,
  (forall e, In e d -> (0 < e_norb e)%nat) -> (n < length vals)%nat ->
  exists out ns,
    calc_probability vals psi (hamiltonian_size d) d n tol = Ok out /\ length out = rle_size d /\
    (forall m, In m ns <-> (m < length vals)%nat /\ Rabs (nth n vals 0 - nth m vals 0) < tol) /\ NoDup ns /\
    (forall s, (s < rle_size d)%nat -> exists ix, to_hamiltonian_indices d s = Ok ix /\
       nth s out 0 = fold_right Rplus 0 (map (fun r => fold_right Rplus 0 (map (fun m => fst (psi r m) ^ 2 + snd (psi r m) ^ 2) ns)) ix)) /\
    (normalised vals psi (hamiltonian_size d) -> fold_right Rplus 0 out = INR (length ns)).
Proof.
  intros vals psi d n tol Hn Hnn. set (N := hamiltonian_size d). set (ns := filter (same_level vals tol n) (seq 0 (length vals))).
  set (dens := fun r => lsum (map (fun m => abs2 (psi r m)) ns)).
  destruct (with_data_ok d (map dens (seq 0 N)) Hn) as (out & W & L & T & P); [rewrite map_length, seq_length; reflexivity|].
  exists out, ns. unfold calc_probability. rewrite (proj2 (Nat.ltb_lt _ _) Hnn). cbn zeta. split; [exact W|]. split; [exact L|].
  assert (NS : forall m, In m ns <-> (m < length vals)%nat /\ Rabs (nth n vals 0 - nth m vals 0) < tol).
  { intros m. unfold ns. rewrite filter_In, in_seq. unfold same_level. destruct (Rlt_dec _ tol).
    - split; intros (A & B); split; auto; lia.
    - split; intros (A & B); [discriminate|contradiction]. }
  split; [exact NS|]. split; [apply NoDup_filter, seq_NoDup|]. split.
  - intros s Hs. destruct (P s Hs) as (ix & E1 & R1 & V). exists ix. split; [exact E1|]. rewrite V. apply lsum_ext. intros r Hr.
    apply R1 in Hr. rewrite map_length, seq_length in Hr. rewrite (nth_indep _ 0 (dens O)) by (rewrite map_length, seq_length; exact Hr).
    rewrite map_nth, seq_nth by exact Hr. unfold dens. apply lsum_ext. intros m _. unfold abs2. cbn [Nat.add]. ring.
  - intros HN. change (lsum out = INR (length ns)). rewrite T. unfold dens. rewrite lsum_swap.
    rewrite (lsum_ext _ (fun _ => 1)); [rewrite lsum_const; ring|]. intros m Hm. apply NS in Hm. rewrite <- (HN m (proj1 Hm)).
    apply lsum_ext. intros r _. unfold abs2. ring.
Qed.

Example C57_probability_example :
  calc_probability [1; 1; 3] (fun r n => if (r =? n)%nat then mk 1 0 else mk 0 0) 3 [Elem 0 1 2; Elem 1 1 1] 0 (1 / 2) = Ok [2; 0].
Proof.
  unfold calc_probability. cbn [length Nat.ltb Nat.leb seq filter]. unfold same_level. cbn [nth].
  repeat match goal with |- context [Rlt_dec (Rabs ?x) ?t] => destruct (Rlt_dec (Rabs x) t) as [H|H];
    [first [exfalso; clear -H; unfold Rabs in H; destruct (Rcase_abs x); lra|clear H]|first [exfalso; apply H; clear; unfold Rabs; destruct (Rcase_abs x); lra|clear H]] end.
  cbn. unfold abs2, lsum, mk. cbn. f_equal. f_equal; [ring|f_equal; ring].
Qed.

Print Assumptions C57.
Print Assumptions C57_probability.
Print Assumptions C58.
