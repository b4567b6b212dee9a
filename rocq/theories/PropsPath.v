(* C60: paths through k-space. *)
From Verif Require Import Base RSum MakePath MakePathProofs.
From Coq Require Import Reals Lra.
Local Open Scope R_scope.

(** ** Specification *)
Definition dist (d : nat) (a b : list R) : R := sqrt (rsum (fun i => (nth i b 0 - nth i a 0) * (nth i b 0 - nth i a 0)) d).
(** [row] is at the fraction [t / n] of the way from [a] to [b]. *)
Definition on_way (d : nat) (a b row : list R) (t n : nat) : Prop :=
  length row = d /\ forall l, (l < d)%nat -> nth l row 0 = nth l a 0 + INR t / INR n * (nth l b 0 - nth l a 0).

(** The claim: the path passes through all given points, at the recorded indices. *)
Definition C60_claim : Prop := forall step d k0 k1 ks, 0 < step -> (0 < d)%nat -> Forall (fun p => length p = d) (k0 :: k1 :: ks) ->
  exists path idx, make_path step k0 k1 ks = Ok (path, idx) /\ length idx = length (k0 :: k1 :: ks) /\
    forall j i, nth_error idx j = Some i -> nth_error path i = nth_error (k0 :: k1 :: ks) j.
(** The claim of the message: points of different shapes are refused. *)
Definition C60_shape_claim : Prop := forall step k0 k1 ks, 0 < step ->
  (exists p, In p (k1 :: ks) /\ length p <> length k0) -> make_path step k0 k1 ks = Throw.

(** ** Proofs *)
Lemma norm_dist : forall d a b, length a = d -> length b = d -> norm (map (fun t => fst t - snd t) (combine b a)) = dist d a b.
Proof.
  intros d a b La Lb. unfold norm, dist. f_equal. subst d. revert b Lb. induction a as [|x a IH]; intros [|y b] L; try discriminate; [reflexivity|].
  cbn [combine map fold_right length]. rewrite IH by (cbn in L; lia). rewrite rsum_S_l. cbn. reflexivity.
Qed.
Lemma sample_row : forall d a b n t, length a = d -> length b = d -> (t < n)%nat ->
  exists row, nth_error (samples a b n) t = Some row /\ on_way d a b row t n.
Proof.
  intros d a b n t La Lb Ht. unfold samples. eexists. split.
  - rewrite nth_error_map. rewrite (nth_error_nth' (seq 0 n) O) by (rewrite seq_length; exact Ht). rewrite seq_nth by exact Ht. cbn [option_map Nat.add]. reflexivity.
  - split; [rewrite map_length, combine_length; lia|]. intros l Hl.
    set (f := fun se : R * R => fst se + INR t * ((snd se - fst se) / INR n)).
    rewrite (nth_indep _ 0 (f (0, 0))) by (rewrite map_length, combine_length; lia).
    rewrite map_nth, combine_nth by congruence. unfold f. cbn [fst snd]. unfold Rdiv. ring.
Qed.

Theorem C60_partial : forall step d k0 k1 ks, 0 < step -> (0 < d)%nat -> Forall (fun p => length p = d) (k0 :: k1 :: ks) ->
  exists path idx, make_path step k0 k1 ks = Ok (path, idx) /\ length idx = length (k0 :: k1 :: ks) /\
    nth_error idx 0 = Some 0%nat /\ nth_error path (last idx 0%nat) = Some (last (k0 :: k1 :: ks) []) /\ length path = S (last idx 0%nat) /\
    forall j a b, nth_error (k0 :: k1 :: ks) j = Some a -> nth_error (k0 :: k1 :: ks) (S j) = Some b ->
      exists i n, nth_error idx j = Some i /\ nth_error idx (S j) = Some (i + n)%nat /\
        INR n * step <= dist d a b < (INR n + 1) * step /\
        (forall t, (t < n)%nat -> exists row, nth_error path (i + t) = Some row /\ on_way d a b row t n) /\
        (step <= dist d a b -> nth_error path i = Some a /\ step <= dist d a b / INR n < 2 * step).
Proof.
  intros step d k0 k1 ks Hs Hd HF. rewrite (make_path_eq step d Hs k0 k1 ks HF). eexists _, _. split; [reflexivity|].
  split; [cbn [length]; rewrite idx_length; reflexivity|]. split; [reflexivity|].
  pose proof (rows_length step (k1 :: ks) k0 0) as RL. cbn [Nat.add] in RL. rewrite <- RL.
  split; [rewrite nth_error_app2 by lia; rewrite Nat.sub_diag; reflexivity|]. split; [rewrite app_length; cbn [length]; lia|].
  intros j a b Ha Hb. destruct (seg_at step (k1 :: ks) k0 0 j a b Ha Hb) as (o & E1 & E2 & E3). cbn [Nat.add] in E1, E2.
  assert (La : length a = d) by (rewrite Forall_forall in HF; apply HF, (nth_error_In _ _ Ha)).
  assert (Lb : length b = d) by (rewrite Forall_forall in HF; apply HF, (nth_error_In _ _ Hb)).
  exists o, (cnt step a b). split; [exact E1|]. split; [exact E2|].
  assert (D0 : 0 <= dist d a b) by (apply sqrt_pos).
  assert (C : INR (cnt step a b) * step <= dist d a b < (INR (cnt step a b) + 1) * step).
  { unfold cnt. rewrite (norm_dist d) by auto. set (q := dist d a b / step). assert (Q : dist d a b = q * step) by (unfold q; field; lra).
    assert (Q0 : 0 <= q) by (apply Rmult_le_pos; [exact D0|left; apply Rinv_0_lt_compat; exact Hs]).
    rewrite INR_IZR_INZ, Z2Nat.id by (apply Int_part_nonneg; exact Q0). destruct (base_Int_part q) as [A B]. rewrite Q. split; [apply Rmult_le_compat_r; lra|apply Rmult_lt_compat_r; lra]. }
  split; [exact C|].
  assert (W : forall t, (t < cnt step a b)%nat -> exists row, nth_error (rowsof step k0 (k1 :: ks) ++ [last (k1 :: ks) []]) (o + t) = Some row /\ on_way d a b row t (cnt step a b)).
  { intros t Ht. destruct (sample_row d a b (cnt step a b) t La Lb Ht) as (row & R1 & R2). exists row. split; [|exact R2].
    rewrite nth_error_app1; [rewrite E3 by exact Ht; exact R1|]. apply nth_error_Some. rewrite E3 by exact Ht. rewrite R1. discriminate. }
  split; [exact W|]. intros Hlong.
  assert (N1 : (0 < cnt step a b)%nat).
  { destruct (cnt step a b) as [|k]; [cbn in C; lra|lia]. }
  split.
  - destruct (W O N1) as (row & R1 & Lr & R2). rewrite Nat.add_0_r in R1. rewrite R1. f_equal. apply (nth_ext _ _ 0 0); [congruence|].
    intros l Hl. rewrite R2 by lia. cbn [INR]. unfold Rdiv. ring.
  - assert (P : 1 <= INR (cnt step a b)) by (apply (le_INR 1); lia). set (n := INR (cnt step a b)) in *.
    split.
    + apply Rmult_le_reg_r with n; [lra|]. unfold Rdiv. rewrite Rmult_assoc, Rinv_l by lra. lra.
    + apply Rmult_lt_reg_r with n; [lra|]. unfold Rdiv. rewrite Rmult_assoc, Rinv_l by lra. nra.
Qed.

(** A segment shorter than the step loses its first point. *)
Theorem C60_refuted : ~ C60_claim.
Proof.
  intros Cl. set (k0 := [0]). set (k1 := [/ 20]). set (ks := [[1]]).
  assert (HF : Forall (fun p => length p = 1%nat) (k0 :: k1 :: ks)) by (repeat constructor).
  destruct (Cl (/ 10) 1%nat k0 k1 ks ltac:(lra) ltac:(lia) HF) as (path & idx & E & L & H).
  destruct (C60_partial (/ 10) 1%nat k0 k1 ks ltac:(lra) ltac:(lia) HF) as (path' & idx' & E' & L' & I0 & _ & _ & P).
  rewrite E' in E. injection E as -> ->.
  assert (D1 : dist 1 k0 k1 = / 20).
  { unfold dist, k0, k1. cbn. replace (0 + (/ 20 - 0) * (/ 20 - 0)) with (/ 20 * / 20) by ring. apply sqrt_square. lra. }
  assert (D2 : dist 1 k1 [1] = 19 / 20).
  { unfold dist, k1. cbn. replace (0 + (1 - / 20) * (1 - / 20)) with (19 / 20 * (19 / 20)) by field. apply sqrt_square. lra. }
  destruct (P 0%nat k0 k1 eq_refl eq_refl) as (i & n & A1 & A2 & A3 & _). rewrite I0 in A1. injection A1 as <-.
  destruct (P 1%nat k1 [1] eq_refl eq_refl) as (i' & n' & B1 & B2 & B3 & _ & B5). rewrite A2 in B1. injection B1 as <-.
  rewrite D1 in A3. rewrite D2 in B5. destruct B5 as [B5 _]; [lra|].
  assert (N0 : n = 0%nat). { destruct n as [|n]; [reflexivity|]. exfalso. rewrite S_INR in A3. pose proof (pos_INR n). lra. }
  subst n. cbn [Nat.add] in B5. specialize (H 0%nat 0%nat I0). rewrite B5 in H. cbn in H. injection H as H. lra.
Qed.

Theorem C60_shape_refuted : ~ C60_shape_claim.
Proof.
  intros Cl. specialize (Cl 1 [1; 2] [0] [] ltac:(lra)).
  assert (G : make_path 1 [1; 2] [0] [] <> Throw).
  { unfold make_path. cbn [firstn forallb]. rewrite Nat.eqb_refl. cbn [andb negb removelast tl combine ofold fst snd].
    unfold segment, minus. cbn [length Nat.eqb obind]. unfold floor_div. destruct (Req_EM_T 1 0); [lra|]. cbn [obind].
    set (z := Int_part _). destruct (Z.ltb_spec z 0) as [Z|Z].
    - exfalso. unfold z in Z. pose proof (Int_part_nonneg (norm (map (fun y => hd 0 [0] - y) [1; 2]) / 1)) as P. apply Zlt_not_le in Z. apply Z. apply P.
      unfold Rdiv. rewrite Rinv_1, Rmult_1_r. apply norm_nonneg.
    - cbn. discriminate. }
  apply G, Cl. exists [0]. split; [left; reflexivity|]. cbn. lia.
Qed.

(** The example of the documentation, with the indices: 0, 1, 2, 3, 2, 1, 0, -1. *)
Example C60_example : exists path, make_path 1 [0] [3] [[-1]] = Ok (path, [0; 3; 7]%nat) /\ nth_error path 3 = Some [3] /\
  nth_error path 7 = Some [-1].
Proof.
  destruct (C60_partial 1 1%nat [0] [3] [[-1]] ltac:(lra) ltac:(lia)) as (path & idx & E & L & I0 & E0 & _ & P); [repeat constructor|].
  assert (D1 : dist 1 [0] [3] = 3).
  { unfold dist. cbn. replace (0 + (3 - 0) * (3 - 0)) with (3 * 3) by ring. apply sqrt_square. lra. }
  assert (D2 : dist 1 [3] [-1] = 4).
  { unfold dist. cbn. replace (0 + (-1 - 3) * (-1 - 3)) with (4 * 4) by ring. apply sqrt_square. lra. }
  destruct (P 0%nat [0] [3] eq_refl eq_refl) as (i & n & A1 & A2 & A3 & _). rewrite I0 in A1. injection A1 as <-.
  destruct (P 1%nat [3] [-1] eq_refl eq_refl) as (i' & n' & B1 & B2 & B3 & _ & B5). rewrite A2 in B1. injection B1 as <-.
  rewrite D1 in A3. rewrite D2 in B3, B5. destruct B5 as [B5 _]; [lra|].
  assert (N : n = 3%nat).
  { apply INR_eq. replace (INR 3) with 3 by (cbn; ring). rewrite INR_IZR_INZ in *. assert (IZR (Z.of_nat n) < 4 /\ 2 < IZR (Z.of_nat n)) as [U1 U2] by lra.
    apply lt_IZR in U1. apply lt_IZR in U2. replace (Z.of_nat n) with 3%Z by lia. reflexivity. }
  assert (N' : n' = 4%nat).
  { apply INR_eq. replace (INR 4) with 4 by (cbn; ring). rewrite INR_IZR_INZ in *. assert (IZR (Z.of_nat n') < 5 /\ 3 < IZR (Z.of_nat n')) as [U1 U2] by lra.
    apply lt_IZR in U1. apply lt_IZR in U2. replace (Z.of_nat n') with 4%Z by lia. reflexivity. }
  subst n n'. cbn [Nat.add] in *. exists path.
  destruct idx as [|x0 [|x1 [|x2 [|]]]]; cbn in L; try lia. cbn in I0, A2, B2, E0. injection I0 as ->. injection A2 as ->. injection B2 as ->. auto.
Qed.

Print Assumptions C60_partial.
Print Assumptions C60_refuted.
Print Assumptions C60_shape_refuted.
