(* C90: broadening a sweep. *)
From Coq Require Import Reals Lra FinFun.
From Verif Require Import Base SweepConvolve.
Local Open Scope nat_scope.

(* ------------------------------------------------------------------ *)
(* Specification *)

(** A single value of 1 at the place [j] *)
Definition impulse (n j : nat) : list R := map (fun i => if Nat.eqb i j then 1%R else 0%R) (seq 0 n).

(** The largest value of [l] is at [p], and only there *)
Definition peak_at (l : list R) (p : nat) : Prop :=
  p < length l /\ forall i, i < length l -> i <> p -> (nth i l 0 < nth p l 0)%R.

(** A broadened peak stays where it was, if it is away from the ends. *)
Definition C90_claim : Prop := forall sigma v j out, sigma <> 0%R -> NoDup v -> 11 <= j -> j + 9 < length v ->
  convolved_column sigma v (impulse (length v) j) = Ok out -> peak_at out j.

(* ------------------------------------------------------------------ *)

Lemma extended_length : forall n d, length d = n -> 11 <= n -> length (extended 10 d) = n + 20.
Proof.
  intros n d E L. unfold extended. rewrite !app_length, rev_length, !firstn_length, rev_length. lia.
Qed.

Lemma weights_length : forall s v, length (weights s v) = length v.
Proof. intros. unfold weights, raw_weights. now rewrite !map_length. Qed.

Lemma same_length : forall a w, length (same a w) = Nat.max (length a) (length w).
Proof. intros. unfold same. now rewrite map_length, seq_length. Qed.

Lemma nth_same : forall a w k, k < Nat.max (length a) (length w) ->
  nth k (same a w) 0%R = full_at a w (k + (Nat.min (length a) (length w) - 1) / 2).
Proof.
  intros a w k L. unfold same.
  set (f := fun k => full_at a w (k + (Nat.min (length a) (length w) - 1) / 2)).
  rewrite (nth_indep _ 0%R (f 0)) by (rewrite map_length, seq_length; exact L). rewrite map_nth, seq_nth by exact L. reflexivity.
Qed.

Lemma inner_length : forall e l, length (inner e l) = length l - e - e.
Proof. intros. unfold inner. rewrite skipn_length, firstn_length. lia. Qed.

Lemma nth_skipn : forall (l : list R) e k, nth k (skipn e l) 0%R = nth (e + k) l 0%R.
Proof. induction l as [|x l IH]; intros [|e] k; cbn; auto. now destruct k. Qed.

Lemma nth_firstn : forall (l : list R) e k, k < e -> nth k (firstn e l) 0%R = nth k l 0%R.
Proof. induction l as [|x l IH]; intros [|e] [|k] H; cbn; auto; try lia. apply IH. lia. Qed.

Lemma nth_inner : forall e l i, e + i < length l - e -> nth i (inner e l) 0%R = nth (e + i) l 0%R.
Proof. intros. unfold inner. rewrite nth_skipn, nth_firstn by lia. reflexivity. Qed.

(** What is computed, for at least 11 values: a convolution with the data continued by reflection, taken one
    place too early, and one more if the number of values is even. *)
Theorem C90_formula : forall sigma v data, length data = length v -> 11 <= length v ->
  exists out, convolved_column sigma v data = Ok out /\ length out = length v /\
    forall i, i < length v ->
      nth i out 0%R = full_at (extended 10 data) (weights sigma v) (i + 10 + (length v - 1) / 2).
Proof.
  intros sigma v data E L. unfold convolved_column, convolve.
  pose proof (extended_length (length v) data E L) as LE.
  assert (LS : length (same (extended 10 data) (weights sigma v)) = length v + 20)
    by (rewrite same_length, weights_length, LE; lia).
  assert (LI : length (inner 10 (same (extended 10 data) (weights sigma v))) = length v) by (rewrite inner_length; lia).
  unfold assign. rewrite LI, E, Nat.eqb_refl. eexists. split; [reflexivity|]. split; [exact LI|].
  intros i Li. rewrite nth_inner by lia. rewrite nth_same by (rewrite weights_length, LE; lia).
  rewrite LE, weights_length. f_equal. rewrite Nat.min_r by lia. lia.
Qed.

Lemma rsum_single : forall (f : nat -> R) l p, NoDup l -> (forall m, m <> p -> f m = 0%R) ->
  rsum (map f l) = if existsb (Nat.eqb p) l then f p else 0%R.
Proof.
  intros f l p N Z. induction l as [|m t IH]; [reflexivity|]. inversion N; subst. cbn [map rsum fold_right existsb].
  change (fold_right Rplus 0%R (map f t)) with (rsum (map f t)). rewrite IH by assumption.
  destruct (Nat.eqb_spec p m) as [->|Ne]; cbn [orb].
  - assert (existsb (Nat.eqb m) t = false).
    { apply not_true_is_false. intro H. apply existsb_exists in H. destruct H as [x [I Ex]]. apply Nat.eqb_eq in Ex. now subst. }
    rewrite H. apply Rplus_0_r.
  - rewrite (Z m) by congruence. apply Rplus_0_l.
Qed.

Lemma nth_impulse : forall n j i, nth i (impulse n j) 0%R = if Nat.eqb i j then (if i <? n then 1 else 0)%R else 0%R.
Proof.
  intros n j i. unfold impulse. destruct (Nat.ltb_spec i n) as [L|L].
  - set (f := fun i => if Nat.eqb i j then 1%R else 0%R).
    rewrite (nth_indep _ 0%R (f 0)) by (rewrite map_length, seq_length; exact L). rewrite map_nth, seq_nth by exact L. reflexivity.
  - rewrite nth_overflow by (rewrite map_length, seq_length; exact L). now destruct (Nat.eqb i j).
Qed.

Lemma impulse_length : forall n j, length (impulse n j) = n.
Proof. intros. unfold impulse. now rewrite map_length, seq_length. Qed.

Lemma nth_rev_R : forall (l : list R) k, k < length l -> nth k (rev l) 0%R = nth (length l - S k) l 0%R.
Proof. intros. now apply rev_nth. Qed.

Lemma nth_extended_impulse : forall n j k, 11 <= j -> j + 9 < n ->
  nth k (extended 10 (impulse n j)) 0%R = if Nat.eqb k (j + 11) then 1%R else 0%R.
Proof.
  intros n j k J L. unfold extended.
  assert (L1 : length (rev (firstn 11 (impulse n j))) = 11) by (rewrite rev_length, firstn_length, impulse_length; lia).
  destruct (Nat.lt_ge_cases k 11) as [A|A].
  - rewrite app_nth1 by lia. rewrite nth_rev_R by (rewrite firstn_length, impulse_length; lia).
    rewrite firstn_length, impulse_length, Nat.min_l by lia. rewrite nth_firstn by lia. rewrite nth_impulse.
    replace (Nat.eqb (11 - S k) j) with false by (symmetry; apply Nat.eqb_neq; lia).
    replace (Nat.eqb k (j + 11)) with false by (symmetry; apply Nat.eqb_neq; lia). reflexivity.
  - rewrite app_nth2 by lia. rewrite L1. destruct (Nat.lt_ge_cases (k - 11) n) as [B|B].
    + rewrite app_nth1 by (rewrite impulse_length; exact B). rewrite nth_impulse.
      replace (k - 11 <? n) with true by (symmetry; apply Nat.ltb_lt; exact B).
      destruct (Nat.eqb_spec (k - 11) j) as [C|C]; destruct (Nat.eqb_spec k (j + 11)) as [C'|C']; try reflexivity; lia.
    + replace (Nat.eqb k (j + 11)) with false by (symmetry; apply Nat.eqb_neq; lia).
      rewrite app_nth2 by (rewrite impulse_length; exact B). rewrite impulse_length.
      destruct (Nat.lt_ge_cases (k - 11 - n) 9) as [C|C].
      * rewrite nth_firstn by exact C. rewrite nth_rev_R by (rewrite impulse_length; lia). rewrite impulse_length, nth_impulse.
        replace (Nat.eqb (n - S (k - 11 - n)) j) with false by (symmetry; apply Nat.eqb_neq; lia). reflexivity.
      * apply nth_overflow. rewrite firstn_length, rev_length, impulse_length. lia.
Qed.

Lemma gauss_pos : forall s v0 v, (0 < gauss s v0 v)%R.
Proof. intros. apply exp_pos. Qed.

Lemma rsum_pos : forall l, l <> [] -> Forall (fun x => (0 < x)%R) l -> (0 < rsum l)%R.
Proof.
  intros l N F. destruct l as [|x t]; [contradiction|]. clear N. revert x F. induction t as [|y t IH]; intros x F; inversion F; subst; cbn.
  - lra.
  - specialize (IH y H2). cbn in IH. lra.
Qed.

Lemma nth_weights : forall s v m, m < length v ->
  nth m (weights s v) 0%R = (gauss s (nth (length v / 2) v 0) (nth m v 0) / rsum (raw_weights s v))%R.
Proof.
  intros s v m L. unfold weights. set (g := fun x => (x / rsum (raw_weights s v))%R).
  rewrite (nth_indep _ 0%R (g 0%R)) by (rewrite map_length; unfold raw_weights; now rewrite map_length). rewrite map_nth. unfold g. f_equal.
  unfold raw_weights. rewrite (nth_indep _ 0%R (gauss s (nth (length v / 2) v 0%R) 0%R)) by now rewrite map_length. now rewrite map_nth.
Qed.

Lemma weights_sum_pos : forall s v, v <> [] -> (0 < rsum (raw_weights s v))%R.
Proof.
  intros s v N. apply rsum_pos.
  - unfold raw_weights. intro H. apply map_eq_nil in H. contradiction.
  - unfold raw_weights. apply Forall_forall. intros x H. apply in_map_iff in H. destruct H as [y [<- _]]. apply gauss_pos.
Qed.

Lemma weights_peak : forall s v m, s <> 0%R -> NoDup v -> m < length v -> m <> length v / 2 ->
  (0 < nth m (weights s v) 0 < nth (length v / 2) (weights s v) 0)%R.
Proof.
  intros s v m S N L Ne.
  assert (LC : length v / 2 < length v) by (apply Nat.div_lt; lia).
  assert (P : (0 < rsum (raw_weights s v))%R) by (apply weights_sum_pos; intros ->; cbn in L; lia).
  rewrite !nth_weights by assumption. set (t := rsum (raw_weights s v)) in *.
  assert (D : (nth m v 0 - nth (length v / 2) v 0 <> 0)%R).
  { intro Z. apply Ne. apply (proj1 (NoDup_nth v 0%R) N); auto. lra. }
  set (d := (nth m v 0 - nth (length v / 2) v 0)%R) in *.
  assert (G : (gauss s (nth (length v / 2) v 0) (nth m v 0) < gauss s (nth (length v / 2) v 0) (nth (length v / 2) v 0))%R).
  { unfold gauss. apply exp_increasing. fold d.
    replace (nth (length v / 2) v 0 - nth (length v / 2) v 0)%R with 0%R by ring.
    assert (Q : (0 < (d / s) ^ 2)%R).
    { rewrite <- Rsqr_pow2. apply Rsqr_pos_lt. unfold Rdiv. apply Rmult_integral_contrapositive_currified; [exact D|now apply Rinv_neq_0_compat]. }
    replace ((0 / s) ^ 2)%R with 0%R by (field; exact S). lra. }
  pose proof (gauss_pos s (nth (length v / 2) v 0%R) (nth m v 0%R)).
  split; [now apply Rdiv_lt_0_compat|]. unfold Rdiv. apply Rmult_lt_compat_r; [now apply Rinv_0_lt_compat|exact G].
Qed.

(** Where the peak really goes: one place further for an odd number of values, two for an even number. *)
Theorem C90_shift : forall sigma v j out, sigma <> 0%R -> NoDup v -> 11 <= j -> j + 9 < length v ->
  convolved_column sigma v (impulse (length v) j) = Ok out ->
  peak_at out (j + 1 + (length v / 2 - (length v - 1) / 2)).
Proof.
  intros sigma v j out S N J L H.
  destruct (C90_formula sigma v (impulse (length v) j) (impulse_length _ _) ltac:(lia)) as (out' & E & LO & F).
  rewrite H in E. injection E as <-.
  set (n := length v) in *. set (c := (n - 1) / 2) in *.
  assert (HC : n / 2 <= c + 1 /\ c <= n / 2).
  { unfold c. split.
    - assert (n / 2 <= (n + 1) / 2) by (apply Nat.div_le_mono; lia).
      replace (n + 1) with ((n - 1) + 1 * 2) in H0 by lia. rewrite Nat.div_add in H0 by lia. lia.
    - apply Nat.div_le_mono; lia. }
  assert (LC : n / 2 < n) by (apply Nat.div_lt; lia).
  (* the value at i is one weight, or 0 *)
  assert (V : forall i, i < n -> nth i out 0%R = if (j + 1 <=? i + c) && (i + c - (j + 1) <? n) then nth (i + c - (j + 1)) (weights sigma v) 0%R else 0%R).
  { intros i Li. rewrite (F i Li). unfold full_at. rewrite weights_length. fold n.
    set (p := i + c - (j + 1)).
    set (f := fun m => (nth m (weights sigma v) 0 * (if (m <=? i + 10 + c)%nat then nth (i + 10 + c - m) (extended 10 (impulse n j)) 0 else 0))%R).
    assert (Z : forall m, f m = if (j + 1 <=? i + c) && Nat.eqb m p then nth m (weights sigma v) 0%R else 0%R).
    { intros m. unfold f. destruct (Nat.leb_spec m (i + 10 + c)) as [A|A].
      - rewrite nth_extended_impulse by assumption.
        destruct (Nat.eqb_spec (i + 10 + c - m) (j + 11)) as [B|B].
        + replace (j + 1 <=? i + c) with true by (symmetry; apply Nat.leb_le; lia).
          replace (Nat.eqb m p) with true by (symmetry; apply Nat.eqb_eq; unfold p; lia). cbn. ring.
        + destruct (Nat.leb_spec (j + 1) (i + c)) as [B'|B']; cbn [andb]; [|ring].
          replace (Nat.eqb m p) with false by (symmetry; apply Nat.eqb_neq; unfold p; lia). ring.
      - destruct (Nat.leb_spec (j + 1) (i + c)) as [B'|B']; cbn [andb]; [|ring].
        replace (Nat.eqb m p) with false by (symmetry; apply Nat.eqb_neq; unfold p; lia). ring. }
    rewrite (rsum_single f (seq 0 n) p (seq_NoDup _ _)).
    2: { intros m Nm. rewrite Z. replace (Nat.eqb m p) with false by (symmetry; now apply Nat.eqb_neq). now rewrite andb_false_r. }
    rewrite Z, Nat.eqb_refl, andb_true_r.
    destruct (Nat.ltb_spec p n) as [B|B].
    - replace (existsb (Nat.eqb p) (seq 0 n)) with true; [now rewrite andb_true_r|].
      symmetry. apply existsb_exists. exists p. split; [apply in_seq; lia|apply Nat.eqb_refl].
    - rewrite andb_false_r. replace (existsb (Nat.eqb p) (seq 0 n)) with false; [reflexivity|].
      symmetry. apply not_true_is_false. intro T. apply existsb_exists in T. destruct T as [q [I T]]. apply Nat.eqb_eq in T. apply in_seq in I. lia. }
  set (q := j + 1 + (n / 2 - c)).
  assert (Lq : q < n) by (unfold q; lia).
  assert (Vq : nth q out 0%R = nth (n / 2) (weights sigma v) 0%R).
  { rewrite (V q Lq). replace (q + c - (j + 1)) with (n / 2) by (unfold q; lia).
    replace (j + 1 <=? q + c) with true by (symmetry; apply Nat.leb_le; unfold q; lia).
    replace (n / 2 <? n) with true by (symmetry; apply Nat.ltb_lt; exact LC). reflexivity. }
  split; [rewrite LO; exact Lq|]. rewrite LO. intros i Li Ni. rewrite Vq, (V i Li).
  assert (Pos : (0 < nth (n / 2) (weights sigma v) 0)%R).
  { unfold n in *. rewrite nth_weights by exact LC. apply Rdiv_lt_0_compat; [apply gauss_pos|].
    apply weights_sum_pos. intros ->. cbn in L. lia. }
  destruct (Nat.leb_spec (j + 1) (i + c)) as [A|A]; cbn [andb]; [|exact Pos].
  destruct (Nat.ltb_spec (i + c - (j + 1)) n) as [B|B]; [|exact Pos].
  apply weights_peak; auto. fold n. unfold q in Ni. lia.
Qed.

Theorem C90_refuted : ~ C90_claim.
Proof.
  intro H. set (v := map INR (seq 0 21)).
  assert (LV : length v = 21) by (unfold v; now rewrite map_length, seq_length).
  assert (NV : NoDup v) by (apply FinFun.Injective_map_NoDup; [intros a b E; now apply INR_eq|apply seq_NoDup]).
  destruct (C90_formula 1 v (impulse (length v) 11) (impulse_length _ _) ltac:(lia)) as (out & E & LO & _).
  assert (S1 : (1 <> 0)%R) by lra.
  assert (B : 11 + 9 < length v) by lia.
  pose proof (H 1%R v 11 out S1 NV ltac:(lia) B E) as [P1 Q1].
  pose proof (C90_shift 1%R v 11 out S1 NV ltac:(lia) B E) as [P2 Q2].
  rewrite LV in P2, Q2. replace (11 + 1 + (21 / 2 - (21 - 1) / 2)) with 12 in P2, Q2 by reflexivity.
  pose proof (Q1 12 P2 ltac:(lia)). pose proof (Q2 11 P1 ltac:(lia)). lra.
Qed.

(** The weights are positive and add up to one. *)
Theorem C90_weights : forall sigma v, v <> [] ->
  rsum (weights sigma v) = 1%R /\ Forall (fun w => (0 < w)%R) (weights sigma v).
Proof.
  intros sigma v N. pose proof (weights_sum_pos sigma v N) as P. unfold weights. split.
  - assert (G : forall l t, t <> 0%R -> rsum (map (fun x => (x / t)%R) l) = (rsum l / t)%R).
    { intros l t T. induction l as [|x l IH]; cbn; [field; exact T|]. change (fold_right Rplus 0%R) with rsum. rewrite IH. field. exact T. }
    rewrite G by lra. field. lra.
  - apply Forall_forall. intros w H. apply in_map_iff in H. destruct H as [g [<- I]].
    unfold raw_weights in I. apply in_map_iff in I. destruct I as [y [<- _]]. apply Rdiv_lt_0_compat; [apply gauss_pos|exact P].
Qed.

(** Fewer than 11 values: an exception, except for 7, where all values are replaced by a single number. *)
Theorem C90_short : forall sigma v data, length data = length v -> length v < 11 ->
  (length v <> 7 -> length v <> 0 -> convolved_column sigma v data = Throw) /\
  (length v = 7 -> exists r, convolved_column sigma v data = Ok (repeat r 7)).
Proof.
  intros sigma v data E L. unfold convolved_column, convolve, assign.
  assert (LI : length (inner 10 (same (extended 10 data) (weights sigma v)))
     = Nat.max (Nat.min 11 (length v) + (length v + Nat.min 9 (length v))) (length v) - 10 - 10).
  { rewrite inner_length, same_length, weights_length. unfold extended. rewrite !app_length, rev_length, !firstn_length, rev_length, E. reflexivity. }
  rewrite LI, E. split.
  - intros N7 N0.
    replace (Nat.eqb _ (length v)) with false by (symmetry; apply Nat.eqb_neq; lia).
    replace (Nat.eqb _ 1) with false by (symmetry; apply Nat.eqb_neq; lia). reflexivity.
  - intros ->. cbn. eexists. reflexivity.
Qed.
