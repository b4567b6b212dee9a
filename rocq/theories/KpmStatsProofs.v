(* What the counting loops count, and how it compares with the reported numbers. *)
From Verif Require Import Base Scalar Kpm KpmSpec KpmMoments KpmLoops KpmEll KpmCore KpmFinal KpmStats.

Definition borders_ok (sm : slice_map) (N : nat) : Prop :=
  sm_data sm <> []
  /\ (forall k, S k < length (sm_data sm) -> nth k (sm_data sm) 0 < nth (S k) (sm_data sm) 0)
  /\ nth (length (sm_data sm) - 1) (sm_data sm) 0 = N.

Section Counting.
  Variable per_row : nat -> nat.
  Variable N : nat.
  Variable sm : slice_map.
  Hypothesis Hb : borders_ok sm N.
  Local Notation data := (sm_data sm).
  Local Notation len := (length (sm_data sm)).
  Local Notation kr := (counter per_row N).
  Local Notation W := (work per_row 0).
  Local Notation D := (KpmLoops.D sm).

  Lemma work_split : forall s e, s <= e -> W s + work per_row s e = W e.
  Proof.
    intros s e H. unfold work. rewrite <- list_sum_app, <- map_app.
    replace (e - 0) with ((s - 0) + (e - s)) by lia. rewrite seq_app. replace (0 + (s - 0)) with s by lia. reflexivity.
  Qed.
  Lemma W_mono : forall a b, a <= b -> W a <= W b.
  Proof. intros a b H. pose proof (work_split a b H). lia. Qed.

  Lemma Dmono1 : forall d k, k + d < len -> nth k data 0 <= nth (k + d) data 0.
  Proof.
    induction d as [|d IH]; intros k H; [rewrite Nat.add_0_r; lia|].
    destruct Hb as (_ & Hi & _). specialize (IH k ltac:(lia)). specialize (Hi (k + d)%nat ltac:(lia)).
    replace (k + S d)%nat with (S (k + d)) by lia. lia.
  Qed.
  Lemma data_le : forall a b, a <= b -> b < len -> nth a data 0 <= nth b data 0.
  Proof. intros a b H1 H2. replace b with (a + (b - a)) by lia. apply Dmono1. lia. Qed.
  Lemma data_N : forall a, a < len -> nth a data 0 <= N.
  Proof. intros a H. rewrite <- (proj2 (proj2 Hb)). apply data_le; lia. Qed.
  Lemma Dm : forall a b, a <= b -> b <= len -> D a <= D b.
  Proof. intros [|a] [|b] H1 H2; cbn; try lia. apply data_le; lia. Qed.

  Lemma slice_at_nth : forall k, k < len -> slice_at sm (Z.of_nat k) = Ok (nth k data 0).
  Proof.
    intros k H. unfold slice_at. destruct (Z.ltb_spec (Z.of_nat k) 0); [lia|]. rewrite Nat2Z.id. unfold aget.
    rewrite (nth_error_nth' data 0 H). reflexivity.
  Qed.

  (** One pass of the interleaved loops. *)
  Lemma inner_diag_count : forall a b r0 r1, a <= S b -> a < len -> b < len ->
    exists r0' r1' m3 m2 m5, inner_diag zscalar kr sm (Z.of_nat a) (Z.of_nat b) r0 r1
       = Ok (r0', r1', (m2, m3), (now r1', m5))
    /\ now r1' = (now r1 + Z.of_nat (W (nth a data 0%nat)) + Z.of_nat (W (nth b data 0%nat)))%Z.
  Proof.
    intros a b r0 r1 H1 H2 H3. unfold inner_diag.
    replace (Z.to_nat (Z.of_nat a + 1)) with (a + 1) by lia. rewrite seq_app, ofold_app.
    set (F := fun (s : list zscalar * list zscalar * (zscalar * zscalar) * (zscalar * zscalar) * nat * nat) (k : nat) => _).
    assert (G : forall K, K <= a -> exists r0' r1' m2 m3 m4 m5,
      ofold F (seq 0 K) (r0, r1, (k0, k0), (k0, k0), 0, 0) = Ok (r0', r1', (m2, m3), (m4, m5), D K, D (K - 1))
      /\ now r1' = (now r1 + Z.of_nat (W (D K)) + Z.of_nat (W (D (K - 1)%nat)))%Z).
    { induction K as [|K IH]; intros HK.
      - exists r0, r1, k0, k0, k0, k0. split; [reflexivity|]. cbn. lia.
      - destruct IH as (x0 & x1 & m2 & m3 & m4 & m5 & E & En); [lia|].
        rewrite seq_S, ofold_app, E. cbn [obind ofold seq plus].
        unfold F at 1. cbn [plus]. rewrite slice_at_nth by lia. cbn [obind].
        destruct (Z.eqb_spec (Z.of_nat K) (Z.of_nat a)); [lia|]. cbn [obind kr_diag counter].
        exists [counted per_row x1 (D K) (nth K data 0)],
               [counted per_row [counted per_row x1 (D K) (nth K data 0)] (D (K - 1)) (D K)].
        do 4 eexists. split.
        + replace (S K - 1) with K by lia. reflexivity.
        + replace (S K - 1) with K by lia. unfold counted. cbn [now hd]. change (hd 0%Z x1) with (now x1). rewrite En.
          pose proof (work_split (D K) (D (S K)) ltac:(apply Dm; lia)) as Q1.
          pose proof (work_split (D (K - 1)) (D K) ltac:(apply Dm; lia)) as Q2. cbn [KpmLoops.D] in Q1 |- *. lia. }
    destruct (G a (le_n _)) as (x0 & x1 & m2 & m3 & m4 & m5 & E & En). rewrite E. cbn [obind ofold seq plus].
    unfold F at 1. rewrite slice_at_nth by lia. cbn [obind]. rewrite Z.eqb_refl, slice_at_nth by lia. cbn [obind kr_diag counter omap].
    exists [counted per_row x1 (D a) (nth a data 0)],
       [counted per_row [counted per_row x1 (D a) (nth a data 0)] (D (a - 1)) (nth b data 0)]. do 3 eexists. split; [reflexivity|]. unfold counted. cbn [now hd]. change (hd 0%Z x1) with (now x1). rewrite En.
    pose proof (work_split (D a) (D (S a)) ltac:(apply Dm; lia)) as Q1.
    pose proof (work_split (D (a - 1)) (D (S b)) ltac:(apply Dm; lia)) as Q2. cbn [KpmLoops.D] in *. lia.
  Qed.

  Lemma inner_off_count : forall a b r0 r1, a <= S b -> a < len -> b < len ->
    exists r0' r1', inner_off zscalar kr sm (Z.of_nat a) (Z.of_nat b) r0 r1 = Ok (r0', r1')
    /\ now r1' = (now r1 + Z.of_nat (W (nth a data 0%nat)) + Z.of_nat (W (nth b data 0%nat)))%Z.
  Proof.
    intros a b r0 r1 H1 H2 H3. unfold inner_off.
    replace (Z.to_nat (Z.of_nat a + 1)) with (a + 1) by lia. rewrite seq_app, ofold_app.
    set (F := fun (s : list zscalar * list zscalar * nat * nat) (k : nat) => _).
    assert (G : forall K, K <= a -> exists r0' r1',
      ofold F (seq 0 K) (r0, r1, 0, 0) = Ok (r0', r1', D K, D (K - 1))
      /\ now r1' = (now r1 + Z.of_nat (W (D K)) + Z.of_nat (W (D (K - 1)%nat)))%Z).
    { induction K as [|K IH]; intros HK.
      - exists r0, r1. split; [reflexivity|]. cbn. lia.
      - destruct IH as (x0 & x1 & E & En); [lia|].
        rewrite seq_S, ofold_app, E. cbn [obind ofold seq plus].
        unfold F at 1. cbn [plus]. rewrite slice_at_nth by lia. cbn [obind].
        destruct (Z.eqb_spec (Z.of_nat K) (Z.of_nat a)); [lia|]. cbn [obind kr_spmv counter].
        exists [counted per_row x1 (D K) (nth K data 0)],
               [counted per_row [counted per_row x1 (D K) (nth K data 0)] (D (K - 1)) (D K)]. split.
        + replace (S K - 1) with K by lia. reflexivity.
        + replace (S K - 1) with K by lia. unfold counted. cbn [now hd]. change (hd 0%Z x1) with (now x1). rewrite En.
          pose proof (work_split (D K) (D (S K)) ltac:(apply Dm; lia)) as Q1.
          pose proof (work_split (D (K - 1)) (D K) ltac:(apply Dm; lia)) as Q2. cbn [KpmLoops.D] in Q1 |- *. lia. }
    destruct (G a (le_n _)) as (x0 & x1 & E & En). rewrite E. cbn [obind ofold seq plus].
    unfold F at 1. rewrite slice_at_nth by lia. cbn [obind]. rewrite Z.eqb_refl, slice_at_nth by lia. cbn [obind kr_spmv counter omap].
    do 2 eexists. split; [reflexivity|]. unfold counted. cbn [now hd]. change (hd 0%Z x1) with (now x1). rewrite En.
    pose proof (work_split (D a) (D (S a)) ltac:(apply Dm; lia)) as Q1.
    pose proof (work_split (D (a - 1)) (D (S b)) ltac:(apply Dm; lia)) as Q2. cbn [KpmLoops.D] in *. lia.
  Qed.

  Section Steps.
    Variable opt : bool.

    (** Rows of step [n]. *)
    Definition slice_no (n num : nat) : nat :=
      if opt then Z.to_nat (slice_index sm (Z.of_nat n) (Z.of_nat num)) else len - 1.
    Definition rows_of (n num : nat) : nat := nth (slice_no n num) data 0.

    Lemma len_pos : 0 < len.
    Proof. destruct Hb as (H & _). destruct data; [congruence|cbn; lia]. Qed.

    Lemma slice_no_lt : forall n num, n < num -> slice_no n num < len.
    Proof.
      intros n num H. unfold slice_no. pose proof len_pos. destruct opt; [|lia].
      pose proof (slice_index_range sm (proj1 Hb) (Z.of_nat n) (Z.of_nat num) ltac:(lia)) as Q. unfold last_index in Q. lia.
    Qed.
    Lemma slice_no_step : forall n num, S n < num -> slice_no n num <= S (slice_no (S n) num).
    Proof.
      intros n num H. unfold slice_no. destruct opt; [|lia].
      pose proof (slice_index_step sm (proj1 Hb) (Z.of_nat n) (Z.of_nat num) ltac:(lia) ltac:(lia)) as Q.
      replace (Z.of_nat n + 1)%Z with (Z.of_nat (S n)) in Q by lia.
      pose proof (slice_index_range sm (proj1 Hb) (Z.of_nat (S n)) (Z.of_nat num) ltac:(lia)). lia.
    Qed.
    Lemma step_max_no : forall n num, n < num -> step_max sm opt n num = Z.of_nat (slice_no n num).
    Proof.
      intros n num H. unfold step_max, slice_no. pose proof len_pos. destruct opt.
      - pose proof (slice_index_range sm (proj1 Hb) (Z.of_nat n) (Z.of_nat num) ltac:(lia)). lia.
      - unfold last_index. lia.
    Qed.
    Lemma step_size_rows : forall n num, n < num -> step_size zscalar kr sm opt n num = Ok (rows_of n num).
    Proof.
      intros n num H. pose proof (slice_no_lt n num H) as L. unfold step_size, rows_of. pose proof (step_max_no n num H) as S0.
      unfold step_max, slice_no in *. destruct opt.
      - rewrite S0 at 1. apply slice_at_nth. auto.
      - cbn [kr_rows counter]. rewrite (proj2 (proj2 Hb)). reflexivity.
    Qed.
    Lemma rows_le : forall n num, n < num -> rows_of n num <= N.
    Proof. intros. apply data_N, slice_no_lt. auto. Qed.

    Definition total (l : list nat) (num : nat) : nat := list_sum (map (fun n => W (rows_of n num)) l).

    Lemma total_app : forall l1 l2 num, total (l1 ++ l2) num = total l1 num + total l2 num.
    Proof. intros. unfold total. rewrite map_app. apply list_sum_app. Qed.

    Lemma total_cons : forall n l num, total (n :: l) num = W (rows_of n num) + total l num.
    Proof. reflexivity. Qed.

    Lemma basic_diag_count : forall num l c r0 r1, (forall n, In n l -> n < num) -> c = now r1 ->
      exists r0' r1', ofold (fun (s : Z * list zscalar * list zscalar) n =>
             match s with (c, r0, r1) =>
               obind (step_size zscalar kr sm opt n num) (fun size =>
               obind (kr_diag kr 0 size r1 r0 k0 k0) (fun res =>
               match res with (r0', m2, m3) => Ok (m2, r1, r0') end))
             end) l (c, r0, r1) = Ok (now r1', r0', r1')
      /\ now r1' = (c + Z.of_nat (total l num))%Z.
    Proof.
      intros num l. induction l as [|n l IH]; intros c r0 r1 H E.
      - exists r0, r1. subst c. split; [reflexivity|]. unfold total. cbn. lia.
      - cbn [ofold obind]. rewrite step_size_rows by (apply H; left; auto). cbn [obind kr_diag counter].
        destruct (IH (counted per_row r1 0 (rows_of n num)) r1 [counted per_row r1 0 (rows_of n num)]) as (x0 & x1 & Ex & En);
          [intros; apply H; right; auto|reflexivity|].
        exists x0, x1. split; [exact Ex|]. rewrite En. unfold counted, total. cbn [map list_sum fold_right]. subst c. fold (total l num). unfold total, list_sum. lia.
    Qed.

    Lemma basic_off_count : forall num l c r0 r1, (forall n, In n l -> n < num) -> c = now r1 ->
      exists r0' r1', ofold (fun (s : Z * list zscalar * list zscalar) n =>
             match s with (c, r0, r1) =>
               obind (step_size zscalar kr sm opt n num) (fun size =>
               obind (kr_spmv kr 0 size r1 r0) (fun r0' => Ok (now r0', r1, r0')))
             end) l (c, r0, r1) = Ok (now r1', r0', r1')
      /\ now r1' = (c + Z.of_nat (total l num))%Z.
    Proof.
      intros num l. induction l as [|n l IH]; intros c r0 r1 H E.
      - exists r0, r1. subst c. split; [reflexivity|]. unfold total. cbn. lia.
      - cbn [ofold obind]. rewrite step_size_rows by (apply H; left; auto). cbn [obind kr_spmv counter].
        destruct (IH (counted per_row r1 0 (rows_of n num)) r1 [counted per_row r1 0 (rows_of n num)]) as (x0 & x1 & Ex & En);
          [intros; apply H; right; auto|reflexivity|].
        exists x0, x1. split; [exact Ex|]. rewrite En. unfold counted, total. cbn [map list_sum fold_right]. subst c. unfold total, list_sum. lia.
    Qed.

    Lemma inter_diag_count : forall num l c r0 r1, (forall n, In n l -> S n < num) -> c = now r1 ->
      exists r0' r1', ofold (fun (s : Z * list zscalar * list zscalar) n =>
             match s with (c, r0, r1) =>
               obind (inner_diag zscalar kr sm (step_max sm opt n num) (step_max sm opt (S n) num) r0 r1) (fun res =>
               match res with (r0', r1', (m2, m3), (m4, m5)) => Ok (m4, r0', r1') end)
             end) l (c, r0, r1) = Ok (now r1', r0', r1')
      /\ now r1' = (c + Z.of_nat (total (flat_map (fun n => [n; S n]) l) num))%Z.
    Proof.
      intros num l. induction l as [|n l IH]; intros c r0 r1 H E.
      - exists r0, r1. subst c. split; [reflexivity|]. unfold total. cbn. lia.
      - pose proof (H n (or_introl eq_refl)) as Hn. cbn [ofold flat_map]. rewrite !step_max_no by lia.
        destruct (inner_diag_count (slice_no n num) (slice_no (S n) num) r0 r1) as (x0 & x1 & m3 & m2 & m5 & Ei & Ni);
          [apply slice_no_step; auto|apply slice_no_lt; lia|apply slice_no_lt; lia|].
        rewrite Ei. cbn [obind].
        destruct (IH (now x1) x0 x1) as (y0 & y1 & Ex & En); [intros; apply H; right; auto|reflexivity|].
        exists y0, y1. split; [exact Ex|]. rewrite En, Ni. cbn [app]. rewrite !total_cons. unfold rows_of. subst c. lia.
    Qed.

    Lemma inter_off_count : forall num l c r0 r1, (forall n, In n l -> S n < num) -> c = now r1 ->
      exists r0' r1', ofold (fun (s : Z * list zscalar * list zscalar) n =>
             match s with (c, r0, r1) =>
               obind (inner_off zscalar kr sm (step_max sm opt n num) (step_max sm opt (S n) num) r0 r1) (fun res =>
               match res with (r0', r1') => Ok (now r1', r0', r1') end)
             end) l (c, r0, r1) = Ok (now r1', r0', r1')
      /\ now r1' = (c + Z.of_nat (total (flat_map (fun n => [n; S n]) l) num))%Z.
    Proof.
      intros num l. induction l as [|n l IH]; intros c r0 r1 H E.
      - exists r0, r1. subst c. split; [reflexivity|]. unfold total. cbn. lia.
      - pose proof (H n (or_introl eq_refl)) as Hn. cbn [ofold flat_map]. rewrite !step_max_no by lia.
        destruct (inner_off_count (slice_no n num) (slice_no (S n) num) r0 r1) as (x0 & x1 & Ei & Ni);
          [apply slice_no_step; auto|apply slice_no_lt; lia|apply slice_no_lt; lia|].
        rewrite Ei. cbn [obind].
        destruct (IH (now x1) x0 x1) as (y0 & y1 & Ex & En); [intros; apply H; right; auto|reflexivity|].
        exists y0, y1. split; [exact Ex|]. rewrite En, Ni. cbn [app]. rewrite !total_cons. unfold rows_of. subst c. lia.
    Qed.
  End Steps.

  (** ** The totals *)
  Lemma count_diag_ok : forall al num, 2 <= num -> (num - 2) mod 4 = 0 ->
    count_diag per_row N sm al num = Ok (Z.of_nat (W N + total (al_size al) (seq 2 (num / 2 - 1)) num)).
  Proof.
    intros al num H2 H4. unfold count_diag. cbn [kr_r1 counter obind].
    assert (Hm : exists h, num = 4 * h + 2) by (exists ((num - 2) / 4); pose proof (Nat.div_mod (num - 2) 4 ltac:(lia)); lia).
    destruct Hm as (h & Hh). assert (Hd : num / 2 = 2 * h + 1) by (subst num; replace (4 * h + 2) with ((2 * h + 1) * 2) by lia; apply Nat.div_mul; lia).
    destruct (al_inter al).
    - unfold interleaved_diag. rewrite Hd. replace (S (2 * h + 1)) with (2 * h + 2) by lia.
      destruct (inter_diag_count (al_size al) num (range_from2 (2 * h + 2) 2) (counted per_row [0%Z] 0 N) [0%Z] [counted per_row [0%Z] 0 N]) as (x0 & x1 & Ex & En);
        [intros n Hn; apply range_2_in in Hn; lia|reflexivity|].
      transitivity (omap (fun s : Z * list zscalar * list zscalar => fst (fst s)) (Ok (now x1, x0, x1))); [apply f_equal; exact Ex|]. cbn [omap obind fst]. rewrite En, range_2. unfold counted. cbn [now hd]. replace (2 * h + 1 - 1) with (2 * h) by lia. f_equal. lia.
    - unfold basic_diag. rewrite range_1, Hd. replace (S (2 * h + 1) - 2) with (2 * h) by lia.
      destruct (basic_diag_count (al_size al) num (seq 2 (2 * h)) (counted per_row [0%Z] 0 N) [0%Z] [counted per_row [0%Z] 0 N]) as (x0 & x1 & Ex & En);
        [intros n Hn; apply in_seq in Hn; lia|reflexivity|].
      transitivity (omap (fun s : Z * list zscalar * list zscalar => fst (fst s)) (Ok (now x1, x0, x1))); [apply f_equal; exact Ex|]. cbn [omap obind fst]. rewrite En. unfold counted. cbn [now hd]. replace (2 * h + 1 - 1) with (2 * h) by lia. f_equal. lia.
  Qed.

  Lemma count_off_ok : forall al num, 2 <= num -> Nat.even num = true ->
    count_off per_row N sm al num = Ok (Z.of_nat (W N + total (al_size al) (seq 2 (num - 2)) num)).
  Proof.
    intros al num H2 He. unfold count_off. cbn [kr_r1 counter obind].
    apply Nat.even_spec in He. destruct He as (h & Hh). destruct h as [|h]; [lia|].
    destruct (al_inter al).
    - unfold interleaved_off. replace (range_from2 num 2) with (range_from2 (2 * h + 2) 2) by (f_equal; lia).
      destruct (inter_off_count (al_size al) num (range_from2 (2 * h + 2) 2) (counted per_row [0%Z] 0 N) [0%Z] [counted per_row [0%Z] 0 N]) as (x0 & x1 & Ex & En);
        [intros n Hn; apply range_2_in in Hn; lia|reflexivity|].
      transitivity (omap (fun s : Z * list zscalar * list zscalar => fst (fst s)) (Ok (now x1, x0, x1))); [apply f_equal; exact Ex|]. cbn [omap obind fst]. rewrite En, range_2. unfold counted. cbn [now hd]. replace (num - 2) with (2 * h) by lia. f_equal. lia.
    - unfold basic_off. rewrite range_1.
      destruct (basic_off_count (al_size al) num (seq 2 (num - 2)) (counted per_row [0%Z] 0 N) [0%Z] [counted per_row [0%Z] 0 N]) as (x0 & x1 & Ex & En);
        [intros n Hn; apply in_seq in Hn; lia|reflexivity|].
      transitivity (omap (fun s : Z * list zscalar * list zscalar => fst (fst s)) (Ok (now x1, x0, x1))); [apply f_equal; exact Ex|]. cbn [omap obind fst]. rewrite En. unfold counted. cbn [now hd]. f_equal. lia.
  Qed.

  (** ** Sizes of the steps of an optimised calculation *)
  Lemma rows_plain : forall n num, rows_of false n num = N.
  Proof. intros. unfold rows_of, slice_no. apply (proj2 (proj2 Hb)). Qed.
  Lemma total_plain : forall l num, total false l num = length l * W N.
  Proof. induction l as [|n l IH]; intros num; [reflexivity|]. rewrite total_cons, IH, rows_plain. cbn [length]. lia. Qed.

  (** Same source and destination: the sizes of the first half are those of the second half,
      read backwards. *)
  Lemma slice_mirror : forall n h, sm_src sm = sm_dest sm -> n < h ->
    slice_no true n (2 * h) = slice_no true (2 * h - 1 - n) (2 * h).
  Proof.
    intros n h E H. unfold slice_no, slice_index. rewrite E. set (d := Z.of_nat (sm_dest sm)).
    replace (Z.of_nat (2 * h) - 1 + d - d)%Z with (2 * (Z.of_nat h - 1) + 1)%Z by lia.
    assert (Q : Z.quot (2 * (Z.of_nat h - 1) + 1) 2 = (Z.of_nat h - 1)%Z).
    { rewrite Z.quot_div_nonneg by lia. symmetry. apply Z.div_unique with (r := 1%Z); lia. }
    rewrite Q. assert (0 <= d)%Z by (unfold d; lia). set (L := last_index sm). clearbody L d. f_equal.
    destruct (Z.ltb_spec (Z.of_nat n) (Z.of_nat h - 1)), (Z.ltb_spec (Z.of_nat (2 * h - 1 - n)) (Z.of_nat h - 1)); lia.
  Qed.
  Lemma slice_grows : forall n h, sm_src sm = sm_dest sm -> n < h -> slice_no true 0 (2 * h) <= slice_no true n (2 * h).
  Proof.
    intros n h E H. unfold slice_no, slice_index. rewrite E. set (d := Z.of_nat (sm_dest sm)).
    replace (Z.of_nat (2 * h) - 1 + d - d)%Z with (2 * (Z.of_nat h - 1) + 1)%Z by lia.
    assert (Q : Z.quot (2 * (Z.of_nat h - 1) + 1) 2 = (Z.of_nat h - 1)%Z).
    { rewrite Z.quot_div_nonneg by lia. symmetry. apply Z.div_unique with (r := 1%Z); lia. }
    rewrite Q. assert (0 <= d)%Z by (unfold d; lia). set (L := last_index sm). clearbody L d.
    destruct (Z.ltb_spec (Z.of_nat n) (Z.of_nat h - 1)), (Z.ltb_spec (Z.of_nat 0) (Z.of_nat h - 1)); lia.
  Qed.

  Lemma total_ext : forall opt l l' num, map (fun n => slice_no opt n num) l = map (fun n => slice_no opt n num) l' -> total opt l num = total opt l' num.
  Proof.
    intros opt l l' num H. unfold total, rows_of.
    rewrite <- (map_map (fun n => slice_no opt n num) (fun k => W (nth k data 0))), H, map_map. reflexivity.
  Qed.
  Lemma total_rev : forall opt l num, total opt (rev l) num = total opt l num.
  Proof.
    intros opt l num. induction l as [|n l IH]; [reflexivity|]. cbn [rev]. rewrite total_app, IH, !total_cons. unfold total at 2. cbn. lia.
  Qed.
  Lemma rev_seq_map : forall h a, rev (seq a h) = map (fun n => 2 * a + h - 1 - n) (seq a h).
  Proof.
    induction h as [|h IH]; intros a; [reflexivity|].
    rewrite seq_S at 1. rewrite rev_app_distr. cbn [rev app seq map]. f_equal; [lia|].
    rewrite IH, <- seq_shift, map_map. apply map_ext_in. intros n Hn. apply in_seq in Hn. lia.
  Qed.

  Lemma seq_plus : forall k n a, seq (a + k) n = map (fun x => x + k) (seq a n).
  Proof. induction n as [|n IH]; intros a; [reflexivity|]. cbn [seq map]. f_equal. apply (IH (S a)). Qed.

  Lemma total_twice : forall h, sm_src sm = sm_dest sm -> total true (seq 0 (2 * h)) (2 * h) = 2 * total true (seq 0 h) (2 * h).
  Proof.
    intros h E. replace (2 * h) with (h + h) at 1 by lia. rewrite seq_app, total_app.
    assert (X : total true (seq (0 + h) h) (2 * h) = total true (seq 0 h) (2 * h)).
    { rewrite <- (total_rev true (seq 0 h)), rev_seq_map. apply total_ext. rewrite seq_plus, !map_map. apply map_ext_in.
      intros n Hn. apply in_seq in Hn. rewrite (slice_mirror (2 * 0 + h - 1 - n) h E) by lia. f_equal. lia. }
    lia.
  Qed.

  Lemma total_le : forall l num, (forall n, In n l -> n < num) -> total true l num <= length l * W N.
  Proof.
    induction l as [|n l IH]; intros num H; [cbn; lia|]. rewrite total_cons. cbn [length].
    pose proof (IH num (fun k Hk => H k (or_intror Hk))). pose proof (W_mono _ _ (rows_le true n num (H n (or_introl eq_refl)))). lia.
  Qed.

  (** Work of a diagonal calculation against half the sum over all moments. *)
  Lemma diag_against : forall h, 1 <= h -> sm_src sm = sm_dest sm ->
    let num := 2 * h in let half_sum := total true (seq 0 h) num in let done := W N + total true (seq 2 (h - 1)) num in
    half_sum <= done <= half_sum + 2 * W N.
  Proof.
    intros h Hh E num half_sum done.
    assert (Hl : forall n, n < num -> W (rows_of true n num) <= W N) by (intros; apply W_mono, rows_le; auto).
    assert (H0 : W (rows_of true 0 num) <= W (rows_of true h num)).
    { apply W_mono. unfold rows_of. apply data_le; [|apply slice_no_lt; unfold num; lia].
      unfold num. destruct (Nat.eq_dec h 1) as [->|].
      - rewrite (slice_mirror 0 1 E) by lia. reflexivity.
      - transitivity (slice_no true (h - 1) (2 * h)); [apply slice_grows; auto; lia|].
        rewrite (slice_mirror (h - 1) h E) by lia. replace (2 * h - 1 - (h - 1)) with h by lia. lia. }
    pose proof (Hl 0 ltac:(unfold num; lia)). pose proof (Hl h ltac:(unfold num; lia)). pose proof (Hl 1 ltac:(unfold num; lia)).
    assert (S0 : total true (seq 0 (S h)) num = half_sum + W (rows_of true h num)).
    { rewrite seq_S, total_app. unfold half_sum. cbn [plus]. rewrite (total_cons true h []). change (total true [] num) with 0. lia. }
    assert (S1 : total true (seq 0 (S h)) num = W (rows_of true 0 num) + (W (rows_of true 1 num) + total true (seq 2 (h - 1)) num)).
    { destruct h as [|h']; [lia|]. cbn [seq]. rewrite !total_cons. replace (S h' - 1) with h' by lia. reflexivity. }
    unfold done. lia.
  Qed.

  Lemma off_against : forall num, 2 <= num ->
    W (rows_of true 0 num) + W (rows_of true 1 num) + (W N + total true (seq 2 (num - 2)) num) = total true (seq 0 num) num + W N.
  Proof.
    intros num H. destruct num as [|[|k]]; try lia. cbn [seq]. rewrite !total_cons. replace (S (S k) - 2) with k by lia. lia.
  Qed.

  (** The step that covers everything. *)
  Lemma rows_full : forall n num, n < num -> (rows_of true n num = N <-> slice_index sm (Z.of_nat n) (Z.of_nat num) = last_index sm).
  Proof.
    intros n num H. pose proof (slice_no_lt true n num H) as L.
    pose proof (slice_index_range sm (proj1 Hb) (Z.of_nat n) (Z.of_nat num) ltac:(lia)) as Q.
    unfold rows_of, slice_no in *. unfold last_index in *. split; intros E.
    - destruct (Nat.eq_dec (Z.to_nat (slice_index sm (Z.of_nat n) (Z.of_nat num))) (len - 1)) as [X|X]; [lia|exfalso].
      set (k := Z.to_nat _) in *. destruct Hb as (_ & Hi & Hn). specialize (Hi k ltac:(lia)).
      pose proof (data_le (S k) (len - 1) ltac:(lia) ltac:(lia)). lia.
    - rewrite E. replace (Z.to_nat (Z.of_nat len - 1)) with (len - 1) by lia. apply (proj2 (proj2 Hb)).
  Qed.

  Lemma full_sound : forall num, uses_full_system sm num = true -> exists n, n < num /\ rows_of true n num = N.
  Proof.
    intros num H. unfold uses_full_system in H. apply Nat.ltb_lt in H. pose proof len_pos as Hp.
    pose proof (Nat.div_mod num 2 ltac:(lia)) as Dm2. pose proof (Nat.mod_upper_bound num 2 ltac:(lia)).
    set (s := Z.of_nat (sm_src sm)). set (d := Z.of_nat (sm_dest sm)). set (mid := Z.quot (Z.of_nat num - 1 + d - s) 2).
    assert (Hq : (0 <= Z.of_nat num - 1 + d - s -> 2 * mid <= Z.of_nat num - 1 + d - s <= 2 * mid + 1)%Z
              /\ (Z.of_nat num - 1 + d - s <= 0 -> 2 * mid - 1 <= Z.of_nat num - 1 + d - s <= 2 * mid)%Z).
    { destruct (quot2 (Z.of_nat num - 1 + d - s)) as (Q1 & Q2). unfold mid.
      split; intros Hx; [rewrite Q1 by auto|rewrite Q2 by auto]; Z.div_mod_to_equations; lia. }
    exists (Z.to_nat (Z.min (Z.max mid 0) (Z.of_nat num - 1))).
    split; [lia|]. apply rows_full; [lia|]. unfold slice_index. fold s d. fold mid. rewrite Z2Nat.id by lia.
    assert (0 <= s)%Z by (unfold s; lia). assert (0 <= d)%Z by (unfold d; lia).
    assert (HL : (0 <= last_index sm /\ 2 * (last_index sm + 1) < Z.of_nat num)%Z) by (unfold last_index; lia).
    set (L := last_index sm) in *. clearbody L mid s d.
    destruct (Z.ltb_spec (Z.min (Z.max mid 0) (Z.of_nat num - 1)) mid); lia.
  Qed.

  Lemma full_diagonal : forall h, 1 <= h -> sm_src sm = sm_dest sm ->
    ((exists n, n < 2 * h /\ rows_of true n (2 * h) = N) <-> len <= h + sm_src sm).
  Proof.
    intros h Hh E. pose proof len_pos as Hp.
    assert (Q : Z.quot (2 * (Z.of_nat h - 1) + 1) 2 = (Z.of_nat h - 1)%Z).
    { rewrite Z.quot_div_nonneg by lia. symmetry. apply Z.div_unique with (r := 1%Z); lia. }
    split.
    - intros (n & Hn & Hr). apply rows_full in Hr; [|auto]. unfold slice_index in Hr. rewrite E in Hr.
      replace (Z.of_nat (2 * h) - 1 + Z.of_nat (sm_dest sm) - Z.of_nat (sm_dest sm))%Z with (2 * (Z.of_nat h - 1) + 1)%Z in Hr by lia.
      rewrite Q in Hr. unfold last_index in Hr. destruct (Z.of_nat n <? Z.of_nat h - 1)%Z; lia.
    - intros H. exists (h - 1). split; [lia|]. apply rows_full; [lia|]. unfold slice_index. rewrite E in *.
      replace (Z.of_nat (2 * h) - 1 + Z.of_nat (sm_dest sm) - Z.of_nat (sm_dest sm))%Z with (2 * (Z.of_nat h - 1) + 1)%Z by lia.
      rewrite Q. unfold last_index. destruct (Z.ltb_spec (Z.of_nat (h - 1)) (Z.of_nat h - 1)); lia.
  Qed.
  Lemma full_middle : forall h, 1 <= h -> sm_src sm = sm_dest sm -> len <= h + sm_src sm -> rows_of true h (2 * h) = N.
  Proof.
    intros h Hh E H. pose proof len_pos as Hp. unfold rows_of. replace h with (2 * h - 1 - (h - 1)) at 1 by lia.
    rewrite <- (slice_mirror (h - 1) h E) by lia. change (rows_of true (h - 1) (2 * h) = N).
    apply rows_full; [lia|]. unfold slice_index. rewrite E in *.
    replace (Z.of_nat (2 * h) - 1 + Z.of_nat (sm_dest sm) - Z.of_nat (sm_dest sm))%Z with (2 * (Z.of_nat h - 1) + 1)%Z by lia.
    assert (Q : Z.quot (2 * (Z.of_nat h - 1) + 1) 2 = (Z.of_nat h - 1)%Z).
    { rewrite Z.quot_div_nonneg by lia. symmetry. apply Z.div_unique with (r := 1%Z); lia. }
    rewrite Q. unfold last_index. destruct (Z.ltb_spec (Z.of_nat (h - 1)) (Z.of_nat h - 1)); lia.
  Qed.
End Counting.

(** ** The reported numbers *)
Section Reported.
  Variable R : scalar.
  Variable f : format.
  Variable oh : optimized R.
  Variable N : nat.
  Hypothesis Hlen : length (oh_matrix oh) = N.
  Hypothesis Hb : borders_ok (oh_map oh) N.
  Local Notation m := (oh_matrix oh).
  Local Notation sm := (oh_map oh).
  Local Notation W := (work (row_work f m) 0).

  Lemma firstn_lengths : forall (l : list (list (nat * R))) rows, rows <= length l ->
    list_sum (map (@length _) (firstn rows l)) = list_sum (map (fun i => length (nth i l [])) (seq 0 rows)).
  Proof.
    induction l as [|r l IH]; intros [|rows] H; try reflexivity; [cbn in H; lia|].
    cbn [length] in H. rewrite <- cons_seq, <- seq_shift. cbn [firstn map]. rewrite map_map. cbn [nth].
    specialize (IH rows ltac:(lia)). unfold list_sum in *. cbn [fold_right]. rewrite IH. reflexivity.
  Qed.
  Lemma non_zeros_work : forall rows, rows <= N -> non_zeros f m rows = Ok (W rows).
  Proof.
    intros rows H. unfold non_zeros, work, row_work. rewrite Nat.sub_0_r. destruct f.
    - unfold outer_index. destruct (Nat.leb_spec rows (length m)); [|lia]. f_equal. apply firstn_lengths. lia.
    - f_equal. generalize 0 as a. clear H. induction rows as [|k IH]; intros a; [reflexivity|]. cbn [seq map]. unfold list_sum in *. cbn [fold_right]. rewrite <- IH. lia.
    - f_equal. generalize 0 as a. clear H. induction rows as [|k IH]; intros a; [reflexivity|]. cbn [seq map]. unfold list_sum in *. cbn [fold_right]. rewrite <- IH. lia.
  Qed.

  Lemma optimal_rows : forall n num, n < num -> optimal_size sm n num = Ok (rows_of sm true n num).
  Proof.
    intros n num H. unfold optimal_size, rows_of. rewrite <- (slice_at_nth sm _ (slice_no_lt N sm Hb true n num H)).
    f_equal. apply (step_max_no N sm Hb true n num H).
  Qed.

  Lemma sum_rows_opt : forall (g : nat -> outcome nat) (v : nat -> nat) l num r, (forall s, s <= N -> g s = Ok (v s)) -> (forall n, In n l -> n < num) ->
    ofold (fun r n => obind (optimal_size sm n num) (fun s => obind (g s) (fun z => Ok (r + z)))) l r
    = Ok (r + list_sum (map (fun n => v (rows_of sm true n num)) l)).
  Proof.
    intros g v l num r Hg. revert r. induction l as [|n l IH]; intros r H; [cbn; f_equal; lia|].
    cbn [ofold map]. rewrite optimal_rows by (apply H; left; auto). cbn [obind].
    rewrite Hg by (apply (rows_le N sm Hb), H; left; auto). cbn [obind]. rewrite IH by (intros; apply H; right; auto).
    f_equal. unfold list_sum. cbn [fold_right]. lia.
  Qed.

  Definition halve (r : nat) : nat := if is_diagonal (oh_idx oh) then r / 2 else r.

  Lemma nnz_plain : forall num, num_nonzeros f oh num false = Ok (halve (num * W N)).
  Proof. intros num. unfold num_nonzeros. rewrite Hlen, non_zeros_work by lia. reflexivity. Qed.
  Lemma nnz_opt : forall num, num_nonzeros f oh num true = Ok (halve (total (row_work f m) sm true (seq 0 num) num)).
  Proof.
    intros num. unfold num_nonzeros. rewrite (sum_rows_opt _ _ (seq 0 num) num 0 non_zeros_work); [reflexivity|].
    intros n Hn. apply in_seq in Hn. lia.
  Qed.
  Lemma vec_plain : forall num, num_vec_elements oh num false = Ok (halve (num * N)).
  Proof. intros num. unfold num_vec_elements. rewrite Hlen. reflexivity. Qed.
  Lemma vec_opt : forall num, exists v, num_vec_elements oh num true = Ok (halve v) /\ v <= num * N.
  Proof.
    intros num. unfold num_vec_elements.
    exists (list_sum (map (fun n => rows_of sm true n num) (seq 0 num))). split.
    - pose proof (sum_rows_opt (fun s => Ok s) (fun s => s) (seq 0 num) num 0) as Q. cbn [obind] in Q. rewrite Q; [reflexivity|auto|].
      intros n Hn. apply in_seq in Hn. lia.
    - assert (G : forall l, (forall n, In n l -> n < num) -> list_sum (map (fun n => rows_of sm true n num) l) <= length l * N).
      { induction l as [|n l IH]; intros H; [cbn; lia|]. cbn [map length]. unfold list_sum in *. cbn [fold_right].
        pose proof (IH (fun k Hk => H k (or_intror Hk))). pose proof (rows_le N sm Hb true n num (H n (or_introl eq_refl))). lia. }
      pose proof (G (seq 0 num)) as Q. rewrite seq_length in Q. apply Q. intros n Hn. apply in_seq in Hn. lia.
  Qed.
  Lemma halve_mono : forall a b, a <= b -> halve a <= halve b.
  Proof. intros a b H. unfold halve. destruct (is_diagonal _); [apply Nat.div_le_mono; auto|auto]. Qed.

  Lemma opt_le : forall num, total (row_work f m) sm true (seq 0 num) num <= num * W N.
  Proof.
    intros num. pose proof (total_le (row_work f m) N sm Hb (seq 0 num) num) as Q. rewrite seq_length in Q. apply Q.
    intros n Hn. apply in_seq in Hn. lia.
  Qed.
End Reported.
