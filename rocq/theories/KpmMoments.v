(* All speed options of the moment loops hand the collector the same data: the exact Chebyshev
   vectors (off-diagonal) and the exact scalar products (diagonal). *)
From Verif Require Import Base Scalar Kpm KpmSpec KpmVec KpmLoops.
From Coq Require Import Ring.

Lemma ofold_app : forall {A B} (f : A -> B -> outcome A) l1 l2 s,
  ofold f (l1 ++ l2) s = obind (ofold f l1 s) (ofold f l2).
Proof. intros A B f l1. induction l1 as [|x l1 IH]; intros l2 s; [reflexivity|]. cbn [app ofold]. destruct (f s x); cbn; auto. Qed.

(** Index arithmetic of the slice map, in terms of the last slice index. *)
Section Index.
  Variable sm : slice_map.
  Hypothesis Hne : sm_data sm <> [].
  Local Open Scope Z_scope.

  Lemma last_index_nn : 0 <= last_index sm.
  Proof. unfold last_index. destruct (sm_data sm); [congruence|cbn [length]; lia]. Qed.

  Lemma quot2 : forall x, (0 <= x -> Z.quot x 2 = x / 2) /\ (x <= 0 -> Z.quot x 2 = - ((- x) / 2)).
  Proof.
    intros x. split; intros H; [apply Z.quot_div_nonneg; lia|].
    replace x with (- (- x)) at 1 by lia. rewrite Z.quot_opp_l by lia. rewrite Z.quot_div_nonneg by lia. reflexivity.
  Qed.

  Ltac index_tac n num :=
    unfold slice_index; set (s := Z.of_nat (sm_src sm)); set (d := Z.of_nat (sm_dest sm));
    assert (0 <= s) by (unfold s; lia); assert (0 <= d) by (unfold d; lia);
    pose proof last_index_nn; set (L := last_index sm) in *;
    destruct (quot2 (num - 1 + d - s)) as (Hq1 & Hq2); set (q := Z.quot (num - 1 + d - s) 2) in *;
    assert (Hq : (0 <= num - 1 + d - s -> 2 * q <= num - 1 + d - s <= 2 * q + 1)
              /\ (num - 1 + d - s <= 0 -> 2 * q - 1 <= num - 1 + d - s <= 2 * q))
      by (split; intros Hx; [rewrite Hq1 by auto|rewrite Hq2 by auto]; Z.div_mod_to_equations; lia);
    clear Hq1 Hq2; clearbody q.

  Lemma slice_index_range : forall n num, 0 <= n < num -> 0 <= slice_index sm n num <= last_index sm.
  Proof. intros n num H. index_tac n num. destruct (Z.ltb_spec n q); lia. Qed.

  Lemma slice_index_step : forall n num, 0 <= n -> n + 1 < num ->
    slice_index sm n num <= slice_index sm (n + 1) num + 1.
  Proof. intros n num H0 H. index_tac n num. destruct (Z.ltb_spec n q), (Z.ltb_spec (n + 1) q); lia. Qed.

  (** A slice that is left out at step [n] although later steps need it holds zeros. *)
  Lemma slice_index_enough : forall n num l, 0 <= n < num -> l <= last_index sm ->
    l <= num - 1 - n + Z.of_nat (sm_dest sm) -> slice_index sm n num < l -> n + Z.of_nat (sm_src sm) < l.
  Proof. intros n num l H. index_tac n num. destruct (Z.ltb_spec n q); lia. Qed.

  (** In the diagonal case (same source and destination slices) the size covers the support. *)
  Lemma slice_index_diag : forall n num, sm_src sm = sm_dest sm -> Z.even num = true -> 0 <= n -> 2 * n < num ->
    Z.min (last_index sm) (n + Z.of_nat (sm_src sm)) <= slice_index sm n num.
  Proof.
    intros n num E Ev H0 H. apply Z.even_spec in Ev. destruct Ev as (h & Hh). index_tac n num. subst s d. rewrite <- E in *.
    destruct (Z.ltb_spec n q); lia.
  Qed.
  Lemma slice_index_diag_last : forall n num, sm_src sm = sm_dest sm -> num = 2 * n -> 1 <= n ->
    Z.min (last_index sm) (n - 1 + Z.of_nat (sm_src sm)) <= slice_index sm n num.
  Proof.
    intros n num E Ev H0. index_tac n num. subst s d. rewrite <- E in *. destruct (Z.ltb_spec n q); lia.
  Qed.
End Index.

Section Exact.
  Variable R : scalar.
  Variable half : R.
  Add Ring Rring : (k_ring R).
  Local Open Scope k_scope.
  Local Notation csr := (list (list (nat * R))).

  (** The exact recursion: t_{n+2} = m t_{n+1} - t_n. *)
  Fixpoint tseq (m : csr) (t0 t1 : nat -> R) (n : nat) : nat -> R :=
    match n with
    | 0 => t0
    | S k => match k with
             | 0 => t1
             | S j => fun i => act R m (tseq m t0 t1 k) i - tseq m t0 t1 j i
             end
    end.
  Lemma tseq_SS : forall m t0 t1 n i, tseq m t0 t1 (S (S n)) i = act R m (tseq m t0 t1 (S n)) i - tseq m t0 t1 n i.
  Proof. reflexivity. Qed.

  Lemma sum_rows_ext' : forall (f g : nat -> R) x y, (forall i, x <= i -> i < y -> f i = g i) -> sum_rows R x y f = sum_rows R x y g.
  Proof. intros f g x y H. apply ksum_ext. intros i Hi. apply in_seq in Hi. apply H; lia. Qed.

  Section Fixed.
    Variable m : csr.
    Variable N : nat.
    Variable sm : slice_map.
    Variable kr : kernel R.
    Hypothesis Hr : in_range R m N.
    Hypothesis Hk : kernel_ok R half kr m N.
    Hypothesis Hlay : layered R m N sm.
    Variable opt : bool.

    Local Notation len := (length (sm_data sm)).
    Local Notation lay := (layer sm).
    Local Notation ref := (spmv_ref R m N).

    Lemma Hne : sm_data sm <> []. Proof. apply Hlay. Qed.

    (** Number of slices processed at step [n]. *)
    Definition count (n num : nat) : nat := S (Z.to_nat (step_max sm opt n num)).

    Lemma step_max_nat : forall n num, n < num -> step_max sm opt n num = Z.of_nat (count n num - 1) /\ count n num <= len /\ 0 < count n num.
    Proof.
      intros n num H. unfold count. pose proof (last_index_nn sm Hne) as HL.
      assert (0 <= step_max sm opt n num <= last_index sm)%Z.
      { unfold step_max. destruct opt; [apply slice_index_range; [apply Hne|lia]|lia]. }
      unfold last_index in *. lia.
    Qed.
    Lemma step_size_ok : forall n num, n < num -> step_size R kr sm opt n num = Ok (D sm (count n num)).
    Proof.
      intros n num H. destruct (step_max_nat n num H) as (E & Hc & Hp). unfold step_size, count in *. unfold step_max in *.
      destruct opt.
      - rewrite E. rewrite (slice_at_ok sm) by lia. f_equal. f_equal. lia.
      - destruct Hk as (Hrows & _). rewrite Hrows. f_equal. rewrite <- (D_len R m N sm Hlay). f_equal. unfold last_index.
        pose proof (len_pos R m N sm Hlay). lia.
    Qed.
    Lemma count_step : forall n num, S n < num -> count n num <= S (count (S n) num).
    Proof.
      intros n num H. unfold count, step_max. destruct opt; [|lia].
      pose proof (slice_index_step sm Hne (Z.of_nat n) (Z.of_nat num) ltac:(lia) ltac:(lia)).
      replace (Z.of_nat n + 1)%Z with (Z.of_nat (S n)) in H0 by lia. lia.
    Qed.

    (** ** The interleaved loops do the same as the plain ones *)
    Definition off_step {C} (collect : C -> nat -> list R -> C) (num : nat) (s : C * list R * list R) (n : nat) :=
      match s with (c, r0, r1) =>
        obind (step_size R kr sm opt n num) (fun size =>
        obind (kr_spmv kr 0 size r1 r0) (fun r0' => Ok (collect c n r0', r1, r0')))
      end.
    Definition off_pair {C} (collect : C -> nat -> list R -> C) (num : nat) (s : C * list R * list R) (n : nat) :=
      match s with (c, r0, r1) =>
        obind (inner_off R kr sm (step_max sm opt n num) (step_max sm opt (S n) num) r0 r1) (fun res =>
        match res with (r0', r1') => Ok (collect (collect c n r0') (S n) r1', r0', r1') end)
      end.
    Definition diag_step {C} (collect : C -> nat -> R -> R -> C) (num : nat) (s : C * list R * list R) (n : nat) :=
      match s with (c, r0, r1) =>
        obind (step_size R kr sm opt n num) (fun size =>
        obind (kr_diag kr 0 size r1 r0 k0 k0) (fun res =>
        match res with (r0', m2, m3) => Ok (collect c n m2 m3, r1, r0') end))
      end.
    Definition diag_pair {C} (collect : C -> nat -> R -> R -> C) (num : nat) (s : C * list R * list R) (n : nat) :=
      match s with (c, r0, r1) =>
        obind (inner_diag R kr sm (step_max sm opt n num) (step_max sm opt (S n) num) r0 r1) (fun res =>
        match res with (r0', r1', (m2, m3), (m4, m5)) =>
          Ok (collect (collect c n m2 m3) (S n) m4 m5, r0', r1') end)
      end.

    Lemma off_step_ok : forall C (collect : C -> nat -> list R -> C) num c r0 r1 n, n < num -> length r0 = N -> length r1 = N ->
      off_step collect num (c, r0, r1) n
      = Ok (collect c n (ref 0 (D sm (count n num)) r1 r0), r1, ref 0 (D sm (count n num)) r1 r0).
    Proof.
      intros C collect num c r0 r1 n Hn H0 H1. unfold off_step. rewrite step_size_ok by auto. cbn [obind].
      destruct Hk as (_ & Hs & _). rewrite Hs by (auto; try lia; apply (D_le R m N sm Hlay); apply step_max_nat; auto). reflexivity.
    Qed.
    Lemma diag_step_ok : forall C (collect : C -> nat -> R -> R -> C) num c r0 r1 n, n < num -> length r0 = N -> length r1 = N ->
      diag_step collect num (c, r0, r1) n
      = Ok (collect c n (sum_rows R 0 (D sm (count n num)) (norm2 R r1))
                        (sum_rows R 0 (D sm (count n num)) (prod R (ref 0 (D sm (count n num)) r1 r0) r1)),
            r1, ref 0 (D sm (count n num)) r1 r0).
    Proof.
      intros C collect num c r0 r1 n Hn H0 H1. unfold diag_step. rewrite step_size_ok by auto. cbn [obind].
      destruct Hk as (_ & _ & Hs & _). rewrite Hs by (auto; try lia; apply (D_le R m N sm Hlay); apply step_max_nat; auto).
      cbn [obind]. rewrite !kadd_0_l. reflexivity.
    Qed.

    Lemma off_pair_ok : forall C (collect : C -> nat -> list R -> C) num s n, S n < num ->
      length (snd (fst s)) = N -> length (snd s) = N ->
      off_pair collect num s n = obind (off_step collect num s n) (fun s' => off_step collect num s' (S n)).
    Proof.
      intros C collect num ((c & r0) & r1) n Hn H0 H1. cbn [fst snd] in H0, H1.
      rewrite off_step_ok by (auto; lia). cbn [obind]. rewrite off_step_ok by (auto; rewrite spmv_ref_length; auto).
      unfold off_pair. destruct (step_max_nat n num ltac:(lia)) as (E1 & L1 & P1).
      destruct (step_max_nat (S n) num ltac:(lia)) as (E2 & L2 & P2). rewrite E1, E2.
      rewrite (inner_off_ok R half m N sm kr Hr Hk Hlay) by (auto; try lia; pose proof (count_step n num ltac:(lia)); lia).
      cbn [obind]. unfold B, A. replace (S (count n num - 1)) with (count n num) by lia.
      replace (S (count (S n) num - 1)) with (count (S n) num) by lia. reflexivity.
    Qed.
    Lemma diag_pair_ok : forall C (collect : C -> nat -> R -> R -> C) num s n, S n < num ->
      length (snd (fst s)) = N -> length (snd s) = N ->
      diag_pair collect num s n = obind (diag_step collect num s n) (fun s' => diag_step collect num s' (S n)).
    Proof.
      intros C collect num ((c & r0) & r1) n Hn H0 H1. cbn [fst snd] in H0, H1.
      rewrite diag_step_ok by (auto; lia). cbn [obind]. rewrite diag_step_ok by (auto; rewrite spmv_ref_length; auto).
      unfold diag_pair. destruct (step_max_nat n num ltac:(lia)) as (E1 & L1 & P1).
      destruct (step_max_nat (S n) num ltac:(lia)) as (E2 & L2 & P2). rewrite E1, E2.
      rewrite (inner_diag_ok R half m N sm kr Hr Hk Hlay) by (auto; try lia; pose proof (count_step n num ltac:(lia)); lia).
      cbn [obind]. unfold B, A. replace (S (count n num - 1)) with (count n num) by lia.
      replace (S (count (S n) num - 1)) with (count (S n) num) by lia. reflexivity.
    Qed.

    Lemma off_step_len : forall C (collect : C -> nat -> list R -> C) num s n, n < num ->
      length (snd (fst s)) = N -> length (snd s) = N ->
      exists s', off_step collect num s n = Ok s' /\ length (snd (fst s')) = N /\ length (snd s') = N.
    Proof.
      intros C collect num ((c & r0) & r1) n Hn H0 H1. cbn [fst snd] in H0, H1. rewrite off_step_ok by auto.
      eexists. split; [reflexivity|]. cbn [fst snd]. rewrite spmv_ref_length. auto.
    Qed.
    Lemma diag_step_len : forall C (collect : C -> nat -> R -> R -> C) num s n, n < num ->
      length (snd (fst s)) = N -> length (snd s) = N ->
      exists s', diag_step collect num s n = Ok s' /\ length (snd (fst s')) = N /\ length (snd s') = N.
    Proof.
      intros C collect num ((c & r0) & r1) n Hn H0 H1. cbn [fst snd] in H0, H1. rewrite diag_step_ok by auto.
      eexists. split; [reflexivity|]. cbn [fst snd]. rewrite spmv_ref_length. auto.
    Qed.

    Lemma pairs_off : forall C (collect : C -> nat -> list R -> C) num l s, (forall n, In n l -> S n < num) ->
      length (snd (fst s)) = N -> length (snd s) = N ->
      ofold (off_pair collect num) l s = ofold (off_step collect num) (flat_map (fun n => [n; S n]) l) s.
    Proof.
      intros C collect num. induction l as [|n l IH]; intros s Hl H0 H1; [reflexivity|].
      cbn [flat_map ofold app]. assert (Hn : S n < num) by (apply Hl; left; auto).
      rewrite off_pair_ok by auto.
      destruct (off_step_len C collect num s n ltac:(lia) H0 H1) as (s1 & E1 & L1 & L1'). rewrite E1. cbn [obind ofold].
      destruct (off_step_len C collect num s1 (S n) ltac:(lia) L1 L1') as (s2 & E2 & L2 & L2'). rewrite E2. cbn [obind].
      apply IH; auto. intros; apply Hl; right; auto.
    Qed.
    Lemma pairs_diag : forall C (collect : C -> nat -> R -> R -> C) num l s, (forall n, In n l -> S n < num) ->
      length (snd (fst s)) = N -> length (snd s) = N ->
      ofold (diag_pair collect num) l s = ofold (diag_step collect num) (flat_map (fun n => [n; S n]) l) s.
    Proof.
      intros C collect num. induction l as [|n l IH]; intros s Hl H0 H1; [reflexivity|].
      cbn [flat_map ofold app]. assert (Hn : S n < num) by (apply Hl; left; auto).
      rewrite diag_pair_ok by auto.
      destruct (diag_step_len C collect num s n ltac:(lia) H0 H1) as (s1 & E1 & L1 & L1'). rewrite E1. cbn [obind ofold].
      destruct (diag_step_len C collect num s1 (S n) ltac:(lia) L1 L1') as (s2 & E2 & L2 & L2'). rewrite E2. cbn [obind].
      apply IH; auto. intros; apply Hl; right; auto.
    Qed.

    Lemma range_1 : forall stop, range_from2 stop 1 = seq 2 (stop - 2).
    Proof.
      intros stop. unfold range_from2. rewrite Nat.div_1_r. replace (stop - 2 + 1 - 1)%nat with (stop - 2)%nat by lia.
      generalize (stop - 2)%nat as d. intros d.
      assert (G : forall d s, List.map (fun j => (2 + 1 * j)%nat) (seq s d) = seq (2 + s) d).
      { clear. induction d as [|d IH]; intros s; [reflexivity|]. cbn [seq map]. f_equal; [lia|]. apply IH. }
      apply G.
    Qed.
    Lemma range_2 : forall h, flat_map (fun n => [n; S n]) (range_from2 (2 * h + 2) 2) = seq 2 (2 * h).
    Proof.
      intros h. unfold range_from2. replace (2 * h + 2 - 2 + 2 - 1)%nat with (1 + h * 2)%nat by lia.
      rewrite Nat.div_add by lia. cbn [Nat.div Nat.divmod fst]. replace (1 / 2 + h)%nat with h by (cbn; lia).
      assert (G : forall h s, flat_map (fun n => [n; S n]) (List.map (fun j => (2 + 2 * j)%nat) (seq s h)) = seq (2 + 2 * s) (2 * h)).
      { clear. induction h as [|h IH]; intros s; [reflexivity|]. cbn [seq map flat_map app]. rewrite IH.
        replace (2 * S h)%nat with (S (S (2 * h))) by lia. cbn [seq]. f_equal. f_equal. f_equal. lia. }
      apply G.
    Qed.
    Lemma range_2_in : forall h n, In n (range_from2 (2 * h + 2) 2) -> 2 <= n /\ S n < 2 * h + 2.
    Proof.
      intros h n H. assert (In n (seq 2 (2 * h))).
      { rewrite <- range_2. apply in_flat_map. exists n. split; auto. left; auto. }
      assert (In (S n) (seq 2 (2 * h))).
      { rewrite <- range_2. apply in_flat_map. exists n. split; auto. right; left; auto. }
      rewrite in_seq in *. lia.
    Qed.

    Lemma interleaved_off_eq : forall C (collect : C -> nat -> list R -> C) num c r0 r1, Nat.even num = true -> 2 <= num ->
      length r0 = N -> length r1 = N ->
      interleaved_off R kr sm opt C collect num c r0 r1 = basic_off R kr sm opt C collect num c r0 r1.
    Proof.
      intros C collect num c r0 r1 Ev Hn H0 H1. apply Nat.even_spec in Ev. destruct Ev as (h' & Eh).
      assert (E : num = (2 * (h' - 1) + 2)%nat) by lia. set (h := (h' - 1)%nat) in *.
      unfold interleaved_off, basic_off. f_equal.
      change (ofold (off_pair collect num) (range_from2 num 2) (c, r0, r1) = ofold (off_step collect num) (range_from2 num 1) (c, r0, r1)).
      rewrite pairs_off; auto.
      - rewrite range_1. rewrite E at 2. rewrite range_2. f_equal. f_equal. lia.
      - rewrite E. intros n Hin. apply range_2_in in Hin. lia.
    Qed.
    Lemma interleaved_diag_eq : forall C (collect : C -> nat -> R -> R -> C) num c r0 r1, ((num - 2) mod 4 = 0)%nat -> 2 <= num ->
      length r0 = N -> length r1 = N ->
      interleaved_diag R kr sm opt C collect num c r0 r1 = basic_diag R kr sm opt C collect num c r0 r1.
    Proof.
      intros C collect num c r0 r1 Ev Hn H0 H1. set (h := ((num - 2) / 4)%nat).
      assert (E : num = (4 * h + 2)%nat) by (unfold h; pose proof (Nat.div_mod (num - 2) 4 ltac:(lia)); lia).
      assert (E2 : S (num / 2) = (2 * h + 2)%nat).
      { rewrite E. replace (4 * h + 2)%nat with ((2 * h + 1) * 2)%nat by lia. rewrite Nat.div_mul by lia. lia. }
      unfold interleaved_diag, basic_diag. f_equal.
      change (ofold (diag_pair collect num) (range_from2 (S (num / 2)) 2) (c, r0, r1)
              = ofold (diag_step collect num) (range_from2 (S (num / 2)) 1) (c, r0, r1)).
      rewrite pairs_diag; auto.
      - rewrite range_1, E2, range_2. f_equal. f_equal. lia.
      - rewrite E2. intros n Hin. apply range_2_in in Hin. lia.
    Qed.

    (** ** Exactness of the plain loop with or without the size optimisation *)
    Variables t0 t1 : nat -> R.
    Local Notation t := (tseq m t0 t1).

    (** Start vectors supported on the first slices. *)
    Definition supported : Prop :=
      opt = true -> (forall i, i < N -> sm_src sm < lay i -> t0 i = k0)
                 /\ (forall i, i < N -> S (sm_src sm) < lay i -> t1 i = k0).

    Lemma support : supported -> opt = true -> forall n i, i < N -> n + sm_src sm < lay i -> t n i = k0 /\ (forall p, (p <= n)%nat -> t p i = k0).
    Proof.
      intros Hs Ho. destruct (Hs Ho) as (S0 & S1).
      assert (G : forall n, (forall i, i < N -> n + sm_src sm < lay i -> t n i = k0)
                         /\ (forall i, i < N -> S n + sm_src sm < lay i -> t (S n) i = k0)).
      { induction n as [|n (IH1 & IH2)]; [split; auto|]. split; auto. intros i Hi Hl. rewrite tseq_SS.
        rewrite IH1 by (auto; lia). unfold act. rewrite ksum_0; [ring|]. intros e He.
        destruct (neighbour R m N sm Hr Hlay i e Hi He) as (Hc & _ & Hn). rewrite IH2 by (auto; lia). ring. }
      intros n i Hi Hl. split; [apply G; auto|]. intros p Hp. apply G; auto. lia.
    Qed.

    (** Rows that still matter at step [n]. *)
    Definition needed (num n i : nat) : Prop := opt = true -> lay i <= num - 1 - n + sm_dest sm.

    Lemma off_exact : forall C (collect : C -> nat -> list R -> C) num c0 r0 r1, supported ->
      (forall c n v w, length v = N -> length w = N -> (forall i, i < N -> (opt = true -> lay i <= sm_dest sm) -> vec v i = vec w i) ->
         collect c n v = collect c n w) ->
      length r0 = N -> length r1 = N -> (forall i, i < N -> vec r0 i = t 0 i) -> (forall i, i < N -> vec r1 i = t 1 i) ->
      basic_off R kr sm opt C collect num c0 r0 r1
      = Ok (fold_left (fun c n => collect c n (map (t n) (seq 0 N))) (seq 2 (num - 2)) c0).
    Proof.
      intros C collect num c0 r0 r1 Hs Hloc L0 L1 V0 V1. unfold basic_off. rewrite range_1.
      change (omap (fun s => fst (fst s)) (ofold (off_step collect num) (seq 2 (num - 2)) (c0, r0, r1))
              = Ok (fold_left (fun c n => collect c n (map (t n) (seq 0 N))) (seq 2 (num - 2)) c0)).
      assert (G : forall d n c r0 r1, (2 + n + d)%nat = num \/ d = 0 -> length r0 = N -> length r1 = N ->
        (forall i, i < N -> needed num n i -> vec r0 i = t n i) ->
        (forall i, i < N -> needed num (S n) i -> vec r1 i = t (S n) i) ->
        omap (fun s => fst (fst s)) (ofold (off_step collect num) (seq (2 + n) d) (c, r0, r1))
        = Ok (fold_left (fun c n => collect c n (map (t n) (seq 0 N))) (seq (2 + n) d) c)).
      { clear c0 r0 r1 L0 L1 V0 V1. induction d as [|d IH]; intros n c r0 r1 Hd L0 L1 V0 V1; [reflexivity|].
        assert (Hn : 2 + n < num) by lia. cbn [seq ofold fold_left]. rewrite off_step_ok by auto. cbn [obind].
        set (r2 := ref 0 (D sm (count (2 + n) num)) r1 r0).
        assert (L2 : length r2 = N) by (unfold r2; rewrite spmv_ref_length; auto).
        assert (V2 : forall i, i < N -> needed num (2 + n) i -> vec r2 i = t (2 + n) i).
        { intros i Hi Hneed. unfold r2. destruct (step_max_nat (2 + n) num Hn) as (E1 & C1 & P1).
          rewrite (ref_slices R m N sm Hlay 0 (count (2 + n) num)) by (auto; lia).
          assert (Hr0 : vec r0 i = t n i) by (apply V0; auto; unfold needed in *; intros; specialize (Hneed H); lia).
          change (0 <=? lay i) with true. cbn [andb]. rewrite Hr0.
          destruct (Nat.ltb_spec (lay i) (count (2 + n) num)).
          - cbn [plus]. rewrite tseq_SS. f_equal. apply act_ext. intros e He.
            destruct (neighbour R m N sm Hr Hlay i e Hi He) as (Hc & Hn1 & Hn2).
            apply V1; auto. unfold needed in *. intros Ho. specialize (Hneed Ho). lia.
          - unfold count, step_max in *. destruct opt eqn:Ho.
            + pose proof (lay_lt R m N sm Hlay i Hi). first [specialize (Hneed Ho)|specialize (Hneed eq_refl)].
              assert (2 + n + sm_src sm < lay i).
              { pose proof (slice_index_enough sm Hne (Z.of_nat (2 + n)) (Z.of_nat num) (Z.of_nat (lay i)) ltac:(lia)
                  ltac:(unfold last_index; lia) ltac:(lia) ltac:(lia)). lia. }
              destruct (support Hs Ho (2 + n) i Hi ltac:(lia)) as (Z1 & Z2). rewrite Z1. apply Z2. lia.
            + exfalso. pose proof (lay_lt R m N sm Hlay i Hi). unfold last_index in *. lia. }
        assert (EC : collect c (S (S n)) r2 = collect c (S (S n)) (map (t (S (S n))) (seq 0 N))).
        { apply Hloc; auto; [rewrite map_length, seq_length; auto|]. intros i Hi Hd'. rewrite vec_map by auto.
          apply V2; auto. unfold needed. intros Ho. specialize (Hd' Ho). lia. }
        cbn [plus]. rewrite EC. apply (IH (S n)); auto; lia. }
      destruct (Nat.le_gt_cases 2 num) as [Hn|Hn].
      - apply (G (num - 2)%nat 0); auto. lia.
      - replace (num - 2)%nat with 0 by lia. reflexivity.
    Qed.

    Lemma diag_exact : forall C (collect : C -> nat -> R -> R -> C) num c0 r0 r1, supported ->
      (opt = true -> sm_src sm = sm_dest sm) -> Nat.even num = true -> 2 <= num ->
      length r0 = N -> length r1 = N -> (forall i, i < N -> vec r0 i = t 0 i) -> (forall i, i < N -> vec r1 i = t 1 i) ->
      basic_diag R kr sm opt C collect num c0 r0 r1
      = Ok (fold_left (fun c n => collect c n (ksum (fun i => kconj (t (n - 1) i) * t (n - 1) i) (seq 0 N))
                                              (ksum (fun i => kconj (t n i) * t (n - 1) i) (seq 0 N)))
                      (seq 2 (num / 2 - 1)) c0).
    Proof.
      intros C collect num c0 r0 r1 Hs Hsd Ev Hnum L0 L1 V0 V1. apply Nat.even_spec in Ev. destruct Ev as (h & Eh).
      assert (Eh2 : (num / 2 = h)%nat) by (rewrite Eh, Nat.mul_comm; apply Nat.div_mul; lia).
      unfold basic_diag. rewrite range_1. replace (S (num / 2) - 2)%nat with (num / 2 - 1)%nat by lia. rewrite Eh2.
      set (step := fun c n => collect c n (ksum (fun i => kconj (t (n - 1) i) * t (n - 1) i) (seq 0 N))
                                          (ksum (fun i => kconj (t n i) * t (n - 1) i) (seq 0 N))).
      change (omap (fun s => fst (fst s)) (ofold (diag_step collect num) (seq 2 (h - 1)) (c0, r0, r1))
              = Ok (fold_left step (seq 2 (h - 1)) c0)).
      assert (G : forall d n c r0 r1, (1 + n + d)%nat = h \/ d = 0 -> length r0 = N -> length r1 = N ->
        (d > 0 -> forall i, i < N -> vec r0 i = t n i) ->
        (d > 0 -> forall i, i < N -> vec r1 i = t (S n) i) ->
        omap (fun s => fst (fst s)) (ofold (diag_step collect num) (seq (2 + n) d) (c, r0, r1))
        = Ok (fold_left step (seq (2 + n) d) c)).
      { clear c0 r0 r1 L0 L1 V0 V1. induction d as [|d IH]; intros n c r0 r1 Hd L0 L1 V0 V1; [reflexivity|].
        specialize (V0 ltac:(lia)). specialize (V1 ltac:(lia)).
        assert (Hn : 2 + n < num) by lia. cbn [seq ofold fold_left]. rewrite diag_step_ok by auto. cbn [obind].
        set (cnt := count (2 + n) num). set (r2 := ref 0 (D sm cnt) r1 r0).
        destruct (step_max_nat (2 + n) num Hn) as (E1 & C1 & P1). fold cnt in E1, C1, P1.
        assert (L2 : length r2 = N) by (unfold r2; rewrite spmv_ref_length; auto).
        assert (V2c : forall i, i < N -> lay i < cnt -> vec r2 i = t (2 + n) i).
        { intros i Hi Hl. unfold r2. rewrite (ref_slices R m N sm Hlay 0 cnt) by (auto; lia).
          change (0 <=? lay i) with true. cbn [andb]. destruct (Nat.ltb_spec (lay i) cnt); [|lia].
          rewrite V0 by auto. cbn [plus]. rewrite tseq_SS. f_equal. apply act_ext. intros e He.
          destruct (neighbour R m N sm Hr Hlay i e Hi He) as (Hc & _). apply V1; auto. }
        (* rows beyond the processed slices *)
        assert (Zr : forall i, i < N -> cnt <= lay i -> t (S n) i = k0 /\ (2 + n < h -> t (2 + n) i = k0 /\ t n i = k0)).
        { intros i Hi Hl. unfold cnt, count, step_max in *. destruct opt eqn:Ho.
          - pose proof (lay_lt R m N sm Hlay i Hi). first [specialize (Hsd Ho)|specialize (Hsd eq_refl)].
            assert (Q : S n + sm_src sm < lay i).
            { destruct (Nat.eq_dec (2 + n)%nat h) as [Q|Q].
              - pose proof (slice_index_diag_last sm Hne (Z.of_nat (2 + n)) (Z.of_nat num) Hsd ltac:(lia) ltac:(lia)).
                unfold last_index in *. lia.
              - pose proof (slice_index_diag sm Hne (Z.of_nat (2 + n)) (Z.of_nat num) Hsd
                  ltac:(apply Z.even_spec; exists (Z.of_nat h); lia) ltac:(lia) ltac:(lia)).
                unfold last_index in *. lia. }
            split; [apply (support Hs Ho (S n)); auto|]. intros Hh.
            assert (Q2 : 2 + n + sm_src sm < lay i).
            { pose proof (slice_index_diag sm Hne (Z.of_nat (2 + n)) (Z.of_nat num) Hsd
                  ltac:(apply Z.even_spec; exists (Z.of_nat h); lia) ltac:(lia) ltac:(lia)).
              unfold last_index in *. lia. }
            destruct (support Hs Ho (2 + n) i Hi Q2) as (Z1 & Z2). split; auto. apply Z2. lia.
          - exfalso. pose proof (lay_lt R m N sm Hlay i Hi). unfold last_index in *. lia. }
        assert (cut : forall f : nat -> R, (forall i, i < N -> cnt <= lay i -> f i = k0) ->
                   sum_rows R 0 (D sm cnt) f = ksum f (seq 0 N)).
        { intros f Hf. unfold sum_rows. pose proof (D_le R m N sm Hlay cnt ltac:(lia)).
          replace N with (D sm cnt + (N - D sm cnt))%nat by lia. rewrite seq_app, ksum_app, Nat.sub_0_r.
          rewrite (ksum_0 R f (seq (0 + D sm cnt) (N - D sm cnt))); [ring|]. intros i Hi. apply in_seq in Hi.
          apply Hf; [lia|]. pose proof (in_D R m N sm Hlay i cnt ltac:(lia) ltac:(lia)). lia. }
        assert (M2 : sum_rows R 0 (D sm cnt) (norm2 R r1) = ksum (fun i => kconj (t (2 + n - 1) i) * t (2 + n - 1) i) (seq 0 N)).
        { replace (2 + n - 1)%nat with (S n) by lia. rewrite <- cut.
          - apply sum_rows_ext'. intros i _ Hi. unfold norm2.
            rewrite V1 by (pose proof (D_le R m N sm Hlay cnt ltac:(lia)); lia). reflexivity.
          - intros i Hi Hl. destruct (Zr i Hi Hl) as (-> & _). ring. }
        assert (M3 : sum_rows R 0 (D sm cnt) (prod R r2 r1) = ksum (fun i => kconj (t (2 + n) i) * t (2 + n - 1) i) (seq 0 N)).
        { replace (2 + n - 1)%nat with (S n) by lia. rewrite <- cut.
          - apply sum_rows_ext'. intros i _ Hi. assert (i < N) by (pose proof (D_le R m N sm Hlay cnt ltac:(lia)); lia).
            unfold prod. rewrite V1, V2c; auto. apply (in_D R m N sm Hlay); auto.
          - intros i Hi Hl. destruct (Zr i Hi Hl) as (-> & _). ring. }
        rewrite M2, M3. cbn [plus]. change (S (S n)) with (2 + n)%nat. apply (IH (S n)); auto; try lia.
        intros Hd0 i Hi. destruct (Nat.lt_ge_cases (lay i) cnt) as [Hl|Hl]; [apply V2c; auto|].
        destruct (Zr i Hi Hl) as (_ & Zr2). destruct (Zr2 ltac:(lia)) as (Z2 & Z0).
        change (S (S n)) with (2 + n)%nat. rewrite Z2. unfold r2. rewrite (ref_slices R m N sm Hlay 0 cnt) by (auto; lia).
        change (0 <=? lay i) with true. cbn [andb]. destruct (Nat.ltb_spec (lay i) cnt); [lia|]. rewrite V0 by auto. exact Z0. }
      destruct (Nat.le_gt_cases 2 h) as [Hh|Hh].
      - apply (G (h - 1)%nat 0); auto. lia.
      - replace (h - 1)%nat with 0 by lia. reflexivity.
    Qed.
  End Fixed.
End Exact.
