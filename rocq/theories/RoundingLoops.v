(* The moment loops for kernels that compute every row by some fixed operations: all options give the
   collector the same vectors, bit by bit, and scalar products added up in some order (C109).
   Same structure as KpmLoops.v and KpmMoments.v, where the operations are those of a ring. *)
From Verif Require Import Base Scalar Kpm KpmSpec KpmVec KpmLoops KpmMoments.

Section Loops.
  Variable R : scalar.
  Local Notation csr := (list (list (nat * R))).
  Variable m : csr.
  Variable N : nat.
  Variable sm : slice_map.
  Hypothesis Hr : in_range R m N.
  Hypothesis Hlay : layered R m N sm.
  (** Row [i] of the product with [x], minus [y]; it reads [x] at the stored columns only. *)
  Variable cell : nat -> (nat -> R) -> R -> R.
  Hypothesis cell_ext : forall i x x' y, (forall e, In e (entries m i) -> x (fst e) = x' (fst e)) -> cell i x y = cell i x' y.
  (** [add s e y x v v']: the products of the elements [s] to [e] of [y] and [x] were added to [v]. *)
  Variable adds : nat -> nat -> (nat -> R) -> (nat -> R) -> R -> R -> Prop.
  Hypothesis adds_ext : forall s e y y' x x' v v', (forall i, s <= i -> i < e -> y i = y' i /\ x i = x' i) -> adds s e y x v v' -> adds s e y' x' v v'.
  Variable kr : kernel R.

  Definition ref (s e : nat) (x y : list R) : list R := map (fun i => if in_rows s e i then cell i (vec x) (vec y i) else vec y i) (seq 0 N).
  Definition rounds : Prop :=
    kr_rows kr = N
    /\ (forall s e x y, length x = N -> length y = N -> s <= e -> e <= N -> kr_spmv kr s e x y = Ok (ref s e x y))
    /\ (forall s e x y m2 m3, length x = N -> length y = N -> s <= e -> e <= N ->
          exists v2 v3, kr_diag kr s e x y m2 m3 = Ok (ref s e x y, v2, v3) /\ adds s e (vec x) (vec x) m2 v2 /\ adds s e (vec (ref s e x y)) (vec x) m3 v3).
  Hypothesis Hk : rounds.
  (** [v] is the sum over the first [e] rows in [p] pieces. *)
  Inductive gathered (y x : nat -> R) : nat -> R -> nat -> Prop :=
  | g_none : gathered y x 0 k0 0
  | g_more : forall s e v v' p, gathered y x s v p -> s <= e -> adds s e y x v v' -> gathered y x e v' (S p).

  Lemma ref_length : forall s e x y, length (ref s e x y) = N.
  Proof. intros. unfold ref. rewrite map_length, seq_length. reflexivity. Qed.
  Local Notation len := (length (sm_data sm)).
  Local Notation lay := (layer sm).
  Local Notation D := (D sm).
  Lemma D_mono' : forall a b, a <= b -> b <= len -> D a <= D b. Proof. apply (D_mono R m N sm Hlay). Qed.
  Lemma D_le' : forall k, k <= len -> D k <= N. Proof. apply (D_le R m N sm Hlay). Qed.
  Lemma in_D' : forall i k, i < N -> k <= len -> (i < D k <-> lay i < k). Proof. apply (in_D R m N sm Hlay). Qed.
  Lemma neighbour' : forall i e, i < N -> In e (entries m i) -> fst e < N /\ lay (fst e) <= S (lay i) /\ lay i <= S (lay (fst e)).
  Proof. apply (neighbour R m N sm Hr Hlay). Qed.
    Lemma ref_slices : forall a b x y i, i < N -> a <= len -> b <= len ->
      vec (ref (D a) (D b) x y) i = if (a <=? lay i) && (lay i <? b) then cell i (vec x) (vec y i) else vec y i.
    Proof. intros. unfold ref. rewrite vec_map by auto. rewrite (in_rows_slices R m N sm Hlay) by auto. reflexivity. Qed.

    Lemma ref_ext : forall a b a' b' x x' y y', a <= len -> b <= len -> a' <= len -> b' <= len ->
      (forall i, i < N ->
         (if (a <=? lay i) && (lay i <? b) then cell i (vec x) (vec y i) else vec y i)
         = (if (a' <=? lay i) && (lay i <? b') then cell i (vec x') (vec y' i) else vec y' i)) ->
      ref (D a) (D b) x y = ref (D a') (D b') x' y'.
    Proof.
      intros a b a' b' x x' y y' H1 H2 H3 H4 H. apply vec_ext; [rewrite !ref_length; auto|].
      rewrite ref_length. intros i Hi. rewrite !ref_slices by auto. apply H; auto.
    Qed.

    Section Inner.
      Variables a b : nat.
      Hypothesis Ha : a < len.
      Hypothesis Hb : b < len.
      Hypothesis Hab : a <= S b.
      Variables r0 r1 : list R.
      Hypothesis H0 : length r0 = N.
      Hypothesis H1 : length r1 = N.

      Definition A : list R := ref 0 (D (S a)) r1 r0.
      Definition B : list R := ref 0 (D (S b)) A r1.

      (** State of both buffers after [K] slices. *)
      Definition r0_at (K : nat) : list R := ref 0 (D K) r1 r0.
      Definition r1_at (K : nat) : list R := ref 0 (D (K - 1)) A r1.

      Lemma r0_at_0 : r0_at 0 = r0.
      Proof.
        apply vec_ext; [unfold r0_at; rewrite ref_length; auto|]. unfold r0_at. rewrite ref_length. intros i Hi.
        rewrite (ref_slices 0 0) by lia. cbn. reflexivity.
      Qed.
      Lemma r1_at_0 : r1_at 0 = r1.
      Proof.
        apply vec_ext; [unfold r1_at; rewrite ref_length; auto|]. unfold r1_at. rewrite ref_length. intros i Hi.
        rewrite (ref_slices 0 0) by (cbn; lia). cbn. reflexivity.
      Qed.

      Lemma vec_r1_at : forall K i, i < N -> K <= S a -> K - 1 <= lay i -> vec (r1_at K) i = vec r1 i.
      Proof.
        intros K i Hi HK H. unfold r1_at. rewrite (ref_slices 0 (K - 1)) by lia.
        destruct (Nat.ltb_spec (lay i) (K - 1)); cbn; [lia|]. reflexivity.
      Qed.
      Lemma vec_r0_at : forall K i, i < N -> K <= S a -> lay i < K -> vec (r0_at K) i = vec A i.
      Proof.
        intros K i Hi HK H. unfold r0_at, A. rewrite (ref_slices 0 K), (ref_slices 0 (S a)) by lia.
        destruct (Nat.ltb_spec (lay i) K), (Nat.ltb_spec (lay i) (S a)); cbn; try lia. reflexivity.
      Qed.

      Lemma step_r0 : forall K, K <= a -> ref (D K) (D (S K)) (r1_at K) (r0_at K) = r0_at (S K).
      Proof.
        intros K HK. unfold r0_at at 2. apply (ref_ext K (S K) 0 (S K)); try lia. intros i Hi.
        assert (E : vec (r0_at K) i = if lay i <? K then cell i (vec r1) (vec r0 i) else vec r0 i).
        { unfold r0_at. rewrite (ref_slices 0 K) by lia. reflexivity. }
        rewrite E. change (0 <=? lay i) with true. cbn [andb].
        destruct (Nat.leb_spec K (lay i)), (Nat.ltb_spec (lay i) (S K)), (Nat.ltb_spec (lay i) K); cbn [andb]; try lia; auto.
        apply cell_ext. intros e He. destruct (neighbour' i e Hi He) as (Hc & Hn1 & Hn2).
        apply vec_r1_at; lia.
      Qed.

      (** End of the second range at iteration [K]. *)
      Definition end1 (K : nat) : nat := if K =? a then S b else K.
      Lemma end1_le : forall K, K <= a -> end1 K <= len /\ K - 1 <= end1 K /\ end1 K <= S b.
      Proof. intros K HK. unfold end1. destruct (Nat.eqb_spec K a); lia. Qed.

      Lemma step_r1 : forall K, K <= a -> ref (D (K - 1)) (D (end1 K)) (r0_at (S K)) (r1_at K) = ref 0 (D (end1 K)) A r1.
      Proof.
        intros K HK. destruct (end1_le K HK) as (He1 & He2 & He3).
        apply (ref_ext (K - 1) (end1 K) 0 (end1 K)); try lia. intros i Hi.
        assert (E : vec (r1_at K) i = if lay i <? K - 1 then cell i (vec A) (vec r1 i) else vec r1 i).
        { unfold r1_at. rewrite (ref_slices 0 (K - 1)) by lia. reflexivity. }
        rewrite E. change (0 <=? lay i) with true. cbn [andb].
        destruct (Nat.leb_spec (K - 1) (lay i)), (Nat.ltb_spec (lay i) (end1 K)), (Nat.ltb_spec (lay i) (K - 1));
          cbn [andb]; try lia; auto.
        apply cell_ext. intros e He. destruct (neighbour' i e Hi He) as (Hc & Hn1 & Hn2).
        unfold end1 in *. destruct (Nat.eqb_spec K a) as [-> | Hne].
        - unfold A, r0_at. reflexivity.
        - apply vec_r0_at; lia.
      Qed.

      Lemma next_r1 : forall K, K < a -> ref 0 (D (end1 K)) A r1 = r1_at (S K).
      Proof. intros K HK. unfold end1, r1_at. destruct (Nat.eqb_spec K a); [lia|]. cbn. rewrite Nat.sub_0_r. reflexivity. Qed.

      Lemma lens : forall K, length (r0_at K) = N /\ length (r1_at K) = N.
      Proof. intros K. unfold r0_at, r1_at. rewrite !ref_length. auto. Qed.

      Lemma end1_at : forall K, K <= a ->
        (if (Z.of_nat K =? Z.of_nat a)%Z then slice_at sm (Z.of_nat b) else Ok (D K)) = Ok (D (end1 K)).
      Proof.
        intros K HK. unfold end1. destruct (Z.eqb_spec (Z.of_nat K) (Z.of_nat a)), (Nat.eqb_spec K a); try lia; auto.
        apply (slice_at_ok sm); auto.
      Qed.

      (** calc_moments.hpp:129-141: both steps of an interleaved pair. *)
      Lemma inner_off_ok : inner_off R kr sm (Z.of_nat a) (Z.of_nat b) r0 r1 = Ok (A, B).
      Proof.
        unfold inner_off. replace (Z.to_nat (Z.of_nat a + 1)) with (S a) by lia.
        match goal with |- omap _ (ofold ?f _ _) = _ => set (F := f) end.
        assert (Hstep : forall K, K <= a ->
          F (r0_at K, r1_at K, D K, D (K - 1)) K
          = Ok (r0_at (S K), ref 0 (D (end1 K)) A r1, D (S K), D K)).
        { intros K HK. unfold F. rewrite (slice_at_ok sm) by lia. cbn [obind].
          rewrite end1_at by auto. cbn [obind].
          destruct Hk as (_ & Hs & _). destruct (lens K) as (L0 & L1). destruct (end1_le K HK) as (He1 & He2 & He3).
          rewrite Hs by (auto; try apply D_le'; try apply D_mono'; lia). cbn [obind]. rewrite step_r0 by auto.
          rewrite Hs by (auto; try apply D_le'; try apply D_mono'; try apply lens; lia). cbn [obind]. rewrite step_r1 by auto. reflexivity. }
        assert (G : forall K, K <= a -> ofold F (seq 0 K) (r0, r1, 0, 0) = Ok (r0_at K, r1_at K, D K, D (K - 1))).
        { induction K as [|K IH]; intros HK; [cbn; rewrite r0_at_0, r1_at_0; reflexivity|].
          rewrite seq_S. cbn [plus]. assert (O : forall l1 l2 s, ofold F (l1 ++ l2) s = obind (ofold F l1 s) (ofold F l2)).
          { induction l1 as [|x l1 IH1]; intros l2 s; [reflexivity|]. cbn [app ofold]. destruct (F s x); cbn; auto. }
          rewrite O, IH by lia. cbn [obind ofold]. rewrite Hstep by lia. cbn [obind].
          rewrite next_r1 by lia. replace (S K - 1)%nat with K by lia. reflexivity. }
        rewrite seq_S. cbn [plus].
        assert (O : forall l1 l2 s, ofold F (l1 ++ l2) s = obind (ofold F l1 s) (ofold F l2)).
        { induction l1 as [|x l1 IH1]; intros l2 s; [reflexivity|]. cbn [app ofold]. destruct (F s x); cbn; auto. }
        rewrite O, G by lia. cbn [obind ofold]. rewrite Hstep by lia. cbn [obind omap].
        unfold end1. rewrite Nat.eqb_refl. reflexivity.
      Qed.


      (** calc_moments.hpp:73-83 *)
      Lemma inner_diag_ok : exists m2 m3 m4 m5, inner_diag R kr sm (Z.of_nat a) (Z.of_nat b) r0 r1 = Ok (A, B, (m2, m3), (m4, m5))
        /\ gathered (vec r1) (vec r1) (D (S a)) m2 (S a) /\ gathered (vec A) (vec r1) (D (S a)) m3 (S a)
        /\ gathered (vec A) (vec A) (D (S b)) m4 (S a) /\ gathered (vec B) (vec A) (D (S b)) m5 (S a).
      Proof.
        unfold inner_diag. replace (Z.to_nat (Z.of_nat a + 1)) with (S a) by lia.
        match goal with |- context [ofold ?f _ _] => set (F := f) end.
        assert (O : forall l1 l2 s, ofold F (l1 ++ l2) s = obind (ofold F l1 s) (ofold F l2)).
        { induction l1 as [|x l1 IH1]; intros l2 s; [reflexivity|]. cbn [app ofold]. destruct (F s x); cbn; auto. }
        assert (Hstep : forall K m2 m3 m4 m5, K <= a ->
          gathered (vec r1) (vec r1) (D K) m2 K -> gathered (vec A) (vec r1) (D K) m3 K -> gathered (vec A) (vec A) (D (K - 1)) m4 K -> gathered (vec B) (vec A) (D (K - 1)) m5 K ->
          exists m2' m3' m4' m5', F (r0_at K, r1_at K, (m2, m3), (m4, m5), D K, D (K - 1)) K
          = Ok (r0_at (S K), ref 0 (D (end1 K)) A r1, (m2', m3'), (m4', m5'), D (S K), D (end1 K))
          /\ gathered (vec r1) (vec r1) (D (S K)) m2' (S K) /\ gathered (vec A) (vec r1) (D (S K)) m3' (S K)
          /\ gathered (vec A) (vec A) (D (end1 K)) m4' (S K) /\ gathered (vec B) (vec A) (D (end1 K)) m5' (S K)).
        { intros K m2 m3 m4 m5 HK G2 G3 G4 G5. unfold F. rewrite (slice_at_ok sm) by lia. cbn [obind].
          rewrite end1_at by auto. cbn [obind].
          destruct Hk as (_ & _ & Hs). destruct (lens K) as (L0 & L1). destruct (end1_le K HK) as (He1 & He2 & He3).
          destruct (Hs (D K) (D (S K)) (r1_at K) (r0_at K) m2 m3) as (v2 & v3 & EK & A2 & A3); [auto|auto|apply D_mono'; lia|apply D_le'; lia|].
          rewrite EK. rewrite step_r0 in A3 by auto. rewrite step_r0 by auto. cbn [obind].
          destruct (Hs (D (K - 1)) (D (end1 K)) (r0_at (S K)) (r1_at K) m4 m5) as (v4 & v5 & EK' & A4 & A5); [apply lens|auto|apply D_mono'; lia|apply D_le'; lia|].
          rewrite EK'. rewrite step_r1 in A5 by auto. rewrite step_r1 by auto. cbn [obind].
          assert (E1 : forall i, D K <= i -> i < D (S K) -> vec (r1_at K) i = vec r1 i).
          { intros i Hi1 Hi2. assert (Hi : i < N) by (pose proof (D_le' (S K) ltac:(lia)); lia).
            assert (lay i >= K) by (pose proof (in_D' i K Hi ltac:(lia)); lia). apply vec_r1_at; lia. }
          assert (E2 : forall i, D K <= i -> i < D (S K) -> vec (r0_at (S K)) i = vec A i).
          { intros i Hi1 Hi2. assert (Hi : i < N) by (pose proof (D_le' (S K) ltac:(lia)); lia).
            assert (lay i < S K) by (pose proof (in_D' i (S K) Hi ltac:(lia)); lia). apply vec_r0_at; lia. }
          assert (Q : forall i, i < D (end1 K) -> vec (r0_at (S K)) i = vec A i).
          { intros i Hi2. assert (Hi : i < N) by (pose proof (D_le' (end1 K) ltac:(lia)); lia).
            assert (lay i < end1 K) by (pose proof (in_D' i (end1 K) Hi ltac:(lia)); lia).
            unfold end1 in *. destruct (Nat.eqb_spec K a) as [-> | Hne]; [reflexivity|]. apply vec_r0_at; lia. }
          assert (Q' : forall i, i < D (end1 K) -> vec (ref 0 (D (end1 K)) A r1) i = vec B i).
          { intros i Hi2. assert (Hi : i < N) by (pose proof (D_le' (end1 K) ltac:(lia)); lia).
            assert (lay i < end1 K) by (pose proof (in_D' i (end1 K) Hi ltac:(lia)); lia).
            unfold B. rewrite (ref_slices 0 (end1 K)), (ref_slices 0 (S b)) by lia.
            destruct (Nat.ltb_spec (lay i) (end1 K)), (Nat.ltb_spec (lay i) (S b)); try lia. reflexivity. }
          exists v2, v3, v4, v5. split; [reflexivity|].
          split; [eapply g_more; [exact G2|apply D_mono'; lia|eapply adds_ext; [|exact A2]; intros; split; apply E1; assumption]|].
          split; [eapply g_more; [exact G3|apply D_mono'; lia|eapply adds_ext; [|exact A3]; intros; split; [apply E2|apply E1]; assumption]|].
          split; [eapply g_more; [exact G4|apply D_mono'; lia|eapply adds_ext; [|exact A4]; intros; split; apply Q; assumption]|].
          eapply g_more; [exact G5|apply D_mono'; lia|eapply adds_ext; [|exact A5]; intros; split; [apply Q'|apply Q]; assumption]. }
        assert (G : forall K, K <= a -> exists m2 m3 m4 m5, ofold F (seq 0 K) (r0, r1, (k0, k0), (k0, k0), 0, 0) = Ok (r0_at K, r1_at K, (m2, m3), (m4, m5), D K, D (K - 1))
          /\ gathered (vec r1) (vec r1) (D K) m2 K /\ gathered (vec A) (vec r1) (D K) m3 K /\ gathered (vec A) (vec A) (D (K - 1)) m4 K /\ gathered (vec B) (vec A) (D (K - 1)) m5 K).
        { induction K as [|K IH]; intros HK.
          - do 4 eexists. split; [cbn; rewrite r0_at_0, r1_at_0; reflexivity|]. cbn. repeat split; constructor.
          - destruct IH as (m2 & m3 & m4 & m5 & E & G2 & G3 & G4 & G5); [lia|]. rewrite seq_S. cbn [plus]. rewrite O, E. cbn [obind ofold].
            destruct (Hstep K m2 m3 m4 m5 ltac:(lia) G2 G3 G4 G5) as (n2 & n3 & n4 & n5 & E' & G2' & G3' & G4' & G5'). rewrite E'. cbn [obind].
            rewrite next_r1 by lia. unfold end1 in *. destruct (Nat.eqb_spec K a); [lia|].
            replace (S K - 1)%nat with K by lia. do 4 eexists. split; [reflexivity|]. auto. }
        rewrite seq_S. cbn [plus]. destruct (G a (le_n a)) as (m2 & m3 & m4 & m5 & E & G2 & G3 & G4 & G5). rewrite O, E. cbn [obind ofold].
        destruct (Hstep a m2 m3 m4 m5 (le_n a) G2 G3 G4 G5) as (n2 & n3 & n4 & n5 & E' & G2' & G3' & G4' & G5'). rewrite E'. cbn [obind omap].
        unfold end1 in *. rewrite Nat.eqb_refl in *. do 4 eexists. split; [reflexivity|]. auto.
      Qed.
    End Inner.

  (** ** The loops *)
  Variable opt : bool.
  Local Notation count := (count sm opt).
  Lemma step_max_nat' : forall n num, n < num -> step_max sm opt n num = Z.of_nat (count n num - 1) /\ count n num <= len /\ 0 < count n num.
  Proof. apply (step_max_nat R m N sm Hlay opt). Qed.
  Lemma step_size_ok' : forall n num, n < num -> step_size R kr sm opt n num = Ok (D (count n num)).
  Proof.
    intros n num H. destruct (step_max_nat' n num H) as (E & Hc & Hp). unfold step_size, KpmMoments.count in *. unfold step_max in *.
    destruct opt.
    - rewrite E. rewrite (slice_at_ok sm) by lia. f_equal. f_equal. lia.
    - destruct Hk as (Hrows & _). rewrite Hrows. f_equal. rewrite <- (D_len R m N sm Hlay). f_equal. unfold last_index.
      pose proof (len_pos R m N sm Hlay). lia.
  Qed.
  Lemma count_step' : forall n num, S n < num -> count n num <= S (count (S n) num).
  Proof. apply (count_step R m N sm Hlay opt). Qed.

  (** The vectors of the steps of a loop of [num] moments. *)
  Fixpoint buf (num : nat) (r0 r1 : list R) (n : nat) : list R :=
    match n with
    | 0 => r0
    | S k => match k with 0 => r1 | S j => ref 0 (D (count n num)) (buf num r0 r1 k) (buf num r0 r1 j) end
    end.
  Lemma buf_SS : forall num r0 r1 n, buf num r0 r1 (S (S n)) = ref 0 (D (count (S (S n)) num)) (buf num r0 r1 (S n)) (buf num r0 r1 n).
  Proof. reflexivity. Qed.
  Section Run.
    Variable num : nat.
    Variables r0 r1 : list R.
    Hypothesis L0 : length r0 = N.
    Hypothesis L1 : length r1 = N.
    Local Notation v := (buf num r0 r1).
    Lemma buf_length : forall n, length (v n) = N.
    Proof. intros [|[|n]]; [exact L0|exact L1|]. rewrite buf_SS. apply ref_length. Qed.
    Lemma D_count : forall n, n < num -> D (count n num) <= N.
    Proof. intros n Hn. apply D_le'. apply step_max_nat'. exact Hn. Qed.
    Lemma basic_off_buf : forall C (collect : C -> nat -> list R -> C) c,
      basic_off R kr sm opt C collect num c r0 r1 = Ok (fold_left (fun c n => collect c n (v n)) (seq 2 (num - 2)) c).
    Proof.
      intros C collect c. unfold basic_off. rewrite range_1.
      assert (G : forall d n c, 2 + n + d <= num \/ d = 0 -> omap (fun s => fst (fst s)) (ofold (fun (s : C * list R * list R) n => match s with (c, a, b) =>
        obind (step_size R kr sm opt n num) (fun size => obind (kr_spmv kr 0 size b a) (fun a' => Ok (collect c n a', b, a'))) end) (seq (2 + n) d) (c, v n, v (S n)))
        = Ok (fold_left (fun c n => collect c n (v n)) (seq (2 + n) d) c)).
      { clear c. induction d as [|d IH]; intros n c Hd; [reflexivity|]. cbn [seq ofold fold_left plus]. rewrite step_size_ok' by lia. cbn [obind].
        destruct Hk as (_ & Hs & _). rewrite Hs by (try apply buf_length; try lia; apply D_count; lia). cbn [obind]. rewrite <- buf_SS. apply (IH (S n)). lia. }
      apply (G (num - 2) 0 c). lia.
    Qed.
    Lemma interleaved_off_buf : Nat.even num = true -> forall C (collect : C -> nat -> list R -> C) c,
      interleaved_off R kr sm opt C collect num c r0 r1 = Ok (fold_left (fun c n => collect c n (v n)) (seq 2 (num - 2)) c).
    Proof.
      intros Ev C collect c. unfold interleaved_off.
      assert (G : forall l n c, (forall k, In k l -> S k < num) -> (exists h, flat_map (fun k => [k; S k]) l = seq (2 + n) h) ->
        omap (fun s => fst (fst s)) (ofold (fun (s : C * list R * list R) n => match s with (c, a, b) =>
          obind (inner_off R kr sm (step_max sm opt n num) (step_max sm opt (S n) num) a b) (fun res => match res with (a', b') => Ok (collect (collect c n a') (S n) b', a', b') end) end) l (c, v n, v (S n)))
        = Ok (fold_left (fun c n => collect c n (v n)) (flat_map (fun k => [k; S k]) l) c)).
      { clear c. induction l as [|k l IH]; intros n c Hl (h & Eh); [reflexivity|]. cbn [flat_map app] in Eh. destruct h as [|[|h]]; cbn [seq] in Eh; try discriminate.
        assert (Ek : k = 2 + n) by (inversion Eh; auto). subst k. assert (Er : flat_map (fun k => [k; S k]) l = seq (2 + (2 + n)) h) by (inversion Eh; auto).
        assert (Hn : S (2 + n) < num) by (apply Hl; left; auto). destruct (step_max_nat' (2 + n) num ltac:(lia)) as (E1 & C1 & P1). destruct (step_max_nat' (S (2 + n)) num ltac:(lia)) as (E2 & C2 & P2).
        cbn [flat_map app ofold fold_left]. rewrite E1, E2. rewrite inner_off_ok by (try apply buf_length; try lia; pose proof (count_step' (2 + n) num ltac:(lia)); lia). cbn [obind]. unfold B, A.
        replace (S (count (2 + n) num - 1)) with (count (2 + n) num) by lia. replace (S (count (S (2 + n)) num - 1)) with (count (S (2 + n)) num) by lia. cbn [plus]. rewrite <- !buf_SS.
        apply (IH (2 + n)); [intros; apply Hl; right; auto|exists h; exact Er]. }
      destruct (Nat.le_gt_cases 2 num) as [H|H].
      - apply Nat.even_spec in Ev. destruct Ev as (h' & Eh). assert (E : num = (2 * (h' - 1) + 2)%nat) by lia. set (h := (h' - 1)%nat) in *.
        assert (Er : flat_map (fun k => [k; S k]) (range_from2 num 2) = seq 2 (num - 2)) by (rewrite E, range_2; f_equal; lia).
        rewrite <- Er. apply (G (range_from2 num 2) 0 c); [|exists (num - 2)%nat; exact Er].
        intros k Hin. rewrite E in Hin. apply range_2_in in Hin. lia.
      - assert (E : num = 0) by (apply Nat.even_spec in Ev; destruct Ev; lia). rewrite E. reflexivity.
    Qed.

    (** What the collector of the diagonal loops gets at step [n]. *)
    Definition good (n : nat) (m2 m3 : R) : Prop :=
      exists p, 1 <= p /\ p <= len /\ gathered (vec (v (n - 1))) (vec (v (n - 1))) (D (count n num)) m2 p /\ gathered (vec (v n)) (vec (v (n - 1))) (D (count n num)) m3 p.
    Lemma same_fold : forall C (collect : C -> nat -> R -> R -> C) (f2 f3 g2 g3 : nat -> R) l c, (forall n, In n l -> f2 n = g2 n /\ f3 n = g3 n) ->
      fold_left (fun c n => collect c n (f2 n) (f3 n)) l c = fold_left (fun c n => collect c n (g2 n) (g3 n)) l c.
    Proof.
      intros C collect f2 f3 g2 g3. induction l as [|n l IH]; intros c H; [reflexivity|]. cbn [fold_left]. destruct (H n (or_introl eq_refl)) as (-> & ->). apply IH. intros; apply H; right; auto.
    Qed.
    Lemma basic_diag_buf : 2 <= num -> forall C (collect : C -> nat -> R -> R -> C) c, exists f2 f3,
      basic_diag R kr sm opt C collect num c r0 r1 = Ok (fold_left (fun c n => collect c n (f2 n) (f3 n)) (seq 2 (num / 2 - 1)) c)
      /\ forall n, 2 <= n -> n <= num / 2 -> good n (f2 n) (f3 n).
    Proof.
      intros H2 C collect c. unfold basic_diag. rewrite range_1. replace (S (num / 2) - 2) with (num / 2 - 1) by lia.
      assert (Hh : num / 2 < num) by (apply Nat.div_lt; lia).
      assert (G : forall d n c, 1 + n + d <= num / 2 \/ d = 0 -> exists f2 f3, omap (fun s => fst (fst s)) (ofold (fun (s : C * list R * list R) n => match s with (c, a, b) =>
          obind (step_size R kr sm opt n num) (fun size => obind (kr_diag kr 0 size b a k0 k0) (fun res => match res with (a', m2, m3) => Ok (collect c n m2 m3, b, a') end)) end) (seq (2 + n) d) (c, v n, v (S n)))
          = Ok (fold_left (fun c n => collect c n (f2 n) (f3 n)) (seq (2 + n) d) c) /\ forall k, 2 + n <= k -> k < 2 + n + d -> good k (f2 k) (f3 k)).
      { clear c. induction d as [|d IH]; intros n c Hd.
        - exists (fun _ => k0), (fun _ => k0). split; [reflexivity|]. intros; lia.
        - cbn [seq ofold plus]. rewrite step_size_ok' by lia. cbn [obind].
          destruct Hk as (_ & _ & Hs). destruct (Hs 0 (D (count (S (S n)) num)) (v (S n)) (v n) k0 k0) as (m2 & m3 & E & A2 & A3); [apply buf_length|apply buf_length|lia|apply D_count; lia|].
          rewrite E. cbn [obind]. rewrite <- buf_SS in *. destruct (IH (S n) (collect c (S (S n)) m2 m3) ltac:(lia)) as (f2 & f3 & EF & GF).
          exists (fun k => if k =? S (S n) then m2 else f2 k), (fun k => if k =? S (S n) then m3 else f3 k). split.
          + cbn [plus] in EF. rewrite EF. f_equal. cbn [fold_left]. rewrite Nat.eqb_refl. apply same_fold. intros k Hin. apply in_seq in Hin. destruct (Nat.eqb_spec k (S (S n))); [lia|]. split; reflexivity.
          + intros k H5 H6. destruct (Nat.eqb_spec k (S (S n))) as [->|Hne]; [|apply GF; lia].
            exists 1. replace (S (S n) - 1) with (S n) by lia. split; [lia|]. split; [pose proof (len_pos R m N sm Hlay); lia|]. split; (eapply g_more; [constructor|lia|assumption]). }
      destruct (G (num / 2 - 1) 0 c ltac:(lia)) as (f2 & f3 & E & GF). exists f2, f3. split; [exact E|]. intros n H3 H4. apply GF; lia.
    Qed.
    Lemma interleaved_diag_buf : 2 <= num -> ((num - 2) mod 4 = 0) -> forall C (collect : C -> nat -> R -> R -> C) c, exists f2 f3,
      interleaved_diag R kr sm opt C collect num c r0 r1 = Ok (fold_left (fun c n => collect c n (f2 n) (f3 n)) (seq 2 (num / 2 - 1)) c)
      /\ forall n, 2 <= n -> n <= num / 2 -> good n (f2 n) (f3 n).
    Proof.
      intros H2 H4 C collect c. set (h := ((num - 2) / 4)%nat).
      assert (E : num = (4 * h + 2)%nat) by (unfold h; pose proof (Nat.div_mod (num - 2) 4 ltac:(lia)); lia).
      assert (E1 : num / 2 = 2 * h + 1). { rewrite E. replace (4 * h + 2)%nat with ((2 * h + 1) * 2)%nat by lia. rewrite Nat.div_mul by lia. lia. }
      assert (G : forall l n c, (forall k, In k l -> S k < num) -> (exists h, flat_map (fun k => [k; S k]) l = seq (2 + n) h) -> exists f2 f3,
        omap (fun s => fst (fst s)) (ofold (fun (s : C * list R * list R) n => match s with (c, a, b) =>
          obind (inner_diag R kr sm (step_max sm opt n num) (step_max sm opt (S n) num) a b) (fun res => match res with (a', b', (m2, m3), (m4, m5)) => Ok (collect (collect c n m2 m3) (S n) m4 m5, a', b') end) end) l (c, v n, v (S n)))
        = Ok (fold_left (fun c n => collect c n (f2 n) (f3 n)) (flat_map (fun k => [k; S k]) l) c)
        /\ forall k, In k (flat_map (fun k => [k; S k]) l) -> good k (f2 k) (f3 k)).
      { clear c. induction l as [|k l IH]; intros n c Hl (q & Eh).
        - exists (fun _ => k0), (fun _ => k0). split; [reflexivity|]. intros k [].
        - cbn [flat_map app] in Eh. destruct q as [|[|q]]; cbn [seq] in Eh; try discriminate.
          assert (Ek : k = 2 + n) by (inversion Eh; auto). subst k. assert (Er : flat_map (fun k => [k; S k]) l = seq (2 + (2 + n)) q) by (inversion Eh; auto).
          assert (Hn : S (2 + n) < num) by (apply Hl; left; auto). destruct (step_max_nat' (2 + n) num ltac:(lia)) as (F1 & C1 & P1). destruct (step_max_nat' (S (2 + n)) num ltac:(lia)) as (F2 & C2 & P2).
          destruct (inner_diag_ok (count (2 + n) num - 1) (count (S (2 + n)) num - 1) ltac:(lia) ltac:(lia) ltac:(pose proof (count_step' (2 + n) num ltac:(lia)); lia) (v n) (v (S n)) (buf_length n) (buf_length (S n)))
            as (m2 & m3 & m4 & m5 & EI & G2 & G3 & G4 & G5).
          cbn [flat_map app ofold]. rewrite F1, F2, EI. cbn [obind]. unfold B, A in *.
          replace (S (count (2 + n) num - 1)) with (count (2 + n) num) in * by lia. replace (S (count (S (2 + n)) num - 1)) with (count (S (2 + n)) num) in * by lia. cbn [plus] in *. rewrite <- !buf_SS in *.
          destruct (IH (S (S n)) (collect (collect c (S (S n)) m2 m3) (S (S (S n))) m4 m5)) as (f2 & f3 & EF & GF); [intros; apply Hl; right; auto|exists q; exact Er|].
          exists (fun k => if k =? S (S n) then m2 else if k =? S (S (S n)) then m4 else f2 k), (fun k => if k =? S (S n) then m3 else if k =? S (S (S n)) then m5 else f3 k).
          assert (Out : forall k, In k (flat_map (fun k => [k; S k]) l) -> (k =? S (S n)) = false /\ (k =? S (S (S n))) = false).
          { intros k Hin. rewrite Er in Hin. apply in_seq in Hin. split; apply Nat.eqb_neq; lia. }
          split.
          + rewrite EF. f_equal. cbn [fold_left]. rewrite !Nat.eqb_refl. assert (X1 : (S (S (S n)) =? S (S n)) = false) by (apply Nat.eqb_neq; lia). rewrite X1.
            apply same_fold. intros k Hin. destruct (Out k Hin) as (-> & ->). split; reflexivity.
          + intros k [<-|[<-|Hin]].
            * rewrite Nat.eqb_refl. exists (count (S (S n)) num). replace (S (S n) - 1) with (S n) by lia. split; [lia|]. split; [lia|]. split; assumption.
            * assert (X1 : (S (S (S n)) =? S (S n)) = false) by (apply Nat.eqb_neq; lia). rewrite X1, Nat.eqb_refl. exists (count (S (S n)) num). replace (S (S (S n)) - 1) with (S (S n)) by lia. split; [lia|]. split; [lia|]. split; assumption.
            * destruct (Out k Hin) as (-> & ->). apply GF. exact Hin. }
      assert (Er : flat_map (fun k => [k; S k]) (range_from2 (S (num / 2)) 2) = seq 2 (num / 2 - 1)).
      { rewrite E1. replace (S (2 * h + 1)) with (2 * h + 2) by lia. rewrite range_2. f_equal. lia. }
      destruct (G (range_from2 (S (num / 2)) 2) 0 c) as (f2 & f3 & EF & GF).
      - intros k Hin. rewrite E1 in Hin. replace (S (2 * h + 1)) with (2 * h + 2) in Hin by lia. apply range_2_in in Hin. lia.
      - exists (num / 2 - 1). exact Er.
      - exists f2, f3. rewrite Er in *. split; [exact EF|]. intros n H5 H6. apply GF. apply in_seq. lia.
    Qed.

    (** ** The vectors, with or without the size optimisation *)
    Variable t : nat -> nat -> R.
    Hypothesis tSS : forall n i, i < N -> t (S (S n)) i = cell i (t (S n)) (t n i).
    Hypothesis T0 : forall i, i < N -> vec r0 i = t 0 i.
    Hypothesis T1 : forall i, i < N -> vec r1 i = t 1 i.
    Hypothesis cell_zero : forall i x, i < N -> (forall e, In e (entries m i) -> x (fst e) = k0) -> cell i x k0 = k0.
    Hypothesis Hsup : opt = true -> (forall i, i < N -> sm_src sm < lay i -> t 0 i = k0) /\ (forall i, i < N -> S (sm_src sm) < lay i -> t 1 i = k0).
    Lemma support' : opt = true -> forall n i, i < N -> n + sm_src sm < lay i -> t n i = k0 /\ (forall p, (p <= n)%nat -> t p i = k0).
    Proof.
      intros Ho. destruct (Hsup Ho) as (S0 & S1).
      assert (G : forall n, (forall i, i < N -> n + sm_src sm < lay i -> t n i = k0) /\ (forall i, i < N -> S n + sm_src sm < lay i -> t (S n) i = k0)).
      { induction n as [|n (IH1 & IH2)]; [split; auto|]. split; auto. intros i Hi Hl. rewrite tSS by auto.
        rewrite IH1 by (auto; lia). apply cell_zero; [exact Hi|]. intros e He. destruct (neighbour' i e Hi He) as (Hc & _ & Hn). apply IH2; auto; lia. }
      intros n i Hi Hl. split; [apply G; auto|]. intros p Hp. apply G; auto. lia.
    Qed.
    Lemma buf_needed : forall n, n < num -> forall i, i < N -> (opt = true -> lay i <= num - 1 - n + sm_dest sm) -> vec (v n) i = t n i.
    Proof.
      assert (G : forall n, (n < num -> forall i, i < N -> (opt = true -> lay i <= num - 1 - n + sm_dest sm) -> vec (v n) i = t n i)
                         /\ (S n < num -> forall i, i < N -> (opt = true -> lay i <= num - 1 - S n + sm_dest sm) -> vec (v (S n)) i = t (S n) i)).
      { induction n as [|n (IH1 & IH2)]; [split; auto|]. split; [exact IH2|]. intros Hn i Hi Hneed. rewrite buf_SS.
        destruct (step_max_nat' (2 + n) num Hn) as (E1 & C1 & P1). rewrite (ref_slices 0 (count (S (S n)) num)) by (auto; lia).
        change (0 <=? lay i) with true. cbn [andb].
        assert (Hr0 : vec (v n) i = t n i) by (apply IH1; auto; [lia|intros Ho; specialize (Hneed Ho); lia]). rewrite Hr0.
        destruct (Nat.ltb_spec (lay i) (count (S (S n)) num)).
        - rewrite tSS by auto. apply cell_ext. intros e He. destruct (neighbour' i e Hi He) as (Hc & Hn1 & Hn2).
          apply IH2; auto; [lia|]. intros Ho. specialize (Hneed Ho). lia.
        - pose proof support' as Hsu. unfold KpmMoments.count, step_max in *. destruct opt eqn:Ho.
          + pose proof (lay_lt R m N sm Hlay i Hi). specialize (Hneed eq_refl).
            assert (2 + n + sm_src sm < lay i).
            { pose proof (slice_index_enough sm (proj1 Hlay) (Z.of_nat (2 + n)) (Z.of_nat num) (Z.of_nat (lay i)) ltac:(lia)
                ltac:(unfold last_index; lia) ltac:(lia)). cbn [plus] in *. lia. }
            destruct (Hsu eq_refl (2 + n) i Hi ltac:(lia)) as (Z1 & Z2). change (S (S n)) with (2 + n). rewrite Z1. apply Z2. lia.
          + exfalso. pose proof (lay_lt R m N sm Hlay i Hi). unfold last_index in *. lia. }
      intros n Hn. apply G. exact Hn.
    Qed.
  End Run.
End Loops.
