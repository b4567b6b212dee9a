(* The moment loops of Kpm.v: interleaving two steps equals doing them one after the other. *)
From Verif Require Import Base Scalar Kpm KpmSpec KpmVec.
From Coq Require Import Ring.

Section Loops.
  Variable R : scalar.
  Variable half : R.
  Add Ring Rring : (k_ring R).
  Local Open Scope k_scope.
  Local Notation csr := (list (list (nat * R))).

  (** Slices: slice number [lay i] is the first one whose border lies above [i]. *)
  Definition layer (sm : slice_map) (i : nat) : nat := first_above (sm_data sm) i.
  (** Borders increase up to the matrix size; rows couple to neighbouring slices only. *)
  Definition layered (m : csr) (N : nat) (sm : slice_map) : Prop :=
    sm_data sm <> []
    /\ (forall k, S k < length (sm_data sm) -> nth k (sm_data sm) 0 < nth (S k) (sm_data sm) 0)
    /\ nth (length (sm_data sm) - 1) (sm_data sm) 0 = N
    /\ (forall i e, i < N -> In e (entries m i) ->
          layer sm (fst e) <= S (layer sm i) /\ layer sm i <= S (layer sm (fst e))).

  Section Fixed.
    Variable m : csr.
    Variable N : nat.
    Variable sm : slice_map.
    Variable kr : kernel R.
    Hypothesis Hr : in_range R m N.
    Hypothesis Hk : kernel_ok R half kr m N.
    Hypothesis Hlay : layered m N sm.

    Local Notation len := (length (sm_data sm)).
    Local Notation lay := (layer sm).

    (** Start row of slice [k]; [D len = N]. *)
    Definition D (k : nat) : nat := match k with 0 => 0 | S j => nth j (sm_data sm) 0 end.

    Lemma len_pos : 0 < len.
    Proof. destruct Hlay as (H & _). destruct (sm_data sm); [congruence|cbn; lia]. Qed.

    Lemma data_mono : forall d k, k + d < len -> nth k (sm_data sm) 0 <= nth (k + d) (sm_data sm) 0.
    Proof.
      induction d as [|d IH]; intros k H; [rewrite Nat.add_0_r; lia|].
      destruct Hlay as (_ & Hi & _). specialize (IH k ltac:(lia)). specialize (Hi (k + d)%nat ltac:(lia)).
      replace (k + S d)%nat with (S (k + d)) by lia. lia.
    Qed.

    Lemma D_mono : forall a b, a <= b -> b <= len -> D a <= D b.
    Proof.
      intros [|a] [|b] H1 H2; cbn; try lia.
      replace b with (a + (b - a))%nat by lia. apply data_mono. lia.
    Qed.
    Lemma D_len : D len = N.
    Proof.
      destruct Hlay as (_ & _ & H & _). pose proof len_pos. destruct len eqn:E; [lia|]. cbn [D].
      rewrite <- H. f_equal. lia.
    Qed.
    Lemma D_le : forall k, k <= len -> D k <= N.
    Proof. intros. rewrite <- D_len. apply D_mono; auto. Qed.

    Lemma first_above_spec : forall data i, (forall k, S k < length data -> nth k data 0 < nth (S k) data 0) ->
      forall k, k < length data -> (i < nth k data 0 <-> first_above data i <= k).
    Proof.
      induction data as [|b data IH]; intros i H k Hk'; cbn in Hk'; [lia|]. cbn [first_above].
      assert (Hm : forall j d', S j < length data -> nth j data d' < nth (S j) data d').
      { intros j d' Hj. specialize (H (S j) ltac:(cbn; lia)). cbn [nth] in H.
        rewrite (nth_indep data d' 0), (nth_indep (A:=nat) data (n:=S j) d' 0) by lia. exact H. }
      assert (Hb : forall j, j < length data -> b < nth j data 0).
      { induction j; intros Hj; [specialize (H 0 ltac:(cbn; lia)); exact H|]. specialize (Hm j 0 Hj). specialize (IHj ltac:(lia)). lia. }
      destruct (Nat.ltb_spec i b).
      - split; [lia|]. intros _. destruct k; cbn; [lia|]. specialize (Hb k ltac:(lia)). lia.
      - destruct k; cbn [nth]; [lia|]. rewrite (IH i (fun k H => Hm k 0 H) k) by lia. lia.
    Qed.

    Lemma in_D : forall i k, i < N -> k <= len -> (i < D k <-> lay i < k).
    Proof.
      intros i [|k] Hi Hk'; cbn [D]; [lia|]. unfold layer.
      destruct Hlay as (_ & H & _). rewrite (first_above_spec _ i H) by lia. lia.
    Qed.
    Lemma lay_lt : forall i, i < N -> lay i < len.
    Proof. intros i Hi. apply in_D; auto. rewrite D_len. auto. Qed.

    Lemma neighbour : forall i e, i < N -> In e (entries m i) ->
      fst e < N /\ lay (fst e) <= S (lay i) /\ lay i <= S (lay (fst e)).
    Proof. intros i e Hi He. split; [eapply (proj2 Hr); eauto|]. apply Hlay; auto. Qed.

    Lemma slice_at_ok : forall k, k < len -> slice_at sm (Z.of_nat k) = Ok (D (S k)).
    Proof.
      intros k Hk'. unfold slice_at. destruct (Z.ltb_spec (Z.of_nat k) 0); [lia|]. rewrite Nat2Z.id.
      unfold aget. rewrite (nth_error_nth' _ 0 Hk'). reflexivity.
    Qed.

    Local Notation ref := (spmv_ref R m N).

    Lemma in_rows_slices : forall a b i, i < N -> a <= len -> b <= len ->
      in_rows (D a) (D b) i = (a <=? lay i) && (lay i <? b).
    Proof.
      intros a b i Hi Ha Hb. unfold in_rows. pose proof (in_D i a Hi Ha). pose proof (in_D i b Hi Hb).
      destruct (Nat.leb_spec (D a) i), (Nat.leb_spec a (lay i)), (Nat.ltb_spec i (D b)), (Nat.ltb_spec (lay i) b); cbn; auto; lia.
    Qed.
    Lemma ref_slices : forall a b x y i, i < N -> a <= len -> b <= len ->
      vec (ref (D a) (D b) x y) i = if (a <=? lay i) && (lay i <? b) then act R m (vec x) i - vec y i else vec y i.
    Proof. intros. rewrite spmv_ref_at by auto. rewrite in_rows_slices by auto. reflexivity. Qed.

    Lemma ref_ext : forall a b a' b' x x' y y', a <= len -> b <= len -> a' <= len -> b' <= len ->
      (forall i, i < N ->
         (if (a <=? lay i) && (lay i <? b) then act R m (vec x) i - vec y i else vec y i)
         = (if (a' <=? lay i) && (lay i <? b') then act R m (vec x') i - vec y' i else vec y' i)) ->
      ref (D a) (D b) x y = ref (D a') (D b') x' y'.
    Proof.
      intros a b a' b' x x' y y' H1 H2 H3 H4 H. apply vec_ext; [rewrite !spmv_ref_length; auto|].
      rewrite spmv_ref_length. intros i Hi. rewrite !ref_slices by auto. apply H; auto.
    Qed.

    Section Inner.
      Variables a b : nat.
      Hypothesis Ha : a < len.
      Hypothesis Hb : b < len.
      Hypothesis Hab : a <= S b.
      Variables r0 r1 : list R.
      Hypothesis H0 : length r0 = N.
      Hypothesis H1 : length r1 = N.

      Definition A : list R := ref 0 (D (S a)) r1 r0.
      Definition B : list R := ref 0 (D (S b)) A r1.

      (** State of both buffers after [K] slices. *)
      Definition r0_at (K : nat) : list R := ref 0 (D K) r1 r0.
      Definition r1_at (K : nat) : list R := ref 0 (D (K - 1)) A r1.

      Lemma r0_at_0 : r0_at 0 = r0.
      Proof.
        apply vec_ext; [unfold r0_at; rewrite spmv_ref_length; auto|]. unfold r0_at. rewrite spmv_ref_length. intros i Hi.
        rewrite (ref_slices 0 0) by lia. cbn. reflexivity.
      Qed.
      Lemma r1_at_0 : r1_at 0 = r1.
      Proof.
        apply vec_ext; [unfold r1_at; rewrite spmv_ref_length; auto|]. unfold r1_at. rewrite spmv_ref_length. intros i Hi.
        rewrite (ref_slices 0 0) by (cbn; lia). cbn. reflexivity.
      Qed.

      Lemma vec_r1_at : forall K i, i < N -> K <= S a -> K - 1 <= lay i -> vec (r1_at K) i = vec r1 i.
      Proof.
        intros K i Hi HK H. unfold r1_at. rewrite (ref_slices 0 (K - 1)) by lia.
        destruct (Nat.ltb_spec (lay i) (K - 1)); cbn; [lia|]. reflexivity.
      Qed.
      Lemma vec_r0_at : forall K i, i < N -> K <= S a -> lay i < K -> vec (r0_at K) i = vec A i.
      Proof.
        intros K i Hi HK H. unfold r0_at, A. rewrite (ref_slices 0 K), (ref_slices 0 (S a)) by lia.
        destruct (Nat.ltb_spec (lay i) K), (Nat.ltb_spec (lay i) (S a)); cbn; try lia. reflexivity.
      Qed.

      Lemma step_r0 : forall K, K <= a -> ref (D K) (D (S K)) (r1_at K) (r0_at K) = r0_at (S K).
      Proof.
        intros K HK. unfold r0_at at 2. apply (ref_ext K (S K) 0 (S K)); try lia. intros i Hi.
        assert (E : vec (r0_at K) i = if lay i <? K then act R m (vec r1) i - vec r0 i else vec r0 i).
        { unfold r0_at. rewrite (ref_slices 0 K) by lia. reflexivity. }
        rewrite E. change (0 <=? lay i) with true. cbn [andb].
        destruct (Nat.leb_spec K (lay i)), (Nat.ltb_spec (lay i) (S K)), (Nat.ltb_spec (lay i) K); cbn [andb]; try lia; auto.
        f_equal. apply act_ext. intros e He. destruct (neighbour i e Hi He) as (Hc & Hn1 & Hn2).
        apply vec_r1_at; lia.
      Qed.

      (** End of the second range at iteration [K]. *)
      Definition end1 (K : nat) : nat := if K =? a then S b else K.
      Lemma end1_le : forall K, K <= a -> end1 K <= len /\ K - 1 <= end1 K /\ end1 K <= S b.
      Proof. intros K HK. unfold end1. destruct (Nat.eqb_spec K a); lia. Qed.

      Lemma step_r1 : forall K, K <= a -> ref (D (K - 1)) (D (end1 K)) (r0_at (S K)) (r1_at K) = ref 0 (D (end1 K)) A r1.
      Proof.
        intros K HK. destruct (end1_le K HK) as (He1 & He2 & He3).
        apply (ref_ext (K - 1) (end1 K) 0 (end1 K)); try lia. intros i Hi.
        assert (E : vec (r1_at K) i = if lay i <? K - 1 then act R m (vec A) i - vec r1 i else vec r1 i).
        { unfold r1_at. rewrite (ref_slices 0 (K - 1)) by lia. reflexivity. }
        rewrite E. change (0 <=? lay i) with true. cbn [andb].
        destruct (Nat.leb_spec (K - 1) (lay i)), (Nat.ltb_spec (lay i) (end1 K)), (Nat.ltb_spec (lay i) (K - 1));
          cbn [andb]; try lia; auto.
        f_equal. apply act_ext. intros e He. destruct (neighbour i e Hi He) as (Hc & Hn1 & Hn2).
        unfold end1 in *. destruct (Nat.eqb_spec K a) as [-> | Hne].
        - unfold A, r0_at. reflexivity.
        - apply vec_r0_at; lia.
      Qed.

      Lemma next_r1 : forall K, K < a -> ref 0 (D (end1 K)) A r1 = r1_at (S K).
      Proof. intros K HK. unfold end1, r1_at. destruct (Nat.eqb_spec K a); [lia|]. cbn. rewrite Nat.sub_0_r. reflexivity. Qed.

      Lemma lens : forall K, length (r0_at K) = N /\ length (r1_at K) = N.
      Proof. intros K. unfold r0_at, r1_at. rewrite !spmv_ref_length. auto. Qed.

      Lemma end1_at : forall K, K <= a ->
        (if (Z.of_nat K =? Z.of_nat a)%Z then slice_at sm (Z.of_nat b) else Ok (D K)) = Ok (D (end1 K)).
      Proof.
        intros K HK. unfold end1. destruct (Z.eqb_spec (Z.of_nat K) (Z.of_nat a)), (Nat.eqb_spec K a); try lia; auto.
        apply slice_at_ok; auto.
      Qed.

      (** calc_moments.hpp:129-141: both steps of an interleaved pair. *)
      Lemma inner_off_ok : inner_off R kr sm (Z.of_nat a) (Z.of_nat b) r0 r1 = Ok (A, B).
      Proof.
        unfold inner_off. replace (Z.to_nat (Z.of_nat a + 1)) with (S a) by lia.
        match goal with |- omap _ (ofold ?f _ _) = _ => set (F := f) end.
        assert (Hstep : forall K, K <= a ->
          F (r0_at K, r1_at K, D K, D (K - 1)) K
          = Ok (r0_at (S K), ref 0 (D (end1 K)) A r1, D (S K), D K)).
        { intros K HK. unfold F. rewrite slice_at_ok by lia. cbn [obind].
          rewrite end1_at by auto. cbn [obind].
          destruct Hk as (_ & Hs & _). destruct (lens K) as (L0 & L1). destruct (end1_le K HK) as (He1 & He2 & He3).
          rewrite Hs by (auto; try apply D_le; try apply D_mono; lia). cbn [obind]. rewrite step_r0 by auto.
          rewrite Hs by (auto; try apply D_le; try apply D_mono; try apply lens; lia). cbn [obind]. rewrite step_r1 by auto. reflexivity. }
        assert (G : forall K, K <= a -> ofold F (seq 0 K) (r0, r1, 0, 0) = Ok (r0_at K, r1_at K, D K, D (K - 1))).
        { induction K as [|K IH]; intros HK; [cbn; rewrite r0_at_0, r1_at_0; reflexivity|].
          rewrite seq_S. cbn [plus]. assert (O : forall l1 l2 s, ofold F (l1 ++ l2) s = obind (ofold F l1 s) (ofold F l2)).
          { induction l1 as [|x l1 IH1]; intros l2 s; [reflexivity|]. cbn [app ofold]. destruct (F s x); cbn; auto. }
          rewrite O, IH by lia. cbn [obind ofold]. rewrite Hstep by lia. cbn [obind].
          rewrite next_r1 by lia. replace (S K - 1)%nat with K by lia. reflexivity. }
        rewrite seq_S. cbn [plus].
        assert (O : forall l1 l2 s, ofold F (l1 ++ l2) s = obind (ofold F l1 s) (ofold F l2)).
        { induction l1 as [|x l1 IH1]; intros l2 s; [reflexivity|]. cbn [app ofold]. destruct (F s x); cbn; auto. }
        rewrite O, G by lia. cbn [obind ofold]. rewrite Hstep by lia. cbn [obind omap].
        unfold end1. rewrite Nat.eqb_refl. reflexivity.
      Qed.

      (** Sums over consecutive slices. *)
      Lemma sum_split : forall f x y z, x <= y -> y <= z -> sum_rows R x y f + sum_rows R y z f = sum_rows R x z f.
      Proof.
        intros f x y z Hx Hy. unfold sum_rows. replace (z - x)%nat with ((y - x) + (z - y))%nat by lia.
        rewrite seq_app, ksum_app. replace (x + (y - x))%nat with y by lia. reflexivity.
      Qed.
      Lemma sum_rows_ext : forall (f g : nat -> R) x y, (forall i, x <= i -> i < y -> f i = g i) -> sum_rows R x y f = sum_rows R x y g.
      Proof. intros f g x y H. apply ksum_ext. intros i Hi. apply in_seq in Hi. apply H; lia. Qed.

      Definition norm2 (x : list R) : nat -> R := fun i => kconj (vec x i) * vec x i.
      Definition prod (y x : list R) : nat -> R := fun i => kconj (vec y i) * vec x i.

      (** calc_moments.hpp:73-83 *)
      Lemma inner_diag_ok : inner_diag R kr sm (Z.of_nat a) (Z.of_nat b) r0 r1
        = Ok (A, B, (sum_rows R 0 (D (S a)) (norm2 r1), sum_rows R 0 (D (S a)) (prod A r1)),
                    (sum_rows R 0 (D (S b)) (norm2 A), sum_rows R 0 (D (S b)) (prod B A))).
      Proof.
        unfold inner_diag. replace (Z.to_nat (Z.of_nat a + 1)) with (S a) by lia.
        match goal with |- omap _ (ofold ?f _ _) = _ => set (F := f) end.
        set (acc := fun K => (sum_rows R 0 (D K) (norm2 r1), sum_rows R 0 (D K) (prod A r1))).
        set (acc' := fun E => (sum_rows R 0 (D E) (norm2 A), sum_rows R 0 (D E) (prod B A))).
        assert (O : forall l1 l2 s, ofold F (l1 ++ l2) s = obind (ofold F l1 s) (ofold F l2)).
        { induction l1 as [|x l1 IH1]; intros l2 s; [reflexivity|]. cbn [app ofold]. destruct (F s x); cbn; auto. }
        assert (Hstep : forall K, K <= a ->
          F (r0_at K, r1_at K, acc K, acc' (K - 1)%nat, D K, D (K - 1)) K
          = Ok (r0_at (S K), ref 0 (D (end1 K)) A r1, acc (S K), acc' (end1 K), D (S K), D (end1 K))).
        { intros K HK. unfold F, acc, acc'. rewrite slice_at_ok by lia. cbn [obind].
          rewrite end1_at by auto. cbn [obind].
          destruct Hk as (_ & _ & Hs & _). destruct (lens K) as (L0 & L1). destruct (end1_le K HK) as (He1 & He2 & He3).
          rewrite Hs by (auto; try apply D_le; try apply D_mono; lia). rewrite step_r0 by auto. cbn [obind].
          rewrite Hs by (auto; try apply D_le; try apply D_mono; try apply lens; lia). rewrite step_r1 by auto. cbn [obind].
          assert (E1 : sum_rows R 0 (D K) (norm2 r1) + sum_rows R (D K) (D (S K)) (fun i => kconj (vec (r1_at K) i) * vec (r1_at K) i)
                       = sum_rows R 0 (D (S K)) (norm2 r1)).
          { rewrite <- (sum_split (norm2 r1) 0 (D K) (D (S K))) by (try lia; apply D_mono; lia). f_equal.
            apply sum_rows_ext. intros i Hi1 Hi2. assert (Hi : i < N) by (pose proof (D_le (S K) ltac:(lia)); lia).
            assert (lay i >= K) by (pose proof (in_D i K Hi ltac:(lia)); lia).
            unfold norm2. rewrite vec_r1_at by lia. reflexivity. }
          assert (E2 : sum_rows R 0 (D K) (prod A r1) + sum_rows R (D K) (D (S K)) (fun i => kconj (vec (r0_at (S K)) i) * vec (r1_at K) i)
                       = sum_rows R 0 (D (S K)) (prod A r1)).
          { rewrite <- (sum_split (prod A r1) 0 (D K) (D (S K))) by (try lia; apply D_mono; lia). f_equal.
            apply sum_rows_ext. intros i Hi1 Hi2. assert (Hi : i < N) by (pose proof (D_le (S K) ltac:(lia)); lia).
            assert (lay i >= K) by (pose proof (in_D i K Hi ltac:(lia)); lia).
            assert (lay i < S K) by (pose proof (in_D i (S K) Hi ltac:(lia)); lia).
            unfold prod. rewrite vec_r1_at, vec_r0_at by lia. reflexivity. }
          assert (Q : forall i, i < D (end1 K) -> vec (r0_at (S K)) i = vec A i).
          { intros i Hi2. assert (Hi : i < N) by (pose proof (D_le (end1 K) ltac:(lia)); lia).
            assert (lay i < end1 K) by (pose proof (in_D i (end1 K) Hi ltac:(lia)); lia).
            unfold end1 in *. destruct (Nat.eqb_spec K a) as [-> | Hne]; [reflexivity|]. apply vec_r0_at; lia. }
          assert (Q' : forall i, i < D (end1 K) -> vec (ref 0 (D (end1 K)) A r1) i = vec B i).
          { intros i Hi2. assert (Hi : i < N) by (pose proof (D_le (end1 K) ltac:(lia)); lia).
            assert (lay i < end1 K) by (pose proof (in_D i (end1 K) Hi ltac:(lia)); lia).
            unfold B. rewrite (ref_slices 0 (end1 K)), (ref_slices 0 (S b)) by lia.
            destruct (Nat.ltb_spec (lay i) (end1 K)), (Nat.ltb_spec (lay i) (S b)); try lia. reflexivity. }
          assert (E3 : sum_rows R 0 (D (K - 1)) (norm2 A) + sum_rows R (D (K - 1)) (D (end1 K)) (fun i => kconj (vec (r0_at (S K)) i) * vec (r0_at (S K)) i)
                       = sum_rows R 0 (D (end1 K)) (norm2 A)).
          { rewrite <- (sum_split (norm2 A) 0 (D (K - 1)) (D (end1 K))) by (try lia; apply D_mono; lia). f_equal.
            apply sum_rows_ext. intros i Hi1 Hi2. unfold norm2. rewrite Q by auto. reflexivity. }
          assert (E4 : sum_rows R 0 (D (K - 1)) (prod B A) + sum_rows R (D (K - 1)) (D (end1 K)) (fun i => kconj (vec (ref 0 (D (end1 K)) A r1) i) * vec (r0_at (S K)) i)
                       = sum_rows R 0 (D (end1 K)) (prod B A)).
          { rewrite <- (sum_split (prod B A) 0 (D (K - 1)) (D (end1 K))) by (try lia; apply D_mono; lia). f_equal.
            apply sum_rows_ext. intros i Hi1 Hi2. unfold prod. rewrite Q, Q' by auto. reflexivity. }
          rewrite E1, E2, E3, E4. reflexivity. }
        assert (G : forall K, K <= a -> ofold F (seq 0 K) (r0, r1, (k0, k0), (k0, k0), 0, 0)
                    = Ok (r0_at K, r1_at K, acc K, acc' (K - 1)%nat, D K, D (K - 1))).
        { induction K as [|K IH]; intros HK; [cbn; rewrite r0_at_0, r1_at_0; reflexivity|].
          rewrite seq_S. cbn [plus]. rewrite O, IH by lia. cbn [obind ofold]. rewrite Hstep by lia. cbn [obind].
          rewrite next_r1 by lia. unfold end1. destruct (Nat.eqb_spec K a); [lia|].
          replace (S K - 1)%nat with K by lia. reflexivity. }
        rewrite seq_S. cbn [plus]. rewrite O, G by lia. cbn [obind ofold]. rewrite Hstep by lia. cbn [obind omap].
        unfold end1, acc, acc'. rewrite Nat.eqb_refl. reflexivity.
      Qed.
    End Inner.
  End Fixed.
End Loops.
