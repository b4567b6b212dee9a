(* Slices of the foundation across a lead's axis: all have the same columns in the same order. *)
From Verif Require Import Base Rle Blocks Foundation IndexProofs FoundationSpec FoundationFacts Leads LeadsSpec.
Local Open Scope Z_scope.

Lemma comp_put_same : forall a k i, comp3 a (put3 a k i) = k.
Proof. intros [|[|a]] k i; reflexivity. Qed.
Lemma comp_put_other : forall a b k i, (b < 3)%nat -> (a < 3)%nat -> b <> a -> comp3 b (put3 a k i) = comp3 b i.
Proof. intros [|[|[|a]]] [|[|[|b]]] k i Hb Ha H; try reflexivity; try lia; congruence. Qed.
Lemma put_put : forall a k k' i, put3 a k (put3 a k' i) = put3 a k i.
Proof. intros [|[|a]] k k' i; reflexivity. Qed.
Lemma put_comp : forall a i, put3 a (comp3 a i) i = i.
Proof. intros [|[|a]] [x y z]; reflexivity. Qed.

Section Rows.
  Context {P : Type}.
  Variable size lower : idx3.
  Variable nsub : nat.
  Variable l : lead P.
  Hypothesis Hsize : positive_block size.
  Hypothesis Haxis : (lead_axis l < 3)%nat.

  Notation a := (lead_axis l).
  Definition across : slice3 := normalize size (shape_slice size lower l).
  Definition row (k : Z) : list site := slice_sites size nsub (sl_set a (slice_one k) (shape_slice size lower l)).

  Lemma normalize_row : forall k, 0 <= k -> normalize size (sl_set a (slice_one k) (shape_slice size lower l)) = sl_set a (slice_one k) across.
  Proof.
    intros k Hk. unfold across. set (ss := shape_slice size lower l). unfold normalize, sl_set, slice_one.
    assert (E : forall n, normalize1 n (Sl k (k + 1)) = Sl k (k + 1)).
    { intros n. unfold normalize1. cbn [sl_end]. destruct (Z.ltb_spec (k + 1) 0); [lia|reflexivity]. }
    destruct a as [|[|q]]; cbn [slx sly slz]; rewrite E; reflexivity.
  Qed.

  Lemma sl_set_set : forall b x y r, sl_set b x (sl_set b y r) = sl_set b x r.
  Proof. intros [|[|b]] x y [rx ry rz]; reflexivity. Qed.

  Lemma walk_row : forall k, 0 <= k -> slice_walk size nsub (sl_set a (slice_one k) across) = row k.
  Proof. intros k Hk. unfold row, slice_sites. rewrite normalize_row by auto. reflexivity. Qed.

  Lemma walk_junction : forall k0 k, 0 <= k0 -> 0 <= k ->
    slice_walk size nsub (sl_set a (slice_one k) (junction_slice size lower l k0)) = row k.
  Proof. intros k0 k H0 Hk. unfold junction_slice. rewrite normalize_row, sl_set_set by auto. apply walk_row; auto. Qed.

  (** Ranges on the other axes stay inside the block. *)
  Lemma across_inside : forall b, (b < 3)%nat -> 0 <= sl_start (sl_get b across) /\ sl_end (sl_get b across) <= comp3 b size.
  Proof.
    intros b Hb. unfold across, normalize, shape_slice, shape_slice1, normalize1. cbn [slx sly slz sl_end sl_start].
    destruct b as [|[|[|b]]]; [| | |lia]; cbn [sl_get slx sly slz comp3].
    - destruct (Z.min _ _ <? 0); cbn [sl_start sl_end]; lia.
    - destruct (Z.min _ _ <? 0); cbn [sl_start sl_end]; lia.
    - destruct (Z.min _ _ <? 0); cbn [sl_start sl_end]; lia.
  Qed.

  Definition span (b : nat) : Z := slice_size (sl_get b across).
  Definition row_dims : idx3 := put3 a 1 (I3 (slice_size (slx across)) (slice_size (sly across)) (slice_size (slz across))).
  Definition row_len : nat := Z.to_nat (f_size row_dims nsub).
  Definition col_cell (m : nat) : idx3 :=
    add3 (I3 (sl_start (slx across)) (sl_start (sly across)) (sl_start (slz across))) (s_idx (unflat row_dims (Z.of_nat m))).
  Definition col_sub (m : nat) : Z := s_sub (unflat row_dims (Z.of_nat m)).
  Definition row_site (k : Z) (m : nat) : site := mk_site size (put3 a k (col_cell m)) (col_sub m).

  Lemma row_dims_pos : (0 < row_len)%nat -> pos_size row_dims.
  Proof.
    unfold row_len, f_size, prod3, pos_size. intros H.
    assert (F : forall x, 0 <= slice_size x) by (intros x; unfold slice_size; destruct (Z.ltb_spec (sl_start x) (sl_end x)); lia).
    pose proof (F (slx across)). pose proof (F (sly across)). pose proof (F (slz across)).
    unfold row_dims in *. destruct a as [|[|q]]; cbn [put3 ix iy iz] in *; nia.
  Qed.

  Lemma put3_comp : forall b k i, (b < 3)%nat -> comp3 b (put3 a k i) = if Nat.eqb b a then k else comp3 b i.
  Proof.
    intros b k i Hb. destruct (Nat.eqb_spec b a) as [->|H]; [apply comp_put_same|apply comp_put_other; auto].
  Qed.

  Lemma row_sites : forall k, 0 <= k -> row k = map (row_site k) (seq 0 row_len).
  Proof.
    intros k Hk. set (r := sl_set a (slice_one k) across).
    assert (EN : normalize size (sl_set a (slice_one k) (shape_slice size lower l)) = r) by (apply normalize_row; auto).
    assert (ES : slice3_size r = prod3 row_dims).
    { unfold r, slice3_size, prod3, row_dims. 
      assert (S1 : slice_size (slice_one k) = 1) by (unfold slice_size, slice_one; cbn [sl_start sl_end]; destruct (Z.ltb_spec k (k + 1)); lia).
      destruct a as [|[|q]]; cbn [sl_set slx sly slz put3 ix iy iz]; rewrite S1; ring. }
    destruct (Nat.eq_dec row_len 0) as [Z0|NZ].
    - unfold row, slice_sites. rewrite EN, ES. unfold row_len, f_size in Z0. rewrite Z0. unfold row_len, f_size. rewrite Z0. reflexivity.
    - pose proof (row_dims_pos ltac:(lia)) as PD.
      assert (ED : slice_dims r = row_dims).
      { unfold r, slice_dims, row_dims in *. revert PD. unfold slice_size, pos_size.
        destruct a as [|[|q]]; cbn [sl_set slx sly slz put3 ix iy iz slice_one sl_start sl_end];
          repeat (match goal with |- context [Z.ltb ?x ?y] => destruct (Z.ltb_spec x y) end); intros PD; try lia; f_equal; lia. }
      unfold row. rewrite slice_sites_eq by (unfold slice_nonempty; rewrite EN, ED; exact PD).
      rewrite EN, ED. apply map_ext. intros m. unfold slice_at, row_site, col_sub, col_cell. rewrite ED.
      assert (U : comp3 a (s_idx (unflat row_dims (Z.of_nat m))) = 0).
      { assert (D1 : comp3 a row_dims = 1) by (unfold row_dims; apply comp_put_same).
        unfold unflat. cbn [s_idx]. destruct a as [|[|q]]; cbn [comp3 ix iy iz] in *; rewrite D1; apply Z.mod_1_r. }
      set (u := unflat row_dims (Z.of_nat m)) in *. clearbody u. f_equal.
      unfold r, slice_start, add3. destruct a as [|[|q]]; cbn [sl_set slx sly slz put3 ix iy iz slice_one sl_start sl_end comp3] in *; rewrite U; f_equal; lia.
  Qed.

  Lemma col_in : forall m, (m < row_len)%nat -> 
    (forall b, (b < 3)%nat -> b <> a -> sl_start (sl_get b across) <= comp3 b (col_cell m) < sl_end (sl_get b across)) /\
    0 <= col_sub m < Z.of_nat nsub.
  Proof.
    intros m Hm. pose proof (row_dims_pos ltac:(lia)) as PD.
    destruct (unflat_in row_dims (Z.of_nat m) nsub PD) as [C D]; [unfold row_len in Hm; lia|].
    split; [|exact D]. intros b Hb Ne. unfold col_cell. set (u := unflat row_dims (Z.of_nat m)) in *. clearbody u.
    destruct C as (C1 & C2 & C3). unfold row_dims, slice_size in *.
    destruct a as [|[|q]]; cbn [put3 ix iy iz] in *; destruct b as [|[|[|b]]]; try lia; cbn [comp3 sl_get add3 ix iy iz] in *;
      match goal with |- context [sl_start ?x] => destruct (Z.ltb_spec (sl_start x) (sl_end x)) end; lia.
  Qed.

  Lemma row_cell : forall k m, 0 <= k < comp3 a size -> (m < row_len)%nat -> cell_of size (put3 a k (col_cell m)).
  Proof.
    intros k m Hk Hm. destruct (col_in m Hm) as [C _]. 
    assert (B : forall b, (b < 3)%nat -> 0 <= comp3 b (put3 a k (col_cell m)) < comp3 b size).
    { intros b Hb. rewrite put3_comp by auto. destruct (Nat.eqb_spec b a) as [->|Ne]; [exact Hk|].
      specialize (C b Hb Ne). pose proof (across_inside b Hb). lia. }
    split; [apply (B 0%nat); lia|]. split; [apply (B 1%nat); lia|apply (B 2%nat); lia].
  Qed.

  (** Every cell beside the lead lies on a row, and conversely. *)
  Lemma beside_range : forall i, cell_of size i -> beside lower l i <->
    (forall b, (b < 3)%nat -> b <> a -> sl_start (sl_get b across) <= comp3 b i < sl_end (sl_get b across)).
  Proof.
    intros i (I1 & I2 & I3). unfold beside.
    assert (E : forall b, (b < 3)%nat -> (box_lo lower l b <= comp3 b i /\ (comp3 b i <= box_hi lower l b \/ box_hi lower l b < -1)) <->
       sl_start (sl_get b across) <= comp3 b i < sl_end (sl_get b across)).
    { intros b Hb. unfold box_lo, box_hi, across, normalize, shape_slice, shape_slice1, normalize1. cbn [slx sly slz sl_end sl_start].
      destruct Hsize as (S1 & S2 & S3).
      destruct b as [|[|[|b]]]; [| | |lia]; cbn [sl_get slx sly slz comp3];
        match goal with |- context [if ?c <? 0 then _ else _] => destruct (Z.ltb_spec c 0) end; cbn [sl_start sl_end]; lia. }
    split; intros H b Hb Ne; apply E; auto.
  Qed.

  Lemma row_beside : forall k m, 0 <= k < comp3 a size -> (m < row_len)%nat -> beside lower l (put3 a k (col_cell m)).
  Proof.
    intros k m Hk Hm. apply beside_range; [apply row_cell; auto|]. intros b Hb Ne.
    rewrite put3_comp by auto. destruct (Nat.eqb_spec b a); [congruence|]. apply (proj1 (col_in m Hm)); auto.
  Qed.

  Lemma col_of : forall i s, cell_of size i -> (s < nsub)%nat -> beside lower l i ->
    exists m, (m < row_len)%nat /\ put3 a (comp3 a i) (col_cell m) = i /\ col_sub m = Z.of_nat s.
  Proof.
    intros i s Hi Hs HB. rewrite beside_range in HB by auto.
    set (j := put3 a 0 (add3 i (neg3 (I3 (sl_start (slx across)) (sl_start (sly across)) (sl_start (slz across)))))).
    assert (J : cell_in row_dims j).
    { pose proof (HB 0%nat ltac:(lia)) as B0. pose proof (HB 1%nat ltac:(lia)) as B1. pose proof (HB 2%nat ltac:(lia)) as B2.
      unfold cell_in, row_dims, slice_size, j. destruct Hi as (I1 & I2 & I3).
      destruct a as [|[|[|q]]]; [| | |lia]; cbn [put3 ix iy iz add3 neg3 comp3 sl_get] in *;
      repeat (match goal with |- context [Z.ltb ?x ?y] => destruct (Z.ltb_spec x y) end); lia. }
    pose proof (flat_bounds row_dims j (Z.of_nat s) nsub J ltac:(lia)) as FB.
    exists (Z.to_nat (flat_of row_dims j (Z.of_nat s))). split; [unfold row_len; lia|].
    unfold col_cell, col_sub. rewrite Z2Nat.id by lia. rewrite unflat_flat by auto. cbn [s_idx s_sub mk_site]. split; [|reflexivity].
    unfold j. destruct i as [x y z]. destruct a as [|[|q]]; cbn [put3 ix iy iz add3 neg3 comp3]; f_equal; lia.
  Qed.

  Lemma col_inj : forall m m', (m < row_len)%nat -> (m' < row_len)%nat -> put3 a 0 (col_cell m) = put3 a 0 (col_cell m') ->
    col_sub m = col_sub m' -> m = m'.
  Proof.
    intros m m' Hm Hm' E ES. pose proof (row_dims_pos ltac:(lia)) as PD.
    pose proof (flat_unflat row_dims (Z.of_nat m) PD) as F. pose proof (flat_unflat row_dims (Z.of_nat m') PD) as F'.
    assert (EI : s_idx (unflat row_dims (Z.of_nat m)) = s_idx (unflat row_dims (Z.of_nat m'))).
    { assert (U : forall m, comp3 a (s_idx (unflat row_dims (Z.of_nat m))) = 0).
      { intros q0. assert (D1 : comp3 a row_dims = 1) by (unfold row_dims; apply comp_put_same).
        unfold unflat. cbn [s_idx]. destruct a as [|[|q]]; cbn [comp3 ix iy iz] in *; rewrite D1; apply Z.mod_1_r. }
      pose proof (U m) as U1. pose proof (U m') as U2. unfold col_cell in E.
      destruct (s_idx (unflat row_dims (Z.of_nat m))) as [x y z], (s_idx (unflat row_dims (Z.of_nat m'))) as [x' y' z'].
      destruct a as [|[|q]]; cbn [put3 add3 ix iy iz comp3] in *; injection E as E1 E2; f_equal; lia. }
    unfold col_sub in ES. rewrite EI, ES in F. lia.
  Qed.

  Lemma row_flat : forall k m, 0 <= k < comp3 a size -> (m < row_len)%nat ->
    s_flat (row_site k m) = Z.of_nat (place size (put3 a k (col_cell m)) (Z.to_nat (col_sub m))) /\
    (Z.to_nat (s_flat (row_site k m)) < num_block_sites size nsub)%nat.
  Proof.
    intros k m Hk Hm. pose proof (row_cell k m Hk Hm) as C. destruct (col_in m Hm) as [_ S].
    pose proof (flat_bounds size _ (col_sub m) nsub C S) as B. unfold row_site, mk_site. cbn [s_flat].
    rewrite place_flat, (Z2Nat.id (col_sub m)) by lia. split; [lia|]. rewrite <- nbs_eq by auto. lia.
  Qed.

  Lemma row_flat_inj : forall k m k' m', 0 <= k < comp3 a size -> 0 <= k' < comp3 a size -> (m < row_len)%nat -> (m' < row_len)%nat ->
    s_flat (row_site k m) = s_flat (row_site k' m') -> k = k' /\ m = m'.
  Proof.
    intros k m k' m' Hk Hk' Hm Hm' E. unfold row_site, mk_site in E. cbn [s_flat] in E.
    apply flat_inj in E; [|apply row_cell; auto..]. destruct E as [E ES].
    assert (K : k = k') by (rewrite <- (comp_put_same a k (col_cell m)), <- (comp_put_same a k' (col_cell m')), E; reflexivity).
    split; [exact K|]. apply col_inj; auto.
    apply (f_equal (put3 a 0)) in E. rewrite !put_put in E. exact E.
  Qed.

  Lemma row_incr : forall k, 0 <= k < comp3 a size -> strictly_increasing (map s_flat (row k)).
  Proof.
    intros k Hk. set (r := sl_set a (slice_one k) (shape_slice size lower l)).
    assert (EN : normalize size r = sl_set a (slice_one k) across) by (apply normalize_row; lia).
    destruct (Nat.eq_dec row_len 0) as [Z0|NZ].
    - rewrite row_sites by lia. rewrite Z0. intros i j x y _ H. destruct i; discriminate.
    - pose proof (row_sites k ltac:(lia)) as RS. pose proof (row_dims_pos ltac:(lia)) as PD.
      pose proof (across_inside 0 ltac:(lia)) as A0. pose proof (across_inside 1 ltac:(lia)) as A1. pose proof (across_inside 2 ltac:(lia)) as A2.
      cbn [sl_get comp3] in A0, A1, A2.
      assert (ED : pos_size (slice_dims (sl_set a (slice_one k) across))).
      { revert PD. unfold pos_size, slice_dims, row_dims, slice_size. clear -A0.
        destruct a as [|[|q]]; cbn [sl_set slx sly slz put3 ix iy iz slice_one sl_start sl_end];
          repeat (match goal with |- context [Z.ltb ?x ?y] => destruct (Z.ltb_spec x y) end); intros PD; lia. }
      unfold row. fold r. rewrite slice_sites_eq by (unfold slice_nonempty; rewrite EN; exact ED).
      rewrite map_map. apply (incr_map_seq (fun m => s_flat (slice_at size (normalize size r) m))).
      intros m Hm. rewrite EN. apply slice_at_incr; auto;
        destruct a as [|[|[|q]]]; try lia; cbn [sl_set slx sly slz slice_one sl_start sl_end comp3] in *; lia.
  Qed.
End Rows.
