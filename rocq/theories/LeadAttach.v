(* The attachment area of a lead: result of the loops in terms of columns and depths (C40, C41). *)
From Verif Require Import Base Rle Blocks BlocksProofs Foundation IndexProofs FoundationSpec FoundationFacts Leads LeadsSpec LeadRows LeadFill.

Section Attach.
  Context {P : Type}.
  Variable size lower : idx3.
  Variable uc : list (usite P).
  Variable fpos : list P.
  Variable l : lead P.
  Hypothesis Hsize : positive_block size.
  Hypothesis Haxis : lead_axis l < 3.
  Notation N := (num_block_sites size (length uc)).
  Notation a := (lead_axis l).
  Hypothesis Hpos : length fpos = N.
  Hypothesis Hlen : forall ps, length (lead_contains l ps) = length ps.
  Hypothesis Hover : overlaps size lower l.
  Notation L := (row_len size lower (length uc) l).

  Definition at_depth (d : nat) : Z := if (lead_sign l <? 0)%Z then Z.of_nat d else (axis_len size l - 1 - Z.of_nat d)%Z.
  Definition deep : nat := Z.to_nat (axis_len size l).
  Definition lsite (d m : nat) : site := row_site size lower l (at_depth d) m.
  Definition lflat (d m : nat) : nat := Z.to_nat (s_flat (lsite d m)).

  Lemma at_depth_range : forall d, d < deep -> (0 <= at_depth d < comp3 a size)%Z.
  Proof. intros d H. unfold at_depth, deep, axis_len in *. destruct (lead_sign l <? 0)%Z; lia. Qed.

  Lemma at_depth_depth : forall d i, d < deep -> comp3 a i = at_depth d -> depth size l i = Z.of_nat d.
  Proof. intros d i H E. unfold depth. rewrite E. unfold at_depth, axis_len. destruct (lead_sign l <? 0)%Z; lia. Qed.

  Lemma depth_at : forall i, cell_of size i -> exists d, d < deep /\ comp3 a i = at_depth d /\ depth size l i = Z.of_nat d.
  Proof.
    intros i (I1 & I2 & I3).
    assert (C : (0 <= comp3 a i < comp3 a size)%Z) by (destruct a as [|[|[|q]]]; cbn [comp3]; lia).
    exists (Z.to_nat (depth size l i)). unfold deep, at_depth, depth, axis_len. destruct (lead_sign l <? 0)%Z; lia.
  Qed.

  Lemma axis_range_eq : axis_range size l = map at_depth (seq 0 deep).
  Proof.
    unfold axis_range, zrange, at_depth, deep, axis_len.
    destruct (Z.ltb_spec 0 (- lead_sign l)), (Z.ltb_spec (lead_sign l) 0); try lia; [reflexivity|].
    rewrite <- map_rev, rev_seq_map, map_map. apply map_ext_in. intros d Hd. apply in_seq in Hd. lia.
  Qed.

  Lemma axis_from_eq : forall d, axis_from size l (at_depth d) = map at_depth (seq d (deep - d)).
  Proof.
    intros d. unfold axis_from. rewrite axis_range_eq, filter_map_comm. f_equal. rewrite <- filter_seq_from.
    apply filter_ext_in. intros x Hx. apply in_seq in Hx. unfold at_depth, deep, axis_len in *.
    destruct (Z.ltb_spec 0 (- lead_sign l)), (Z.ltb_spec (lead_sign l) 0); try lia.
    - destruct (Z.leb_spec (Z.of_nat d) (Z.of_nat x)), (Nat.leb_spec d x); auto; lia.
    - destruct (Z.leb_spec (comp3 a size - 1 - Z.of_nat x) (comp3 a size - 1 - Z.of_nat d)), (Nat.leb_spec d x); auto; lia.
  Qed.

  Lemma lsite_range : forall d m, d < deep -> m < L -> (0 <= s_flat (lsite d m))%Z /\ lflat d m < N.
  Proof.
    intros d m Hd Hm. destruct (row_flat size lower (length uc) l Hsize Haxis (at_depth d) m (at_depth_range d Hd) Hm) as [E B].
    unfold lflat, lsite. split; [rewrite E; lia|exact B].
  Qed.

  Lemma at_depth_inj : forall d d', d < deep -> d' < deep -> at_depth d = at_depth d' -> d = d'.
  Proof. intros d d' H H'. unfold at_depth, deep in *. destruct (lead_sign l <? 0)%Z; lia. Qed.

  Lemma lflat_inj : forall d1 d2 m m', d1 < deep -> d2 < deep -> m < L -> m' < L -> lflat d1 m = lflat d2 m' -> d1 = d2 /\ m = m'.
  Proof.
    intros d1 d2 m m' H1 H2 Hm Hm' E. unfold lflat in E.
    destruct (lsite_range d1 m H1 Hm) as [R1 _]. destruct (lsite_range d2 m' H2 Hm') as [R2 _].
    assert (E2 : s_flat (lsite d1 m) = s_flat (lsite d2 m')) by lia.
    unfold lsite in E2. destruct (row_flat_inj size lower (length uc) l Haxis _ _ _ _ (at_depth_range d1 H1) (at_depth_range d2 H2) Hm Hm' E2) as [K M].
    split; [apply at_depth_inj; auto|exact M].
  Qed.

  Definition row_has (valid : list bool) (d : nat) : bool := existsb (fun m => nth (lflat d m) valid false) (seq 0 L).

  Lemma start_ok : forall valid, length valid = N ->
    attachment_start size lower uc l valid = match find (row_has valid) (seq 0 deep) with Some d => Ok (at_depth d) | None => Throw end.
  Proof.
    intros valid HV. unfold attachment_start.
    rewrite (first_with_ok _ (fun k => existsb (fun s => nth (Z.to_nat (s_flat s)) valid false) (row size lower (length uc) l k))).
    - cbn [obind]. rewrite axis_range_eq, find_map.
      assert (E : find (fun x => existsb (fun s => nth (Z.to_nat (s_flat s)) valid false) (row size lower (length uc) l (at_depth x))) (seq 0 deep)
                = find (row_has valid) (seq 0 deep)).
      { assert (X : forall xs, (forall x, In x xs -> x < deep) -> find (fun x => existsb (fun s => nth (Z.to_nat (s_flat s)) valid false) (row size lower (length uc) l (at_depth x))) xs
                = find (row_has valid) xs).
        { induction xs as [|x xs IH]; intros H; [reflexivity|]. cbn [find].
          assert (E : existsb (fun s => nth (Z.to_nat (s_flat s)) valid false) (row size lower (length uc) l (at_depth x)) = row_has valid x).
          { rewrite row_sites by (pose proof (at_depth_range x (H x (or_introl eq_refl))); lia).
            unfold row_has, lflat, lsite. generalize (seq 0 L). induction l0 as [|y ys IHy]; [reflexivity|]. cbn [map existsb]. rewrite IHy. reflexivity. }
          rewrite E. destruct (row_has valid x); [reflexivity|]. apply IH. intros; apply H; right; auto. }
        apply X. intros x Hx. apply in_seq in Hx. lia. }
      rewrite E. destruct (find (row_has valid) (seq 0 deep)); reflexivity.
    - intros k Hk. rewrite axis_range_eq in Hk. apply in_map_iff in Hk. destruct Hk as (d & <- & Hd). apply in_seq in Hd.
      pose proof (at_depth_range d ltac:(lia)) as R.
      change (normalize size (shape_slice size lower l)) with (across size lower l).
      rewrite walk_row by lia. apply any_valid_ok. intros s Hs. rewrite row_sites in Hs by lia.
      apply in_map_iff in Hs. destruct Hs as (m & <- & Hm). apply in_seq in Hm. rewrite HV.
      apply (lsite_range d m); lia.
  Qed.

  Lemma middle_centre : middle size lower l = centre size lower l.
  Proof.
    unfold middle, centre, box_lo, box_hi, overlaps, axis_len in *. destruct Hover as (O1 & O2 & O3). unfold box_lo, box_hi in *.
    destruct Hsize as (S1 & S2 & S3). destruct a as [|[|[|q]]]; [| | |lia]; cbn [sl_get shape_slice slx sly slz shape_slice1 sl_start sl_end comp3] in *;
      rewrite Z.quot_div_nonneg by lia; f_equal; lia.
  Qed.

  Lemma centre_range : (0 <= centre size lower l < comp3 a size)%Z.
  Proof.
    unfold centre, overlaps, axis_len in *. destruct Hover as (O1 & O2 & O3).
    set (lo := box_lo lower l a) in *. set (hi := box_hi lower l a) in *. set (n := comp3 a size) in *.
    assert (B : (0 <= Z.max lo 0 < Z.min (hi + 1) n)%Z).
    { assert (0 < n)%Z by (subst n; destruct Hsize as (? & ? & ?); destruct a as [|[|q]]; cbn [comp3]; lia). lia. }
    assert (C : (Z.min (hi + 1) n <= n)%Z) by lia.
    set (x := Z.max lo 0) in *. set (y := Z.min (hi + 1) n) in *. clearbody x y.
    split; [apply Z.div_pos; lia|]. apply Z.div_lt_upper_bound; lia.
  Qed.

  Definition cross_positions : list (option P) := map (fun m => nth_error fpos (Z.to_nat (s_flat (row_site size lower l (centre size lower l) m)))) (seq 0 L).

  Lemma middle_positions : exists ps,
    osequence (fun s => agetZ fpos (s_flat s)) (slice_sites size (length uc) (sl_set a (slice_one (middle size lower l)) (shape_slice size lower l))) = Ok ps
    /\ map Some ps = cross_positions.
  Proof.
    rewrite middle_centre. change (slice_sites size (length uc) (sl_set a (slice_one (centre size lower l)) (shape_slice size lower l))) with (row size lower (length uc) l (centre size lower l)).
    pose proof centre_range as CR. rewrite row_sites by lia. unfold cross_positions.
    assert (B : forall m, In m (seq 0 L) -> (0 <= s_flat (row_site size lower l (centre size lower l) m))%Z /\
                Z.to_nat (s_flat (row_site size lower l (centre size lower l) m)) < length fpos).
    { intros m Hm. apply in_seq in Hm. destruct (row_flat size lower (length uc) l Hsize Haxis _ m CR ltac:(lia)) as [E F]. rewrite Hpos. split; [rewrite E; lia|exact F]. }
    revert B. generalize (seq 0 L). intros ms. induction ms as [|m ms IH]; intros B.
    - exists []. split; reflexivity.
    - destruct IH as (ps & E & M); [intros; apply B; right; auto|]. destruct (B m (or_introl eq_refl)) as [B1 B2].
      destruct (nth_error fpos (Z.to_nat (s_flat (row_site size lower l (centre size lower l) m)))) as [p|] eqn:EP;
        [|apply nth_error_None in EP; lia].
      exists (p :: ps). cbn [map osequence]. unfold agetZ at 1. destruct (Z.ltb_spec (s_flat (row_site size lower l (centre size lower l) m)) 0); [lia|].
      unfold aget. rewrite EP. cbn [obind]. rewrite E. cbn [omap obind]. split; [reflexivity|]. rewrite M. reflexivity.
  Qed.

  (** The lead's cross-section does not depend on which sites exist. *)
  Lemma junction_ok : exists ps, map Some ps = cross_positions /\ length ps = L /\ forall valid, length valid = N ->
    junction size lower uc fpos l valid =
    match find (row_has valid) (seq 0 deep) with
    | Some d => if existsb (fun b => b) (lead_contains l ps) then Ok (at_depth d, lead_contains l ps) else Throw
    | None => Throw
    end.
  Proof.
    destruct middle_positions as (ps & E & M). exists ps. split; [exact M|]. split.
    { apply (f_equal (@length _)) in M. unfold cross_positions in M. rewrite !map_length, seq_length in M. exact M. }
    intros valid HV. unfold junction. rewrite start_ok by auto. destruct (find (row_has valid) (seq 0 deep)) as [d|]; [|reflexivity].
    cbn [obind]. rewrite E. cbn [obind]. reflexivity.
  Qed.

  Lemma fill_eq : forall k0 ds st, (0 <= k0)%Z -> (forall d, In d ds -> d < deep) ->
    fill size uc l (junction_slice size lower l k0) (map at_depth ds) st = fill_rows lsite L ds st.
  Proof.
    intros k0 ds. induction ds as [|d ds IH]; intros st Hk H; [reflexivity|]. cbn [map fill fill_rows].
    pose proof (at_depth_range d (H d (or_introl eq_refl))) as R.
    rewrite walk_junction by lia. rewrite row_sites by lia. unfold numbered. rewrite map_length, seq_length, combine_seq_map.
    change (fun m => (m, row_site size lower l (at_depth d) m)) with (fun m => (m, lsite d m)).
    destruct (ofold fill_site (map (fun m => (m, lsite d m)) (seq 0 L)) st) as [st'| |]; cbn [obind]; try reflexivity.
    destruct (existsb (fun b => b) (snd st')); [|reflexivity]. apply IH; auto. intros; apply H; right; auto.
  Qed.

  (** Summary of attaching in terms of rows and columns. *)
  Lemma attach_rows : exists ps, map Some ps = cross_positions /\ length ps = L /\ forall valid, length valid = N ->
    let jv := lead_contains l ps in
    match find (row_has valid) (seq 0 deep) with
    | None => create_attachment_area size lower uc fpos l valid = Throw
    | Some d =>
      if existsb (fun b => b) jv then
        match create_attachment_area size lower uc fpos l valid with
        | Ok v' => length v' = N /\
            (forall m, m < L -> nth m jv false = true -> exists d', d <= d' < deep /\ nth (lflat d' m) valid false = true) /\
            (forall q, nth q v' false = true <-> nth q valid false = true \/
               exists d' m, d <= d' < deep /\ m < L /\ q = lflat d' m /\ nth m jv false = true /\
                 forall d'', d <= d'' <= d' -> nth (lflat d'' m) valid false = false)
        | Throw => exists m, m < L /\ nth m jv false = true /\ forall d', d <= d' < deep -> nth (lflat d' m) valid false = false
        | UB => False
        end
      else create_attachment_area size lower uc fpos l valid = Throw
    end.
  Proof.
    destruct junction_ok as (ps & M & LP & J). exists ps. split; [exact M|]. split; [exact LP|]. intros valid HV jv.
    unfold create_attachment_area. rewrite (J valid HV).
    pose proof (find_seq (row_has valid) deep 0) as FS.
    destruct (find (row_has valid) (seq 0 deep)) as [d|]; [|reflexivity].
    fold jv. destruct (existsb (fun b => b) jv) eqn:EX; [|reflexivity]. cbn [obind fst snd].
    destruct FS as (D1 & _ & _). rewrite axis_from_eq.
    rewrite fill_eq; [|pose proof (at_depth_range d ltac:(lia)); lia|intros x Hx; apply in_seq in Hx; lia].
    pose proof (fill_rows_ok lsite L (deep - d) d N valid jv HV) as X.
    replace (d + (deep - d)) with deep in X by lia. apply X.
    - unfold jv. rewrite Hlen. exact LP.
    - intros d' m Hd Hm. apply lsite_range; [lia|exact Hm].
    - intros d1 d2 m m' H1 H2 Hm Hm' E. apply lflat_inj; [lia|lia|exact Hm|exact Hm'|exact E].
    - exact EX.
  Qed.

  Theorem attach_safe : forall valid, length valid = N -> create_attachment_area size lower uc fpos l valid <> UB.
  Proof.
    intros valid HV E. destruct attach_rows as (ps & _ & _ & A). specialize (A valid HV). cbv zeta in A.
    destruct (find (row_has valid) (seq 0 deep)); [|congruence].
    destruct (existsb (fun b => b) (lead_contains l ps)); [|congruence]. rewrite E in A. exact A.
  Qed.

  (** The junction found again after attaching is the same. *)
  Lemma junction_again : forall valid valid', length valid = N -> create_attachment_area size lower uc fpos l valid = Ok valid' ->
    junction size lower uc fpos l valid' = junction size lower uc fpos l valid.
  Proof.
    intros valid valid' HV E. destruct attach_rows as (ps & M & LP & A). destruct junction_ok as (ps' & M' & LP' & J).
    assert (ps' = ps).
    { rewrite <- M in M'. revert M'. clear. revert ps'. induction ps as [|x ps IH]; intros [|y ps'] E; try discriminate; [reflexivity|].
      injection E as -> E. rewrite (IH _ E). reflexivity. }
    subst ps'. specialize (A valid HV). cbv zeta in A.
    pose proof (J valid HV) as J1.
    pose proof (find_seq (row_has valid) deep 0) as FS.
    destruct (find (row_has valid) (seq 0 deep)) as [d|] eqn:EF; [|congruence].
    destruct (existsb (fun b => b) (lead_contains l ps)) eqn:EX; [|congruence]. rewrite E in A. destruct A as (LV & _ & Q).
    rewrite (J valid' LV), J1. destruct FS as (D1 & D2 & D3).
    assert (EQ : find (row_has valid') (seq 0 deep) = Some d).
    { pose proof (find_seq (row_has valid') deep 0) as FS'. destruct (find (row_has valid') (seq 0 deep)) as [d2|].
      - destruct FS' as (F1 & F2 & F3). f_equal. destruct (Nat.lt_trichotomy d2 d) as [C|[C|C]]; [exfalso|exact C|exfalso].
        + unfold row_has in F2. apply existsb_exists in F2. destruct F2 as (m & Hm & V). apply in_seq in Hm. apply Q in V.
          destruct V as [V|(d' & m' & Hd & Hm' & EL & _)].
          * assert (X : row_has valid d2 = true) by (unfold row_has; apply existsb_exists; exists m; split; [apply in_seq; lia|exact V]).
            rewrite D3 in X by lia. discriminate.
          * apply lflat_inj in EL; lia.
        + assert (X : row_has valid' d = true).
          { unfold row_has in *. apply existsb_exists in D2. destruct D2 as (m & Hm & V). apply existsb_exists. exists m. split; [exact Hm|]. apply Q. left. exact V. }
          rewrite F3 in X by lia. discriminate.
      - exfalso. assert (X : row_has valid' d = true).
        { unfold row_has in *. apply existsb_exists in D2. destruct D2 as (m & Hm & V). apply existsb_exists. exists m. split; [exact Hm|]. apply Q. left. exact V. }
        rewrite FS' in X by lia. discriminate. }
    rewrite EQ. reflexivity.
  Qed.

  (* ---------------------------------------------------------------- pointwise shapes *)
  Variable inside : P -> bool.
  Hypothesis Hin : forall ps, lead_contains l ps = map inside ps.

  Definition cell_at (d m : nat) : idx3 := put3 a (at_depth d) (col_cell size lower l m).
  Definition sub_at (m : nat) : nat := Z.to_nat (col_sub size lower l m).

  Lemma lflat_place : forall d m, d < deep -> m < L -> lflat d m = place size (cell_at d m) (sub_at m).
  Proof.
    intros d m Hd Hm. unfold lflat, lsite. rewrite (proj1 (row_flat size lower (length uc) l Hsize Haxis _ m (at_depth_range d Hd) Hm)).
    rewrite Nat2Z.id. reflexivity.
  Qed.

  Lemma cell_at_of : forall d m, d < deep -> m < L -> cell_of size (cell_at d m) /\ sub_at m < length uc /\
    beside lower l (cell_at d m) /\ depth size l (cell_at d m) = Z.of_nat d.
  Proof.
    intros d m Hd Hm. pose proof (at_depth_range d Hd) as R.
    split; [eapply row_cell; eauto|]. split.
    { destruct (col_in size lower (length uc) l Haxis m Hm) as [_ B]. unfold sub_at. lia. }
    split; [eapply row_beside; eauto|]. apply at_depth_depth; auto. apply comp_put_same.
  Qed.

  Lemma cell_at_onto : forall i s, cell_of size i -> s < length uc -> beside lower l i ->
    exists d m, d < deep /\ m < L /\ cell_at d m = i /\ sub_at m = s /\ depth size l i = Z.of_nat d.
  Proof.
    intros i s Hi Hs HB. destruct (depth_at i Hi) as (d & Hd & E & D).
    destruct (col_of size lower (length uc) l Hsize Haxis i s Hi Hs HB) as (m & Hm & EC & ES).
    exists d, m. split; [exact Hd|]. split; [exact Hm|]. unfold cell_at, sub_at. rewrite <- E. split; [exact EC|]. split; [lia|exact D].
  Qed.

  Lemma mouth_at : forall ps d m, map Some ps = cross_positions -> d < deep -> m < L ->
    mouth size lower fpos l inside (cell_at d m) (sub_at m) <-> nth m (lead_contains l ps) false = true.
  Proof.
    intros ps d m M Hd Hm. destruct (cell_at_of d m Hd Hm) as (C & S & B & _). unfold mouth. rewrite Hin.
    assert (LP : length ps = L) by (apply (f_equal (@length _)) in M; unfold cross_positions in M; rewrite !map_length, seq_length in M; exact M).
    assert (EP : nth_error fpos (place size (put3 a (centre size lower l) (cell_at d m)) (sub_at m)) = nth_error ps m).
    { assert (X : nth_error (map Some ps) m = nth_error cross_positions m) by (rewrite M; reflexivity).
      unfold cross_positions in X. rewrite !nth_error_map in X. 
      rewrite (nth_error_nth' (seq 0 L) 0) in X by (rewrite seq_length; exact Hm). rewrite seq_nth in X by exact Hm. cbn [option_map Nat.add] in X.
      rewrite (proj1 (row_flat size lower (length uc) l Hsize Haxis _ m centre_range Hm)), Nat2Z.id in X.
      unfold cell_at. rewrite put_put. fold (sub_at m) in X.
      destruct (nth_error ps m); cbn [option_map] in X; [injection X as X; congruence|discriminate]. }
    rewrite EP. destruct (nth_error ps m) as [p|] eqn:E.
    - assert (EN : nth m (map inside ps) false = inside p) by (apply nth_error_nth; rewrite nth_error_map, E; reflexivity).
      rewrite EN. split; [intros (_ & p' & [= <-] & I); exact I|intros I; split; [exact B|]; exists p; auto].
    - apply nth_error_None in E. lia.
  Qed.

  Lemma same_column : forall d d' m, put3 a 0 (cell_at d m) = put3 a 0 (cell_at d' m).
  Proof. intros. unfold cell_at. rewrite !put_put. reflexivity. Qed.

  Lemma on_column : forall d m j, m < L -> cell_of size j -> put3 a 0 j = put3 a 0 (cell_at d m) ->
    exists d', d' < deep /\ j = cell_at d' m /\ depth size l j = Z.of_nat d'.
  Proof.
    intros d m j Hm Hj E. destruct (depth_at j Hj) as (d' & Hd' & EC & D). exists d'. split; [exact Hd'|]. split; [|exact D].
    unfold cell_at in *. rewrite put_put in E. rewrite <- EC.
    apply (f_equal (put3 a (comp3 a j))) in E. rewrite !put_put, put_comp in E. exact E.
  Qed.

  Lemma row_has_spec : forall valid d, d < deep -> row_has valid d = true <-> exists m, m < L /\ flagged size valid (cell_at d m, sub_at m) = true.
  Proof.
    intros valid d Hd. unfold row_has. rewrite existsb_exists. split; intros (m & Hm & V).
    - apply in_seq in Hm. exists m. split; [lia|]. unfold flagged. cbn [fst snd]. rewrite <- lflat_place by lia. exact V.
    - exists m. split; [apply in_seq; lia|]. rewrite lflat_place by auto. exact V.
  Qed.

  Lemma starts_find : forall valid d, starts size lower uc l valid d <-> exists d', find (row_has valid) (seq 0 deep) = Some d' /\ d = Z.of_nat d'.
  Proof.
    intros valid d. pose proof (find_seq (row_has valid) deep 0) as FS. split.
    - intros ((i & s & Hi & Hs & HB & HD & V) & MIN). destruct (cell_at_onto i s Hi Hs HB) as (d0 & m & Hd & Hm & EC & ES & ED).
      assert (H0 : row_has valid d0 = true).
      { apply row_has_spec; auto. exists m. split; [exact Hm|]. rewrite EC, ES. exact V. }
      destruct (find (row_has valid) (seq 0 deep)) as [d'|]; [|rewrite FS in H0 by lia; discriminate].
      destruct FS as (F1 & F2 & F3). exists d'. split; [reflexivity|].
      apply row_has_spec in F2; [|lia]. destruct F2 as (m' & Hm' & V').
      destruct (cell_at_of d' m' ltac:(lia) Hm') as (C & S & B & D).
      specialize (MIN _ _ C S B V'). 
      destruct (Nat.lt_ge_cases d0 d') as [LT|GE]; [rewrite F3 in H0 by lia; discriminate|]. lia.
    - intros (d' & EF & ->). rewrite EF in FS. destruct FS as (F1 & F2 & F3). split.
      + apply row_has_spec in F2; [|lia]. destruct F2 as (m' & Hm' & V').
        destruct (cell_at_of d' m' ltac:(lia) Hm') as (C & S & B & D). exists (cell_at d' m'), (sub_at m'). tauto.
      + intros i s Hi Hs HB V. destruct (cell_at_onto i s Hi Hs HB) as (d0 & m & Hd & Hm & EC & ES & ED).
        assert (H0 : row_has valid d0 = true).
        { apply row_has_spec; auto. exists m. split; [exact Hm|]. rewrite EC, ES. exact V. }
        destruct (Nat.lt_ge_cases d0 d') as [LT|GE]; [rewrite F3 in H0 by lia; discriminate|]. lia.
  Qed.

  Theorem attach_spec : forall valid, length valid = N ->
    match create_attachment_area size lower uc fpos l valid with
    | Ok v' => attachable size lower uc fpos l inside valid /\ length v' = length valid /\
        exists d, starts size lower uc l valid d /\
          forall i s, cell_of size i -> s < length uc ->
            (flagged size v' (i, s) = true <-> flagged size valid (i, s) = true \/ gap size lower fpos l inside valid d i s)
    | Throw => ~ attachable size lower uc fpos l inside valid
    | UB => False
    end.
  Proof.
    intros valid HV. destruct attach_rows as (ps & M & LP & A). specialize (A valid HV). cbv zeta in A.
    pose proof (find_seq (row_has valid) deep 0) as FS.
    pose proof (starts_find valid) as SF.
    assert (MO : forall d m, d < deep -> m < L -> mouth size lower fpos l inside (cell_at d m) (sub_at m) <-> nth m (lead_contains l ps) false = true)
      by (intros; apply mouth_at; auto).
    assert (LJ : length (lead_contains l ps) = L) by (rewrite Hlen; exact LP).
    assert (D0 : 0 < deep).
    { unfold deep, axis_len. destruct Hsize as (? & ? & ?). destruct a as [|[|q]]; cbn [comp3]; lia. }
    destruct (find (row_has valid) (seq 0 deep)) as [d|] eqn:EF.
    2:{ rewrite A. intros [(i & s & Hi & Hs & HM) ALL]. destruct (ALL i s Hi Hs HM) as (j & Hj & EC & V).
        destruct (cell_at_onto i s Hi Hs (proj1 HM)) as (d0 & m & Hd & Hm & EI & ES & _). subst i s.
        destruct (on_column d0 m j Hm Hj EC) as (d' & Hd' & -> & _).
        assert (X : row_has valid d' = true) by (apply row_has_spec; auto; exists m; auto). rewrite FS in X by lia. discriminate. }
    destruct FS as (F1 & F2 & F3).
    destruct (existsb (fun b => b) (lead_contains l ps)) eqn:EX.
    2:{ rewrite A. intros [(i & s & Hi & Hs & HM) _].
        destruct (cell_at_onto i s Hi Hs (proj1 HM)) as (d0 & m & Hd & Hm & EI & ES & _). subst i s.
        apply MO in HM; auto. rewrite (existsb_nth_false _ EX) in HM. discriminate. }
    destruct (create_attachment_area size lower uc fpos l valid) as [v'| |].
    - destruct A as (A1 & A2 & A3). split; [|split; [congruence|]].
      + split.
        * apply existsb_nth_true in EX. destruct EX as (m & Hm & J). rewrite LJ in Hm.
          destruct (cell_at_of 0 m D0 Hm) as (C & S & B & _). exists (cell_at 0 m), (sub_at m). split; [exact C|]. split; [exact S|]. apply MO; auto.
        * intros i s Hi Hs HM. destruct (cell_at_onto i s Hi Hs (proj1 HM)) as (d0 & m & Hd & Hm & EI & ES & _). subst i s.
          apply MO in HM; auto. destruct (A2 m Hm HM) as (d' & Hd' & V). exists (cell_at d' m).
          destruct (cell_at_of d' m ltac:(lia) Hm) as (C & _ & _ & _). split; [exact C|]. split; [apply same_column|].
          unfold flagged. cbn [fst snd]. rewrite <- lflat_place by (lia || auto). exact V.
      + exists (Z.of_nat d). split; [apply SF; exists d; auto|].
        intros i s Hi Hs. unfold flagged at 1 2. cbn [fst snd]. rewrite A3. 
        split; (intros [H|H]; [left; exact H|right]).
        * destruct H as (d' & m & Hd & Hm & EQ & J & Z).
          rewrite lflat_place in EQ by (lia || auto). destruct (cell_at_of d' m ltac:(lia) Hm) as (C & S & B & D).
          destruct (place_bij size (length uc) Hsize) as (_ & PI & _). apply PI in EQ; auto. destruct EQ as [-> ->].
          split; [apply MO; auto; lia|]. split; [lia|].
          intros j Hj EC HD. destruct (on_column d' m j Hm Hj EC) as (d'' & Hd'' & -> & D2).
          unfold flagged. cbn [fst snd]. rewrite <- lflat_place by (lia || auto). apply Z. lia.
        * destruct H as (HM & HD & Z). destruct (cell_at_onto i s Hi Hs (proj1 HM)) as (d' & m & Hd & Hm & EI & ES & D).
          exists d', m. split; [lia|]. split; [exact Hm|]. subst i s. split; [rewrite lflat_place by auto; reflexivity|].
          split; [apply (MO d'); auto|]. intros d'' Hd''.
          destruct (cell_at_of d'' m ltac:(lia) Hm) as (C & S & B & D2).
          specialize (Z (cell_at d'' m) C (same_column d'' d' m) ltac:(lia)).
          unfold flagged in Z. cbn [fst snd] in Z. rewrite <- lflat_place in Z by (lia || auto). exact Z.
    - destruct A as (m & Hm & J & Z). intros [_ ALL].
      destruct (cell_at_of d m ltac:(lia) Hm) as (C & S & B & D).
      destruct (ALL (cell_at d m) (sub_at m) C S) as (j & Hj & EC & V); [apply MO; auto; lia|].
      destruct (on_column d m j Hm Hj EC) as (d' & Hd' & -> & D').
      destruct (Nat.lt_ge_cases d' d) as [LT|GE].
      + assert (X : row_has valid d' = true) by (apply row_has_spec; auto; exists m; auto). rewrite F3 in X by lia. discriminate.
      + unfold flagged in V. cbn [fst snd] in V. rewrite <- lflat_place in V by (lia || auto). rewrite Z in V by lia. discriminate.
    - exact A.
  Qed.
End Attach.
