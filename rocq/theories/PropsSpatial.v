(* C91: every column of a spatial LDOS belongs to its site. *)
From Coq Require Import QArith Qabs String Sorted.
From Verif Require Import Base Blocks Rle RleProofs TablesSpec AliasNames PropsNames StructureSlice SliceProofs PropsSlice SystemProofs SpatialLdos.
Local Open Scope nat_scope.
Local Notation len := Datatypes.length.

(* ------------------------------------------------------------------ *)
(* Specification *)

(** A system as the builder makes it: the ids of the sites are those of the compressed sublattices, every
    family is one block, and the names of the registry are different and not empty. *)
Definition system_ok (y : lsystem) : Prop :=
  sound (num_sites y) (y_structure y) /\
  s_ids (t_sites (y_structure y)) = Some (decompressed (y_subs y)) /\ s_names (t_sites (y_structure y)) = name_map (y_names y) /\
  rle_size (y_subs y) = num_sites y /\ NoDup (alias_ids (y_subs y)) /\ NoDup (y_names y) /\ ~ In ""%string (y_names y).

(** Sites that were asked for *)
Definition asked (y : lsystem) (inside : Q * Q * Q -> bool) (n : string) (i : nat) : Prop :=
  (exists p, nth_error (site_positions (t_sites (y_structure y))) i = Some p /\ inside p = true) /\
  (n = ""%string \/ exists f, nth_error (y_names y) f = Some n /\ nth_error (decompressed (y_subs y)) i = Some f).

(** Column [k] is the LDOS of site [k] of the structure; the sites are those asked for, in order. *)
Definition columns_belong {V} (ldos_of : nat -> list V) (y : lsystem) inside n (energy : list Q) (r : spatial (V := V)) (idx : list nat) : Prop :=
  StronglySorted lt idx /\ (forall i, In i idx <-> asked y inside n i) /\ l_energy r = energy /\
  l_data r = map ldos_of idx /\ sound (len idx) (l_structure r) /\
  forall k i, nth_error idx k = Some i -> site_at (l_structure r) k = site_at (y_structure y) i.

(* ------------------------------------------------------------------ *)

Lemma registry_spec : forall names n i f, registry_id i names n = Ok f -> exists k, f = i + k /\ nth_error names k = Some n.
Proof.
  induction names as [|x t IH]; intros n i f E; [discriminate|]. cbn in E. destruct (String.eqb_spec x n) as [->|NE].
  - injection E as <-. exists 0. split; [lia|reflexivity].
  - destruct (IH _ _ _ E) as (k & -> & K). exists (S k). split; [lia|exact K].
Qed.
Lemma registry_known : forall names n i, In n names -> exists f, registry_id i names n = Ok f.
Proof.
  induction names as [|x t IH]; intros n i H; [destruct H|]. cbn. destruct (String.eqb_spec x n) as [->|NE]; [eauto|].
  destruct H as [?|H]; [contradiction|]. apply IH. exact H.
Qed.
Lemma registry_unknown : forall names n i, ~ In n names -> registry_id i names n = Throw.
Proof.
  induction names as [|x t IH]; intros n i H; [reflexivity|]. cbn. destruct (String.eqb_spec x n) as [->|NE]; [exfalso; apply H; now left|].
  apply IH. intros Q. apply H. now right.
Qed.
Lemma registry_lookup : forall names n i f, registry_id i names n = Ok f -> lookup (combine names (seq i (len names))) n = Some f.
Proof.
  induction names as [|x t IH]; intros n i f E; [discriminate|]. cbn in E |- *. destruct (x =? n)%string; [congruence|]. apply IH. exact E.
Qed.

Lemma scan_spec : forall bs lo k acc, lo + k <= len bs ->
  ofold (fun acc i => obind (aget bs i) (fun b => Ok (if b : bool then acc ++ [i] else acc))) (seq lo k) acc
  = Ok (acc ++ filter (fun i => nth i bs false) (seq lo k)).
Proof.
  intros bs lo k. revert lo. induction k as [|k IH]; intros lo acc H; [cbn; now rewrite app_nil_r|].
  cbn [seq ofold filter]. unfold aget at 1. destruct (nth_error bs lo) as [b|] eqn:E; [|apply nth_error_None in E; lia].
  cbn [obind]. rewrite IH by lia. rewrite (nth_error_nth _ _ _ E). destruct b; [rewrite <- app_assoc; reflexivity|reflexivity].
Qed.

Lemma true_positions_filter : forall bs i, true_positions i bs = filter (fun j => nth (j - i) bs false) (seq i (len bs)).
Proof.
  induction bs as [|b t IH]; intros i; [reflexivity|]. cbn [true_positions len seq filter]. rewrite Nat.sub_diag. cbn [nth].
  assert (E : filter (fun j => nth (j - S i) t false) (seq (S i) (len t)) = filter (fun j => nth (j - i) (b :: t) false) (seq (S i) (len t))).
  { apply filter_ext_in. intros j Hj. apply in_seq in Hj. replace (j - i) with (S (j - S i)) by lia. reflexivity. }
  rewrite IH, E. destruct b; reflexivity.
Qed.

Lemma pick_filter : forall {A} (g : A -> bool) (l : list A), pick l (true_positions 0 (map g l)) = filter g l.
Proof.
  intros A g l. rewrite pick_mask by apply map_length. induction l as [|x t IH]; [reflexivity|]. cbn. destruct (g x); [f_equal|]; exact IH.
Qed.

Lemma filter_none : forall {A} (p : A -> bool) l, (forall x, In x l -> p x = false) -> filter p l = [].
Proof. intros A p l H. induction l as [|x t IH]; [reflexivity|]. cbn. rewrite (H x (or_introl eq_refl)). apply IH. intros y Hy. apply H. now right. Qed.

Lemma filter_window : forall p lo k n, lo + k <= n ->
  filter p (seq lo k) = filter (fun i => p i && ((lo <=? i) && (i <? lo + k))) (seq 0 n).
Proof.
  intros p lo k n H. replace n with (lo + (k + (n - lo - k))) by lia. rewrite !seq_app, !filter_app, !Nat.add_0_l.
  rewrite (filter_none _ (seq 0 lo)), (filter_none _ (seq (lo + k) _)), app_nil_r.
  - cbn [app]. apply filter_ext_in. intros i Hi. apply in_seq in Hi.
    rewrite (proj2 (Nat.leb_le _ _)), (proj2 (Nat.ltb_lt _ _)) by lia. now rewrite andb_true_r.
  - intros i Hi. apply in_seq in Hi. rewrite (proj2 (Nat.ltb_ge _ _)) by lia. now rewrite !andb_false_r.
  - intros i Hi. apply in_seq in Hi. rewrite (proj2 (Nat.leb_gt _ _)) by lia. now rewrite !andb_false_r.
Qed.

Lemma sorted_filter : forall p lo k, StronglySorted lt (filter p (seq lo k)).
Proof.
  intros p lo k. revert lo. induction k as [|k IH]; intros lo; [constructor|]. cbn. destruct (p lo); [|apply IH].
  constructor; [apply IH|]. apply Forall_forall. intros j Hj. apply filter_In in Hj. destruct Hj as [Hj _]. apply in_seq in Hj. lia.
Qed.

Lemma positions_len : forall y, system_ok y -> len (site_positions (t_sites (y_structure y))) = num_sites y.
Proof.
  intros y ((X & Y & Z & _) & _). unfold site_positions. rewrite !combine_length. unfold num_sites in *. lia.
Qed.
Lemma ids_len : forall y, system_ok y -> len (decompressed (y_subs y)) = num_sites y.
Proof. intros y ((_ & _ & _ & (l & I & L) & _) & D & _). rewrite D in I. injection I as <-. exact L. Qed.

(** The sites that C++ takes *)
Lemma chosen_spec : forall y inside n, system_ok y -> (exists i, asked y inside n i) ->
  chosen y (map inside (site_positions (t_sites (y_structure y)))) n
  = Ok (filter (fun i => nth i (map inside (site_positions (t_sites (y_structure y)))) false &&
                 ((n =? "")%string || match registry_id 0 (y_names y) n with Ok f => nth i (decompressed (y_subs y)) 0 =? f | _ => false end))
          (seq 0 (num_sites y))).
Proof.
  intros y inside n S (i0 & (p0 & Ep0 & Ip0) & N). pose proof (positions_len y S) as LP. pose proof (ids_len y S) as LI.
  set (bs := map inside (site_positions (t_sites (y_structure y)))).
  assert (LB : len bs = num_sites y) by (unfold bs; rewrite map_length; exact LP).
  unfold chosen, family_range. destruct (String.eqb_spec n "") as [->|NE].
  - cbn [obind fst snd]. rewrite Nat.sub_0_r, scan_spec by lia. cbn [app orb]. f_equal. apply filter_ext. intros i. now rewrite andb_true_r.
  - destruct N as [?|(f & Nf & If)]; [contradiction|].
    destruct (registry_known (y_names y) n 0 (nth_error_In _ _ Nf)) as (f' & Ef). rewrite Ef. cbn [obind].
    destruct (registry_spec _ _ _ _ Ef) as (k & -> & Ek). cbn [Nat.add] in *.
    pose proof S as (_ & _ & _ & RS & ND & NN & _).
    assert (f = k). { apply (proj1 (NoDup_nth_error (y_names y)) NN); [apply nth_error_Some; congruence|congruence]. } subst f.
    assert (LAB : forall j, nth j (decompressed (y_subs y)) 0 = fst (nth j (site_list (y_subs y)) (0, 0))).
    { intros j. rewrite decompressed_labels. change (site_list (y_subs y)) with (labels (y_subs y)). rewrite <- (map_nth fst). reflexivity. }
    assert (L0 : i0 < num_sites y) by (rewrite <- LI; apply nth_error_Some; congruence).
    destruct (block_of_id (y_subs y) k ND) as (b & FB & FN & FE & FL).
    { exists i0. split; [lia|]. rewrite <- LAB. apply (nth_error_nth _ _ _ If). }
    rewrite FB. cbn [obind fst snd]. unfold sys_end. replace (it_sys b + e_num (it_e b) - it_sys b) with (e_num (it_e b)) by lia.
    rewrite scan_spec by lia. cbn [app orb]. f_equal. rewrite (filter_window _ _ _ (num_sites y)) by lia.
    apply filter_ext_in. intros i Hi. apply in_seq in Hi. f_equal. rewrite LAB.
    assert (W := FL i ltac:(lia)). destruct (Nat.eqb_spec (fst (nth i (site_list (y_subs y)) (0, 0))) k) as [E|E].
    + apply W in E. rewrite (proj2 (Nat.leb_le _ _)), (proj2 (Nat.ltb_lt _ _)) by lia. reflexivity.
    + destruct (Nat.leb_spec (it_sys b) i); [|reflexivity]. destruct (Nat.ltb_spec i (it_sys b + e_num (it_e b))); [|reflexivity].
      exfalso. apply E, W. lia.
Qed.

(** C91.  Full claim: a spatial LDOS is calculated without reading outside an array; its columns belong
    to the sites that were asked for. *)
Definition C91_claim : Prop :=
  forall (V : Type) (ldos_of : nat -> list V) drop prev y inside energy n, system_ok y ->
  match calc_spatial_ldos ldos_of drop prev y inside energy n with
  | Ok r => exists idx, columns_belong ldos_of y inside n energy r idx
  | Throw => True
  | UB => False
  end.

(** What holds when at least one site was asked for, and one orbital per site: the calculation succeeds
    and every column belongs to its site. *)
Theorem C91_partial : forall (V : Type) (ldos_of : nat -> list V) drop prev y inside energy n, system_ok y -> y_multi y = false ->
  (exists i, asked y inside n i) ->
  exists r idx, calc_spatial_ldos ldos_of drop prev y inside energy n = Ok r /\ columns_belong ldos_of y inside n energy r idx.
Proof.
  intros V ldos_of drop prev y inside energy n S M A. pose proof S as (SO & SI & SN & RS & ND & NN & NB).
  pose proof (positions_len y S) as LP. pose proof (ids_len y S) as LI. pose proof (chosen_spec y inside n S A) as CH.
  set (bs := map inside (site_positions (t_sites (y_structure y)))) in *.
  assert (LB : len bs = num_sites y) by (unfold bs; rewrite map_length; exact LP).
  set (pr := fun i => (n =? "")%string || match registry_id 0 (y_names y) n with Ok f => nth i (decompressed (y_subs y)) 0 =? f | _ => false end) in *.
  set (idx := filter (fun i => nth i bs false && pr i) (seq 0 (num_sites y))).
  assert (IN : forall i, In i idx <-> asked y inside n i).
  { intros i. unfold idx. rewrite filter_In, in_seq, andb_true_iff. unfold asked, pr, bs. split.
    - intros (Li & F & Q). split.
      + destruct (nth_error (site_positions (t_sites (y_structure y))) i) as [p|] eqn:Ep; [|apply nth_error_None in Ep; lia].
        exists p. split; [reflexivity|]. rewrite (nth_indep _ false (inside p)) in F by (rewrite map_length; lia). rewrite map_nth, (nth_error_nth _ _ _ Ep) in F. exact F.
      + destruct (String.eqb_spec n ""); [now left|right]. cbn [orb] in Q. destruct (registry_id 0 (y_names y) n) as [f| |] eqn:Ef; try discriminate.
        destruct (registry_spec _ _ _ _ Ef) as (k & -> & Ek). exists k. split; [exact Ek|]. apply Nat.eqb_eq in Q. cbn [Nat.add] in Q.
        destruct (nth_error (decompressed (y_subs y)) i) as [x|] eqn:Ei; [|apply nth_error_None in Ei; lia].
        rewrite (nth_error_nth _ _ _ Ei) in Q. congruence.
    - intros ((p & Ep & Ip) & Q). assert (Li : i < num_sites y) by (rewrite <- LP; apply nth_error_Some; congruence). split; [lia|]. split.
      + rewrite (nth_indep _ false (inside p)) by (rewrite map_length; lia). rewrite map_nth, (nth_error_nth _ _ _ Ep). exact Ip.
      + destruct (String.eqb_spec n ""); [reflexivity|]. cbn [orb]. destruct Q as [?|(f & Nf & If)]; [contradiction|].
        destruct (registry_known (y_names y) n 0 (nth_error_In _ _ Nf)) as (f' & Ef). rewrite Ef.
        destruct (registry_spec _ _ _ _ Ef) as (k & -> & Ek). cbn [Nat.add].
        assert (f = k) by (apply (proj1 (NoDup_nth_error (y_names y)) NN); [apply nth_error_Some; congruence|congruence]). subst f.
        apply Nat.eqb_eq. apply (nth_error_nth _ _ _ If). }
  assert (NE : idx <> []). { intros E. destruct A as (i & Ai). apply IN in Ai. rewrite E in Ai. destruct Ai. }
  unfold calc_spatial_ldos. fold bs. assert (CH' : chosen y bs n = Ok idx) by exact CH. unfold cpp_spatial. rewrite M, CH'. cbn [obind].
  assert (CL : core_ldos ldos_of prev idx = Ok (map ldos_of idx)).
  { unfold core_ldos. destruct (list_eq_dec Nat.eq_dec prev idx); [reflexivity|]. destruct idx as [|i t]; [contradiction|reflexivity]. }
  rewrite CL. cbn [obind].
  rewrite (structure_get_eq drop (num_sites y) _ (Mask bs) SO). cbn [resolve]. rewrite LB, Nat.eqb_refl. cbn [omap obind].
  set (k1 := true_positions 0 bs).
  assert (B1 : Forall (fun k => k < num_sites y) k1).
  { apply (resolve_bound (num_sites y) (Mask bs)). cbn. rewrite LB, Nat.eqb_refl. reflexivity. }
  assert (EK1 : k1 = filter (fun i => nth i bs false) (seq 0 (num_sites y))).
  { unfold k1. rewrite true_positions_filter, LB. apply filter_ext. intros i. now rewrite Nat.sub_0_r. }
  pose proof (slice_sound _ _ k1 SO B1) as SO1.
  assert (AT : forall st (ks ks' : list nat), sound (len ks') st -> Forall (fun k => k < len ks') ks -> forall a k, nth_error ks a = Some k -> site_at (structure_slice ks st) a = site_at st k).
  { intros st ks ks' St Bd a k Ek. destruct (C87 false (len ks') st (Ints (map Z.of_nat ks)) (structure_slice ks st) St) as (ks2 & R2 & _ & _ & AT & _).
    - rewrite (structure_get_eq false (len ks') _ _ St). cbn [resolve].
      assert (NI : norm_ints (len ks') (map Z.of_nat ks) = Ok ks).
      { clear -Bd. induction Bd as [|k t Bk Bt IH]; [reflexivity|]. cbn [map norm_ints]. unfold norm_int.
        rewrite (proj2 (Z.leb_le _ _)), (proj2 (Z.ltb_lt _ _)) by lia. cbn [andb obind]. rewrite IH, Nat2Z.id. reflexivity. }
      rewrite NI. reflexivity.
    - cbn [resolve] in R2. assert (NI : norm_ints (len ks') (map Z.of_nat ks) = Ok ks).
      { clear -Bd. induction Bd as [|k' t Bk Bt IH]; [reflexivity|]. cbn [map norm_ints]. unfold norm_int.
        rewrite (proj2 (Z.leb_le _ _)), (proj2 (Z.ltb_lt _ _)) by lia. cbn [andb obind]. rewrite IH, Nat2Z.id. reflexivity. }
      rewrite NI in R2. injection R2 as <-. apply AT. exact Ek. }
  assert (AT1 : forall a k, nth_error k1 a = Some k -> site_at (structure_slice k1 (y_structure y)) a = site_at (y_structure y) k).
  { intros a k Ek. apply (AT (y_structure y) k1 (seq 0 (num_sites y))); rewrite ?seq_length; auto. }
  destruct (String.eqb_spec n "") as [En|En].
  - exists (Spatial (map ldos_of idx) energy (structure_slice k1 (y_structure y))), idx. split; [reflexivity|].
    assert (EI : idx = k1). { unfold idx. rewrite EK1. apply filter_ext. intros i. unfold pr. rewrite En. cbn. apply andb_true_r. }
    split; [apply sorted_filter|]. split; [exact IN|]. split; [reflexivity|]. split; [reflexivity|]. cbn [l_structure]. split; [rewrite EI; exact SO1|].
    intros k i Ek. apply AT1. now rewrite <- EI.
  - set (m := structure_slice k1 (y_structure y)) in *.
    assert (KN : exists f, registry_id 0 (y_names y) n = Ok f).
    { destruct A as (i & _ & [?|(f & Nf & _)]); [contradiction|]. apply registry_known. eapply nth_error_In; eauto. }
    destruct KN as (f & Ef).
    assert (MK : array_eq (s_names (t_sites m)) (site_ids (t_sites m)) n = map (fun i => nth i (decompressed (y_subs y)) 0 =? f) k1).
    { unfold array_eq, mapped_eq. unfold m, structure_slice, sites_slice, site_ids. rewrite SI. cbn [t_sites s_names s_ids]. rewrite SN. unfold name_map.
      rewrite (registry_lookup _ _ _ _ Ef). clear -B1 LI. rewrite <- LI in B1. induction B1 as [|k t Bk Bt IH]; [reflexivity|]. cbn [pick map].
      destruct (nth_error (decompressed (y_subs y)) k) as [x|] eqn:E; [|apply nth_error_None in E; lia]. cbn [map]. rewrite IH, (nth_error_nth _ _ _ E). reflexivity. }
    rewrite MK. set (m2 := map (fun i => nth i (decompressed (y_subs y)) 0 =? f) k1). set (k2 := true_positions 0 m2).
    assert (L2 : len m2 = len k1) by apply map_length.
    rewrite (structure_get_eq drop (len k1) m _ SO1). cbn [resolve]. rewrite L2, Nat.eqb_refl. cbn [omap obind]. fold k2.
    assert (B2 : Forall (fun k => k < len k1) k2).
    { apply (resolve_bound (len k1) (Mask m2)). cbn. rewrite L2, Nat.eqb_refl. reflexivity. }
    assert (EI : idx = pick k1 k2).
    { unfold k2, m2. rewrite pick_filter, EK1. unfold idx, pr. rewrite Ef. destruct (String.eqb_spec n ""); [contradiction|]. cbn [orb].
      generalize (seq 0 (num_sites y)). intros l. induction l as [|i t IH]; [reflexivity|]. cbn [filter]. destruct (nth i bs false); cbn [andb filter].
      - destruct (nth i (decompressed (y_subs y)) 0 =? f); [f_equal|]; exact IH.
      - exact IH. }
    exists (Spatial (map ldos_of idx) energy (structure_slice k2 m)), idx. split; [reflexivity|].
    split; [apply sorted_filter|]. split; [exact IN|]. split; [reflexivity|]. split; [reflexivity|]. cbn [l_structure].
    assert (LK : len idx = len k2) by (rewrite EI; apply pick_length; exact B2).
    split; [rewrite LK; exact (slice_sound _ _ k2 SO1 B2)|].
    intros k i Ek. rewrite EI in Ek. assert (Lk : k < len k2) by (rewrite <- LK, EI; apply nth_error_Some; congruence).
    destruct (nth_error k2 k) as [j|] eqn:Ej; [|apply nth_error_None in Ej; lia].
    rewrite (AT m k2 k1 SO1 B2 k j Ej). apply AT1. rewrite <- Ek. symmetry. apply pick_nth; auto.
Qed.

(** [structure_map]: the row of an energy that lies nearest, one number for every site. *)
Theorem C91_map : forall (V : Type) (ldos_of : nat -> list V) y inside n energy r idx e, columns_belong ldos_of y inside n energy r idx ->
  energy <> [] -> (forall i, len (ldos_of i) = len energy) ->
  exists j row, structure_map r e = Ok (row, l_structure r) /\ j < len energy /\
    (forall j', j' < len energy -> (Qabs (nth j energy 0 - e) <= Qabs (nth j' energy 0 - e))%Q) /\
    forall k, nth_error row k = match nth_error idx k with Some i => nth_error (ldos_of i) j | None => None end.
Proof.
  intros V ldos_of y inside n energy r idx e (_ & _ & EE & ED & SO & _) NE LE. unfold structure_map, nearest_energy. rewrite EE, ED.
  set (g := fun x : Q => Some (Qabs (x - e))).
  assert (exists j, argmin (map g energy) = Ok j) as (j & Ej) by (destruct energy; [contradiction|cbn; eauto]).
  destruct (argmin_spec _ _ Ej) as (Lj & Mj & _). rewrite map_length in Lj, Mj. rewrite Ej. cbn [obind].
  assert (Lc : forall i, exists v, nth_error (ldos_of i) j = Some v).
  { intros i. destruct (nth_error (ldos_of i) j) eqn:E; [eauto|]. apply nth_error_None in E. rewrite LE in E. lia. }
  assert (OS : exists row, osequence (fun c => aget c j) (map ldos_of idx) = Ok row /\ len row = len idx /\
    forall k, nth_error row k = match nth_error idx k with Some i => nth_error (ldos_of i) j | None => None end).
  { clear -Lc. induction idx as [|i t (row & E & L & N)].
    - exists []. split; [reflexivity|]. split; [reflexivity|]. intros k. now destruct k.
    - destruct (Lc i) as (v & Ev). exists (v :: row). cbn [map osequence]. unfold aget at 1. rewrite Ev. cbn [obind]. rewrite E. split; [reflexivity|].
      split; [cbn; now rewrite L|]. intros k. destruct k; [cbn; now rewrite Ev|apply N]. }
  destruct OS as (row & ER & LR & NR). exists j, row. rewrite ER. cbn [obind]. destruct SO as (SX & _). rewrite SX, LR, Nat.eqb_refl.
  split; [reflexivity|]. split; [exact Lj|]. split; [|exact NR].
  intros j' Lj'. specialize (Mj j' Lj'). unfold ole in Mj.
  rewrite (nth_indep _ None (g 0%Q)), (nth_indep (map g energy) None (g 0%Q)), !map_nth in Mj by (rewrite map_length; lia). unfold g, olt in Mj.
  apply Qnot_lt_le. intros U. apply Qltb_lt in U. congruence.
Qed.

(** [ldos(position, sublattice)]: the column of the site of the selection that lies nearest. *)
Theorem C91_point : forall (V : Type) (ldos_of : nat -> list V) y inside n energy r idx target f col, columns_belong ldos_of y inside n energy r idx ->
  (exists k, k < len idx /\ wanted (t_sites (l_structure r)) f (nth k (site_ids (t_sites (l_structure r))) 0)) ->
  spatial_ldos r target f = Ok col ->
  exists k i, nth_error idx k = Some i /\ col = ldos_of i /\ nearest_site (l_structure r) (len idx) target f k.
Proof.
  intros V ldos_of y inside n energy r idx target f col (_ & _ & _ & ED & SO & _) W E. unfold spatial_ldos in E.
  destruct (structure_nearest _ target f) as [k| |] eqn:EN; try discriminate. cbn [obind] in E.
  pose proof (C88_partial _ _ _ _ _ SO W EN) as N. exists k. destruct N as (Lk & N). destruct (nth_error idx k) as [i|] eqn:Ei; [|apply nth_error_None in Ei; lia].
  exists i. split; [reflexivity|]. split; [|split; assumption]. unfold aget in E. rewrite ED, (map_nth_error _ _ _ Ei) in E. congruence.
Qed.

(** Names that no site family has, and models with several orbitals, are refused. *)
Theorem C91_unknown : forall (V : Type) (ldos_of : nat -> list V) drop prev y inside energy n, n <> ""%string -> ~ In n (y_names y) ->
  calc_spatial_ldos ldos_of drop prev y inside energy n = Throw.
Proof.
  intros V ldos_of drop prev y inside energy n NE U. unfold calc_spatial_ldos, cpp_spatial. destruct (y_multi y); [reflexivity|].
  unfold chosen, family_range. destruct (String.eqb_spec n ""); [contradiction|]. now rewrite registry_unknown.
Qed.
Theorem C91_multi : forall (V : Type) (ldos_of : nat -> list V) drop prev y inside energy n, y_multi y = true ->
  calc_spatial_ldos ldos_of drop prev y inside energy n = Throw.
Proof. intros V ldos_of drop prev y inside energy n M. unfold calc_spatial_ldos, cpp_spatial. now rewrite M. Qed.

(* ------------------------------------------------------------------ *)
(* Example: two families of two sites *)

Definition ex_y : lsystem :=
  {| y_structure := {| t_sites := {| s_x := [0; 1; 2; 3]%Q; s_y := [0; 0; 1; 0]%Q; s_z := [0; 0; 0; 0]%Q; s_ids := Some [1; 1; 0; 0];
       s_names := [("A"%string, 0); ("B"%string, 1)] |}; t_hops := t_hops ex_structure; t_bounds := [] |};
     y_subs := [Elem 1 2 1; Elem 0 2 1]; y_names := ["A"; "B"]%string; y_multi := false |}.
Lemma ex_y_ok : system_ok ex_y.
Proof.
  split; [|split; [reflexivity|split; [reflexivity|split; [reflexivity|]]]].
  - destruct ex_sound as (_ & _ & _ & _ & H & _). split; [reflexivity|]. split; [reflexivity|]. split; [reflexivity|].
    split; [eexists; split; reflexivity|]. split; [exact H|constructor].
  - cbn. repeat split; repeat constructor; cbn; intuition discriminate.
Qed.
Definition ex_inside (p : Q * Q * Q) : bool := Qle_bool 1 (fst (fst p)).
Definition ex_ldos (i : nat) : list nat := [10 * i; 10 * i + 1].

Example ex_run : omap (fun r => (l_data r, s_x (t_sites (l_structure r))))
  (calc_spatial_ldos ex_ldos true [] ex_y ex_inside [0; 1]%Q "A") = Ok ([[20; 21]; [30; 31]], [2; 3]%Q).
Proof. reflexivity. Qed.
Example ex_run_all : omap (fun r => (l_data r, s_x (t_sites (l_structure r))))
  (calc_spatial_ldos ex_ldos true [] ex_y ex_inside [0; 1]%Q "") = Ok ([[10; 11]; [20; 21]; [30; 31]], [1; 2; 3]%Q).
Proof. reflexivity. Qed.
Example ex_map : obind (calc_spatial_ldos ex_ldos true [] ex_y ex_inside [0; 1]%Q "A") (fun r => omap fst (structure_map r (3 # 4)%Q)) = Ok [21; 31].
Proof. reflexivity. Qed.
Example ex_point : obind (calc_spatial_ldos ex_ldos true [] ex_y ex_inside [0; 1]%Q "A") (fun r => spatial_ldos r [3]%Q FAny) = Ok [30; 31].
Proof. reflexivity. Qed.

(** Nothing is selected after something else was calculated: the first of no indices is read. *)
Theorem C91_refuted : ~ C91_claim.
Proof. intros H. exact (H nat ex_ldos true [0] ex_y (fun _ => false) [] ""%string ex_y_ok). Qed.
Print Assumptions C91_partial.
