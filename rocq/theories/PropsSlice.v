(* C87: indexing and cropping of a structure.  C88: the nearest site of a structure. *)
From Coq Require Import QArith String.
From Verif Require Import Base AliasNames PropsNames StructureSlice SliceProofs.
Local Open Scope nat_scope.
Local Notation len := Datatypes.length.

(* ------------------------------------------------------------------ *)
(* Specification *)

(** A structure of [n] sites: every array has one entry per site and every bond joins two of them *)
Definition sound (n : nat) (s : structure) : Prop :=
  len (s_x (t_sites s)) = n /\ len (s_y (t_sites s)) = n /\ len (s_z (t_sites s)) = n /\
  (exists l, s_ids (t_sites s) = Some l /\ len l = n) /\
  csr_ok n (t_hops s) /\ Forall (fun b => csr_ok n (b_hops b)) (t_bounds s).

(** Everything that is known about the site [i] *)
Definition site_at (s : structure) (i : nat) : option Q * option Q * option Q * option nat :=
  let t := t_sites s in
  (nth_error (s_x t) i, nth_error (s_y t) i, nth_error (s_z t) i, nth_error (site_ids t) i).

(** Index expressions that numpy accepts for an array of [n] elements *)
Definition accepted (n : nat) (idx : index) : Prop :=
  match idx with
  | Mask bs => len bs = n
  | Ints zs => Forall (fun z => - Z.of_nat n <= z < Z.of_nat n)%Z zs
  | Slice _ _ step => step <> 0%Z
  end.

Lemma resolve_accepted : forall n idx, (exists ks, resolve n idx = Ok ks) <-> accepted n idx.
Proof.
  intros n [bs|zs|a b s]; cbn [resolve accepted].
  - destruct (Nat.eqb_spec (len bs) n) as [E|E]; split; intros H; [exact E|eauto|destruct H; discriminate|contradiction].
  - apply norm_ints_iff.
  - unfold slice_indices. destruct (Z.eqb_spec s 0); split; intros H; [destruct H; discriminate|contradiction|exact n0|eauto].
Qed.

(* ------------------------------------------------------------------ *)

Definition sites_slice (ks : list nat) (s : sites) : sites :=
  {| s_x := pick (s_x s) ks; s_y := pick (s_y s) ks; s_z := pick (s_z s) ks;
     s_ids := match s_ids s with Some l => Some (pick l ks) | None => None end; s_names := s_names s |}.

Definition structure_slice (ks : list nat) (s : structure) : structure :=
  {| t_sites := sites_slice ks (t_sites s); t_hops := csr_slice ks (t_hops s);
     t_bounds := map (fun b => {| b_shift := b_shift b; b_hops := csr_slice ks (b_hops b) |}) (t_bounds s) |}.

Lemma structure_get_eq : forall drop n s idx, sound n s ->
  structure_get drop s idx = omap (fun ks => structure_slice ks s) (resolve n idx).
Proof.
  intros drop n s idx (X & Y & Z & (l & I & L) & H & B). unfold structure_get, sites_get, array_get.
  rewrite X, Y, Z, I, L. rewrite (slice_csr_eq drop n _ idx H).
  assert (E : forall bs, Forall (fun b => csr_ok n (b_hops b)) bs ->
    omap_list (boundary_get drop idx) bs
    = match bs with [] => Ok [] | _ => omap (fun ks => map (fun b => {| b_shift := b_shift b; b_hops := csr_slice ks (b_hops b) |}) bs) (resolve n idx) end).
  { intros bs F. induction F as [|b t Fb Ft IH]; [reflexivity|]. cbn [omap_list]. rewrite IH. unfold boundary_get.
    rewrite (slice_csr_eq drop n _ idx Fb). destruct (resolve n idx); cbn; try reflexivity.
    destruct t; reflexivity. }
  rewrite (E _ B). destruct (resolve n idx) as [ks| |]; cbn; try reflexivity.
  unfold structure_slice, sites_slice. rewrite I. destruct (t_bounds s); reflexivity.
Qed.

Lemma slice_sound : forall n s ks, sound n s -> Forall (fun k => k < n) ks -> sound (len ks) (structure_slice ks s).
Proof.
  intros n s ks (X & Y & Z & (l & I & L) & H & B) F. unfold structure_slice, sites_slice. rewrite I.
  pose proof (csr_slice_ok n (t_hops s) ks H F) as HH.
  split; [|split; [|split; [|split; [|split; [exact HH|]]]]]; cbn [t_sites t_hops t_bounds s_x s_y s_z s_ids].
  1-3: rewrite pick_length; [reflexivity|now rewrite ?X, ?Y, ?Z].
  - eexists. split; [reflexivity|]. apply pick_length. now rewrite L.
  - apply Forall_forall. intros b Hb. apply in_map_iff in Hb. destruct Hb as [b' [<- Hb']]. cbn [b_hops].
    apply (csr_slice_ok n); [|exact F]. rewrite Forall_forall in B. now apply B.
Qed.

(** C87.  Whatever index is used, the new structure is sound, its site [a] is the site of the old structure
    that the index names at [a], and the bond from [a] to [b] is stored with the same id as often as the
    bond between the two old sites was; the same holds for every periodic boundary, which keeps its shift.
    This does not depend on whether scipy drops stored zeros. *)
Theorem C87 : forall drop n s idx s', sound n s -> structure_get drop s idx = Ok s' ->
  exists ks, resolve n idx = Ok ks /\ sound (len ks) s' /\
    s_names (t_sites s') = s_names (t_sites s) /\
    (forall a k, nth_error ks a = Some k -> site_at s' a = site_at s k) /\
    (forall a b ka kb h, nth_error ks a = Some ka -> nth_error ks b = Some kb ->
       mult (t_hops s') a b h = mult (t_hops s) ka kb h) /\
    map b_shift (t_bounds s') = map b_shift (t_bounds s) /\
    (forall q bd, nth_error (t_bounds s) q = Some bd -> exists bd', nth_error (t_bounds s') q = Some bd' /\
       forall a b ka kb h, nth_error ks a = Some ka -> nth_error ks b = Some kb ->
         mult (b_hops bd') a b h = mult (b_hops bd) ka kb h).
Proof.
  intros drop n s idx s' S G. rewrite (structure_get_eq drop n s idx S) in G. apply omap_ok in G.
  destruct G as [ks [R ->]]. exists ks. pose proof (resolve_bound _ _ _ R) as F.
  destruct S as (X & Y & Z & (l & I & L) & H & B).
  split; [exact R|]. split; [now apply (slice_sound n); [repeat (split; [assumption || eauto|]); assumption|]|].
  split; [reflexivity|]. split; [|split; [|split]].
  - intros a k E. unfold site_at, site_ids. cbn [structure_slice t_sites sites_slice s_x s_y s_z s_ids]. rewrite I.
    rewrite !(pick_nth _ ks a k) by (auto; now rewrite ?X, ?Y, ?Z, ?L). reflexivity.
  - intros a b ka kb h Ea Eb. now apply (csr_slice_mult n).
  - cbn [structure_slice t_bounds]. rewrite map_map. reflexivity.
  - intros q bd Eq. cbn [structure_slice t_bounds]. rewrite nth_error_map, Eq. cbn. eexists. split; [reflexivity|].
    intros a b ka kb h Ea Eb. cbn [b_hops]. apply (csr_slice_mult n); auto.
    rewrite Forall_forall in B. apply B. eapply nth_error_In. eauto.
Qed.

(** An index is accepted exactly when numpy accepts it for one array; otherwise an exception. *)
Theorem C87_accepted : forall drop n s idx, sound n s ->
  ((exists s', structure_get drop s idx = Ok s') <-> accepted n idx) /\
  (~ accepted n idx -> structure_get drop s idx = Throw).
Proof.
  intros drop n s idx S. rewrite (structure_get_eq drop n s idx S). split.
  - rewrite <- resolve_accepted. split.
    + intros [s' H]. apply omap_ok in H. destruct H as [ks [H _]]. eauto.
    + intros [ks H]. rewrite H. cbn. eauto.
  - intros N. pose proof (resolve_not_ub n idx). rewrite <- resolve_accepted in N.
    destruct (resolve n idx); [exfalso; eauto|reflexivity|contradiction].
Qed.

(** A mask keeps the sites in their order, and exactly the bonds between kept sites, each with its id and
    with its ends renumbered by the number of kept sites before them. *)
Theorem C87_mask : forall drop n s bs, sound n s -> len bs = n ->
  exists s', structure_get drop s (Mask bs) = Ok s' /\
    s_x (t_sites s') = mask bs (s_x (t_sites s)) /\
    s_y (t_sites s') = mask bs (s_y (t_sites s)) /\
    s_z (t_sites s') = mask bs (s_z (t_sites s)) /\
    site_ids (t_sites s') = mask bs (site_ids (t_sites s)) /\
    bonds (t_hops s') = map (relabel bs) (filter (kept bs) (bonds (t_hops s))) /\
    map (fun b => (b_shift b, bonds (b_hops b))) (t_bounds s')
    = map (fun b => (b_shift b, map (relabel bs) (filter (kept bs) (bonds (b_hops b))))) (t_bounds s).
Proof.
  intros drop n s bs S E. rewrite (structure_get_eq drop n s _ S). cbn [resolve].
  rewrite (proj2 (Nat.eqb_eq (len bs) n) E). cbn [omap obind]. eexists. split; [reflexivity|].
  destruct S as (X & Y & Z & (l & I & L) & H & B).
  cbn [structure_slice t_sites sites_slice s_x s_y s_z t_hops t_bounds]. unfold site_ids. cbn [sites_slice s_ids]. rewrite I.
  split; [apply pick_mask; congruence|]. split; [apply pick_mask; congruence|].
  split; [apply pick_mask; congruence|]. split; [apply pick_mask; congruence|]. split.
  - now apply (bonds_mask n).
  - rewrite map_map. apply map_ext_in. intros b Hb. cbn [b_shift b_hops]. f_equal. apply (bonds_mask n); [|exact E].
    rewrite Forall_forall in B. now apply B.
Qed.

(** The renumbering is one to one on the kept sites and keeps their order. *)
Theorem C87_order : forall bs i j, i < j -> nth i bs false = true -> rank bs i < rank bs j /\ rank bs j <= countb (fun b => b) bs.
Proof.
  intros bs. induction bs as [|b t IH]; intros i j L N; [now destruct i|].
  destruct j as [|j]; [lia|]. unfold rank in *. cbn [firstn]. rewrite !countb_cons. split.
  - destruct i as [|i]; cbn [nth] in N.
    + subst b. cbn. lia.
    + cbn [firstn]. rewrite countb_cons. destruct (IH i j ltac:(lia) N). lia.
  - assert (T : forall l k, countb (fun b : bool => b) (firstn k l) <= countb (fun b => b) l).
    { clear. induction l as [|x l IH]; intros k; [now rewrite firstn_nil|]. destruct k; cbn [firstn]; rewrite ?countb_cons; [cbn; lia|].
      specialize (IH k). lia. }
    specialize (T t j). lia.
Qed.

(** Data stays with its site. *)
Theorem C87_data : forall D drop n s (data : list D) idx, sound n s -> len data = n -> accepted n idx ->
  exists d' s' ks, map_get drop data s idx = Ok (d', s') /\ structure_get drop s idx = Ok s' /\
    resolve n idx = Ok ks /\ len d' = len ks /\
    forall a k, nth_error ks a = Some k -> nth_error d' a = nth_error data k.
Proof.
  intros D drop n s data idx S E A. apply resolve_accepted in A. destruct A as [ks R].
  pose proof (resolve_bound _ _ _ R) as F.
  unfold map_get, array_get. rewrite E, (structure_get_eq drop n s idx S), R. cbn [omap obind].
  exists (pick data ks), (structure_slice ks s), ks.
  assert (LD : len (pick data ks) = len ks) by (apply pick_length; now rewrite E).
  assert (LX : len (s_x (t_sites (structure_slice ks s))) = len ks) by (apply (slice_sound n s ks S F)).
  rewrite LX, LD, Nat.eqb_refl. repeat (split; [reflexivity|]).
  intros a k Ea. apply pick_nth; auto. now rewrite E.
Qed.

(** Indexing twice is indexing once with the composed index. *)
Theorem C87_twice : forall drop n s i1 i2 i3 s1 s2 s3 k1 k2, sound n s ->
  resolve n i1 = Ok k1 -> resolve (len k1) i2 = Ok k2 -> resolve n i3 = Ok (pick k1 k2) ->
  structure_get drop s i1 = Ok s1 -> structure_get drop s1 i2 = Ok s2 -> structure_get drop s i3 = Ok s3 ->
  (forall a, a < len k2 -> site_at s2 a = site_at s3 a) /\
  (forall a b h, a < len k2 -> b < len k2 -> mult (t_hops s2) a b h = mult (t_hops s3) a b h).
Proof.
  intros drop n s i1 i2 i3 s1 s2 s3 k1 k2 S R1 R2 R3 G1 G2 G3.
  destruct (C87 _ _ _ _ _ S G1) as (k1' & E1 & S1 & _ & A1 & M1 & _). rewrite R1 in E1. injection E1 as <-.
  destruct (C87 _ _ _ _ _ S1 G2) as (k2' & E2 & S2 & _ & A2 & M2 & _). rewrite R2 in E2. injection E2 as <-.
  destruct (C87 _ _ _ _ _ S G3) as (k3 & E3 & S3 & _ & A3 & M3 & _). rewrite R3 in E3. injection E3 as <-.
  pose proof (resolve_bound _ _ _ R2) as F2.
  assert (P : forall a, a < len k2 -> exists k j, nth_error k2 a = Some k /\ nth_error k1 k = Some j /\ nth_error (pick k1 k2) a = Some j).
  { intros a La. destruct (nth_error k2 a) as [k|] eqn:Ek; [|apply nth_error_None in Ek; lia].
    assert (Lk : k < len k1) by (rewrite Forall_forall in F2; apply F2; eapply nth_error_In; eauto).
    destruct (nth_error k1 k) as [j|] eqn:Ej; [|apply nth_error_None in Ej; lia].
    exists k, j. split; [reflexivity|]. split; [exact Ej|]. rewrite (pick_nth _ _ _ k); auto. }
  split.
  - intros a La. destruct (P a La) as (k & j & Ek & Ej & Ep). rewrite (A2 _ _ Ek), (A1 _ _ Ej), (A3 _ _ Ep). reflexivity.
  - intros a b h La Lb. destruct (P a La) as (k & j & Ek & Ej & Ep). destruct (P b Lb) as (k' & j' & Ek' & Ej' & Ep').
    rewrite (M2 _ _ _ _ h Ek Ek'), (M1 _ _ _ _ h Ej Ej'), (M3 _ _ _ _ h Ep Ep'). reflexivity.
Qed.

(* ------------------------------------------------------------------ *)
(* Cropping and shapes *)

Lemma and_lists_nth : forall l r i, len l = len r -> nth i (and_lists l r) false = (nth i l false && nth i r false)%bool.
Proof.
  induction l as [|x l IH]; intros [|y r] i E; try discriminate; [now destruct i|].
  destruct i as [|i]; [reflexivity|]. cbn in E |- *. apply IH. lia.
Qed.

Lemma and_lists_length : forall l r, len l = len r -> len (and_lists l r) = len l.
Proof. intros. unfold and_lists. rewrite map_length, combine_length. lia. Qed.

Lemma nth_map_false : forall {A} (p : A -> bool) l i d, i < len l -> nth i (map p l) false = p (nth i l d).
Proof. intros. rewrite (nth_indep _ false (p d)) by now rewrite map_length. apply map_nth. Qed.

Lemma Qltb_lt : forall a b, Qltb a b = true <-> (a < b)%Q.
Proof.
  intros a b. unfold Qltb. rewrite negb_true_iff. split; intros H.
  - apply Qnot_le_lt. intro L. apply Qle_bool_iff in L. congruence.
  - apply not_true_is_false. intro L. apply Qle_bool_iff in L. now apply (Qlt_not_le _ _ H).
Qed.

Lemma attr_length : forall n s a, sound n s -> len (attr (t_sites s) a) = n.
Proof. intros n s a (X & Y & Z & _). now destruct a. Qed.

Lemma crop_attr : forall drop n s limits, sound n s ->
  exists bs, len bs = n /\ cropped drop s limits = structure_get drop s (Mask bs) /\
    forall i, i < n -> (nth i bs false = true <->
      forall a lo hi, In (a, (lo, hi)) limits ->
        (lo <= nth i (attr (t_sites s) a) 0 /\ nth i (attr (t_sites s) a) 0 < hi)%Q).
Proof.
  intros drop n s limits S. exists (crop_indices (t_sites s) limits). unfold cropped, crop_indices.
  assert (G : forall ls idx, len idx = n ->
    let bs := fold_left (fun idx l =>
      let v := attr (t_sites s) (fst l) in
      let idx1 := and_lists idx (map (fun x => Qle_bool (fst (snd l)) x) v) in
      and_lists idx1 (map (fun x => Qltb x (snd (snd l))) v)) ls idx in
    len bs = n /\ forall i, i < n -> (nth i bs false = true <-> nth i idx false = true /\
      forall a lo hi, In (a, (lo, hi)) ls ->
        (lo <= nth i (attr (t_sites s) a) 0 /\ nth i (attr (t_sites s) a) 0 < hi)%Q)).
  { induction ls as [|[a [lo hi]] t IH]; intros idx E; cbn [fold_left fst snd].
    - split; [exact E|]. intros i Li. split; [intros H; split; [exact H|easy]|easy].
    - pose proof (attr_length n s a S) as LA.
      assert (E1 : len (and_lists idx (map (fun x => Qle_bool lo x) (attr (t_sites s) a))) = n)
        by (rewrite and_lists_length; rewrite ?map_length; congruence).
      assert (E2 : len (and_lists (and_lists idx (map (fun x => Qle_bool lo x) (attr (t_sites s) a)))
                                  (map (fun x => Qltb x hi) (attr (t_sites s) a))) = n)
        by (rewrite and_lists_length; rewrite ?map_length; congruence).
      destruct (IH _ E2) as [L2 H2]. split; [exact L2|]. intros i Li. rewrite (H2 i Li).
      rewrite !and_lists_nth by (rewrite ?map_length; congruence).
      rewrite !(nth_map_false _ _ i 0%Q) by (rewrite LA; exact Li).
      rewrite !andb_true_iff, Qle_bool_iff, Qltb_lt. split.
      + intros [[[A B] C] D]. split; [exact A|]. intros a' lo' hi' [Eq|In']; [inversion Eq; subst; auto|now apply D].
      + intros [A D]. destruct (D a lo hi (or_introl eq_refl)). repeat split; auto; now apply (D a0 lo0 hi0); right. }
  specialize (G limits (repeat true (len (s_x (t_sites s))))). cbv zeta in G.
  assert (LX : len (s_x (t_sites s)) = n) by apply S.
  rewrite repeat_length in G. destruct (G LX) as [L H]. split; [exact L|]. split; [reflexivity|].
  intros i Li. rewrite (H i Li). split; [now intros [_ D]|]. intros D. split; [|exact D].
  rewrite nth_repeat || idtac. rewrite (nth_indep _ false true) by (rewrite repeat_length; lia). now apply nth_repeat.
Qed.

(** [cropped] keeps exactly the sites with [lo <= value < hi] for every limit, and indexes with that mask. *)
Definition coordinate (s : sites) (a : axis) (i : nat) : Q :=
  match a with AX => nth i (s_x s) 0%Q | AY => nth i (s_y s) 0%Q | AZ => nth i (s_z s) 0%Q end.
Theorem C87_crop : forall drop n s limits, sound n s ->
  exists bs, len bs = n /\ cropped drop s limits = structure_get drop s (Mask bs) /\
    forall i, i < n -> (nth i bs false = true <->
      forall a lo hi, In (a, (lo, hi)) limits -> (lo <= coordinate (t_sites s) a i /\ coordinate (t_sites s) a i < hi)%Q).
Proof.
  intros drop n s limits S. destruct (crop_attr drop n s limits S) as (bs & L & E & H). exists bs. split; [exact L|]. split; [exact E|].
  intros i Li. rewrite (H i Li). split; intros K a lo hi I; specialize (K a lo hi I); destruct a; exact K.
Qed.

(** Indexing with a shape keeps exactly the sites inside it. *)
Theorem C87_shape : forall drop n s contains, sound n s ->
  exists bs, shape_index contains s = Mask bs /\ len bs = n /\
    (exists s', structure_get drop s (Mask bs) = Ok s') /\
    forall i, i < n -> nth i bs false
      = contains (nth i (s_x (t_sites s)) 0, nth i (s_y (t_sites s)) 0, nth i (s_z (t_sites s)) 0)%Q.
Proof.
  intros drop n s contains S. unfold shape_index, site_positions. eexists. split; [reflexivity|].
  pose proof S as (X & Y & Z & _).
  assert (L2 : len (combine (s_x (t_sites s)) (s_y (t_sites s))) = n) by (rewrite combine_length; lia).
  assert (L : len (combine (combine (s_x (t_sites s)) (s_y (t_sites s))) (s_z (t_sites s))) = n) by (rewrite combine_length; lia).
  split; [rewrite map_length; exact L|]. split.
  - apply (C87_accepted drop n s _ S). cbn [accepted]. rewrite map_length. exact L.
  - intros i Li. rewrite (nth_map_false _ _ i (0, 0, 0)%Q) by lia. rewrite combine_nth by lia. rewrite combine_nth by lia. reflexivity.
Qed.

(** Without sublattice ids no index works: [self._ids] does not exist. *)
Theorem C87_without_ids : forall drop s idx s', s_ids (t_sites s) = None -> structure_get drop s idx <> Ok s'.
Proof.
  intros drop s idx s' N. unfold structure_get, sites_get. rewrite N.
  destruct (array_get _ idx); cbn; try discriminate. destruct (array_get _ idx); cbn; try discriminate.
  destruct (array_get _ idx); cbn; discriminate.
Qed.

(* ------------------------------------------------------------------ *)
(* C88: the nearest site *)

(** The ids that are asked for *)
Definition wanted (s : sites) (f : family) (id : nat) : Prop :=
  match f with
  | FAny => True
  | FNum n => id = n
  | FName x => match lookup (s_names s) x with
               | Some v => id = v
               | None => exists k, In (k, id) (s_names s) /\ split_eq k x = true
               end
  end.

(** Square of the distance of a site to a target with one, two or three coordinates *)
Definition far2 (s : structure) (target : list Q) (k : nat) : Q :=
  let x := nth k (s_x (t_sites s)) 0%Q in let y := nth k (s_y (t_sites s)) 0%Q in let z := nth k (s_z (t_sites s)) 0%Q in
  match target with
  | [a] => (x - a) * (x - a)
  | [a; b] => (x - a) * (x - a) + (y - b) * (y - b)
  | [a; b; c] => (x - a) * (x - a) + (y - b) * (y - b) + (z - c) * (z - c)
  | _ => 0
  end%Q.

Definition nearest_site (s : structure) (n : nat) (target : list Q) (f : family) (i : nat) : Prop :=
  let d := far2 s target in
  i < n /\ wanted (t_sites s) f (nth i (site_ids (t_sites s)) 0) /\
  forall j, j < n -> wanted (t_sites s) f (nth j (site_ids (t_sites s)) 0) -> (d i <= d j)%Q /\ (j < i -> (d i < d j)%Q).

Definition C88_claim : Prop := forall n s target f i, sound n s ->
  structure_nearest (t_sites s) target f = Ok i -> nearest_site s n target f i.

Definition ole (a b : option Q) : Prop := olt b a = false.

Lemma olt_irrefl_trans : forall a b c, ole a b -> ole b c -> ole a c.
Proof.
  unfold ole, olt. intros [a|] [b|] [c|] H1 H2; auto; try discriminate.
  apply not_true_is_false. intro T. apply Qltb_lt in T.
  assert (~ (b < a)%Q) by (intro U; apply Qltb_lt in U; congruence).
  assert (~ (c < b)%Q) by (intro U; apply Qltb_lt in U; congruence).
  apply Qnot_lt_le in H. apply Qnot_lt_le in H0. apply (Qlt_not_le _ _ T). eapply Qle_trans; eauto.
Qed.

Lemma olt_ole : forall a b, olt a b = true -> ole a b.
Proof.
  unfold ole, olt. intros [a|] [b|] H; auto; try discriminate. apply Qltb_lt in H.
  apply not_true_is_false. intro T. apply Qltb_lt in T. apply (Qlt_not_le _ _ H). now apply Qlt_le_weak.
Qed.

Lemma olt_ole_trans : forall a b c, olt a b = true -> ole b c -> olt a c = true.
Proof.
  unfold ole, olt. intros [a|] [b|] [c|] H1 H2; auto; try discriminate. apply Qltb_lt. apply Qltb_lt in H1.
  assert (~ (c < b)%Q) by (intro U; apply Qltb_lt in U; congruence). apply Qnot_lt_le in H.
  eapply Qlt_le_trans; eauto.
Qed.

Lemma argmin_from_spec : forall l pre best, best < len pre ->
  (forall j, j < len pre -> ole (nth best pre None) (nth j pre None)) ->
  (forall j, j < best -> olt (nth best pre None) (nth j pre None) = true) ->
  let r := argmin_from best (nth best pre None) (len pre) l in
  let full := pre ++ l in
  r < len full /\ (forall j, j < len full -> ole (nth r full None) (nth j full None)) /\
  (forall j, j < r -> olt (nth r full None) (nth j full None) = true).
Proof.
  induction l as [|v t IH]; intros pre best B M F; cbn [argmin_from].
  - rewrite app_nil_r. auto.
  - replace (pre ++ v :: t) with ((pre ++ [v]) ++ t) by now rewrite <- app_assoc.
    assert (LP : len (pre ++ [v]) = S (len pre)) by (rewrite app_length; cbn; lia).
    assert (NV : nth (len pre) (pre ++ [v]) None = v) by (rewrite app_nth2, Nat.sub_diag by lia; reflexivity).
    assert (NO : forall j, j < len pre -> nth j (pre ++ [v]) None = nth j pre None) by (intros; now apply app_nth1).
    rewrite <- LP. destruct (olt v (nth best pre None)) eqn:O.
    + pose proof (IH (pre ++ [v]) (len pre)) as T. rewrite NV in T. apply T; rewrite ?LP; clear T.
      * lia.
      * intros j Lj. destruct (Nat.eq_dec j (len pre)) as [->|N].
        -- rewrite NV. unfold ole, olt. destruct v; auto. apply not_true_is_false. intro T. apply Qltb_lt in T. now apply (Qlt_irrefl q).
        -- rewrite NO by lia. apply (olt_irrefl_trans _ _ _ (olt_ole _ _ O)). apply M. lia.
      * intros j Lj. rewrite NO by lia. apply (olt_ole_trans _ _ _ O). apply M. lia.
    + pose proof (IH (pre ++ [v]) best) as T. rewrite (NO best B) in T. apply T; rewrite ?LP; clear T.
      * lia.
      * intros j Lj. destruct (Nat.eq_dec j (len pre)) as [->|N]; [now rewrite NV|rewrite NO by lia; apply M; lia].
      * intros j Lj. rewrite NO by lia. now apply F.
Qed.

Lemma argmin_spec : forall l i, argmin l = Ok i ->
  i < len l /\ (forall j, j < len l -> ole (nth i l None) (nth j l None)) /\
  (forall j, j < i -> olt (nth i l None) (nth j l None) = true).
Proof.
  intros [|v t] i H; [discriminate|]. cbn in H. injection H as <-.
  apply (argmin_from_spec t [v] 0).
  - cbn. lia.
  - intros j Lj. cbn in Lj. replace j with 0 by lia. unfold ole, olt. cbn. destruct v; auto.
    apply not_true_is_false. intro T. apply Qltb_lt in T. now apply (Qlt_irrefl q).
  - lia.
Qed.

Lemma masked_wanted : forall s f i, i < len (site_ids s) ->
  (nth i (masked_out s f) true = false <-> wanted s f (nth i (site_ids s) 0)).
Proof.
  intros s f i L.
  assert (NM : forall p : nat -> bool, nth i (map p (site_ids s)) true = p (nth i (site_ids s) 0)).
  { intros p. rewrite (nth_indep _ true (p 0)) by now rewrite map_length. apply map_nth. }
  destruct f as [|n|x]; cbn [masked_out wanted].
  - rewrite NM. tauto.
  - rewrite NM. rewrite negb_false_iff, Nat.eqb_eq. tauto.
  - unfold array_ne. rewrite mapped_eq_spec, map_map, NM, negb_false_iff.
    destruct (lookup (s_names s) x); [apply Nat.eqb_eq|]. unfold hit. rewrite existsb_exists. split.
    + intros [[k v] [I H]]. cbn in H. apply andb_true_iff in H. destruct H as [H1 H2]. apply Nat.eqb_eq in H2. subst. eauto.
    + intros [k [I H]]. exists (k, nth i (site_ids s) 0). split; [exact I|]. cbn. now rewrite H, Nat.eqb_refl.
Qed.

Lemma masked_length : forall s f, len (masked_out s f) = len (site_ids s).
Proof. intros s [|n|x]; cbn; rewrite ?map_length; auto. unfold array_ne. now rewrite mapped_eq_spec, !map_length. Qed.

Lemma positions_length : forall n s, sound n s -> len (site_positions (t_sites s)) = n.
Proof. intros n s (X & Y & Z & _). unfold site_positions. rewrite !combine_length. lia. Qed.

Lemma ids_length : forall n s, sound n s -> len (site_ids (t_sites s)) = n.
Proof. intros n s (_ & _ & _ & (l & I & L) & _). unfold site_ids. now rewrite I. Qed.

Definition filled_at (s : structure) (target : list Q) (f : family) : list (option Q) :=
  filled (map (distance2 target) (site_positions (t_sites s))) (masked_out (t_sites s) f).

Lemma filled_nth : forall n s target f j, sound n s -> j < n ->
  nth j (filled_at s target f) None
  = if nth j (masked_out (t_sites s) f) true then None else Some (distance2 target (nth j (site_positions (t_sites s)) (0,0,0)%Q)).
Proof.
  intros n s target f j S L. unfold filled_at, filled.
  pose proof (positions_length n s S) as P. pose proof (ids_length n s S) as I. pose proof (masked_length (t_sites s) f) as M.
  set (g := fun p : Q * bool => if snd p then None else Some (fst p)).
  rewrite (nth_indep _ None (g (distance2 target (0,0,0)%Q, true))) by (rewrite map_length, combine_length, map_length; lia).
  rewrite map_nth, combine_nth by (rewrite map_length; lia).
  unfold g. cbn [fst snd]. now rewrite map_nth.
Qed.

Lemma nearest_eq : forall s target f i, structure_nearest (t_sites s) target f = Ok i -> argmin (filled_at s target f) = Ok i.
Proof.
  intros s target f i H. unfold structure_nearest, distances2 in H.
  destruct target as [|a [|b [|c [|d t]]]]; try discriminate; exact H.
Qed.

Lemma distance2_far : forall n s target k, sound n s -> k < n -> 1 <= len target <= 3 ->
  distance2 target (nth k (site_positions (t_sites s)) (0,0,0)%Q) == far2 s target k.
Proof.
  intros n s target k (X & Y & Z & _) L T. unfold site_positions. rewrite !combine_nth by (rewrite ?combine_length; lia).
  unfold distance2, far2, sq. destruct target as [|a [|b [|c [|d t]]]]; cbn in T; try lia; cbn [combine map fold_right fst snd]; ring.
Qed.
Lemma nearest_target : forall s target f i, structure_nearest (t_sites s) target f = Ok i -> 1 <= len target <= 3.
Proof. intros s target f i H. unfold structure_nearest, distances2 in H. destruct target as [|a [|b [|c [|d t]]]]; try discriminate; cbn; lia. Qed.

(** C88, with the guard that some site is of the family that is asked for. *)
Theorem C88_partial : forall n s target f i, sound n s ->
  (exists k, k < n /\ wanted (t_sites s) f (nth k (site_ids (t_sites s)) 0)) ->
  structure_nearest (t_sites s) target f = Ok i -> nearest_site s n target f i.
Proof.
  intros n s target f i S [k [Lk Wk]] H. pose proof (nearest_target _ _ _ _ H) as T. apply nearest_eq in H. destruct (argmin_spec _ _ H) as (L & M & F).
  assert (LF : len (filled_at s target f) = n).
  { unfold filled_at, filled. rewrite map_length, combine_length, map_length, masked_length, (positions_length n s S), (ids_length n s S). lia. }
  rewrite LF in L, M.
  assert (W : forall j, j < n -> (nth j (masked_out (t_sites s) f) true = false <-> wanted (t_sites s) f (nth j (site_ids (t_sites s)) 0))).
  { intros j Lj. apply masked_wanted. now rewrite (ids_length n s S). }
  assert (Wi : nth i (masked_out (t_sites s) f) true = false).
  { specialize (M k Lk). rewrite (filled_nth n), (filled_nth n) in M by auto. apply W in Wk; auto. rewrite Wk in M.
    destruct (nth i (masked_out (t_sites s) f) true); [discriminate|reflexivity]. }
  split; [exact L|]. split; [now apply W|]. intros j Lj Wj. apply W in Wj; auto.
  specialize (M j Lj). rewrite (filled_nth n), (filled_nth n), Wi, Wj in M by auto. unfold ole, olt in M.
  rewrite <- (distance2_far n s target i), <- (distance2_far n s target j) by auto. split.
  - apply Qnot_lt_le. intro U. apply Qltb_lt in U. congruence.
  - intros Lt. specialize (F j Lt). rewrite (filled_nth n), (filled_nth n), Wi, Wj in F by auto. now apply Qltb_lt.
Qed.

(** Without a family any site will do. *)
Theorem C88_any : forall n s target i, sound n s ->
  structure_nearest (t_sites s) target FAny = Ok i -> nearest_site s n target FAny i.
Proof.
  intros n s target i S H. apply C88_partial; auto.
  apply nearest_eq in H. destruct (argmin_spec _ _ H) as [L _].
  unfold filled_at, filled in L. rewrite map_length, combine_length, map_length, masked_length, (positions_length n s S), (ids_length n s S) in L.
  exists i. split; [lia|exact I].
Qed.

(** An answer is given exactly when there is a site and the target has one to three coordinates. *)
Theorem C88_answers : forall n s target f, sound n s ->
  ((exists i, structure_nearest (t_sites s) target f = Ok i) <-> 0 < n /\ 1 <= len target <= 3).
Proof.
  intros n s target f S.
  assert (LF : len (filled_at s target f) = n).
  { unfold filled_at, filled. rewrite map_length, combine_length, map_length, masked_length, (positions_length n s S), (ids_length n s S). lia. }
  split.
  - intros [i H]. pose proof (nearest_eq _ _ _ _ H) as A. apply argmin_spec in A. split; [destruct A; lia|].
    unfold structure_nearest, distances2 in H. destruct target as [|a [|b [|c [|d t]]]]; try discriminate; cbn; lia.
  - intros [N T].
    assert (E : structure_nearest (t_sites s) target f = argmin (filled_at s target f)).
    { unfold structure_nearest, distances2. destruct target as [|a [|b [|c [|d t]]]]; cbn in T; try lia; reflexivity. }
    rewrite E. destruct (filled_at s target f); [cbn in LF; lia|cbn; eauto].
Qed.

(** A family that no site has: site 0 is returned as if it were the nearest one. *)
Theorem C88_absent : forall n s target f, sound n s -> 0 < n -> 1 <= len target <= 3 ->
  (forall k, k < n -> ~ wanted (t_sites s) f (nth k (site_ids (t_sites s)) 0)) ->
  structure_nearest (t_sites s) target f = Ok 0.
Proof.
  intros n s target f S N T A. destruct (proj2 (C88_answers n s target f S) (conj N T)) as [i H].
  rewrite H. f_equal. pose proof (nearest_eq _ _ _ _ H) as G. apply argmin_spec in G. destruct G as (L & _ & F).
  destruct i as [|i]; [reflexivity|]. exfalso.
  assert (LF : len (filled_at s target f) = n).
  { unfold filled_at, filled. rewrite map_length, combine_length, map_length, masked_length, (positions_length n s S), (ids_length n s S). lia. }
  specialize (F 0 ltac:(lia)). rewrite LF in L. rewrite (filled_nth n) in F by auto.
  destruct (nth (Datatypes.S i) (masked_out (t_sites s) f) true) eqn:E; [discriminate|].
  apply masked_wanted in E; [|rewrite (ids_length n s S); exact L]. now apply (A (Datatypes.S i)).
Qed.

(* ------------------------------------------------------------------ *)
(* Examples *)

Definition ex_sites : sites :=
  {| s_x := [0; 1; 2; 3]%Q; s_y := [0; 0; 1; 0]%Q; s_z := [0; 0; 0; 0]%Q; s_ids := Some [0; 1; 0; 1];
     s_names := [("A"%string, 0); ("B"%string, 1); ("C"%string, 2)] |}.
Definition ex_structure : structure :=
  {| t_sites := ex_sites;
     t_hops := {| c_rows := [[(1, 0%Z)]; [(2, 1%Z); (3, 0%Z)]; [(3, 0%Z)]; []]; c_cols := 4 |};
     t_bounds := [{| b_shift := (4, 0, 0)%Q; b_hops := {| c_rows := [[]; []; []; [(0, 0%Z); (1, 1%Z)]]; c_cols := 4 |} |}] |}.

Lemma ex_sound : sound 4 ex_structure.
Proof.
  repeat split; cbn; auto.
  - eexists; split; [reflexivity|reflexivity].
  - cbn in H. destruct H as [<-|[<-|[<-|[<-|[]]]]]; cbn in H0; intuition (subst; cbn; lia).
  - cbn in H. destruct H as [<-|[<-|[<-|[<-|[]]]]]; cbn in H0; intuition (subst; cbn; lia).
  - constructor; [|constructor]. repeat split; cbn in *.
    + destruct H as [<-|[<-|[<-|[<-|[]]]]]; cbn in H0; intuition (subst; cbn; lia).
    + destruct H as [<-|[<-|[<-|[<-|[]]]]]; cbn in H0; intuition (subst; cbn; lia).
Qed.

(** the bonds with the id 0 survive although scipy drops zeros *)
Example ex_mask : omap (fun t => (s_x (t_sites t), bonds (t_hops t), map (fun b => bonds (b_hops b)) (t_bounds t)))
    (structure_get true ex_structure (Mask [false; true; true; true]))
  = Ok ([1; 2; 3]%Q, [(0, 1, 1%Z); (0, 2, 0%Z); (1, 2, 0%Z)], [[(2, 0, 1%Z)]]).
Proof. reflexivity. Qed.
Example ex_ints : omap (fun t => (s_x (t_sites t), bonds (t_hops t))) (structure_get true ex_structure (Ints [-1; 1; 1])%Z)
  = Ok ([3; 1; 1]%Q, [(1, 0, 0%Z); (2, 0, 0%Z)]).
Proof. reflexivity. Qed.
Example ex_slice : omap (fun t => s_x (t_sites t)) (structure_get true ex_structure (Slice None None (-2)%Z)) = Ok [3; 1]%Q.
Proof. reflexivity. Qed.
Example ex_crop : omap (fun t => s_x (t_sites t)) (cropped true ex_structure [(AX, (1, 3)%Q); (AY, (0, 1)%Q)]) = Ok [1]%Q.
Proof. reflexivity. Qed.
Example ex_wrong_mask : structure_get true ex_structure (Mask [true]) = Throw.
Proof. reflexivity. Qed.
Example ex_nearest : structure_nearest ex_sites [2; 0]%Q (FName "B") = Ok 1.
Proof. reflexivity. Qed.
Example ex_absent : structure_nearest ex_sites [2; 0]%Q (FName "C") = Ok 0.
Proof. reflexivity. Qed.

Theorem C88_refuted : ~ C88_claim.
Proof.
  intro H. specialize (H 4 ex_structure [2; 0]%Q (FName "C") 0 ex_sound ex_absent).
  destruct H as [_ [W _]]. cbn in W. discriminate.
Qed.
