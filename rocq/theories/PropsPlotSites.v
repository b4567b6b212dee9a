(* C112: a plotted site has its own place, size and colour. *)
From Verif Require Import Base PlotSites.
From Coq Require Import QArith Lqa Permutation Sorted Lia.
Local Open Scope Z_scope.

(** ** Lists *)
Lemma aget_nth : forall {T} (l : list T) i d, (i < length l)%nat -> aget l i = Ok (nth i l d).
Proof. intros T l i d H. unfold aget. rewrite (nth_error_nth' l d H). reflexivity. Qed.
Lemma take_map : forall {T} (l : list T) d idx, (forall i, In i idx -> (i < length l)%nat) -> take l idx = Ok (map (fun i => nth i l d) idx).
Proof.
  intros T l d idx. induction idx as [|i r IH]; intros H; [reflexivity|]. cbn [take map]. rewrite (aget_nth l i d) by (apply H; left; reflexivity). cbn [obind].
  rewrite IH by (intros; apply H; right; assumption). reflexivity.
Qed.
Lemma draw_map : forall points values radii (c : nat -> circle),
  (forall j, (j < length points)%nat -> aget points j = Ok (c_at (c j)) /\ cyclic values j = Ok (c_value (c j)) /\ cyclic radii j = Ok (c_radius (c j))) ->
  draw points values radii = Ok (map c (seq 0 (length points))).
Proof.
  intros points values radii c H. unfold draw.
  assert (G : forall js, (forall j, In j js -> (j < length points)%nat) ->
    (fix go (js : list nat) : outcome (list circle) :=
       match js with [] => Ok [] | j :: js => obind (aget points j) (fun p => obind (cyclic values j) (fun v => obind (cyclic radii j) (fun r => omap (cons (Circle p v r)) (go js)))) end) js
    = Ok (map c js)).
  { induction js as [|j js IH]; intros Hj; [reflexivity|]. destruct (H j) as (A & B & C); [apply Hj; left; reflexivity|]. rewrite A, B, C. cbn [obind].
    rewrite IH by (intros; apply Hj; right; assumption). cbn. destruct (c j). reflexivity. }
  apply G. intros j Hj. apply in_seq in Hj. lia.
Qed.
Lemma cyclic_full : forall {T} (l : list T) j d, (j < length l)%nat -> cyclic l j = Ok (nth j l d).
Proof. intros T l j d H. unfold cyclic. rewrite Nat.mod_small by exact H. apply aget_nth. exact H. Qed.
Lemma nth_map_in : forall {S T} (f : S -> T) l j d e, (j < length l)%nat -> nth j (map f l) d = f (nth j l e).
Proof. intros S T f l. induction l as [|x l IH]; intros [|j] d e H; cbn in *; try lia; [reflexivity|]. apply IH. lia. Qed.
Lemma map_seq_nth : forall {S T} (f : S -> T) l e, map (fun j => f (nth j l e)) (seq 0 (length l)) = map f l.
Proof.
  intros S T f l e. induction l as [|x l IH]; [reflexivity|]. cbn [length seq map nth]. f_equal. rewrite <- seq_shift, map_map. exact IH.
Qed.
Lemma in_insert : forall v l x, In x (insert v l) <-> x = v \/ In x l.
Proof.
  intros v l. induction l as [|y l IH]; intros x; cbn [insert]; [cbn; intuition|]. destruct (v <? y); [cbn; intuition|]. destruct (Z.eqb_spec v y) as [->|]; [cbn; intuition|].
  cbn [In]. rewrite IH. intuition.
Qed.
Lemma in_unique : forall l x, In x (unique l) <-> In x l.
Proof. induction l as [|y l IH]; intros x; [reflexivity|]. cbn [unique fold_right]. rewrite in_insert. fold (unique l). rewrite IH. cbn. intuition. Qed.
Lemma insert_sorted : forall v l, StronglySorted Z.lt l -> StronglySorted Z.lt (insert v l).
Proof.
  intros v l. induction l as [|y l IH]; intros H; cbn [insert]; [repeat constructor|]. inversion H as [|a b H1 H2]; subst.
  destruct (Z.ltb_spec v y).
  - constructor; [exact H|]. constructor; [assumption|]. rewrite Forall_forall in *. intros x Hx. specialize (H2 x Hx). lia.
  - destruct (Z.eqb_spec v y); [exact H|]. constructor; [apply IH; assumption|]. rewrite Forall_forall in *. intros x Hx. apply in_insert in Hx. destruct Hx as [->|Hx]; [lia|auto].
Qed.
Lemma unique_sorted : forall l, StronglySorted Z.lt (unique l).
Proof. induction l as [|y l IH]; [constructor|]. apply insert_sorted. exact IH. Qed.
Lemma few_unique : forall l, (length (unique l) <= 1)%nat -> forall x y, In x l -> In y l -> x = y.
Proof.
  intros l H x y Hx Hy. apply in_unique in Hx, Hy. destruct (unique l) as [|a [|b r]]; cbn in *; [contradiction| |lia]. intuition congruence.
Qed.

(** ** What is meant *)
(** argsort: every index once, in the order of the elements; the order of equal elements is not fixed. *)
Definition argsort_ok (sort : list Z -> list nat) : Prop :=
  forall l, Permutation (sort l) (seq 0 (length l)) /\ StronglySorted (fun i j => nth i l 0 <= nth j l 0) (sort l).
(** One radius for all or one for each site. *)
Definition radius_fits (sites : list site) (r : radius) : Prop := match r with Same _ => True | Each rs => length rs = length sites end.
Definition radius_of (r : radius) (i : nat) : Q := match r with Same r => r | Each rs => nth i rs 0%Q end.
Definition site_at (sites : list site) (i : nat) : site := nth i sites (Site 0 0 0 0).
(** No site has a size. *)
Definition hidden (r : radius) : Prop := match r with Same q => (q == 0)%Q | Each rs => forall q, In q rs -> (q == 0)%Q end.
(** The circle of site [i] in flat axes. *)
Definition own (sites : list site) (r : radius) (offset : Z * Z * Z) (i : nat) : circle :=
  let s := site_at sites i in Circle (s_x s + fst (fst offset), s_y s + snd (fst offset)) (s_value s) (radius_of r i).
(** The circle of site [i] in 3D axes: projected position, an eighth of the radius. *)
Definition place (sites : list site) (offset : Z * Z * Z) (i : nat) : Z * Z * Z :=
  let s := site_at sites i in let '(a, b, c) := offset in (s_x s + a, s_y s + b, s_z s + c).
Definition own_3d (project : Z * Z * Z -> Z * Z * Z) (sites : list site) (r : radius) (offset : Z * Z * Z) (i : nat) : circle :=
  Circle (fst (project (place sites offset i))) (s_value (site_at sites i)) (radius_of r i / 8)%Q.
Definition depth (project : Z * Z * Z -> Z * Z * Z) (sites : list site) (offset : Z * Z * Z) (i : nat) : Z := snd (project (place sites offset i)).
(** Every site once. *)
Definition every_site (sites : list site) (order : list nat) : Prop := Permutation order (seq 0 (length sites)).

Lemma shifted_place : forall sites offset i, shifted offset (site_at sites i) = place sites offset i.
Proof. intros sites [[a b] c] i. reflexivity. Qed.
Lemma all_zero_iff : forall r, all_zero r = true <-> hidden r.
Proof.
  intros [q|rs]; cbn [all_zero hidden]; [apply Qeq_bool_iff|]. rewrite forallb_forall. split; intros H q Hq; [apply Qeq_bool_iff, H, Hq|apply Qeq_bool_iff, H, Hq].
Qed.
Lemma not_hidden : forall r, ~ hidden r -> all_zero r = false.
Proof. intros r H. destruct (all_zero r) eqn:E; [apply all_zero_iff in E; contradiction|reflexivity]. Qed.
Lemma every_in : forall sites order i, every_site sites order -> In i order -> (i < length sites)%nat.
Proof. intros sites order i P Hi. apply (Permutation_in _ P) in Hi. apply in_seq in Hi. lia. Qed.
Lemma every_length : forall sites order, every_site sites order -> length order = length sites.
Proof. intros sites order P. rewrite (Permutation_length P), seq_length. reflexivity. Qed.
Lemma seq_sorted : forall (P : nat -> nat -> Prop) n a, (forall i j, (a <= i < a + n)%nat -> (a <= j < a + n)%nat -> P i j) -> StronglySorted P (seq a n).
Proof.
  intros P n. induction n as [|n IH]; intros a H; [constructor|]. cbn [seq]. constructor.
  - apply IH. intros i j Hi Hj. apply H; lia.
  - rewrite Forall_forall. intros j Hj. apply in_seq in Hj. apply H; lia.
Qed.
Lemma sorted_app : forall (P : nat -> nat -> Prop) l a, StronglySorted P l -> (forall x, In x l -> P x a) -> StronglySorted P (l ++ [a]).
Proof.
  intros P l a H G. induction l as [|x l IH]; [repeat constructor|]. inversion H as [|u v H1 H2]; subst. cbn. constructor.
  - apply IH; [exact H1|]. intros y Hy. apply G. right. exact Hy.
  - apply Forall_app. split; [exact H2|]. constructor; [apply G; left; reflexivity|constructor].
Qed.
Lemma sorted_rev : forall (P : nat -> nat -> Prop) l, StronglySorted P l -> StronglySorted (fun i j => P j i) (rev l).
Proof.
  intros P l H. induction l as [|x l IH]; [constructor|]. inversion H as [|u v H1 H2]; subst. cbn [rev]. apply sorted_app; [apply IH; exact H1|].
  intros y Hy. apply in_rev in Hy. rewrite Forall_forall in H2. apply H2. exact Hy.
Qed.
Lemma sorted_ext : forall (P P' : nat -> nat -> Prop) l, (forall i j, In i l -> In j l -> P i j -> P' i j) -> StronglySorted P l -> StronglySorted P' l.
Proof.
  intros P P' l E H. induction l as [|x l IH]; [constructor|]. inversion H as [|u v H1 H2]; subst. constructor.
  - apply IH; [intros i j Hi Hj; apply E; right; assumption|exact H1].
  - rewrite Forall_forall in *. intros y Hy. apply E; [left; reflexivity|right; exact Hy|apply H2; exact Hy].
Qed.

(** ** Flat axes: every site is drawn once, with its own place, value and radius, from back to front *)
Theorem C112_flat : forall sort sites r offset, argsort_ok sort -> radius_fits sites r ->
  (hidden r /\ plot_sites sort sites r offset = Ok None) \/
  ~ hidden r /\ exists order, plot_sites sort sites r offset = Ok (Some (map (own sites r offset) order)) /\ every_site sites order /\
    StronglySorted (fun i j => s_z (site_at sites i) <= s_z (site_at sites j)) order.
Proof.
  intros sort sites r offset Hs Hr. unfold plot_sites. destruct (all_zero r) eqn:Z0; [left; split; [apply all_zero_iff, Z0|reflexivity]|]. right. split; [intros G; apply all_zero_iff in G; congruence|].
  assert (DR : forall order r', every_site sites order -> radius_fits sites r -> (match r with Same q => r' = Same q | Each rs => r' = Each (map (fun i => nth i rs 0%Q) order) end) ->
     draw (map (fun i => point offset (site_at sites i)) order) (map (fun i => s_value (site_at sites i)) order) (atleast_1d r') = Ok (map (own sites r offset) order)).
  { intros order r' P Hr' E. rewrite (draw_map _ _ _ (fun j => own sites r offset (nth j order 0%nat))).
    - rewrite map_length, map_seq_nth. reflexivity.
    - rewrite map_length. intros j Hj. cbn [own c_at c_value c_radius]. repeat split.
      + rewrite (aget_nth _ j (0, 0)) by (rewrite map_length; exact Hj). rewrite (nth_map_in _ order j _ 0%nat Hj). reflexivity.
      + rewrite (cyclic_full _ j 0) by (rewrite map_length; exact Hj). rewrite (nth_map_in _ order j _ 0%nat Hj). reflexivity.
      + destruct r as [q|rs]; subst r'; cbn [atleast_1d radius_of]; [unfold cyclic; cbn [length]; rewrite Nat.mod_1_r; reflexivity|].
        rewrite (cyclic_full _ j 0%Q) by (rewrite map_length; exact Hj). rewrite (nth_map_in _ order j _ 0%nat Hj). reflexivity. }
  destruct (Nat.ltb_spec 1 (length (unique (map s_z sites)))) as [Hu|Hu].
  - destruct (Hs (map s_z sites)) as (P & S). rewrite map_length in P. set (idx := sort (map s_z sites)) in *.
    assert (In_ : forall i, In i idx -> (i < length sites)%nat) by (intros i Hi; apply (every_in sites idx i P Hi)).
    exists idx. split; [|split; [exact P|]].
    + assert (ER : exists r', match r with Same _ => Ok r | Each rs => omap Each (take rs idx) end = Ok r' /\ (match r with Same q => r' = Same q | Each rs => r' = Each (map (fun i => nth i rs 0%Q) idx) end)).
      { destruct r as [q|rs]; [exists (Same q); auto|]. cbn in Hr. eexists. rewrite (take_map rs 0%Q) by (rewrite Hr; exact In_). split; reflexivity. }
      destruct ER as (r' & -> & E). cbn [obind].
      rewrite (take_map _ (0, 0)) by (rewrite map_length; exact In_). cbn [obind]. rewrite (take_map _ 0) by (rewrite map_length; exact In_). cbn [obind].
      rewrite (map_ext_in (fun i => nth i (map (point offset) sites) (0, 0)) (fun i => point offset (site_at sites i))) by (intros i Hi; apply nth_map_in; apply In_; exact Hi).
      rewrite (map_ext_in (fun i => nth i (map s_value sites) 0) (fun i => s_value (site_at sites i))) by (intros i Hi; apply nth_map_in; apply In_; exact Hi).
      rewrite (DR idx r' P Hr E). reflexivity.
    + refine (sorted_ext _ _ idx _ S). intros i j Hi Hj L. unfold site_at. rewrite !(nth_map_in s_z sites _ 0 (Site 0 0 0 0)) in L by (apply In_; assumption). exact L.
  - exists (seq 0 (length sites)). split; [|split; [apply Permutation_refl|]].
    + rewrite <- (map_seq_nth (point offset) sites (Site 0 0 0 0)), <- (map_seq_nth s_value sites (Site 0 0 0 0)).
      assert (E : match r with Same q => r = Same q | Each rs => r = Each (map (fun i => nth i rs 0%Q) (seq 0 (length sites))) end).
      { destruct r as [q|rs]; [reflexivity|]. cbn in Hr. f_equal. rewrite <- Hr. symmetry. rewrite (map_seq_nth (fun x => x) rs 0%Q). apply map_id. }
      pose proof (DR (seq 0 (length sites)) r (Permutation_refl _) Hr E) as D. unfold site_at in D. rewrite D. reflexivity.
    + apply seq_sorted. intros i j Hi Hj. apply Z.eq_le_incl. unfold site_at.
      apply (few_unique _ Hu); apply in_map, nth_In; lia.
Qed.
Print Assumptions C112_flat.

(** ** 3D axes *)
(** Meant: the same, from the farthest to the nearest site. *)
Definition C112_space_claim : Prop := forall sort project sites r offset, argsort_ok sort -> radius_fits sites r -> ~ hidden r ->
  exists order, plot_sites_3d sort project sites r offset = Ok (Some (map (own_3d project sites r offset) order)) /\ every_site sites order.
(** Place and value are right for every list of radii; the radii stay in the order of the sites. *)
Theorem C112_space_exact : forall sort project sites r offset, argsort_ok sort -> radius_fits sites r -> ~ hidden r ->
  exists order, every_site sites order /\ StronglySorted (fun i j => depth project sites offset j <= depth project sites offset i) order /\
    plot_sites_3d sort project sites r offset = Ok (Some (map (fun j => let i := nth j order 0%nat in
      Circle (c_at (own_3d project sites r offset i)) (c_value (own_3d project sites r offset i)) (radius_of r j / 8)%Q) (seq 0 (length sites)))).
Proof.
  intros sort project sites r offset Hs Hr Z0. unfold plot_sites_3d. rewrite (not_hidden r Z0).
  set (v := map (fun s => project (shifted offset s)) sites). destruct (Hs (map snd v)) as (P & S).
  assert (Lv : length v = length sites) by (unfold v; apply map_length). rewrite map_length, Lv in P. set (idx := rev (sort (map snd v))).
  assert (P' : every_site sites idx) by (unfold every_site, idx; eapply Permutation_trans; [apply Permutation_sym, Permutation_rev|exact P]).
  assert (In_ : forall i, In i idx -> (i < length sites)%nat) by (intros i Hi; apply (every_in sites idx i P' Hi)).
  exists idx. split; [exact P'|]. split.
  - unfold idx. refine (sorted_ext _ _ _ _ (sorted_rev _ _ S)). cbn beta. intros i j Hi Hj L. fold idx in Hi, Hj.
    unfold depth. rewrite !(nth_map_in snd v _ 0 (0, 0, 0)) in L by (rewrite Lv; apply In_; assumption). unfold v in L.
    rewrite !(nth_map_in (fun s => project (shifted offset s)) sites _ _ (Site 0 0 0 0)) in L by (apply In_; assumption). rewrite <- !shifted_place. exact L.
  - rewrite (take_map _ (0, 0)) by (rewrite map_length, Lv; exact In_). cbn [obind]. rewrite (take_map _ 0) by (rewrite map_length; exact In_). cbn [obind].
    pose proof (every_length sites idx P') as Li.
    rewrite (draw_map _ _ _ (fun j => let i := nth j idx 0%nat in Circle (c_at (own_3d project sites r offset i)) (c_value (own_3d project sites r offset i)) (radius_of r j / 8)%Q)).
    + rewrite map_length, Li. reflexivity.
    + rewrite map_length. intros j Hj. assert (Hi : (nth j idx 0%nat < length sites)%nat) by (apply In_, nth_In; exact Hj). cbn [c_at c_value c_radius own_3d]. repeat split.
      * rewrite (aget_nth _ j (0, 0)) by (rewrite map_length; exact Hj). rewrite (nth_map_in _ idx j _ 0%nat Hj). f_equal.
        rewrite (nth_map_in fst v _ _ (0, 0, 0)) by (rewrite Lv; exact Hi). unfold v. rewrite (nth_map_in _ sites _ _ (Site 0 0 0 0) Hi). rewrite <- shifted_place. reflexivity.
      * rewrite (cyclic_full _ j 0) by (rewrite map_length; exact Hj). rewrite (nth_map_in _ idx j _ 0%nat Hj). f_equal. apply nth_map_in. exact Hi.
      * destruct r as [q|rs]; cbn [scaled atleast_1d radius_of]; [unfold cyclic; cbn [length]; rewrite Nat.mod_1_r; reflexivity|].
        cbn in Hr. rewrite (cyclic_full _ j 0%Q) by (rewrite map_length, Hr, <- Li; exact Hj). f_equal. apply (nth_map_in (fun r => r / 8)%Q rs j 0%Q 0%Q). rewrite Hr, <- Li. exact Hj.
Qed.
Print Assumptions C112_space_exact.
(** With one radius for all sites the picture is right. *)
Theorem C112_space_partial : forall sort project sites q offset, argsort_ok sort -> ~ (q == 0)%Q ->
  exists order, plot_sites_3d sort project sites (Same q) offset = Ok (Some (map (own_3d project sites (Same q) offset) order)) /\ every_site sites order /\
    StronglySorted (fun i j => depth project sites offset j <= depth project sites offset i) order.
Proof.
  intros sort project sites q offset Hs Hq. destruct (C112_space_exact sort project sites (Same q) offset Hs I Hq) as (order & P & S & E).
  exists order. split; [|auto]. rewrite E. do 2 f_equal. rewrite <- (map_seq_nth (own_3d project sites (Same q) offset) order 0%nat), (every_length sites order P). reflexivity.
Qed.
Print Assumptions C112_space_partial.

(** A sorting function. *)
Fixpoint ins (key : nat -> Z) (i : nat) (l : list nat) : list nat := match l with [] => [i] | j :: r => if key i <=? key j then i :: l else j :: ins key i r end.
Definition insertion_sort (l : list Z) : list nat := fold_right (ins (fun i => nth i l 0)) [] (seq 0 (length l)).
Lemma ins_perm : forall key i l, Permutation (ins key i l) (i :: l).
Proof. intros key i l. induction l as [|j l IH]; cbn [ins]; [reflexivity|]. destruct (key i <=? key j); [reflexivity|]. eapply perm_trans; [apply perm_skip, IH|apply perm_swap]. Qed.
Lemma ins_sorted : forall key i l, StronglySorted (fun i j => key i <= key j) l -> StronglySorted (fun i j => key i <= key j) (ins key i l).
Proof.
  intros key i l. induction l as [|j l IH]; intros H; cbn [ins]; [repeat constructor|]. inversion H as [|a b H1 H2]; subst. destruct (Z.leb_spec (key i) (key j)).
  - constructor; [exact H|]. constructor; [assumption|]. rewrite Forall_forall in *. intros x Hx. specialize (H2 x Hx). cbn in H2. lia.
  - constructor; [apply IH; exact H1|]. rewrite Forall_forall in *. intros x Hx. apply (Permutation_in _ (ins_perm key i l)) in Hx. destruct Hx as [<-|Hx]; [lia|auto].
Qed.
Lemma insertion_sort_ok : argsort_ok insertion_sort.
Proof.
  intros l. unfold insertion_sort. set (key := fun i => nth i l 0). split.
  - induction (seq 0 (length l)) as [|i r IH]; [reflexivity|]. cbn [fold_right]. eapply perm_trans; [apply ins_perm|]. apply perm_skip. exact IH.
  - induction (seq 0 (length l)) as [|i r IH]; [constructor|]. cbn [fold_right]. apply ins_sorted. exact IH.
Qed.
Definition straight (p : Z * Z * Z) : Z * Z * Z := p.
(** Two sites, the one of radius 8 at the back: it is drawn with radius 16/8, the other one with 8/8. *)
Example C112_space_example :
  plot_sites_3d insertion_sort straight [Site 0 0 0 5; Site 1 0 1 6] (Each [16; 8]%Q) (0, 0, 0) = Ok (Some [Circle (1, 0) 6 (16 / 8)%Q; Circle (0, 0) 5 (8 / 8)%Q]).
Proof. reflexivity. Qed.
Theorem C112_space_refuted : ~ C112_space_claim.
Proof.
  intros H. destruct (H insertion_sort straight [Site 0 0 0 5; Site 1 0 1 6] (Each [16; 8]%Q) (0, 0, 0) insertion_sort_ok eq_refl (fun H => ltac:(specialize (H 8%Q (or_intror (or_introl eq_refl))); discriminate H))) as (order & E & P).
  rewrite C112_space_example in E. unfold every_site in P. cbn [length seq] in P. apply Permutation_sym in P. apply Permutation_length_2_inv in P. destruct P as [->| ->]; discriminate E.
Qed.
Print Assumptions C112_space_refuted.
Example C112_flat_example :
  plot_sites insertion_sort [Site 0 0 3 5; Site 1 0 1 6; Site 2 0 2 7] (Each [8; 4; 2]%Q) (10, 0, 0)
  = Ok (Some [Circle (11, 0) 6 4%Q; Circle (12, 0) 7 2%Q; Circle (10, 0) 5 8%Q]).
Proof. reflexivity. Qed.

(** ** Colours *)
Definition distinct_below (l : list Z) (v : Z) : nat := length (filter (fun x => x <? v) (unique l)).
(** The colour with the given number, the last one if there are not so many. *)
Definition nth_colour {C} (colors : list C) (n : nat) : outcome C := aget colors (Nat.min n (length colors - 1)).
Lemma listed_nth : forall {C} (colors : list C) n, colors <> [] -> listed colors (Z.of_nat n) = nth_colour colors n.
Proof.
  intros C colors n H. unfold listed, nth_colour. destruct (Z.ltb_spec (Z.of_nat n) 0); [lia|].
  assert (length colors <> 0)%nat by (destruct colors; [congruence|cbn; lia]).
  destruct (Z.leb_spec (Z.of_nat (length colors)) (Z.of_nat n)).
  - f_equal. lia.
  - rewrite Nat2Z.id. f_equal. lia.
Qed.
Lemma zmax_spec : forall l x, In x l -> exists m, zmax l = Some m /\ x <= m.
Proof.
  intros [|y l] x H; [contradiction|]. cbn [zmax]. exists (fold_left Z.max l y). split; [reflexivity|].
  assert (G : forall l a b, (b <= a \/ In b l) -> b <= fold_left Z.max l a).
  { clear. induction l as [|z l IH]; intros a b [Hb|Hb]; cbn [fold_left]; [exact Hb|contradiction| |].
    - apply IH. left. lia.
    - destruct Hb as [->|Hb]; apply IH; [left; lia|right; exact Hb]. }
  apply G. destruct H as [->|H]; [left; lia|right; exact H].
Qed.
Lemma filter_seq : forall n v, 0 <= v < Z.of_nat n -> length (filter (fun b => b <=? v) (map Z.of_nat (seq 0 n))) = S (Z.to_nat v).
Proof.
  intros n. induction n as [|n IH]; intros v Hv; [lia|]. rewrite seq_S, map_app, filter_app, app_length. cbn [plus map filter].
  destruct (Z.leb_spec (Z.of_nat n) v).
  - assert (v = Z.of_nat n) as -> by lia. cbn [length]. rewrite Nat2Z.id.
    assert (G : forall m, (m <= n)%nat -> length (filter (fun b => b <=? Z.of_nat n) (map Z.of_nat (seq 0 m))) = m).
    { clear. induction m as [|m IHm]; intros Hm; [reflexivity|]. rewrite seq_S, map_app, filter_app, app_length, IHm by lia. cbn [plus map filter].
      destruct (Z.leb_spec (Z.of_nat m) (Z.of_nat n)); [cbn; lia|lia]. }
    rewrite G by lia. lia.
  - cbn [length]. rewrite IH by lia. lia.
Qed.
(** Whole numbers from a signed array: value v has colour number v. *)
Theorem C112_colour_signed : forall {C} data (colors : list C) v, In v data -> 0 <= v -> colors <> [] ->
  colour Signed data colors v = nth_colour colors (Z.to_nat v).
Proof.
  intros C data colors v Hv H0 Hc. destruct (zmax_spec data v Hv) as (m & E & L). unfold colour, boundaries. rewrite E. cbn [option_map].
  assert (Hm : exists k, Z.to_nat (m + 1) = S k) by (exists (Z.to_nat m); lia). destruct Hm as (k & Hk). rewrite Hk. cbn [seq map].
  change (listed colors (region (map Z.of_nat (seq 0 (S k))) v) = nth_colour colors (Z.to_nat v)).
  unfold region. rewrite filter_seq by lia. replace (Z.of_nat (S (Z.to_nat v)) - 1) with (Z.of_nat (Z.to_nat v)) by lia. apply listed_nth. exact Hc.
Qed.
Print Assumptions C112_colour_signed.
(** Negative ones have the first colour. *)
Theorem C112_colour_negative : forall {C} data (colors : list C) v w, In w data -> 0 <= w -> v < 0 -> colour Signed data colors v = aget colors 0.
Proof.
  intros C data colors v w Hw H0 Hv. destruct (zmax_spec data w Hw) as (m & E & L). unfold colour, boundaries. rewrite E. cbn [option_map].
  assert (Hm : exists k, Z.to_nat (m + 1) = S k) by (exists (Z.to_nat m); lia). destruct Hm as (k & Hk). rewrite Hk. cbn [seq map].
  change (listed colors (region (map Z.of_nat (seq 0 (S k))) v) = aget colors 0). unfold region, listed.
  assert (N : filter (fun b => b <=? v) (map Z.of_nat (seq 0 (S k))) = []).
  { clear -Hv. generalize (seq 0 (S k)) as l. induction l as [|x l IH]; [reflexivity|]. cbn [map filter]. destruct (Z.leb_spec (Z.of_nat x) v); [lia|exact IH]. }
  rewrite N. reflexivity.
Qed.
Print Assumptions C112_colour_negative.
(** Other numbers: the colour is that of the rank among the different values. *)
Lemma no_filter : forall (p : Z -> bool) l, (forall y, In y l -> p y = false) -> filter p l = [].
Proof. intros p l. induction l as [|y l IH]; intros H; [reflexivity|]. cbn [filter]. rewrite H by (left; reflexivity). apply IH. intros; apply H; right; assumption. Qed.
Lemma rank_count : forall v l, StronglySorted Z.lt l -> In v l -> length (filter (fun b => b <=? v) l) = S (length (filter (fun b => b <? v) l)).
Proof.
  intros v l. induction l as [|x l IH]; intros S Hu; [contradiction|]. inversion S as [|a b H1 H2]; subst. rewrite Forall_forall in H2. cbn [filter].
  destruct (Z.leb_spec x v), (Z.ltb_spec x v); try lia.
  - cbn [length]. destruct Hu as [->|Hu]; [lia|]. rewrite IH by assumption. reflexivity.
  - rewrite !no_filter; [reflexivity| |]; intros y Hy; specialize (H2 y Hy); [apply Z.ltb_ge|apply Z.leb_gt]; lia.
  - destruct Hu as [->|Hu]; [lia|]. specialize (H2 v Hu). lia.
Qed.
Theorem C112_colour_rank : forall {C} data (colors : list C) v, In v data -> colors <> [] ->
  colour OtherKind data colors v = nth_colour colors (distinct_below data v).
Proof.
  intros C data colors v Hv Hc. unfold colour, boundaries. assert (Hu : In v (unique data)) by (apply in_unique; exact Hv).
  assert (R : region (unique data) v = Z.of_nat (distinct_below data v)).
  { unfold region, distinct_below. rewrite (rank_count v _ (unique_sorted data) Hu). lia. }
  rewrite <- (listed_nth colors (distinct_below data v) Hc), <- R. destruct (unique data) as [|x l]; [contradiction|]. reflexivity.
Qed.
Print Assumptions C112_colour_rank.
(** Meant: with enough colours different values have different colours. *)
Definition C112_colour_claim : Prop := forall C k data (colors : list C) u v, NoDup colors -> (length (unique data) <= length colors)%nat -> In u data -> In v data ->
  u <> v -> colour k data colors u <> colour k data colors v.
Lemma nth_colour_inj : forall {C} (colors : list C) i j, NoDup colors -> (i < length colors)%nat -> (j < length colors)%nat -> nth_colour colors i = nth_colour colors j -> i = j.
Proof.
  intros C colors i j N Hi Hj E. unfold nth_colour in E. rewrite !Nat.min_l in E by lia. destruct colors as [|c l]; [cbn in Hi; lia|].
  rewrite (aget_nth _ i c Hi), (aget_nth _ j c Hj) in E. injection E as E. exact (proj1 (NoDup_nth (c :: l) c) N i j Hi Hj E).
Qed.
Lemma sorted_below : forall u v l, StronglySorted Z.lt l -> In u l -> u < v ->
  (length (filter (fun b => (b <? u)%Z) l) < length (filter (fun b => (b <? v)%Z) l))%nat.
Proof.
  intros u v l. induction l as [|x l IH]; intros S Hu L; [contradiction|]. inversion S as [|a b H1 H2]; subst. rewrite Forall_forall in H2. cbn [filter].
  destruct Hu as [->|Hu].
  - rewrite Z.ltb_irrefl. destruct (Z.ltb_spec u v); [|lia]. rewrite no_filter by (intros y Hy; specialize (H2 y Hy); apply Z.ltb_ge; lia). cbn. lia.
  - specialize (H2 u Hu). specialize (IH H1 Hu L). destruct (Z.ltb_spec x u), (Z.ltb_spec x v); try lia. cbn [length]. lia.
Qed.
Lemma below_length : forall data v, In v data -> (distinct_below data v < length (unique data))%nat.
Proof.
  intros data v Hv. unfold distinct_below. apply in_unique in Hv. pose proof (rank_count v _ (unique_sorted data) Hv) as R.
  assert (F : forall (p : Z -> bool) l, (length (filter p l) <= length l)%nat) by (intros p l; induction l as [|x l IH]; [cbn; lia|cbn; destruct (p x); cbn; lia]).
  specialize (F (fun b => b <=? v) (unique data)). lia.
Qed.
(** True of data which are not whole signed numbers, and of whole numbers from zero up to the number of colours. *)
Theorem C112_colour_partial : forall {C} k data (colors : list C) u v, NoDup colors -> In u data -> In v data -> u <> v ->
  match k with Signed => 0 <= u < Z.of_nat (length colors) /\ 0 <= v < Z.of_nat (length colors) | OtherKind => (length (unique data) <= length colors)%nat end ->
  colour k data colors u <> colour k data colors v.
Proof.
  intros C k data colors u v N Hu Hv D G. destruct k.
  - assert (colors <> []) by (intros ->; cbn in G; lia). rewrite !C112_colour_signed by (assumption || lia). intros E. apply nth_colour_inj in E; [lia|exact N|lia|lia].
  - pose proof (below_length data u Hu). pose proof (below_length data v Hv). assert (colors <> []) by (intros ->; cbn in G; lia). rewrite !C112_colour_rank by assumption.
    intros E. apply nth_colour_inj in E; [|exact N|lia|lia]. unfold distinct_below in *. pose proof (unique_sorted data) as S. apply in_unique in Hu, Hv.
    destruct (Z.lt_total u v) as [L|[L|L]]; [pose proof (sorted_below u v _ S Hu L); lia|contradiction|pose proof (sorted_below v u _ S Hv L); lia].
Qed.
Print Assumptions C112_colour_partial.
(** Only sublattices 2 and 3 are left and there are two colours: both kinds of site are drawn in the second one. *)
Example C112_colour_example : colour Signed [2; 3] [10; 20] 2 = Ok 20 /\ colour Signed [2; 3] [10; 20] 3 = Ok 20 /\
  colour OtherKind [2; 3] [10; 20] 2 = Ok 10 /\ colour OtherKind [2; 3] [10; 20] 3 = Ok 20 /\ colour Signed [0; 1] [10; 20] 1 = Ok 20.
Proof. repeat split. Qed.
Theorem C112_colour_refuted : ~ C112_colour_claim.
Proof.
  intros H. apply (H Z Signed [2; 3] [10; 20] 2 3).
  - repeat constructor; cbn; intuition lia.
  - cbn. lia.
  - left. reflexivity.
  - right. left. reflexivity.
  - lia.
  - reflexivity.
Qed.
Print Assumptions C112_colour_refuted.

(** ** Rotated axes *)
Definition other (a b : axis) : axis := match a, b with AX, AY | AY, AX => AZ | AX, AZ | AZ, AX => AY | AY, AZ | AZ, AY => AX | a, _ => a end.
(** Two or three different letters choose the axes, whatever order a set has; a letter used twice is an error. *)
Theorem C112_rotate : forall {T} (order : list axis -> list axis) (position : axis -> T), (forall l, Permutation (order l) l) ->
  (forall a b, a <> b -> rotate_axes order position [a; b] = Ok [position a; position b; position (other a b)]) /\
  (forall a b c, NoDup [a; b; c] -> rotate_axes order position [a; b; c] = Ok [position a; position b; position c]) /\
  (forall axes, ~ NoDup axes -> rotate_axes order position axes = Throw).
Proof.
  intros T order position H.
  assert (H1 : forall a, order [a] = [a]) by (intros a; apply Permutation_length_1_inv, Permutation_sym, H).
  assert (H0 : order [] = []) by (apply Permutation_nil, Permutation_sym, H).
  split; [|split].
  - intros [] [] D; try congruence; unfold rotate_axes; cbn; rewrite H1; reflexivity.
  - intros a b c N. assert (D : a <> b /\ a <> c /\ b <> c) by (inversion N as [|? ? X Y]; inversion Y as [|? ? X' Y']; subst; cbn in *; intuition congruence).
    destruct a, b, c; try (exfalso; intuition congruence); unfold rotate_axes; cbn; rewrite H0; reflexivity.
  - intros axes D. unfold rotate_axes. rewrite app_length, (Permutation_length (H (missing axes))). destruct (Nat.eqb_spec (length axes + length (missing axes)) 3) as [E|E]; [|reflexivity]. exfalso. apply D.
    assert (N : NoDup (axes ++ missing axes)).
    { apply (@NoDup_incl_NoDup axis [AX; AY; AZ]).
      - repeat constructor; cbn; intuition discriminate.
      - rewrite app_length, E. cbn. lia.
      - intros a _. apply in_or_app. destruct (existsb (axis_eqb a) axes) eqn:X.
        + left. apply existsb_exists in X. destruct X as (b & Hb & Eb). destruct a, b; try discriminate Eb; exact Hb.
        + right. unfold missing. apply filter_In. split; [destruct a; cbn; auto|]. rewrite X. reflexivity. }
    clear -N. revert N. generalize (missing axes) as m. intros m N. induction axes as [|a axes IH]; [constructor|]. cbn in N. inversion N as [|? ? X Y]; subst. constructor.
    + intros Ha. apply X, in_or_app. left. exact Ha.
    + exact (IH Y).
Qed.
Print Assumptions C112_rotate.
Example C112_rotate_example : rotate_axes (fun l => l) (fun a => match a with AX => 1 | AY => 2 | AZ => 3 end) [AZ; AX] = Ok [3; 1; 2].
Proof. reflexivity. Qed.

(** ** Radii from data *)
(** The smallest value has radius r0, the largest r1, those between are in proportion. *)
Definition spans (r0 r1 : Q) (data : list Z) (radius_at : nat -> Q) : Prop := forall i j, (i < length data)%nat -> (j < length data)%nat ->
  ((forall x, In x data -> nth i data 0 <= x) -> (radius_at i == r0)%Q) /\ ((forall x, In x data -> x <= nth i data 0) -> (radius_at i == r1)%Q) /\
  ((r0 <= r1)%Q -> (r0 <= radius_at i <= r1)%Q) /\ ((r0 <= r1)%Q -> nth i data 0 <= nth j data 0 -> (radius_at i <= radius_at j)%Q).
Lemma zmax_in : forall l m, zmax l = Some m -> In m l.
Proof.
  intros [|x l] m E; [discriminate|]. cbn [zmax] in E. injection E as <-. revert x. induction l as [|y l IH]; intros x; [left; reflexivity|]. cbn [fold_left].
  destruct (IH (Z.max x y)) as [E|E]; [|right; right; exact E]. rewrite <- E. destruct (Z.max_spec x y) as [(_ & ->)|(_ & ->)]; [right; left|left]; reflexivity.
Qed.
Lemma zmin_spec : forall l x, In x l -> exists m, zmin l = Some m /\ In m l /\ forall y, In y l -> m <= y.
Proof.
  intros [|x0 l] x H; [contradiction|]. cbn [zmin]. exists (fold_left Z.min l x0). split; [reflexivity|]. clear x H. revert x0. induction l as [|y l IH]; intros x0; cbn [fold_left].
  - split; [left; reflexivity|]. intros y [->|[]]. lia.
  - destruct (IH (Z.min x0 y)) as (A & B). split.
    + destruct A as [A|A]; [|right; right; exact A]. rewrite <- A. destruct (Z.min_spec x0 y) as [(_ & ->)|(_ & ->)]; [left|right; left]; reflexivity.
    + pose proof (B (Z.min x0 y) (or_introl eq_refl)). intros z [->|[->|Hz]]; [lia|lia|]. apply B. right. exact Hz.
Qed.
(** Meant: this holds unless all data are equal. *)
Definition C112_radii_claim : Prop := forall limit r0 r1 data, 0 <= limit -> (exists x y, In x data /\ In y data /\ x < y) ->
  exists rs, to_radii limit r0 r1 data = Ok (Each rs) /\ length rs = length data /\ spans r0 r1 data (fun i => nth i rs 0%Q).
Theorem C112_radii_partial : forall limit r0 r1 data, 0 <= limit -> (exists x y, In x data /\ In y data /\ limit < y - x) -> exists rs, to_radii limit r0 r1 data = Ok (Each rs) /\ length rs = length data /\ spans r0 r1 data (fun i => nth i rs 0%Q).
Proof.
  intros limit r0 r1 data Hl (x & y & Hx & Hy & L). unfold to_radii. destruct (zmin_spec data x Hx) as (m & -> & Im & Hm). set (pos := map (fun d => d - m) data).
  assert (Hp : In (y - m) pos) by (unfold pos; apply (in_map (fun d => d - m)); exact Hy).
  destruct (zmax_spec pos _ Hp) as (top & E & Lt). rewrite E. pose proof (Hm x Hx) as Hmx. destruct (Z.leb_spec top limit) as [Z0|Z0]; [lia|].
  assert (T0 : 0 < top) by lia. apply zmax_in in E as It. unfold pos in It. apply in_map_iff in It. destruct It as (d & Ed & Id).
  assert (Up : forall z, In z data -> z - m <= top). { intros z Hz. destruct (zmax_spec pos (z - m)) as (t & Et & Ht); [unfold pos; apply (in_map (fun d => d - m)); exact Hz|]. congruence. }
  eexists. split; [reflexivity|]. split; [rewrite map_length; unfold pos; apply map_length|].
  assert (T : (0 < inject_Z top)%Q) by (change 0%Q with (inject_Z 0); rewrite <- Zlt_Qlt; exact T0).
  assert (R : forall i, (i < length data)%nat -> nth i (map (fun p => r0 + (r1 - r0) * inject_Z p / inject_Z top)%Q pos) 0%Q = (r0 + (r1 - r0) * inject_Z (nth i data 0 - m)%Z / inject_Z top)%Q).
  { intros i Hi. rewrite (nth_map_in _ pos i 0%Q 0) by (unfold pos; rewrite map_length; exact Hi). unfold pos. rewrite (nth_map_in _ data i 0 0 Hi). reflexivity. }
  intros i j Hi Hj. rewrite !R by assumption. assert (Ii : In (nth i data 0) data) by (apply nth_In; exact Hi). assert (Ij : In (nth j data 0) data) by (apply nth_In; exact Hj).
  set (u := nth i data 0) in *. set (v := nth j data 0) in *.
  assert (B : forall z, In z data -> (0 <= inject_Z (z - m) / inject_Z top <= 1)%Q).
  { intros z Hz. split; [apply Qle_shift_div_l|apply Qle_shift_div_r]; try exact T.
    - rewrite Qmult_0_l. change 0%Q with (inject_Z 0). rewrite <- Zle_Qle. specialize (Hm z Hz). lia.
    - rewrite Qmult_1_l, <- Zle_Qle. apply Up. exact Hz. }
  assert (A : forall z, ((r1 - r0) * inject_Z z / inject_Z top == (r1 - r0) * (inject_Z z / inject_Z top))%Q) by (intros z; unfold Qdiv; ring).
  repeat split.
  - intros H. assert (u = m) as -> by (pose proof (H m Im); pose proof (Hm u Ii); lia). rewrite Z.sub_diag, A. change (inject_Z 0) with 0%Q. unfold Qdiv. ring.
  - intros H. assert (u - m = top) as -> by (pose proof (H d Id); pose proof (Up u Ii); lia). field. intros X. rewrite X in T. discriminate T.
  - pose proof (B u Ii). rewrite A. nra.
  - pose proof (B u Ii). rewrite A. nra.
  - intros Hr Huv. rewrite !A. assert (inject_Z (u - m) / inject_Z top <= inject_Z (v - m) / inject_Z top)%Q.
    { unfold Qdiv. apply Qmult_le_compat_r; [|apply Qlt_le_weak, Qinv_lt_0_compat; exact T]. rewrite <- Zle_Qle. lia. }
    nra.
Qed.
Print Assumptions C112_radii_partial.
(** Data within the limit: the larger radius for all sites. *)
Theorem C112_radii_constant : forall limit r0 r1 data, data <> [] -> (forall x y, In x data -> In y data -> y - x <= limit) -> to_radii limit r0 r1 data = Ok (Same r1).
Proof.
  intros limit r0 r1 data N H. destruct data as [|x data]; [contradiction|]. unfold to_radii. destruct (zmin_spec (x :: data) x (or_introl eq_refl)) as (m & -> & Im & _).
  destruct (zmax (map (fun d => d - m) (x :: data))) as [top|] eqn:E; [|discriminate E]. apply zmax_in, in_map_iff in E. destruct E as (d & <- & Id).
  destruct (Z.leb_spec (d - m) limit) as [L|L]; [reflexivity|]. specialize (H m d Im Id). lia.
Qed.
Print Assumptions C112_radii_constant.
(** Densities of 1e-10, 3e-10 and 2e-10 are all drawn with the larger radius. *)
Theorem C112_radii_refuted : ~ C112_radii_claim.
Proof.
  intros H. destruct (H 100 1%Q 3%Q [1; 3; 2] ltac:(lia)) as (rs & E & _); [exists 1, 3; cbn; lia|]. discriminate E.
Qed.
Print Assumptions C112_radii_refuted.
Example C112_radii_example : exists rs, to_radii 1 1 3 [5; 7; 6] = Ok (Each rs) /\ Forall2 Qeq rs [1; 3; 2]%Q.
Proof. eexists. split; [reflexivity|]. repeat constructor. Qed.
