(* Property theorem C96: the picture of a periodic structure. *)
From Coq Require Import List ZArith Lia Bool PeanoNat.
From Verif Require Import Base Lattice LatticeSpec Foundation FoundationSpec SymmetrySpec PlotPeriodic PlotPeriodicProofs.
Import ListNotations.
Open Scope Z_scope.

(** With [num_periods] = [n], every cell within [n] steps of the structure is drawn once, and so is every
    bond between two such cells. *)
Definition C96_claim : Prop := forall u shifts n, 0 < u ->
  (forall c l, (1 <= l <= n)%nat -> steps shifts l c -> count_occ vec_dec (copies u shifts n) c = 1%nat) /\
  (forall c k l l', (k < length shifts)%nat -> (l <= n)%nat -> (l' <= n)%nat ->
     steps shifts l c -> steps shifts l' (add3 c (nth k shifts zero3)) -> (l <> 0 \/ l' <> 0)%nat -> times_drawn u shifts n c k = 1%nat).

(** Three boundaries, as for a triangular or honeycomb lattice. *)
Definition three : list vec := [I3 1 0 0; I3 0 1 0; I3 1 1 0].

Lemma three_separated : separated 1 three 3.
Proof. apply (separated_small 1 three 1); [lia | lia | | reflexivity]. intros v [<-|[<-|[<-|[]]]]; cbn; lia. Qed.

Lemma one_step : forall shifts c, c <> zero3 -> In c (shifts ++ map neg3 shifts) -> steps shifts 1 c.
Proof.
  intros shifts c N I. split; [exists [c]; repeat split; [intros y [<-|[]]; exact I | exact (add3_0 c)]|].
  intros l L R. assert (l = 0)%nat by lia. subst. apply reach_0 in R. contradiction.
Qed.

(** False: bonds between two cells of the outermost level are missing ... *)
Theorem C96_outer_refuted : ~ C96_claim.
Proof.
  intros H. destruct (H 1 three 1%nat eq_refl) as [_ B].
  specialize (B (I3 1 0 0) 1%nat 1%nat 1%nat ltac:(cbn; lia) ltac:(lia) ltac:(lia)).
  assert (E : times_drawn 1 three 1 (I3 1 0 0) 1 = 0%nat) by (vm_compute; reflexivity). rewrite E in B.
  discriminate B; [apply one_step; [discriminate | now left] | apply one_step; [discriminate | cbn; tauto] | lia].
Qed.
Print Assumptions C96_outer_refuted.

(** ... bonds between two cells of an inner level are drawn twice ... *)
Theorem C96_twice_refuted : ~ C96_claim.
Proof.
  intros H. destruct (H 1 three 2%nat eq_refl) as [_ B].
  specialize (B (I3 1 0 0) 1%nat 1%nat 1%nat ltac:(cbn; lia) ltac:(lia) ltac:(lia)).
  assert (E : times_drawn 1 three 2 (I3 1 0 0) 1 = 2%nat) by (vm_compute; reflexivity). rewrite E in B.
  discriminate B; [apply one_step; [discriminate | now left] | apply one_step; [discriminate | cbn; tauto] | lia].
Qed.
Print Assumptions C96_twice_refuted.

(** ... and if one period is a thousand times longer than another, the relative tolerance takes different cells
    for the same one. *)
Definition long_and_short : list vec := [I3 1 0 0; I3 2000 1 0].

Theorem C96_tolerance_refuted : ~ C96_claim.
Proof.
  intros H. destruct (H 1 long_and_short 2%nat eq_refl) as [B _].
  specialize (B (I3 2001 1 0) 2%nat ltac:(lia)).
  assert (E : count_occ vec_dec (copies 1 long_and_short 2) (I3 2001 1 0) = 0%nat) by (vm_compute; reflexivity). rewrite E in B.
  discriminate B. split.
  - exists [I3 1 0 0; I3 2000 1 0]. repeat split. intros y [<-|[<-|[]]]; cbn; tauto.
  - intros l L R. assert (l = 0 \/ l = 1)%nat as [-> | ->] by lia.
    + apply reach_0 in R. discriminate R.
    + destruct R as (w & Lw & I & E'). destruct w as [|a [|b w]]; try discriminate Lw.
      change (add3 a zero3 = I3 2001 1 0) in E'. rewrite add3_0 in E'. subst a. specialize (I _ (or_introl eq_refl)). cbn in I.
      repeat destruct I as [I|I]; try discriminate I. exact I.
Qed.
Print Assumptions C96_tolerance_refuted.

(** What holds if the tolerance confuses no two cells within [n + 1] steps: the copies are the cells from 1 to
    [n] steps away, each once; the bonds between two neighbouring cells, one of them fewer than [n] steps away,
    are all drawn, once if the cells are not equally far away and otherwise twice; no others are drawn. *)
Theorem C96_cells_partial : forall u shifts n, separated u shifts (S n) ->
  NoDup (copies u shifts n) /\
  (forall c, In c (copies u shifts n) <-> exists l, (1 <= l <= n)%nat /\ steps shifts l c) /\
  (forall c k m, (k < length shifts)%nat -> (m < n)%nat ->
     (steps shifts m c -> steps shifts m (add3 c (nth k shifts zero3)) -> times_drawn u shifts n c k = 2%nat) /\
     (steps shifts m c -> steps shifts (S m) (add3 c (nth k shifts zero3)) -> times_drawn u shifts n c k = 1%nat) /\
     (steps shifts (S m) c -> steps shifts m (add3 c (nth k shifts zero3)) -> times_drawn u shifts n c k = 1%nat)) /\
  (forall c k, (k < length shifts)%nat -> (forall m, (m < n)%nat -> ~ steps shifts m c /\ ~ steps shifts m (add3 c (nth k shifts zero3))) ->
     times_drawn u shifts n c k = 0%nat) /\
  (forall c k m, (k < length shifts)%nat -> steps shifts m c ->
     exists m', steps shifts m' (add3 c (nth k shifts zero3)) /\ (m' = m \/ m' = S m \/ m = S m')).
Proof.
  intros u shifts n H. destruct (copies_spec u shifts n (separated_le u shifts (S n) n ltac:(lia) H)) as [N I].
  split; [exact N|]. split; [exact I|]. split; [|split].
  - intros c k m K L. split; [|split]; intros A B.
    + exact (drawn_twice u shifts n H c k K m L A B).
    + exact (drawn_once u shifts n H c k K m L (or_introl (conj A B))).
    + exact (drawn_once u shifts n H c k K m L (or_intror (conj A B))).
  - intros c k K F. exact (drawn_never u shifts n H c k K F).
  - intros c k m K S. destruct (neighbours shifts k m c K S) as (m' & S' & L & L'). exists m'. split; [exact S' | lia].
Qed.
Print Assumptions C96_cells_partial.

(** When that is so: no coordinate within reach is as much as a thousand times the unit. *)
Theorem C96_tolerance : forall u shifts M n, 0 < u -> 0 <= M ->
  (forall v, In v shifts -> Z.abs (ix v) <= M /\ Z.abs (iy v) <= M /\ Z.abs (iz v) <= M) ->
  u + 100 * (M * Z.of_nat n) < 100000 -> separated u shifts n.
Proof. exact separated_small. Qed.
Print Assumptions C96_tolerance.

(** Every line of a call joins the row site in the cell [c + shift] with the column site in the cell [c]. *)
Theorem C96_lines : forall shifts l off s k pos hops,
  let c := column_cell shifts (l, off, s, k) in let t := nth k shifts zero3 in
  boundary_lines pos hops off s t = map (fun h => (add3 (pos (fst h)) (add3 c t), add3 (pos (snd h)) c)) hops.
Proof.
  intros shifts l off s k pos hops c t. unfold boundary_lines. apply map_ext. intros [p q]. unfold c, column_cell. fold t.
  cbn [fst snd]. generalize (pos p), (pos q), t. intros a b v. destruct s; f_equal; vec.
Qed.
Print Assumptions C96_lines.

(** The line is a bond: if the sites lie where the lattice vectors put them and [L] maps cell indices to
    positions, the stored hopping of term [t] to an image has the vector of that term, in every cell. *)
Definition on_lattice (a1 a2 a3 : vec) (i : idx3) : vec :=
  I3 (ix i * ix a1 + iy i * ix a2 + iz i * ix a3) (ix i * iy a1 + iy i * iy a2 + iz i * iy a3) (ix i * iz a1 + iy i * iz a2 + iz i * iz a3).

Theorem C96_bonds : forall P size (uc : list (usite P)) flags T t p q a1 a2 a3 (o : nat -> vec) (pos : nat -> vec),
  image_bond size uc flags T t (p, q) ->
  (forall i a, cell_of size i -> flagged size flags (i, a) = true -> (a < length uc)%nat ->
     pos (number flags (place size i a)) = add3 (on_lattice a1 a2 a3 i) (o a)) ->
  exists a b ua ub, nth_error uc a = Some ua /\ u_uid ua = t_from t /\ nth_error uc b = Some ub /\ u_uid ub = t_to t /\
    forall c, vsub (add3 (pos q) c) (add3 (pos p) (add3 c (on_lattice a1 a2 a3 T))) =
              add3 (on_lattice a1 a2 a3 (t_rel t)) (vsub (o b) (o a)).
Proof.
  intros P size uc flags T t p q a1 a2 a3 o pos (i & a & b & ua & ub & C1 & C2 & Ea & Ua & Eb & Ub & F1 & F2 & E) H.
  exists a, b, ua, ub. repeat (split; [assumption|]). intros c. injection E as -> ->.
  rewrite (H _ _ C1 F1), (H _ _ C2 F2) by (apply nth_error_Some; congruence).
  generalize (t_rel t) (o a) (o b). clear. intros r x y. unfold vsub, on_lattice, shifted_cell, add3, neg3. cbn. apply vec_eq; cbn; lia.
Qed.
Print Assumptions C96_bonds.

(** In a copy of the cell line [k] joins the two sites of hopping [k], both moved by the offset of the copy. *)
Definition moved_by (off a b : vec) : Prop := ix b = ix a + ix off /\ iy b = iy a + iy off /\ iz b = iz a + iz off.
Theorem C96_inner : forall pos hops off, length (inner_lines pos hops off) = length hops /\
  forall k i j, nth_error hops k = Some (i, j) ->
    exists p q, nth_error (inner_lines pos hops off) k = Some (p, q) /\ moved_by off (pos i) p /\ moved_by off (pos j) q.
Proof.
  intros pos hops off. unfold inner_lines. rewrite map_length. split; [reflexivity|]. intros k i j H. rewrite nth_error_map, H.
  eexists _, _. split; [reflexivity|]. unfold moved_by. cbn. repeat split.
Qed.
Print Assumptions C96_inner.
Example C96_inner_example : inner_lines (fun i => I3 (Z.of_nat i) 0 0) [(0, 1)]%nat (I3 0 5 0) = [(I3 0 5 0, I3 1 5 0)].
Proof. reflexivity. Qed.

(** In the picture of a lead copy [i] is drawn at [i] shifts and joined to the copy before it, copy 0 to the
    place of the contact. *)
Theorem C96_lead : forall pos hops shift n i, (i < n)%nat ->
  nth i (lead_offsets shift n) zero3 = times i shift /\
  lead_lines pos hops shift i = map (fun h => (add3 (pos (fst h)) (times i shift), add3 (pos (snd h)) (vsub (times i shift) shift))) hops.
Proof.
  intros pos hops shift n i L. split.
  - unfold lead_offsets. rewrite (nth_indep _ zero3 (times 0 shift)) by (rewrite map_length, seq_length; exact L).
    rewrite (map_nth (fun i => times i shift)), seq_nth by exact L. reflexivity.
  - unfold lead_lines, boundary_lines. apply map_ext. intros [p q]. cbn [fst snd]. generalize (pos p), (times i shift). intros a b. f_equal. vec.
Qed.
Print Assumptions C96_lead.

(** The labels of a hopping across a boundary stand in the middle of its two lines next to the structure. *)
Theorem C96_labels : forall pos shift p q,
  label_places pos shift (p, q) =
    map (fun line => add3 (fst line) (snd line))
      (boundary_lines pos [(p, q)] zero3 true shift ++ boundary_lines pos [(p, q)] zero3 false shift).
Proof. intros. unfold label_places, boundary_lines. cbn [map app fst snd]. rewrite !add3_0. generalize (pos p), (pos q). intros a b. f_equal; [|f_equal]; vec. Qed.
Print Assumptions C96_labels.

(** A square lattice with two periods: 4 cells at one step, 8 at two. *)
Example C96_example :
  let shifts := [I3 3 0 0; I3 0 2 0] in
  copies 1 shifts 1 = [I3 3 0 0; I3 0 2 0; I3 (-3) 0 0; I3 0 (-2) 0] /\
  length (copies 1 shifts 2) = 12%nat /\
  length (boundary_calls 1 shifts 1) = 4%nat /\ length (boundary_calls 1 shifts 2) = 16%nat /\
  length (copies 1 three 1) = 6%nat /\ length (copies 1 three 2) = 18%nat.
Proof. vm_compute. repeat split. Qed.
