(* C124: labels of the neighbouring cells in the picture of a lattice *)
From Verif Require Import Base LatticePlot.
From Coq Require Import Reals Lra Lia ZArith List Bool.
Local Open Scope R_scope.

(* ------------------------------------------------ specification *)
(** The cell on the other side *)
Definition reversed (r t : index) : Prop := (i_1 r = - i_1 t /\ i_2 r = - i_2 t /\ i_3 r = - i_3 t)%Z.
(** Cells with a bond to the home cell, other than this *)
Definition neighbour (terms : list index) (r : index) : Prop := r <> Index 0 0 0 /\ exists t, In t terms /\ (r = t \/ reversed r t).
(** An index of a lattice with [n] vectors *)
Definition flat (n : nat) (r : index) : Prop := forall k, (n <= k)%nat -> nth k (numbers r) 0%Z = 0%Z.
Definition mean (l : list R) : R := fold_right Rplus 0 l / INR (length l).
(** How far cell [r] is from the home cell *)
Definition shift (a : axis) (vectors : list point) (r : index) : R :=
  IZR (i_1 r) * coordinate a (nth 0 vectors origin) + IZR (i_2 r) * coordinate a (nth 1 vectors origin) + IZR (i_3 r) * coordinate a (nth 2 vectors origin).
(** The index as text, at the centre of the sites of the cell, moved out a little *)
Definition describes (h v : axis) (vectors positions : list point) (l : label) (r : index) : Prop :=
  l_text l = firstn (length vectors) (numbers r) /\
  l_xy l = (105 / 100 * (mean (map (coordinate h) positions) + shift h vectors r), 105 / 100 * (mean (map (coordinate v) positions) + shift v vectors r)).
(** A text of width [w] at [x] covers [p] *)
Definition covers (al : alignment) (x w p : R) : Prop :=
  match al with Low => x <= p <= x + w | High => x - w <= p <= x | Middle => x - w / 2 <= p <= x + w / 2 end.

(* ------------------------------------------------ lemmas *)
Lemma coordinate_plus : forall a p q, coordinate a (plus p q) = coordinate a p + coordinate a q.
Proof. intros [] p q; reflexivity. Qed.
Lemma coordinate_times : forall a x p, coordinate a (times x p) = x * coordinate a p.
Proof. intros [] x p; reflexivity. Qed.
Lemma coordinate_origin : forall a, coordinate a origin = 0.
Proof. intros []; reflexivity. Qed.
Lemma coordinate_sum : forall a l p, coordinate a (fold_left plus l p) = coordinate a p + fold_right Rplus 0 (map (coordinate a) l).
Proof. intros a l. induction l as [|q r IH]; intros p; cbn [fold_left map fold_right]; [lra|]. rewrite IH, coordinate_plus. lra. Qed.
Lemma center_mean : forall a positions, coordinate a (center positions) = mean (map (coordinate a) positions).
Proof. intros a ps. unfold center, mean. rewrite coordinate_times, coordinate_sum, coordinate_origin, map_length. unfold Rdiv. lra. Qed.
Lemma offset_shift : forall a vectors r, coordinate a (offset vectors r) = shift a vectors r.
Proof.
  intros a vectors r. unfold offset, numbers, shift. rewrite coordinate_sum, coordinate_origin.
  destruct vectors as [|v1 [|v2 [|v3 t]]]; cbn [combine map fold_right fst snd nth]; rewrite ?coordinate_times, ?coordinate_origin; lra.
Qed.
Lemma annotate_describes : forall h v vectors positions r, describes h v vectors positions (annotate h v vectors (center positions) r) r.
Proof.
  intros h v vectors ps r. split; [reflexivity|]. unfold annotate. cbn [l_xy]. rewrite !center_mean, !offset_shift. f_equal; lra.
Qed.
Lemma opposite_reversed : forall r t, r = opposite t <-> reversed r t.
Proof.
  intros [a b c] [x y z]. unfold opposite, reversed. cbn [i_1 i_2 i_3]. split; [intros E; injection E; auto|intros (-> & -> & ->); reflexivity].
Qed.
Lemma relative_in : forall terms r, In r (relative_indices terms) <-> (i_1 r <> 0 \/ i_2 r <> 0)%Z /\ exists t, In t terms /\ (r = t \/ reversed r t).
Proof.
  intros terms r. unfold relative_indices. rewrite in_flat_map. split.
  - intros (t & I & J). destruct (Z.eqb_spec (i_1 t) 0) as [A|A], (Z.eqb_spec (i_2 t) 0) as [B|B]; cbn [andb] in J; [destruct J| | |];
      (destruct J as [<-|[<-|[]]]; (split; [cbn; lia|exists t; split; [exact I|rewrite <- opposite_reversed; auto]])).
  - intros (N & t & I & J). rewrite <- opposite_reversed in J. exists t. split; [exact I|].
    assert (N' : (i_1 t <> 0 \/ i_2 t <> 0)%Z) by (destruct J as [->| ->]; cbn in N; lia).
    destruct (Z.eqb_spec (i_1 t) 0) as [A|A], (Z.eqb_spec (i_2 t) 0) as [B|B]; cbn [andb]; [lia| | |]; (destruct J as [->| ->]; cbn; auto).
Qed.

(* ------------------------------------------------ theorems *)
(** The labels are those of the neighbouring cells. *)
Definition C124_claim : Prop := forall h v vectors positions terms, (1 <= length vectors <= 3)%nat -> (forall t, In t terms -> flat (length vectors) t) ->
  (forall r, neighbour terms r -> exists l, In l (labels h v vectors positions terms) /\ describes h v vectors positions l r) /\
  (forall l, In l (labels h v vectors positions terms) -> exists r, neighbour terms r /\ describes h v vectors positions l r).

(** In up to two dimensions *)
Theorem C124_partial : forall h v vectors positions terms, (1 <= length vectors <= 2)%nat -> (forall t, In t terms -> flat (length vectors) t) ->
  (forall r, neighbour terms r -> exists l, In l (labels h v vectors positions terms) /\ describes h v vectors positions l r) /\
  (forall l, In l (labels h v vectors positions terms) -> exists r, neighbour terms r /\ describes h v vectors positions l r).
Proof.
  intros h v vectors ps terms L F. split.
  - intros r (N & t & I & J). exists (annotate h v vectors (center ps) r). split; [|apply annotate_describes]. apply in_map. apply relative_in.
    split; [|exists t; auto]. pose proof (F t I 2%nat ltac:(lia)) as Z3. cbn in Z3.
    destruct (Z.eq_dec (i_1 r) 0) as [A|A]; [|left; exact A]. destruct (Z.eq_dec (i_2 r) 0) as [B|B]; [|right; exact B]. exfalso. apply N.
    assert (C : i_3 r = 0%Z) by (destruct J as [->|(_ & _ & ->)]; lia). destruct r; cbn in *; congruence.
  - intros l I. apply in_map_iff in I. destruct I as (r & <- & I). exists r. split; [|apply annotate_describes]. apply relative_in in I.
    destruct I as [N E]. split; [|exact E]. intros ->. cbn in N. lia.
Qed.
(** In any number of dimensions: the cells that are not straight above or below *)
Theorem C124_all : forall h v vectors positions terms,
  (forall r, neighbour terms r -> (i_1 r <> 0 \/ i_2 r <> 0)%Z -> exists l, In l (labels h v vectors positions terms) /\ describes h v vectors positions l r) /\
  (forall l, In l (labels h v vectors positions terms) -> exists r, neighbour terms r /\ (i_1 r <> 0 \/ i_2 r <> 0)%Z /\ describes h v vectors positions l r).
Proof.
  intros h v vectors ps terms. split.
  - intros r (_ & E) N. exists (annotate h v vectors (center ps) r). split; [|apply annotate_describes]. apply in_map. apply relative_in. auto.
  - intros l I. apply in_map_iff in I. destruct I as (r & <- & I). exists r. apply relative_in in I. destruct I as [N E].
    split; [|split; [exact N|apply annotate_describes]]. split; [|exact E]. intros ->. cbn in N. lia.
Qed.
(** Different cells have different texts. *)
Theorem C124_distinct : forall n r s, (1 <= n <= 3)%nat -> flat n r -> flat n s -> firstn n (numbers r) = firstn n (numbers s) -> r = s.
Proof.
  intros n [a b c] [x y z] L F G E. unfold flat, numbers in *. cbn [i_1 i_2 i_3] in *.
  destruct n as [|[|[|[|n]]]]; try lia; cbn [firstn] in E; injection E; intros;
    try (pose proof (F 2%nat ltac:(lia)) as F2; pose proof (G 2%nat ltac:(lia)) as G2; cbn in F2, G2);
    try (pose proof (F 1%nat ltac:(lia)) as F1; pose proof (G 1%nat ltac:(lia)) as G1; cbn in F1, G1); congruence.
Qed.
(** The text goes away from the home cell. *)
Lemma align_away : forall x w o p, 0 <= w -> / 100000000 < Rabs o -> covers (align (- o)) x w p -> 0 <= (p - x) * o.
Proof.
  intros x w o p W O C. unfold align, is_zero in C. rewrite Rabs_Ropp in C. destruct (Rle_dec (Rabs o) _) as [A|_]; [lra|].
  destruct (Rlt_dec 0 (- o)) as [A|A]; cbn in C.
  - replace ((p - x) * o) with ((x - p) * (- o)) by ring. apply Rmult_le_pos; lra.
  - apply Rmult_le_pos; lra.
Qed.
Theorem C124_away : forall h v vectors positions terms l w, 0 <= w -> In l (labels h v vectors positions terms) ->
  exists r, neighbour terms r /\ describes h v vectors positions l r /\
    (/ 100000000 < Rabs (shift h vectors r) -> forall p, covers (l_ha l) (fst (l_xy l)) w p -> 0 <= (p - fst (l_xy l)) * shift h vectors r) /\
    (/ 100000000 < Rabs (shift v vectors r) -> forall p, covers (l_va l) (snd (l_xy l)) w p -> 0 <= (p - snd (l_xy l)) * shift v vectors r) /\
    (Rabs (shift h vectors r) <= / 100000000 -> l_ha l = Middle) /\ (Rabs (shift v vectors r) <= / 100000000 -> l_va l = Middle).
Proof.
  intros h v vectors ps terms l w W I. apply in_map_iff in I. destruct I as (r & <- & I). exists r. apply relative_in in I. destruct I as [N E].
  split; [split; [intros ->; cbn in N; lia|exact E]|]. split; [apply annotate_describes|]. unfold annotate. cbn [l_ha l_va l_xy fst snd]. rewrite !offset_shift.
  split; [intros O p; apply align_away; assumption|]. split; [intros O p; apply align_away; assumption|].
  assert (K : forall o, Rabs o <= / 100000000 -> align (- o) = Middle).
  { intros o O. unfold align, is_zero. rewrite Rabs_Ropp. destruct (Rle_dec _ _); [reflexivity|contradiction]. }
  split; apply K.
Qed.

(** A crystal of layers: the cells above and below have no label, even in a picture from the side. *)
Theorem C124_refuted : ~ C124_claim.
Proof.
  intros H. destruct (H AX AZ [Point 1 0 0; Point 0 1 0; Point 0 0 1] [origin] [Index 0 0 1]) as [A _]; [cbn; lia| |].
  - intros t _ k K. cbn in K. destruct k as [|[|[|k]]]; try lia. destruct k; reflexivity.
  - destruct (A (Index 0 0 1)) as (l & I & _); [split; [discriminate|exists (Index 0 0 1); split; [left; reflexivity|left; reflexivity]]|]. exact I.
Qed.

(** The square lattice *)
Example C124_example : map l_text (labels AX AY [Point 1 0 0; Point 0 1 0] [origin] [Index 0 0 0; Index 1 0 0; Index 0 1 0]) = [[1; 0]; [-1; 0]; [0; 1]; [0; -1]]%Z.
Proof. reflexivity. Qed.
