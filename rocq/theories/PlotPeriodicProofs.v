(* Proofs about the picture of a periodic structure (PlotPeriodic.v). *)
From Coq Require Import List ZArith Lia Bool PeanoNat Permutation.
From Verif Require Import Base Foundation PopulateFacts PlotPeriodic.
Import ListNotations.
Open Scope Z_scope.

Lemma vec_eq : forall a b : vec, ix a = ix b -> iy a = iy b -> iz a = iz b -> a = b.
Proof. intros [? ? ?] [? ? ?]; cbn; intros; subst; reflexivity. Qed.

Ltac vec := repeat match goal with v : vec |- _ => destruct v | v : idx3 |- _ => destruct v end;
  unfold vsub, add3, neg3, zero3 in *; cbn in *; try apply vec_eq; cbn; try lia.

Lemma add3_comm : forall a b, add3 a b = add3 b a. Proof. intros. vec. Qed.
Lemma add3_assoc : forall a b c, add3 a (add3 b c) = add3 (add3 a b) c. Proof. intros. vec. Qed.
Lemma add3_0 : forall a, add3 a zero3 = a. Proof. intros. vec. Qed.

Lemma vec_dec : forall a b : vec, {a = b} + {a <> b}.
Proof. decide equality; apply Z.eq_dec. Defined.

Lemma vsum_perm : forall l l', Permutation l l' -> vsum l = vsum l'.
Proof.
  unfold vsum. induction 1 as [|x l l' _ IH|x y l|l l' l'' _ IH _ IH']; cbn [fold_right].
  - reflexivity.
  - now rewrite IH.
  - rewrite !add3_assoc, (add3_comm y x). reflexivity.
  - congruence.
Qed.

(** The specification: a cell is [l] steps away if [l] boundary shifts (or opposite shifts) lead to it and no
    fewer do. *)
Definition reach (shifts : list vec) (l : nat) (c : vec) : Prop :=
  exists w, length w = l /\ incl w (shifts ++ map neg3 shifts) /\ vsum w = c.
Definition steps (shifts : list vec) (l : nat) (c : vec) : Prop :=
  reach shifts l c /\ forall l', (l' < l)%nat -> ~ reach shifts l' c.

(** The tolerance of the comparison does not confuse two cells within [n] steps. *)
Definition separated (u : Z) (shifts : list vec) (n : nat) : Prop :=
  0 < u /\ forall l l' v w, (l <= n)%nat -> (l' <= n)%nat -> reach shifts l v -> reach shifts l' w -> close u v w = true -> v = w.

Lemma close_refl : forall u v, 0 < u -> close u v v = true.
Proof.
  intros u v H. unfold close, close1. rewrite !Z.sub_diag. change (100000 * Z.abs 0) with 0.
  assert (T : forall x, (0 <=? u + 100 * Z.abs x) = true) by (intros; apply Z.leb_le; lia). rewrite !T. reflexivity.
Qed.

Lemma separated_le : forall u s n m, (m <= n)%nat -> separated u s n -> separated u s m.
Proof. intros u s n m L [U H]. split; [exact U|]. intros l l' v w A B. apply H; lia. Qed.

(** *** Combinations with replacement *)

Lemma comb_S : forall x xs r, combinations (x :: xs) (S r) = map (cons x) (combinations (x :: xs) r) ++ combinations xs (S r).
Proof. reflexivity. Qed.

Lemma comb_sound : forall r l w, In w (combinations l r) -> length w = r /\ incl w l.
Proof.
  induction r as [|r IH]; intros l w H.
  { cbn in H. destruct H as [<-|[]]. split; [reflexivity | intros x []]. }
  induction l as [|x xs IHl]; [destruct H|]. rewrite comb_S in H. apply in_app_or in H. destruct H as [H|H].
  - apply in_map_iff in H. destruct H as (w' & <- & H). destruct (IH _ _ H) as [L I]. split; [cbn; congruence|].
    intros y [-> |Y]; [now left | exact (I y Y)].
  - destruct (IHl H) as [L I]. split; [exact L|]. intros y Y. right. exact (I y Y).
Qed.

Lemma comb_complete : forall l r w, length w = r -> incl w l -> exists w', Permutation w w' /\ In w' (combinations l r).
Proof.
  induction l as [|x xs IHl]; intros r.
  { intros w L I. destruct w as [|y w]; [|destruct (I y (or_introl eq_refl))]. subst r. exists []. split; [constructor | now left]. }
  induction r as [|r IH]; intros w L I.
  { destruct w; [|discriminate]. exists []. split; [constructor | now left]. }
  destruct (in_dec vec_dec x w) as [X|X].
  - destruct (in_split _ _ X) as (w1 & w2 & ->).
    destruct (IH (w1 ++ w2)) as (w' & P & J).
    { rewrite app_length in *. cbn in L. lia. }
    { intros y Y. apply I. apply in_or_app. apply in_app_or in Y. destruct Y; [now left | right; now right]. }
    exists (x :: w'). split; [|rewrite comb_S; apply in_or_app; left; now apply in_map].
    symmetry. apply Permutation_cons_app. now symmetry.
  - destruct (IHl (S r) w L) as (w' & P & J).
    { intros y Y. destruct (I y Y) as [-> |]; [contradiction | assumption]. }
    exists w'. split; [exact P|]. rewrite comb_S. apply in_or_app. now right.
Qed.

Lemma sums_reach : forall shifts l c, In c (map vsum (combinations (base_shifts shifts) l)) <-> reach shifts l c.
Proof.
  intros shifts l c. rewrite in_map_iff. split.
  - intros (w & E & H). destruct (comb_sound _ _ _ H). exists w. repeat split; assumption.
  - intros (w & L & I & E). destruct (comb_complete _ _ _ L I) as (w' & P & H). exists w'. split; [|exact H].
    rewrite <- (vsum_perm _ _ P). exact E.
Qed.

(** *** Sets with tolerance *)

Section Sets.
  Variable u : Z.
  Variable ok : vec -> Prop.
  Hypothesis sep : forall a b, ok a -> ok b -> (close u a b = true <-> a = b).

  Lemma fs_in_iff : forall a s, ok a -> Forall ok s -> (fs_in u a s = true <-> In a s).
  Proof.
    intros a s A F. unfold fs_in. rewrite existsb_exists. rewrite Forall_forall in F. split.
    - intros (x & I & C). apply sep in C; [subst; exact I | exact A | exact (F _ I)].
    - intros I. exists a. split; [exact I|]. now apply sep.
  Qed.

  Lemma fs_add_spec : forall s a, ok a -> Forall ok s -> NoDup s ->
    Forall ok (fs_add u s a) /\ NoDup (fs_add u s a) /\ forall x, In x (fs_add u s a) <-> In x s \/ x = a.
  Proof.
    intros s a A F N. unfold fs_add. pose proof (fs_in_iff a s A F) as I. destruct (fs_in u a s).
    - repeat split; [exact F | exact N | now left |]. intros [X| ->]; [exact X | now apply I].
    - assert (~ In a s) by (intros X; apply I in X; discriminate). repeat split.
      + apply Forall_app. split; [exact F | constructor; [exact A | constructor]].
      + apply (Permutation_NoDup (l := a :: s)); [apply Permutation_cons_append | constructor; assumption].
      + intros X. apply in_app_or in X. destruct X as [X|[-> |[]]]; [now left | now right].
      + intros [X| ->]; apply in_or_app; [now left | right; now left].
  Qed.

  Lemma fs_union_spec : forall t s, Forall ok t -> Forall ok s -> NoDup s ->
    Forall ok (fs_union u s t) /\ NoDup (fs_union u s t) /\ forall x, In x (fs_union u s t) <-> In x s \/ In x t.
  Proof.
    induction t as [|a t IH]; intros s T F N.
    { cbn. repeat split; auto. intros [X|[]]; exact X. }
    inversion T as [|? ? A T']; subst. destruct (fs_add_spec s a A F N) as (F' & N' & I).
    destruct (IH (fs_add u s a) T' F' N') as (F'' & N'' & I'').
    change (fs_union u s (a :: t)) with (fs_union u (fs_add u s a) t). repeat split; [exact F'' | exact N'' | |].
    - intros X. apply I'' in X. destruct X as [X|X]; [apply I in X; destruct X; [now left | right; left; now subst] | right; now right].
    - intros X. apply I''. destruct X as [X|[-> |X]]; [left; apply I; now left | left; apply I; now right | now right].
  Qed.

  Lemma fs_unions_spec : forall ts s, Forall (Forall ok) ts -> Forall ok s -> NoDup s ->
    Forall ok (fold_left (fs_union u) ts s) /\ forall x, In x (fold_left (fs_union u) ts s) <-> In x s \/ exists t, In t ts /\ In x t.
  Proof.
    induction ts as [|t ts IH]; intros s T F N.
    { cbn. split; [exact F|]. intros x. split; [now left | intros [X|(t & [] & _)]; exact X]. }
    inversion T as [|? ? A T']; subst. destruct (fs_union_spec t s A F N) as (F' & N' & I).
    destruct (IH (fs_union u s t) T' F' N') as (F'' & I''). cbn [fold_left]. split; [exact F''|]. intros x. rewrite I'', I. split.
    - intros [[X|X]|(t' & Y & X)]; [now left | right; exists t; split; [now left | exact X] | right; exists t'; split; [now right | exact X]].
    - intros [X|(t' & [-> |Y] & X)]; [left; now left | left; now right | right; now exists t'].
  Qed.
End Sets.

(** *** The sets of shifts *)

Lemma lower_sets_in : forall u shifts level t, In t (lower_sets u shifts level) <-> exists l, (l < level)%nat /\ t = make_shift_set u shifts l.
Proof.
  induction level as [|level IH]; intros t; cbn [lower_sets].
  { split; [intros [] | intros (l & L & _); lia]. }
  rewrite in_app_iff, IH. split.
  - intros [(l & L & E)|[E|[]]]; [exists l; split; [lia | exact E] | exists level; split; [lia | now symmetry]].
  - intros (l & L & E). destruct (Nat.eq_dec l level) as [-> |]; [right; left; now symmetry | left; exists l; split; [lia | exact E]].
Qed.

Lemma reach_0 : forall shifts c, reach shifts 0 c <-> c = zero3.
Proof.
  intros. split; [intros (w & L & _ & E); destruct w; [now symmetry | discriminate]|]. intros ->. exists []. repeat split. intros x [].
Qed.

Lemma reach_S : forall shifts l c x, In x (shifts ++ map neg3 shifts) -> reach shifts l c -> reach shifts (S l) (add3 c x).
Proof.
  intros shifts l c x X (w & L & I & E). exists (x :: w). repeat split; [cbn; congruence | |].
  - intros y [-> |Y]; [exact X | exact (I y Y)].
  - change (add3 x (vsum w) = add3 c x). rewrite E. apply add3_comm.
Qed.

Definition within (shifts : list vec) (n : nat) (c : vec) : Prop := exists l, (l <= n)%nat /\ reach shifts l c.

Lemma separated_ok : forall u shifts n, separated u shifts n ->
  forall a b, within shifts n a -> within shifts n b -> (close u a b = true <-> a = b).
Proof.
  intros u shifts n [U H] a b (l & L & A) (l' & L' & B). split.
  - intros C. exact (H l l' a b L L' A B C).
  - intros ->. now apply close_refl.
Qed.

Theorem shift_sets : forall u shifts n, separated u shifts n -> forall level, (level <= n)%nat ->
  NoDup (make_shift_set u shifts level) /\ (forall c, In c (make_shift_set u shifts level) <-> steps shifts level c).
Proof.
  intros u shifts n HS. pose proof (separated_ok u shifts n HS) as OK. set (ok := within shifts n) in OK.
  assert (Z0 : ok zero3) by (exists 0%nat; split; [lia | now apply reach_0]).
  induction level as [level IH] using (well_founded_induction Wf_nat.lt_wf). intros L. unfold make_shift_set, shift_set_step.
  destruct level as [|level].
  { destruct (fs_union_spec u ok OK [zero3] []) as (_ & N & I); [repeat constructor; exact Z0 | constructor | constructor |].
    change (fs_of u [zero3]) with (fs_union u [] [zero3]). split; [exact N|]. intros c. rewrite I. unfold steps. rewrite reach_0. cbn. split.
    - intros [[]|[<-|[]]]. split; [reflexivity|]. intros; lia.
    - intros [-> _]. right. now left. }
  assert (FL : Forall (Forall ok) (lower_sets u shifts (S level))).
  { apply Forall_forall. intros t T. apply lower_sets_in in T. destruct T as (l & Ll & ->). apply Forall_forall. intros x X.
    apply (IH l Ll) in X; [|lia]. destruct X as [X _]. exists l. split; [lia | exact X]. }
  destruct (fs_unions_spec u ok OK (lower_sets u shifts (S level)) [] FL (Forall_nil _) (NoDup_nil _)) as (FB & IB).
  set (blacklist := fold_left (fs_union u) (lower_sets u shifts (S level)) []) in *.
  set (all := map vsum (combinations (base_shifts shifts) (S level))).
  assert (FA : forall x, In x all -> ok x) by (intros x X; apply sums_reach in X; exists (S level); split; [exact L | exact X]).
  set (cand := filter (fun s => negb (fs_in u s blacklist)) all).
  assert (FC : Forall ok cand) by (apply Forall_forall; intros x X; apply filter_In in X; apply FA; tauto).
  destruct (fs_union_spec u ok OK cand [] FC (Forall_nil _) (NoDup_nil _)) as (_ & N & I).
  split; [exact N|]. intros c. unfold fs_of. rewrite I. unfold cand. rewrite filter_In, negb_true_iff. split.
  - intros [[]|[A B]]. pose proof (FA c A) as OC. split; [now apply sums_reach|].
    assert (NB : ~ In c blacklist).
    { intros Y. apply (fs_in_iff u ok OK c blacklist OC FB) in Y. congruence. }
    intros l' Ll' R. apply NB. apply IB. right.
    (* the fewest steps to [c] *)
    assert (M : exists m, (m <= l')%nat /\ steps shifts m c).
    { clear - R. induction l' as [l' IHl] using (well_founded_induction Wf_nat.lt_wf).
      destruct (List.in_dec vec_dec c (flat_map (fun l => map vsum (combinations (base_shifts shifts) l)) (seq 0 l'))) as [X|X].
      - apply in_flat_map in X. destruct X as (l & Sl & X). apply in_seq in Sl. apply sums_reach in X.
        destruct (IHl l ltac:(lia) X) as (m & Lm & Hm). exists m. split; [lia | exact Hm].
      - exists l'. split; [lia|]. split; [exact R|]. intros l Ll Q. apply X. apply in_flat_map. exists l. split; [apply in_seq; lia|].
        now apply sums_reach. }
    destruct M as (m & Lm & Hm). exists (make_shift_set u shifts m). split; [apply lower_sets_in; exists m; split; [lia | reflexivity]|].
    apply (IH m); [lia | lia | exact Hm].
  - intros [R F]. right. split; [now apply sums_reach|]. destruct (fs_in u c blacklist) eqn:Y; [|reflexivity]. exfalso.
    assert (OC : ok c) by (exists (S level); split; [exact L | exact R]).
    apply (fs_in_iff u ok OK c blacklist OC FB) in Y. apply IB in Y. destruct Y as [[]|(t & T & Y)].
    apply lower_sets_in in T. destruct T as (l & Ll & ->). apply (IH l Ll) in Y; [|lia]. exact (F l Ll (proj1 Y)).
Qed.

Lemma steps_unique : forall shifts l l' c, steps shifts l c -> steps shifts l' c -> l = l'.
Proof.
  intros shifts l l' c [R F] [R' F']. destruct (lt_eq_lt_dec l l') as [[H|H]|H]; [exact (False_ind _ (F' l H R)) | exact H | exact (False_ind _ (F l' H R'))].
Qed.

Lemma steps_exists : forall shifts l c, reach shifts l c -> exists m, (m <= l)%nat /\ steps shifts m c.
Proof.
  intros shifts. induction l as [l IHl] using (well_founded_induction Wf_nat.lt_wf). intros c R.
  destruct (List.in_dec vec_dec c (flat_map (fun l => map vsum (combinations (base_shifts shifts) l)) (seq 0 l))) as [X|X].
  - apply in_flat_map in X. destruct X as (m & Sl & X). apply in_seq in Sl. apply sums_reach in X.
    destruct (IHl m ltac:(lia) c X) as (m' & Lm & Hm). exists m'. split; [lia | exact Hm].
  - exists l. split; [lia|]. split; [exact R|]. intros m Ll Q. apply X. apply in_flat_map. exists m. split; [apply in_seq; lia|].
    now apply sums_reach.
Qed.

(** Neighbouring cells differ by at most one step. *)
Lemma neighbours : forall shifts k m c, (k < length shifts)%nat -> steps shifts m c ->
  exists m', steps shifts m' (add3 c (nth k shifts zero3)) /\ (m' <= S m)%nat /\ (m <= S m')%nat.
Proof.
  intros shifts k m c K H. assert (I : In (nth k shifts zero3) shifts) by (apply nth_In; exact K).
  assert (R : reach shifts (S m) (add3 c (nth k shifts zero3))).
  { apply reach_S; [apply in_or_app; now left | exact (proj1 H)]. }
  destruct (steps_exists _ _ _ R) as (m' & L & H'). exists m'. repeat split; [exact (proj1 H') | exact (proj2 H') | exact L |].
  assert (R' : reach shifts (S m') c).
  { replace c with (add3 (add3 c (nth k shifts zero3)) (neg3 (nth k shifts zero3))) by vec.
    apply reach_S; [|exact (proj1 H')]. apply in_or_app. right. now apply in_map. }
  destruct (le_lt_dec m (S m')) as [|G]; [assumption|]. destruct (proj2 H (S m') G R').
Qed.

(** *** The copies *)

Theorem copies_spec : forall u shifts n, separated u shifts n ->
  NoDup (copies u shifts n) /\ forall c, In c (copies u shifts n) <-> exists l, (1 <= l <= n)%nat /\ steps shifts l c.
Proof.
  intros u shifts n HS. unfold copies.
  assert (I : forall c m, (m <= n)%nat -> In c (flat_map (make_shift_set u shifts) (seq 1 m)) <-> exists l, (1 <= l <= m)%nat /\ steps shifts l c).
  { intros c m Lm. rewrite in_flat_map. split.
    - intros (l & L & H). apply in_seq in L. exists l. split; [lia|]. apply (shift_sets u shifts n HS) in H; [exact H | lia].
    - intros (l & L & H). exists l. split; [apply in_seq; lia|]. apply (shift_sets u shifts n HS); [lia | exact H]. }
  split; [|intros c; apply I; lia].
  assert (G : forall m, (m <= n)%nat -> NoDup (flat_map (make_shift_set u shifts) (seq 1 m))).
  { induction m as [|m IHm]; intros Lm; [constructor|]. rewrite seq_S, flat_map_app. cbn [flat_map]. rewrite app_nil_r.
    apply NoDup_app_intro; [apply IHm; lia | apply (shift_sets u shifts n HS); lia |].
    intros c A B. apply I in A; [|lia]. destruct A as (l & Ll & A). apply (shift_sets u shifts n HS) in B; [|lia].
    pose proof (steps_unique _ _ _ _ A B). lia. }
  apply G. lia.
Qed.

(** *** The calls for the hoppings across the boundaries *)

Lemma calls_in : forall u shifts n, separated u shifts (S n) -> forall l off s k,
  In (l, off, s, k) (boundary_calls u shifts n) <->
  (1 <= l <= n)%nat /\ (k < length shifts)%nat /\ (steps shifts l off \/ steps shifts (l - 1) off) /\
  steps shifts (l - 1) (add3 off (signed s (nth k shifts zero3))).
Proof.
  intros u shifts n HS l off s k. pose proof (separated_ok u shifts (S n) HS) as OK.
  pose proof (shift_sets u shifts (S n) HS) as SH.
  assert (FO : forall m, (m <= S n)%nat -> Forall (within shifts (S n)) (make_shift_set u shifts m)).
  { intros m Lm. apply Forall_forall. intros x X. apply SH in X; [|exact Lm]. exists m. split; [exact Lm | exact (proj1 X)]. }
  assert (UN : forall m, (1 <= m <= n)%nat -> forall x, In x (fs_union u (make_shift_set u shifts m) (make_shift_set u shifts (m - 1))) <-> steps shifts m x \/ steps shifts (m - 1) x).
  { intros m Lm x. destruct (fs_union_spec u _ OK (make_shift_set u shifts (m - 1)) (make_shift_set u shifts m)) as (_ & _ & I);
      [apply FO; lia | apply FO; lia | apply SH; lia |]. rewrite I. rewrite (proj2 (SH m ltac:(lia))), (proj2 (SH (m - 1)%nat ltac:(lia))). reflexivity. }
  assert (IN : forall m x s' k', (1 <= m <= n)%nat -> (k' < length shifts)%nat -> (steps shifts m x \/ steps shifts (m - 1) x) ->
    (fs_in u (add3 x (signed s' (nth k' shifts zero3))) (make_shift_set u shifts (m - 1)) = true <->
     steps shifts (m - 1) (add3 x (signed s' (nth k' shifts zero3))))).
  { intros m x s' k' Lm Lk X. rewrite (fs_in_iff u _ OK); [rewrite (proj2 (SH (m - 1)%nat ltac:(lia))); reflexivity | | apply FO; lia].
    assert (J : In (signed s' (nth k' shifts zero3)) (shifts ++ map neg3 shifts)).
    { apply in_or_app. destruct s'; cbn; [left; now apply nth_In | right; apply in_map; now apply nth_In]. }
    destruct X as [X|X]; (eexists; split; [|apply reach_S; [exact J | exact (proj1 X)]]; lia). }
  unfold boundary_calls. rewrite in_flat_map. split.
  - intros (m & Lm & H). apply in_seq in Lm. apply in_flat_map in H. destruct H as (x & X & H). apply UN in X; [|lia].
    apply in_flat_map in H. destruct H as (s' & _ & H). apply in_flat_map in H. destruct H as (k' & Lk & H). apply in_seq in Lk.
    destruct (fs_in u _ _) eqn:E in H; [|destruct H]. destruct H as [H|[]]. injection H as -> -> -> ->.
    repeat split; [lia | lia | lia | exact X | |]; apply IN in E; try lia; try assumption; [exact (proj1 E) | exact (proj2 E)].
  - intros (Ll & Lk & X & Y). exists l. split; [apply in_seq; lia|]. apply in_flat_map. exists off. split; [apply UN; [lia | exact X]|].
    apply in_flat_map. exists s. split; [destruct s; cbn; tauto|]. apply in_flat_map. exists k. split; [apply in_seq; lia|].
    rewrite (proj2 (IN l off s k Ll Lk X) Y). now left.
Qed.

Lemma calls_NoDup : forall u shifts n, separated u shifts (S n) -> NoDup (boundary_calls u shifts n).
Proof.
  intros u shifts n HS. pose proof (separated_ok u shifts (S n) HS) as OK. pose proof (shift_sets u shifts (S n) HS) as SH.
  assert (FO : forall m, (m <= S n)%nat -> Forall (within shifts (S n)) (make_shift_set u shifts m)).
  { intros m Lm. apply Forall_forall. intros x X. apply SH in X; [|exact Lm]. exists m. split; [exact Lm | exact (proj1 X)]. }
  unfold boundary_calls. apply NoDup_flat_map; [apply seq_NoDup | |].
  2: { intros a b x _ _ A B. apply in_flat_map in A, B. destruct A as (a1 & _ & A), B as (b1 & _ & B). apply in_flat_map in A, B.
       destruct A as (a2 & _ & A), B as (b2 & _ & B). apply in_flat_map in A, B. destruct A as (a3 & _ & A), B as (b3 & _ & B).
       destruct (fs_in _ _ _) in A; [|destruct A]. destruct (fs_in _ _ _) in B; [|destruct B].
       destruct A as [A|[]], B as [B|[]]. congruence. }
  intros l Ll. apply in_seq in Ll. apply NoDup_flat_map.
  { destruct (fs_union_spec u _ OK (make_shift_set u shifts (l - 1)) (make_shift_set u shifts l)) as (_ & N & _); [apply FO; lia | apply FO; lia | apply SH; lia | exact N]. }
  2: { intros a b x _ _ A B. apply in_flat_map in A, B. destruct A as (a2 & _ & A), B as (b2 & _ & B). apply in_flat_map in A, B.
       destruct A as (a3 & _ & A), B as (b3 & _ & B).
       destruct (fs_in _ _ _) in A; [|destruct A]. destruct (fs_in _ _ _) in B; [|destruct B].
       destruct A as [A|[]], B as [B|[]]. congruence. }
  intros off _. apply NoDup_flat_map; [repeat constructor; cbn; intuition discriminate | |].
  2: { intros a b x _ _ A B. apply in_flat_map in A, B. destruct A as (a3 & _ & A), B as (b3 & _ & B).
       destruct (fs_in _ _ _) in A; [|destruct A]. destruct (fs_in _ _ _) in B; [|destruct B].
       destruct A as [A|[]], B as [B|[]]. congruence. }
  intros s _. apply NoDup_flat_map; [apply seq_NoDup | |].
  2: { intros a b x _ _ A B. destruct (fs_in _ _ _) in A; [|destruct A]. destruct (fs_in _ _ _) in B; [|destruct B].
       destruct A as [A|[]], B as [B|[]]. congruence. }
  intros k _. destruct (fs_in _ _ _); repeat constructor. intros [].
Qed.

(** The cell of the column site of the lines of a call; the row site is in the cell one shift further. *)
Definition column_cell (shifts : list vec) (x : call) : vec :=
  match x with (_, off, s, k) => if s then off else vsub off (nth k shifts zero3) end.
Definition draws (shifts : list vec) (c : vec) (k : nat) (x : call) : bool :=
  (snd x =? k)%nat && eqb3 (column_cell shifts x) c.
(** How often the bonds of boundary [k] between the cells [c + shift] and [c] are drawn. *)
Definition times_drawn (u : Z) (shifts : list vec) (n : nat) (c : vec) (k : nat) : nat :=
  length (filter (draws shifts c k) (boundary_calls u shifts n)).

Lemma eqb3_iff : forall a b, eqb3 a b = true <-> a = b.
Proof.
  intros a b. unfold eqb3. rewrite !andb_true_iff, !Z.eqb_eq. split; [intros [[A B] C]; now apply vec_eq | intros ->; auto].
Qed.

Lemma draws_iff : forall shifts c k l off s k', draws shifts c k (l, off, s, k') = true <->
  k' = k /\ off = (if s then c else add3 c (nth k shifts zero3)).
Proof.
  intros. unfold draws, column_cell. cbn [snd]. rewrite andb_true_iff, Nat.eqb_eq, eqb3_iff.
  destruct s; split; intros [-> H]; (split; [reflexivity|]); try exact H; subst; vec.
Qed.

Lemma add_sub : forall c t, add3 (add3 c t) (signed false t) = c.
Proof. intros. cbn. vec. Qed.

Section Count.
  Variables (u : Z) (shifts : list vec) (n : nat).
  Hypothesis HS : separated u shifts (S n).
  Variables (c : vec) (k : nat).
  Hypothesis HK : (k < length shifts)%nat.
  Let t := nth k shifts zero3.

  Lemma drawn_in : forall x, In x (filter (draws shifts c k) (boundary_calls u shifts n)) <->
    exists (l : nat) (s : bool), x = (l, (if s then c else add3 c t), s, k) /\ (1 <= l <= n)%nat /\
      if s then (steps shifts l c \/ steps shifts (l - 1) c) /\ steps shifts (l - 1) (add3 c t)
      else (steps shifts l (add3 c t) \/ steps shifts (l - 1) (add3 c t)) /\ steps shifts (l - 1) c.
  Proof.
    intros [[[l off] s] k']. rewrite filter_In, (calls_in u shifts n HS), draws_iff. fold t. split.
    - intros ((Ll & _ & A & B) & -> & ->). exists l, s. split; [reflexivity|]. split; [exact Ll|].
      fold t in B. destruct s; [|rewrite add_sub in B]; split; assumption.
    - intros (l' & s' & E & Ll & H). injection E as -> -> -> ->. split; [|now split]. split; [exact Ll|]. split; [exact HK|]. fold t.
      destruct s'; [|rewrite add_sub]; exact H.
  Qed.

  Lemma drawn_list : forall l, NoDup l -> (forall x, In x (filter (draws shifts c k) (boundary_calls u shifts n)) <-> In x l) ->
    times_drawn u shifts n c k = length l.
  Proof.
    intros l N H. unfold times_drawn. apply Permutation_length. apply NoDup_Permutation; [apply NoDup_filter; now apply calls_NoDup | exact N | exact H].
  Qed.

  Theorem drawn_twice : forall m, (m < n)%nat -> steps shifts m c -> steps shifts m (add3 c t) -> times_drawn u shifts n c k = 2%nat.
  Proof.
    intros m Lm A B. apply (drawn_list [(S m, c, true, k); (S m, add3 c t, false, k)]).
    { repeat constructor; [intros [H|[]]; discriminate | intros []]. }
    intros x. rewrite drawn_in. split.
    - intros (l & s & -> & Ll & H). destruct s; destruct H as [_ H].
      + assert (l - 1 = m)%nat by exact (steps_unique _ _ _ _ H B). left. f_equal. f_equal. f_equal. lia.
      + assert (l - 1 = m)%nat by exact (steps_unique _ _ _ _ H A). right. left. f_equal. f_equal. f_equal. lia.
    - intros [<-|[<-|[]]]; [exists (S m), true | exists (S m), false]; (split; [reflexivity|]; split; [lia|]);
        replace (S m - 1)%nat with m by lia; tauto.
  Qed.

  Theorem drawn_once : forall m, (m < n)%nat ->
    (steps shifts m c /\ steps shifts (S m) (add3 c t)) \/ (steps shifts (S m) c /\ steps shifts m (add3 c t)) ->
    times_drawn u shifts n c k = 1%nat.
  Proof.
    intros m Lm [[A B]|[A B]].
    - apply (drawn_list [(S m, add3 c t, false, k)]); [repeat constructor; intros []|]. intros x. rewrite drawn_in. split.
      + intros (l & s & -> & Ll & H). destruct s.
        * destruct H as [[H|H] H']; pose proof (steps_unique _ _ _ _ H' B); pose proof (steps_unique _ _ _ _ H A); lia.
        * destruct H as [_ H]. assert (l - 1 = m)%nat by exact (steps_unique _ _ _ _ H A). left. f_equal. f_equal. f_equal. lia.
      + intros [<-|[]]. exists (S m), false. split; [reflexivity|]. split; [lia|]. replace (S m - 1)%nat with m by lia. tauto.
    - apply (drawn_list [(S m, c, true, k)]); [repeat constructor; intros []|]. intros x. rewrite drawn_in. split.
      + intros (l & s & -> & Ll & H). destruct s.
        * destruct H as [_ H]. assert (l - 1 = m)%nat by exact (steps_unique _ _ _ _ H B). left. f_equal. f_equal. f_equal. lia.
        * destruct H as [[H|H] H']; pose proof (steps_unique _ _ _ _ H' A); pose proof (steps_unique _ _ _ _ H B); lia.
      + intros [<-|[]]. exists (S m), true. split; [reflexivity|]. split; [lia|]. replace (S m - 1)%nat with m by lia. tauto.
  Qed.

  Theorem drawn_never : (forall m, (m < n)%nat -> ~ steps shifts m c /\ ~ steps shifts m (add3 c t)) -> times_drawn u shifts n c k = 0%nat.
  Proof.
    intros H. apply (drawn_list []); [constructor|]. intros x. rewrite drawn_in. split; [|intros []].
    intros (l & s & _ & Ll & G). destruct (H (l - 1)%nat ltac:(lia)) as [H1 H2]. destruct s; tauto.
  Qed.
End Count.

(** *** Where the tolerance does no harm *)

Lemma reach_bound : forall shifts M, (forall v, In v shifts -> Z.abs (ix v) <= M /\ Z.abs (iy v) <= M /\ Z.abs (iz v) <= M) ->
  forall l c, reach shifts l c -> Z.abs (ix c) <= M * Z.of_nat l /\ Z.abs (iy c) <= M * Z.of_nat l /\ Z.abs (iz c) <= M * Z.of_nat l.
Proof.
  intros shifts M B l c (w & L & I & E). revert l c L I E. induction w as [|x w IH]; intros l c L I E.
  { cbn in L, E. subst. cbn. lia. }
  destruct l as [|l]; [discriminate|]. change (add3 x (vsum w) = c) in E. subst c.
  destruct (IH l (vsum w)) as (P & Q & R); [cbn in L; lia | intros y Y; apply I; now right | reflexivity |].
  assert (X : Z.abs (ix x) <= M /\ Z.abs (iy x) <= M /\ Z.abs (iz x) <= M).
  { destruct (in_app_or _ _ _ (I x (or_introl eq_refl))) as [X|X]; [now apply B|]. apply in_map_iff in X. destruct X as (v & <- & V). cbn.
    rewrite !Z.abs_opp. now apply B. }
  unfold add3. cbn. rewrite Zpos_P_of_succ_nat. lia.
Qed.

Lemma separated_small : forall u shifts M n, 0 < u -> 0 <= M ->
  (forall v, In v shifts -> Z.abs (ix v) <= M /\ Z.abs (iy v) <= M /\ Z.abs (iz v) <= M) ->
  u + 100 * (M * Z.of_nat n) < 100000 -> separated u shifts n.
Proof.
  intros u shifts M n U HM B S. split; [exact U|]. intros l l' v w Ll Ll' V W C.
  destruct (reach_bound shifts M B l' w W) as (P & Q & R). assert (M * Z.of_nat l' <= M * Z.of_nat n) by (apply Z.mul_le_mono_nonneg_l; lia).
  unfold close, close1 in C. rewrite !andb_true_iff, !Z.leb_le in C. destruct C as [[C1 C2] C3]. apply vec_eq; lia.
Qed.
