(* C40, C56, C96: parts of these properties at the functions which a user or another part of the program calls. *)
From Verif Require Import Base Scalar Foundation Lattice Symmetry Leads PlotPeriodic PropsPlot.
From Coq Require Import Lia.
Local Open Scope nat_scope.

(** ** C56: Lattice::max_hoppings is the largest number of hoppings at a site. *)
(** Elements of a row of the matrix outside of the diagonal: those to other orbitals of the site, and for every end of a term at the
    site those to the orbitals of the other end. *)
Definition all_ends {R} (fams : list (family R)) : list (family R * term) := flat_map (fun f => map (pair f) (fm_terms f)) fams.
Definition elements_at {R P} (fams : list (family R)) (s : sublattice R P) : nat :=
  (m_cols (sb_energy s) - 1)
  + list_sum (map (fun ft => m_cols (fm_energy (fst ft))) (filter (fun ft => t_from (snd ft) =? sb_uid s) (all_ends fams)))
  + list_sum (map (fun ft => m_rows (fm_energy (fst ft))) (filter (fun ft => t_to (snd ft) =? sb_uid s) (all_ends fams))).
Lemma max_fold : forall {A} (g : A -> nat) l r, r <= fold_left (fun r s => Nat.max r (g s)) l r /\
  (forall s, In s l -> g s <= fold_left (fun r s => Nat.max r (g s)) l r) /\
  (fold_left (fun r s => Nat.max r (g s)) l r = r \/ exists s, In s l /\ fold_left (fun r s => Nat.max r (g s)) l r = g s).
Proof.
  intros A g l. induction l as [|x l IH]; intros r; cbn [fold_left]; [split; [lia|]; split; [intros s []|now left]|].
  destruct (IH (Nat.max r (g x))) as (H1 & H2 & H3). split; [lia|]. split; [intros s [<-|I]; [lia|now apply H2]|].
  destruct H3 as [H3|(s & I & H3)]; [|right; exists s; split; [now right|exact H3]].
  destruct (Nat.max_spec r (g x)) as [[L E]|[L E]]; [right; exists x; split; [now left|lia]|left; lia].
Qed.
Lemma fold_ends : forall {R P} (s : sublattice R P) (fams : list (family R)) n,
  fold_left (fun n f => fold_left (fun n t => n + (if t_from t =? sb_uid s then m_cols (fm_energy f) else 0)
                                               + (if t_to t =? sb_uid s then m_rows (fm_energy f) else 0)) (fm_terms f) n) fams n
  = n + list_sum (map (fun ft => m_cols (fm_energy (fst ft))) (filter (fun ft => t_from (snd ft) =? sb_uid s) (all_ends fams)))
      + list_sum (map (fun ft => m_rows (fm_energy (fst ft))) (filter (fun ft => t_to (snd ft) =? sb_uid s) (all_ends fams))).
Proof.
  assert (LS : forall a l, list_sum (a :: l) = a + list_sum l) by reflexivity.
  intros R P s. induction fams as [|f fams IH]; intros n; [cbn; lia|]. cbn [fold_left]. rewrite IH. unfold all_ends. cbn [flat_map].
  rewrite !filter_app, !map_app, !list_sum_app. generalize (fm_terms f). intros ts.
  enough (E : forall n, fold_left (fun n t => n + (if t_from t =? sb_uid s then m_cols (fm_energy f) else 0)
                                               + (if t_to t =? sb_uid s then m_rows (fm_energy f) else 0)) ts n
    = n + list_sum (map (fun ft => m_cols (fm_energy (fst ft))) (filter (fun ft => t_from (snd ft) =? sb_uid s) (map (pair f) ts)))
        + list_sum (map (fun ft => m_rows (fm_energy (fst ft))) (filter (fun ft => t_to (snd ft) =? sb_uid s) (map (pair f) ts)))) by (rewrite E; lia).
  clear - LS. induction ts as [|t ts IH]; intros n; [cbn; lia|]. cbn [fold_left map filter fst snd]. rewrite IH.
  destruct (t_from t =? sb_uid s), (t_to t =? sb_uid s); cbn [map fst]; rewrite ?LS; lia.
Qed.
Theorem C56_lattice : forall (R : scalar) P (subs : list (sublattice R P)) fams,
  (forall s, In s subs -> elements_at fams s <= max_hoppings subs fams) /\
  (max_hoppings subs fams = 0 \/ exists s, In s subs /\ max_hoppings subs fams = elements_at fams s).
Proof.
  intros R P subs fams.
  assert (E : max_hoppings subs fams = fold_left (fun r s => Nat.max r (elements_at fams s)) subs 0).
  { assert (X : forall (f g : nat -> sublattice R P -> nat) l r, (forall r s, f r s = g r s) -> fold_left f l r = fold_left g l r)
      by (intros f g l; induction l as [|x l IH]; intros r H; [reflexivity|]; cbn [fold_left]; rewrite H; now apply IH).
    unfold max_hoppings. apply X. intros r s. now rewrite fold_ends. }
  rewrite E. destruct (max_fold (elements_at fams) subs 0) as (_ & H & K). split; [exact H|exact K].
Qed.
Print Assumptions C56_lattice.

Example C56_lattice_example : forall R : scalar,
  max_hoppings [Sub (Nm 1) tt (Mat 2 2 (fun _ _ => k0)) 0 0; Sub (Nm 2) tt (Mat 1 1 (fun _ _ => k0)) 1 1]
    [Fam (Nm 3) (Mat 2 1 (fun _ _ => k0 : R)) 0 [Term zero3 0 1; Term (I3 1 0 0) 0 1]] = 4.
Proof. reflexivity. Qed.

(** ** C40: the direction of a lead is an axis, counted from one, with a sign (lead direction -2: backwards along the second vector). *)
Theorem C40_direction : forall P (axis : nat) (backwards : bool) bounds (contains : list P -> list bool),
  let l := make_lead (if backwards then - Z.of_nat (S axis) else Z.of_nat (S axis))%Z bounds contains in
  lead_axis l = axis /\ lead_sign l = (if backwards then -1 else 1)%Z /\ lead_bounds l = bounds /\ lead_contains l = contains.
Proof.
  intros P axis backwards bounds contains. unfold make_lead. cbn [lead_axis lead_sign lead_bounds lead_contains].
  destruct backwards; repeat split; try lia;
    match goal with |- context [(?d =? 0)%Z] => destruct (Z.eqb_spec d 0) as [E|E]; [lia|] end.
  - rewrite Z.abs_opp, Z.abs_eq by lia. rewrite Z.quot_opp_l by lia. now rewrite Z.quot_same by lia.
  - rewrite Z.abs_eq by lia. now rewrite Z.quot_same by lia.
Qed.
Print Assumptions C40_direction.
Example C40_direction_example : lead_axis (make_lead (-2) (zero3, zero3) (fun ps : list nat => map (fun _ => true) ps)) = 1 /\
  lead_sign (make_lead (-2) (zero3, zero3) (fun ps : list nat => map (fun _ => true) ps)) = (-1)%Z.
Proof. split; reflexivity. Qed.

(** ** C96: the length of a shift is the place on the lattice of its index. *)
Theorem C96_shift : forall a1 a2 a3 shift,
  shift_length vec add3 (fun n v => I3 (n * ix v) (n * iy v) (n * iz v))%Z zero3 [a1; a2; a3] shift = on_lattice a1 a2 a3 shift /\
  shift_length vec add3 (fun n v => I3 (n * ix v) (n * iy v) (n * iz v))%Z zero3 [a1; a2] shift = on_lattice a1 a2 zero3 shift /\
  shift_length vec add3 (fun n v => I3 (n * ix v) (n * iy v) (n * iz v))%Z zero3 [a1] shift = on_lattice a1 zero3 zero3 shift.
Proof. intros [] [] [] []. unfold shift_length, on_lattice, add3, zero3. cbn. repeat split; f_equal; ring. Qed.
Print Assumptions C96_shift.
Example C96_shift_example : shift_length vec add3 (fun n v => I3 (n * ix v) (n * iy v) (n * iz v))%Z zero3 [I3 2 0 0; I3 1 3 0]%Z (I3 5 (-1) 0)%Z = I3 9 (-3) 0.
Proof. reflexivity. Qed.
