(* C09, continued: exactly which bonds to periodic images are stored, and when bonds are lost. *)
From Verif Require Import Base Rle RleProofs Blocks Foundation Scalar Lattice LatticeSpec LatticeProofs PropsLattice FoundationSpec FoundationFacts UnitCellProofs PopulateFacts PropsFoundation Symmetry SymmetrySpec SymmetryProofs BoundaryProofs BoundaryExact PropsSymmetry.
From Coq Require Import Permutation.

(** For all lattices, symmetries and masks: a boundary with shift [T] holds [pq] in family [f] if and only if
    [T] has in each direction no periods or as many as some hopping (or its reverse) has cells, and [pq]
    is an image bond of [f] that starts in a cell at the edge of the period.  Everything else is lost. *)
Theorem C09_exact :
  forall (R : scalar) (P : Type) offset_ok order (cs : list (lcall R P)) subs fams
    (Hs : Permutation subs (l_subs (calls offset_ok order cs))) (Hf : Permutation fams (l_fams (calls offset_ok order cs)))
    uc (Hu : unit_cell subs fams = Ok uc) size (Hp : positive_block size) s (Hb : block_holds_period size s)
    valid (Hv : length valid = num_block_sites size (length uc)),
  exists bs, boundaries_of size uc (length (l_fams (calls offset_ok order cs))) s valid = Ok bs /\
  forall T f pq, (exists b, In b bs /\ b_shift b = T /\ In pq (nth f (hb_blocks (b_hops b)) [])) <->
    considered (l_fams (calls offset_ok order cs)) s T /\
    exists fam t i, In fam (l_fams (calls offset_ok order cs)) /\ fm_id fam = f /\ In t (fm_terms fam) /\ at_edge size s T i /\ image_bond_from size uc valid i T t pq.
Proof. exact exact_boundaries. Qed.

(** ** Long bonds are always lost *)
Lemma some_image : forall size p r, (0 < size)%Z -> (period p <= size)%Z -> (p = None -> Z.abs r < size)%Z ->
  exists i k, in_period1 size p i /\ in_period1 size p (i + k * period p + r)%Z.
Proof.
  intros size p r Hs Hp H0. destruct p as [n|].
  - pose proof (period_pos (Some n) ltac:(discriminate)) as PP. set (q := period (Some n)) in *. set (L := ((size - q) / 2)%Z).
    exists L, (- (r / q))%Z. unfold in_period1. fold q. fold L. pose proof (Z.mod_pos_bound r q ltac:(lia)). pose proof (Z.div_mod r q ltac:(lia)). split; [lia|].
    replace (L + - (r / q) * q + r)%Z with (L + r mod q)%Z by lia. lia.
  - specialize (H0 eq_refl). unfold in_period1, period. destruct (Z.le_gt_cases 0 r).
    + exists 0%Z, 0%Z. lia.
    + exists (- r)%Z, 0%Z. lia.
Qed.
Lemma lost_image : forall size p r, (0 < size)%Z -> (period p <= size)%Z -> (2 <= period p)%Z -> (2 <= Z.abs r)%Z ->
  exists i k, in_period1 size p i /\ in_period1 size p (i + k * period p + r)%Z /\ (k * period p <> 0)%Z /\ ~ edge1 size p (k * period p) i.
Proof.
  intros size p r Hs Hp H2 Hr. destruct p as [n|]; [|cbn in H2; lia]. set (q := period (Some n)) in *. set (L := ((size - q) / 2)%Z).
  destruct (Z.le_gt_cases 0 r) as [S|S].
  - exists (L + q - 2)%Z, (- ((q - 2 + r) / q))%Z. unfold in_period1, edge1. fold q. fold L.
    pose proof (Z.mod_pos_bound (q - 2 + r) q ltac:(lia)). pose proof (Z.div_mod (q - 2 + r) q ltac:(lia)). assert (1 <= (q - 2 + r) / q)%Z by (apply Z.div_le_lower_bound; lia).
    replace (L + q - 2 + - ((q - 2 + r) / q) * q + r)%Z with (L + (q - 2 + r) mod q)%Z by lia. repeat split; try lia; nia.
  - exists (L + 1)%Z, (- ((1 + r) / q))%Z. unfold in_period1, edge1. fold q. fold L.
    pose proof (Z.mod_pos_bound (1 + r) q ltac:(lia)). pose proof (Z.div_mod (1 + r) q ltac:(lia)). assert ((1 + r) / q < 0)%Z by (apply Z.div_lt_upper_bound; lia).
    replace (L + 1 + - ((1 + r) / q) * q + r)%Z with (L + (1 + r) mod q)%Z by lia. repeat split; try lia; nia.
Qed.
Definition long1 (p : option Z) (r : Z) : Prop := (2 <= period p /\ 2 <= Z.abs r)%Z.
(** A hopping that reaches two cells or more in a direction with a period of two cells or more *)
Definition long_range (s : sym) (r : idx3) : Prop := long1 (sy1 s) (ix r) \/ long1 (sy2 s) (iy r) \/ long1 (sy3 s) (iz r).
(** Every site of the period is there. *)
Definition whole_period {P} (size : idx3) (uc : list (usite P)) (s : sym) (valid : list bool) : Prop :=
  forall i a, cell_of size i -> a < length uc -> (flagged size valid (i, a) = true <-> in_period size s i).
(** In the directions without translation the block is longer than the hopping. *)
Definition fits_block (size : idx3) (s : sym) (r : idx3) : Prop :=
  ((sy1 s = None -> Z.abs (ix r) < ix size) /\ (sy2 s = None -> Z.abs (iy r) < iy size) /\ (sy3 s = None -> Z.abs (iz r) < iz size))%Z.

Lemma lost_cell : forall size s r, positive_block size -> block_holds_period size s -> long_range s r -> fits_block size s r ->
  exists i T, in_period size s i /\ in_period size s (shifted_cell (shifted_cell i T) r) /\ whole_periods s T /\ ~ at_edge size s T i.
Proof.
  intros size s [r1 r2 r3] (S1 & S2 & S3) (B1 & B2 & B3) HL (F1 & F2 & F3). cbn [ix iy iz] in *.
  destruct (some_image _ _ r1 S1 B1 F1) as (i1 & k1 & U1 & J1). destruct (some_image _ _ r2 S2 B2 F2) as (i2 & k2 & U2 & J2). destruct (some_image _ _ r3 S3 B3 F3) as (i3 & k3 & U3 & J3).
  destruct HL as [[L1 L2]|[[L1 L2]|[L1 L2]]]; cbn [ix iy iz] in L2.
  - destruct (lost_image _ _ r1 S1 B1 L1 L2) as (i & k & I & J & K & E). exists (I3 i i2 i3), (I3 (k * period (sy1 s)) (k2 * period (sy2 s)) (k3 * period (sy3 s))).
    unfold in_period, at_edge, shifted_cell. cbn [ix iy iz]. split; [auto|]. split; [auto|]. split; [|intros (X & _); exact (E X)].
    split; [intros Z; injection Z; lia|eauto].
  - destruct (lost_image _ _ r2 S2 B2 L1 L2) as (i & k & I & J & K & E). exists (I3 i1 i i3), (I3 (k1 * period (sy1 s)) (k * period (sy2 s)) (k3 * period (sy3 s))).
    unfold in_period, at_edge, shifted_cell. cbn [ix iy iz]. split; [auto|]. split; [auto|]. split; [|intros (_ & X & _); exact (E X)].
    split; [intros Z; injection Z; lia|eauto].
  - destruct (lost_image _ _ r3 S3 B3 L1 L2) as (i & k & I & J & K & E). exists (I3 i1 i2 i), (I3 (k1 * period (sy1 s)) (k2 * period (sy2 s)) (k * period (sy3 s))).
    unfold in_period, at_edge, shifted_cell. cbn [ix iy iz]. split; [auto|]. split; [auto|]. split; [|intros (_ & _ & X); exact (E X)].
    split; [intros Z; injection Z; lia|eauto].
Qed.

(** The condition of C09_boundaries_partial cannot be weakened: whenever the whole period is there, each
    hopping that is too long loses one of its bonds. *)
Theorem C09_lost :
  forall (R : scalar) (P : Type) offset_ok order (cs : list (lcall R P)) subs fams
    (Hs : Permutation subs (l_subs (calls offset_ok order cs))) (Hf : Permutation fams (l_fams (calls offset_ok order cs)))
    uc (Hu : unit_cell subs fams = Ok uc) size (Hp : positive_block size) s (Hb : block_holds_period size s)
    valid (Hv : length valid = num_block_sites size (length uc)) (Hw : whole_period size uc s valid)
    fam t, In fam (l_fams (calls offset_ok order cs)) -> In t (fm_terms fam) -> long_range s (t_rel t) -> fits_block size s (t_rel t) ->
  exists bs T pq, boundaries_of size uc (length (l_fams (calls offset_ok order cs))) s valid = Ok bs /\
    whole_periods s T /\ image_bond size uc valid T t pq /\
    forall b f, In b bs -> b_shift b = T -> ~ In pq (nth f (hb_blocks (b_hops b)) []).
Proof.
  intros R P oo o cs subs fams Hs Hf uc Hu size Hp s Hb valid Hv Hw fam t Hfam Ht HL HB.
  destruct (C09_exact R P oo o cs subs fams Hs Hf uc Hu size Hp s Hb valid Hv) as (bs & EB & EX).
  destruct (lost_cell size s (t_rel t) Hp Hb HL HB) as (i & T & Ii & Ij & WT & NE).
  assert (CEL : forall x, in_period size s x -> cell_of size x).
  { intros x Hx. destruct Hp as (S1 & S2 & S3). destruct Hb as (B1 & B2 & B3). destruct Hx as (X1 & X2 & X3).
    apply (area1_ok _ _ S1 B1) in X1. apply (area1_ok _ _ S2 B2) in X2. apply (area1_ok _ _ S3 B3) in X3.
    pose proof (area1_ok _ _ S1 B1) as (A1 & A2 & _). pose proof (area1_ok _ _ S2 B2) as (A3 & A4 & _). pose proof (area1_ok _ _ S3 B3) as (A5 & A6 & _). unfold cell_of. lia. }
  pose proof (CEL _ Ii) as Ci. pose proof (CEL _ Ij) as Cj.
  assert (Hfam' : In fam fams) by (eapply Permutation_in; [apply Permutation_sym; exact Hf|exact Hfam]).
  pose proof (inv_calls R P oo o cs) as I.
  assert (Hft : In (fm_id fam, t) (fam_terms fams)) by (unfold fam_terms; apply in_flat_map; exists fam; split; auto; apply in_map_iff; eauto).
  destruct (term_ids R P _ I fams Hf _ Hft) as [T1 T2]. cbn [snd] in T1, T2.
  destruct (idx_of_cell R P _ fams _ T1) as (u & Eu & Uu). destruct (idx_of_cell R P _ fams _ T2) as (v & Ev & Uv).
  rewrite <- (api_cell R P oo o cs subs fams Hs Hf uc Hu) in Eu, Ev.
  set (a := idx_of _ (t_from t)) in Eu. set (b := idx_of _ (t_to t)) in Ev.
  assert (La : a < length uc) by (apply nth_error_Some; congruence). assert (Lb : b < length uc) by (apply nth_error_Some; congruence).
  set (j := shifted_cell (shifted_cell i T) (t_rel t)) in *.
  exists bs, T, (number valid (place size i a), number valid (place size j b)). split; [exact EB|]. split; [exact WT|]. split.
  - exists i, a, b, u, v. fold j. repeat (split; [assumption|]). split; [apply Hw; auto|]. split; [apply Hw; auto|reflexivity].
  - intros bd f Hbd ES Hin. destruct (proj1 (EX T f _) (ex_intro _ bd (conj Hbd (conj ES Hin)))) as (_ & fam' & t' & i' & _ & _ & _ & ED & (a' & b' & u' & v' & Ci' & Cj' & Ea' & _ & _ & _ & Fa' & _ & Epq)).
    injection Epq as E1 _.
    assert (La' : a' < length uc) by (apply nth_error_Some; congruence).
    assert (Q : place size i a = place size i' a').
    { apply (number_inj valid); [|exact Fa'|exact E1]. apply (proj2 (Hw i a Ci La) Ii). }
    apply (place_bij size (length uc)) in Q; auto. destruct Q as [<- _]. exact (NE ED).
Qed.

(** Example: of the chain whose only bond skips a cell all image bonds are lost with a period of three
    cells; with a period of one cell the bond is kept. *)
Example C09_lost_example : boundaries_of (I3 5 1 1) skip_cell 1 (Sym (Some 3%Z) None None) [false; true; true; true; false] = Ok [] /\
  boundaries_of (I3 6 1 1) skip_cell 1 (Sym (Some 1%Z) None None) [false; false; true; false; false; false] = Ok [Bnd (I3 (-2) 0 0) (HB 1 [[(0, 0)]])].
Proof. split; vm_compute; reflexivity. Qed.
