(* Property theorem C103: band folding.  The energies of a supercell at a wave vector are the energies
   of the small cell at all wave vectors that agree with it on the supercell's periods.
   Model: as C102; specification: CrystalSpec.v and below; proofs: FoldingProofs.v. *)
From Coq Require Import Reals Lra Lia Permutation.
From Verif Require Import Base Rle Blocks Scalar Cplx Spectral MagneticProofs Foundation FoundationSpec Lattice LatticeSpec Symmetry SymmetrySpec Hamiltonian HamiltonianSpec
  SystemBuild PropsLattice PropsHamiltonian BulkSpec Materials MaterialsSpec PropsDirac PropsReciprocal CrystalSpec CrystalProofs CrystalWaves PropsCrystal FoldingProofs.
Local Open Scope R_scope.
Add Ring CXpf : (k_ring CX).

(** ** Specification *)
(** In each direction the long period is [c] short ones. *)
Definition folds (p1 p2 : option Z) (c : nat) : Prop :=
  (0 < c)%nat /\ period p2 = (Z.of_nat c * period p1)%Z /\ (p1 = None <-> p2 = None) /\ (p1 = None -> c = 1%nat).
Definition supercell (s1 s2 : sym) (c1 c2 c3 : nat) : Prop := folds (sy1 s1) (sy1 s2) c1 /\ folds (sy2 s1) (sy2 s2) c2 /\ folds (sy3 s1) (sy3 s2) c3.
(** Periodic directions belong to lattice vectors. *)
Definition along_vectors (vs : list vec3) (s : sym) : Prop :=
  (sy1 s <> None -> (0 < length vs)%nat) /\ (sy2 s <> None -> (1 < length vs)%nat) /\ (sy3 s <> None -> (2 < length vs)%nat).
(** The wave vector [k] plus fractions of the reciprocal vectors: [g] of the [n] parts that the period
    of [n] cells makes of each of them. *)
Definition part (p : option Z) (g : nat) : R := match p with None => 0 | Some _ => INR g / IZR (period p) end.
Definition folded (bs : list vec3) (s2 : sym) (k : vec3) (g1 g2 g3 : nat) : vec3 :=
  vadd k (vadd (vscale (part (sy1 s2) g1) (nth 0 bs v0)) (vadd (vscale (part (sy2 s2) g2) (nth 1 bs v0)) (vscale (part (sy3 s2) g3) (nth 2 bs v0)))).

(** ** Proofs *)
Lemma part_period : forall p g, (p = None -> g = 0%nat) -> part p g = INR g / IZR (period p).
Proof. intros [n|] g H; [reflexivity|]. rewrite (H eq_refl). cbn. unfold Rdiv. ring. Qed.
Definition twist3 (s2 : sym) (ph : idx3 -> CX) (g1 g2 g3 : nat) : idx3 -> CX :=
  twist (twist (twist ph ix (period (sy1 s2)) g1) iy (period (sy2 s2)) g2) iz (period (sy3 s2)) g3.

Lemma dot_corner : forall vs bs i T, dual vs bs -> (i < length vs)%nat -> (i < 3)%nat ->
  dot (nth i bs v0) (corner vs T) = 2 * PI * IZR (nth i [ix T; iy T; iz T] 0%Z).
Proof.
  intros vs bs i T [L D] Hi H3.
  assert (D' : forall j, dot (nth i bs v0) (nth j vs v0) = if (i =? j)%nat then 2 * PI else 0).
  { intros j. destruct (le_lt_dec (length vs) j) as [Hj|Hj]; [|apply D; assumption]. rewrite (nth_overflow vs) by exact Hj. rewrite dot_v0. destruct (Nat.eqb_spec i j); [lia|reflexivity]. }
  unfold corner. rewrite !dot_vadd, !dot_vscale, !D'. destruct i as [|[|[|i]]]; [| | |lia]; cbn [Nat.eqb nth]; ring.
Qed.
Lemma plane_wave_expi : forall k d, plane_wave k d = expi (dot k d). Proof. reflexivity. Qed.
Lemma twist_folded : forall vs bs s2 k g1 g2 g3 T, dual vs bs -> along_vectors vs s2 ->
  (sy1 s2 = None -> g1 = 0%nat) -> (sy2 s2 = None -> g2 = 0%nat) -> (sy3 s2 = None -> g3 = 0%nat) ->
  twist3 s2 (fun T => plane_wave k (corner vs T)) g1 g2 g3 T = plane_wave (folded bs s2 k g1 g2 g3) (corner vs T).
Proof.
  intros vs bs s2 k g1 g2 g3 T D (A1 & A2 & A3) N1 N2 N3. unfold twist3, twist. rewrite !plane_wave_expi, !expi_add. f_equal.
  unfold folded. rewrite (dot_comm (vadd _ _)), !dot_vadd, !dot_vscale, !(dot_comm (corner vs T)).
  assert (X : forall p g i, (p = None -> g = 0%nat) -> (p <> None -> (i < length vs)%nat) -> (i < 3)%nat ->
    part p g * dot (nth i bs v0) (corner vs T) = 2 * PI * (INR g * IZR (nth i [ix T; iy T; iz T] 0%Z) / IZR (period p))).
  { intros p g i Hn Hl H3. destruct p as [n|].
    - rewrite (dot_corner vs bs i T D) by (try assumption; apply Hl; discriminate). unfold part, Rdiv. ring.
    - rewrite (Hn eq_refl). cbn [part INR]. unfold Rdiv. ring. }
  rewrite (X (sy1 s2) g1 0%nat N1 A1 ltac:(lia)), (X (sy2 s2) g2 1%nat N2 A2 ltac:(lia)), (X (sy3 s2) g3 2%nat N3 A3 ltac:(lia)). cbn [nth]. ring.
Qed.
Lemma phases_twist3 : forall s2 ph g1 g2 g3, phases ph -> phases (twist3 s2 ph g1 g2 g3).
Proof. intros. unfold twist3. repeat (apply phases_twist; [|intros [] []; reflexivity|reflexivity|intros []; reflexivity]). assumption. Qed.

Lemma twist_whole : forall ph w L g T k, w T = (k * L)%Z -> twist ph w L g T = ph T.
Proof.
  intros ph w L g T k E. unfold twist. rewrite E. destruct (Z.eq_dec L 0) as [->|NZ].
  - replace (2 * PI * (INR g * IZR (k * 0) / 0)) with 0 by (rewrite Z.mul_0_r; unfold Rdiv; ring). rewrite expi_0. ring.
  - replace (2 * PI * (INR g * IZR (k * L) / IZR L)) with (2 * PI * IZR (Z.of_nat g * k)); [rewrite expi_turn; ring|].
    rewrite !mult_IZR, <- INR_IZR_INZ. field. apply not_0_IZR. exact NZ.
Qed.
Lemma twist3_whole : forall s2 ph g1 g2 g3 T, some_periods s2 T -> twist3 s2 ph g1 g2 g3 T = ph T.
Proof.
  intros s2 ph g1 g2 g3 T H. apply some_periods_iff in H. destruct H as (k1 & k2 & k3 & ->). unfold twist3.
  rewrite (twist_whole _ iz _ g3 _ k3), (twist_whole _ iy _ g2 _ k2), (twist_whole _ ix _ g1 _ k1); reflexivity.
Qed.

Section Fold3.
  Context {P : Type}.
  Variable subs : list (sublattice CX P).
  Variable fams : list (family CX).
  Variable here : idx3 * nat -> Prop.
  Variable E : CX.
  Variables s1 s2 : sym.
  Variables c1 c2 c3 : nat.
  Hypothesis SC : supercell s1 s2 c1 c2 c3.
  Hypothesis HH : forall x T, some_periods s1 T -> here x -> here (moved_site x T).

  Lemma periods_inside : forall T, some_periods s2 T -> some_periods s1 T.
  Proof using SC.
    intros T H. destruct SC as ((_ & P1 & _) & (_ & P2 & _) & _ & P3 & _). apply some_periods_iff in H. destruct H as (k1 & k2 & k3 & ->). apply some_periods_iff.
    exists (k1 * Z.of_nat c1)%Z, (k2 * Z.of_nat c2)%Z, (k3 * Z.of_nat c3)%Z. rewrite P1, P2, P3. f_equal; ring.
  Qed.
  Lemma fold_states : forall ph, phases ph ->
    (exists psi, bloch_state subs fams s2 ph here E psi) <->
    exists g1 g2 g3, (g1 < c1)%nat /\ (g2 < c2)%nat /\ (g3 < c3)%nat /\ exists psi, bloch_state subs fams s1 (twist3 s2 ph g1 g2 g3) here E psi.
  Proof using SC HH.
    intros ph PH. split.
    - intros (psi & B). apply (state_bloch subs fams here E s2 ph psi) in B; [|apply PH].
      destruct SC as ((C1 & P1 & _ & Q1) & (C2 & P2 & _ & Q2) & C3 & P3 & _ & Q3).
      assert (PP : forall p c, (p = None -> c = 1%nat) -> (0 < period p)%Z \/ c = 1%nat) by (intros [n|] c H; [left; unfold period; lia|right; auto]).
      set (G1 := fun T => exists T0 k, some_periods s2 T0 /\ T = shifted_cell T0 (times k (I3 (period (sy1 s1)) 0 0))).
      set (G2 := fun T => exists T0 k, G1 T0 /\ T = shifted_cell T0 (times k (I3 0 (period (sy2 s1)) 0))).
      destruct (step subs fams here E (some_periods s2) ph psi (I3 (period (sy1 s1)) 0 0) c1 ix (period (sy1 s1)) PH) as (g1 & psi1 & L1 & S1); auto.
      { intros T HT. apply some_periods_iff in HT. destruct HT as (k1 & k2 & k3 & ->). exists k1. cbn [ix]. rewrite P1. reflexivity. }
      { apply some_periods_iff. exists 1%Z, 0%Z, 0%Z. unfold times. cbn [ix iy iz]. rewrite P1. f_equal; ring. }
      { intros x T H. apply HH; [|exact H]. apply some_periods_iff. exists T, 0%Z, 0%Z. unfold times. cbn [ix iy iz]. f_equal; ring. }
      rewrite <- P1 in S1.
      assert (PH1 : phases (twist ph ix (period (sy1 s2)) g1)) by (apply phases_twist; auto).
      destruct (step subs fams here E G1 _ psi1 (I3 0 (period (sy2 s1)) 0) c2 iy (period (sy2 s1)) PH1) as (g2 & psi2 & L2 & S2); auto.
      { intros T (T0 & k & HT & ->). apply some_periods_iff in HT. destruct HT as (k1 & k2 & k3 & ->). exists k2. unfold shifted_cell, times. cbn [ix iy iz]. rewrite P2. ring. }
      { exists (I3 0 (period (sy2 s2)) 0), 0%Z. split; [apply some_periods_iff; exists 0%Z, 1%Z, 0%Z; f_equal; ring|]. unfold times, shifted_cell. cbn [ix iy iz]. rewrite P2. f_equal; ring. }
      { intros x T H. apply HH; [|exact H]. apply some_periods_iff. exists 0%Z, T, 0%Z. unfold times. cbn [ix iy iz]. f_equal; ring. }
      rewrite <- P2 in S2.
      assert (PH2 : phases (twist (twist ph ix (period (sy1 s2)) g1) iy (period (sy2 s2)) g2)) by (apply phases_twist; auto).
      destruct (step subs fams here E G2 _ psi2 (I3 0 0 (period (sy3 s1))) c3 iz (period (sy3 s1)) PH2) as (g3 & psi3 & L3 & S3); auto.
      { intros T (T1 & k' & (T0 & k & HT & ->) & ->). apply some_periods_iff in HT. destruct HT as (k1 & k2 & k3 & ->). exists k3. unfold shifted_cell, times. cbn [ix iy iz]. rewrite P3. ring. }
      { exists (I3 0 0 (period (sy3 s2))), 0%Z. split; [exists (I3 0 0 (period (sy3 s2))), 0%Z; split; [apply some_periods_iff; exists 0%Z, 0%Z, 1%Z; f_equal; ring|]|];
          unfold times, shifted_cell; cbn [ix iy iz]; rewrite ?P3; f_equal; ring. }
      { intros x T H. apply HH; [|exact H]. apply some_periods_iff. exists 0%Z, 0%Z, T. unfold times. cbn [ix iy iz]. f_equal; ring. }
      rewrite <- P3 in S3. fold (twist3 s2 ph g1 g2 g3) in S3.
      exists g1, g2, g3. repeat (split; [assumption|]). exists psi3. apply state_bloch; [apply phases_twist3; exact PH|].
      destruct S3 as [R1 R2 R3 R4]. split; auto. intros x T q HT. apply R1. apply some_periods_iff in HT. destruct HT as (k1 & k2 & k3 & ->).
      exists (shifted_cell (shifted_cell zero3 (times k1 (I3 (period (sy1 s1)) 0 0))) (times k2 (I3 0 (period (sy2 s1)) 0))), k3. split.
      + exists (shifted_cell zero3 (times k1 (I3 (period (sy1 s1)) 0 0))), k2. split; [|reflexivity]. exists zero3, k1. split; [left; reflexivity|reflexivity].
      + unfold shifted_cell, times, zero3. cbn [ix iy iz]. f_equal; ring.
    - intros (g1 & g2 & g3 & _ & _ & _ & psi & [B1 B2 B3 B4]). exists psi. split; auto. intros x T q WT.
      rewrite <- (twist3_whole s2 ph g1 g2 g3 T (or_intror WT)). apply B1.
      destruct (periods_inside T (or_intror WT)) as [->|W']; [destruct WT as (X & _); congruence|exact W'].
  Qed.
End Fold3.

Lemma images_moved : forall {P} s size (uc : list (usite P)) valid x T, some_periods s T -> (exists n, image_site s size uc valid n x) -> exists n, image_site s size uc valid n (moved_site x T).
Proof.
  intros P s size uc valid x T HT (n & T0 & H0 & S). exists n, (shifted_cell T0 (opposite T)). split.
  - apply some_periods_add; [exact H0|apply some_periods_opposite; exact HT].
  - replace (moved_site (moved_site x T) (shifted_cell T0 (opposite T))) with (moved_site x T0); [exact S|].
    unfold moved_site. cbn [fst snd]. f_equal. destruct (fst x), T0, T. unfold shifted_cell, opposite. cbn. f_equal; lia.
Qed.
Lemma bloch_state_same : forall {R : scalar} {P} (subs : list (sublattice R P)) fams s ph ph' (here here' : idx3 * nat -> Prop) E psi,
  (forall x, here x <-> here' x) -> (forall T, ph T = ph' T) -> bloch_state subs fams s ph here E psi -> bloch_state subs fams s ph' here' E psi.
Proof.
  intros R P subs fams s ph ph' here here' E psi H HP [B1 (x & p & X1 & X2 & X3) B3 B4]. split.
  - intros x' T q WT. rewrite <- HP. apply B1. exact WT.
  - exists x, p. split; [apply H; exact X1|auto].
  - intros y q N. apply B3. intros HY. apply N, H, HY.
  - intros y q HY. apply B4, H, HY.
Qed.

(** Two systems of the same lattice with the same sites, one with short periods [s1] and one whose
    periods are [c1], [c2], [c3] short ones.  At every wave vector the eigenvalues of the large matrix
    are those of the small matrix at the wave vectors [folded]. *)
Theorem C103_folding :
  forall offset_ok order (cs : list (lcall CX vec3)) vs bs
    subs1 fams1 uc1 reg1 hreg1 size1 s1 valid1 fpos1 dflt1 cap1
    subs2 fams2 uc2 reg2 hreg2 size2 s2 valid2 fpos2 dflt2 cap2 c1 c2 c3,
  let l := calls offset_ok order cs in
  periodic_system l subs1 fams1 uc1 reg1 hreg1 size1 s1 valid1 fpos1 cap1 ->
  periodic_system l subs2 fams2 uc2 reg2 hreg2 size2 s2 valid2 fpos2 cap2 ->
  supercell s1 s2 c1 c2 c3 -> dual vs bs -> along_vectors vs s2 ->
  (forall x, (exists n, image_site s1 size1 uc1 valid1 n x) <-> exists n, image_site s2 size2 uc2 valid2 n x) ->
  exists sys1 sys2, build_system dflt1 size1 uc1 s1 (corner vs) reg1 hreg1 fpos1 valid1 = Ok sys1 /\
    build_system dflt2 size2 uc2 s2 (corner vs) reg2 hreg2 fpos2 valid2 = Ok sys2 /\
    forall unshift simple, exists H1 H2 : vec3 -> _,
      (forall k, ham_make cap1 complex_type sys1 [] [] unshift (plane_wave k) simple = Ok (H1 k)) /\
      (forall k, ham_make cap2 complex_type sys2 [] [] unshift (plane_wave k) simple = Ok (H2 k)) /\
      forall k E, matrix_energy (hamiltonian_size (hs_subs sys2)) (coeff (H2 k)) E <->
        exists g1 g2 g3, (g1 < c1)%nat /\ (g2 < c2)%nat /\ (g3 < c3)%nat /\
          matrix_energy (hamiltonian_size (hs_subs sys1)) (coeff (H1 (folded bs s2 k g1 g2 g3))) E.
Proof.
  intros oo order cs vs bs subs1 fams1 uc1 reg1 hreg1 size1 s1 valid1 fpos1 dflt1 cap1 subs2 fams2 uc2 reg2 hreg2 size2 s2 valid2 fpos2 dflt2 cap2 c1 c2 c3 l PS1 PS2 SC D AV SAME.
  destruct (C102_energies CX vec3 oo order cs subs1 fams1 uc1 reg1 hreg1 size1 s1 valid1 fpos1 dflt1 (corner vs) cap1 PS1) as (sys1 & ES1 & HE1).
  destruct (C102_energies CX vec3 oo order cs subs2 fams2 uc2 reg2 hreg2 size2 s2 valid2 fpos2 dflt2 (corner vs) cap2 PS2) as (sys2 & ES2 & HE2).
  exists sys1, sys2. split; [exact ES1|]. split; [exact ES2|]. intros unshift simple.
  set (get := fun cap (sys : hsys CX vec3) k => match ham_make cap complex_type sys [] [] unshift (plane_wave k) simple with Ok m => m | _ => [] end).
  exists (get cap1 sys1), (get cap2 sys2).
  assert (G1 : forall k, ham_make cap1 complex_type sys1 [] [] unshift (plane_wave k) simple = Ok (get cap1 sys1 k)).
  { intros k. destruct (HE1 unshift (plane_wave k) simple (plane_wave_phases k vs)) as (m & EM & _). unfold get. rewrite EM. reflexivity. }
  assert (G2 : forall k, ham_make cap2 complex_type sys2 [] [] unshift (plane_wave k) simple = Ok (get cap2 sys2 k)).
  { intros k. destruct (HE2 unshift (plane_wave k) simple (plane_wave_phases k vs)) as (m & EM & _). unfold get. rewrite EM. reflexivity. }
  split; [exact G1|]. split; [exact G2|]. intros k E.
  destruct (HE2 unshift (plane_wave k) simple (plane_wave_phases k vs)) as (m2 & EM2 & HM2). rewrite G2 in EM2. assert (get cap2 sys2 k = m2) as -> by congruence. rewrite HM2.
  set (here2 := fun x => exists n, image_site s2 size2 uc2 valid2 n x).
  assert (CL : forall x T, some_periods s1 T -> here2 x -> here2 (moved_site x T)).
  { intros x T HT HX. unfold here2 in *. apply SAME. apply images_moved; [exact HT|]. apply SAME. exact HX. }
  change (exists psi, bloch_state (l_subs (calls oo order cs)) (l_fams (calls oo order cs)) s2 (fun T => plane_wave k (corner vs T)) here2 E psi) with
    (exists psi, bloch_state (l_subs l) (l_fams l) s2 (fun T => plane_wave k (corner vs T)) here2 E psi).
  rewrite (fold_states (l_subs l) (l_fams l) here2 E s1 s2 c1 c2 c3 SC CL _ (plane_wave_phases k vs)).
  assert (ZG : forall p1 p2 c g, folds p1 p2 c -> (g < c)%nat -> p2 = None -> g = 0%nat).
  { intros p1 p2 c g (_ & _ & F3 & F4) Hg E2. assert (c = 1%nat) by (apply F4, F3, E2). lia. }
  assert (KEY : forall g1 g2 g3, (g1 < c1)%nat -> (g2 < c2)%nat -> (g3 < c3)%nat ->
    (exists psi, bloch_state (l_subs l) (l_fams l) s1 (twist3 s2 (fun T => plane_wave k (corner vs T)) g1 g2 g3) here2 E psi) <->
    matrix_energy (hamiltonian_size (hs_subs sys1)) (coeff (get cap1 sys1 (folded bs s2 k g1 g2 g3))) E).
  { intros g1 g2 g3 L1 L2 L3. destruct SC as (F1 & F2 & F3).
    pose proof (fun T => twist_folded vs bs s2 k g1 g2 g3 T D AV (ZG _ _ _ _ F1 L1) (ZG _ _ _ _ F2 L2) (ZG _ _ _ _ F3 L3)) as TW.
    destruct (HE1 unshift (plane_wave (folded bs s2 k g1 g2 g3)) simple (plane_wave_phases _ vs)) as (m1 & EM1 & HM1). rewrite G1 in EM1.
    assert (get cap1 sys1 (folded bs s2 k g1 g2 g3) = m1) as -> by congruence. rewrite HM1. fold l.
    split; intros (psi & B); exists psi; (eapply bloch_state_same; [| |exact B]).
    - intros x. symmetry. apply SAME.
    - intros T. apply TW.
    - intros x. apply SAME.
    - intros T. symmetry. apply TW. }
  split.
  - intros (g1 & g2 & g3 & L1 & L2 & L3 & B). exists g1, g2, g3. repeat (split; [assumption|]). apply KEY; assumption.
  - intros (g1 & g2 & g3 & L1 & L2 & L3 & B). exists g1, g2, g3. repeat (split; [assumption|]). apply KEY; assumption.
Qed.
Print Assumptions C103_folding.

(** Complete crystals have the same sites when the blocks agree in the directions without a period. *)
Theorem C103_complete :
  forall (R : scalar) (P : Type) offset_ok order (cs : list (lcall R P))
    subs1 fams1 uc1 reg1 hreg1 size1 s1 valid1 fpos1 cap1 subs2 fams2 uc2 reg2 hreg2 size2 s2 valid2 fpos2 cap2 c1 c2 c3,
  let l := calls offset_ok order cs in
  periodic_system l subs1 fams1 uc1 reg1 hreg1 size1 s1 valid1 fpos1 cap1 ->
  periodic_system l subs2 fams2 uc2 reg2 hreg2 size2 s2 valid2 fpos2 cap2 ->
  all_sites size1 s1 uc1 valid1 -> all_sites size2 s2 uc2 valid2 -> supercell s1 s2 c1 c2 c3 ->
  (sy1 s1 = None -> ix size1 = ix size2) -> (sy2 s1 = None -> iy size1 = iy size2) -> (sy3 s1 = None -> iz size1 = iz size2) ->
  forall x, (exists n, image_site s1 size1 uc1 valid1 n x) <-> exists n, image_site s2 size2 uc2 valid2 n x.
Proof.
  intros R P oo order cs subs1 fams1 uc1 reg1 hreg1 size1 s1 valid1 fpos1 cap1 subs2 fams2 uc2 reg2 hreg2 size2 s2 valid2 fpos2 cap2 c1 c2 c3 l PS1 PS2 A1 A2
    ((_ & _ & F1 & _) & (_ & _ & F2 & _) & _ & _ & F3 & _) E1 E2 E3 x.
  rewrite (all_images R P oo order cs subs1 fams1 uc1 reg1 hreg1 size1 s1 valid1 fpos1 cap1 PS1 A1), (all_images R P oo order cs subs2 fams2 uc2 reg2 hreg2 size2 s2 valid2 fpos2 cap2 PS2 A2).
  assert (SL : in_slab size1 s1 (fst x) <-> in_slab size2 s2 (fst x)); [|rewrite SL; reflexivity]. unfold in_slab. split; intros (X1 & X2 & X3); (split; [|split]); intros N.
  - apply F1 in N. rewrite <- E1 by exact N. auto.
  - apply F2 in N. rewrite <- E2 by exact N. auto.
  - apply F3 in N. rewrite <- E3 by exact N. auto.
  - rewrite E1 by exact N. apply X1, F1, N.
  - rewrite E2 by exact N. apply X2, F2, N.
  - rewrite E3 by exact N. apply X3, F3, N.
Qed.
Print Assumptions C103_complete.

(** The chain with one site per cell and hopping 1: with the period of two cells and no phase the
    matrix has the energies 2 and -2; the cell of one site has them at the wave vectors 0 and pi/a. *)
Definition chain1 := calls (fun _ : Z => true) (fun x => x)
  [AddSublattice (Nm 1) 0%Z (PropsLattice.energy1 (0, 0)%Z); AddHoppingEnergy (I3 1 0 0) (Nm 1) (Nm 1) (PropsLattice.energy1 (1, 0)%Z)].
Definition chain1_system (n : Z) (valid : list bool) : outcome (hsys GI Z) :=
  obind (unit_cell (l_subs chain1) (l_fams chain1)) (fun uc =>
  obind (site_registry (l_subs chain1)) (fun reg => obind (hopping_registry (l_fams chain1)) (fun hreg =>
  build_system 0%Z (I3 4 1 1) uc (Sym (Some n) None None) ix reg hreg (repeat 0%Z 4) valid))).
Definition sign_phase (g : bool) (z : Z) : Z * Z := if g && Z.odd z then (-1, 0)%Z else (1, 0)%Z.
Example C103_example :
  dense 2 (obind (chain1_system 2 [false; true; true; false]) (fun sys => ham_make 100 complex_type sys [] [] Z.sub (sign_phase false) true)) = [[(0, 0); (2, 0)]; [(2, 0); (0, 0)]]%Z /\
  dense 1 (obind (chain1_system 1 [false; true; false; false]) (fun sys => ham_make 100 complex_type sys [] [] Z.sub (sign_phase false) true)) = [[(2, 0)]]%Z /\
  dense 1 (obind (chain1_system 1 [false; true; false; false]) (fun sys => ham_make 100 complex_type sys [] [] Z.sub (sign_phase true) true)) = [[(-2, 0)]]%Z.
Proof. vm_compute. repeat split; reflexivity. Qed.
Example C103_example_fold :
  supercell (Sym (Some 1%Z) None None) (Sym (Some 2%Z) None None) 2 1 1 /\
  folded [(2 * PI, 0, 0)] (Sym (Some 2%Z) None None) (0, 0, 0) 1 0 0 = (PI, 0, 0) /\ dual [(1, 0, 0)] [(2 * PI, 0, 0)].
Proof.
  split; [|split].
  - unfold supercell, folds. cbn. repeat split; try lia; try discriminate; auto.
  - unfold folded, part, vadd, vscale, vx, vy, vz. cbn. f_equal; [f_equal|]; field.
  - split; [reflexivity|]. intros i j Hi Hj. cbn in Hi, Hj. destruct i; [|lia]. destruct j; [|lia]. cbn. unfold dot, vx, vy, vz. cbn [fst snd]. ring.
Qed.
