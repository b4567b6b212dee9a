(* The Hamiltonian of a system whose period is one unit cell, straight from the hopping terms. *)
From Verif Require Import Base Rle Blocks Foundation Scalar Lattice LatticeSpec PropsLattice FoundationSpec PopulateFacts PropsFoundation
  Symmetry SymmetrySpec Hamiltonian HamiltonianSpec HamFacts HamCor SystemBuild PropsHamiltonian BulkSpec BulkProofs BlochProofs PropsBloch ModsProofs.
From Coq Require Import Permutation.

(** Terms from sublattice [a] to sublattice [b], each with the phase [ph] of the translation that
    brings the image of [b] home. *)
Definition term_sum {K : scalar} (nt : ntype K) (fams : list (family K)) (ph : idx3 -> K) (a p b q : nat) : K :=
  ksum (fun f => ksum (fun t => if (a =? t_from t) && (b =? t_to t) then kmul (nt_cast nt (m_at (fm_energy f) p q)) (ph (opposite (t_rel t))) else k0) (fm_terms f)) fams.

Section Sum.
  Variable K : scalar.
  Add Ring Kr : (k_ring K).
  Lemma k_regroup : forall a b c d e : K, kadd (kadd a (kadd b c)) (kadd d e) = kadd a (kadd (kadd b d) (kadd c e)).
  Proof. intros. ring. Qed.
  Lemma ksum_pick : forall (f : idx3 -> K) l t, NoDup l -> In t l -> ksum (fun x => if eqb3 x t then f x else k0) l = f t.
  Proof.
    intros f l t. induction l as [|x l IH]; intros ND HI; [destruct HI|]. rewrite ksum_cons. inversion ND as [|? ? N1 N2]; subst.
    destruct HI as [->|HI].
    - rewrite (proj2 (eqb3_eq t t) eq_refl). rewrite ksum_0; [ring|]. intros y Hy. destruct (eqb3 y t) eqn:E; [|reflexivity]. apply eqb3_eq in E. subst. contradiction.
    - destruct (eqb3 x t) eqn:E; [apply eqb3_eq in E; subst; contradiction|]. rewrite IH by assumption. ring.
  Qed.
  Lemma ksum_none : forall (f : idx3 -> K) l t, ~ In t l -> ksum (fun x => if eqb3 x t then f x else k0) l = k0.
  Proof. intros f l t H. apply ksum_0. intros x Hx. destruct (eqb3 x t) eqn:E; [|reflexivity]. apply eqb3_eq in E. subst. contradiction. Qed.
End Sum.

Section OneCell.
  Variable K : scalar.
  Add Ring Krg : (k_ring K).
  Variable nt : ntype K.
  Variable fams : list (family K).

  Lemma hops_terms : forall s (ph : idx3 -> K) c a b p q Ts,
    nt_cast nt k0 = k0 -> NoDup Ts -> (forall T, In T Ts -> T <> zero3) ->
    (forall fam t, In fam fams -> In t (fm_terms fam) -> t_rel t = zero3 \/ whole_periods s (t_rel t)) ->
    (forall T fam t, whole_periods s T -> In fam fams -> In t (fm_terms fam) -> leads_to t (shifted_cell c T, a) (c, b) = true -> In T Ts) ->
    ph zero3 = k1 ->
    kadd (hops_to nt fams (c, a) p (c, b) q) (ksum (fun T => kmul (hops_to nt fams (shifted_cell c T, a) p (c, b) q) (ph T)) Ts)
    = term_sum nt fams ph a p b q.
  Proof.
    intros s ph c a b p q Ts H0 ND NZ HR HT P0. unfold hops_to, term_sum.
    assert (LT : forall t T, leads_to t (shifted_cell c T, a) (c, b) = ((a =? t_from t) && (b =? t_to t)) && eqb3 T (opposite (t_rel t))).
    { intros t T. unfold leads_to. cbn [fst snd]. f_equal. apply Bool.eq_true_iff_eq. rewrite !eqb3_eq. destruct c, T, (t_rel t). unfold shifted_cell, opposite. cbn.
      split; intros E; injection E; intros; f_equal; lia. }
    assert (L0 : forall t, leads_to t (c, a) (c, b) = ((a =? t_from t) && (b =? t_to t)) && eqb3 zero3 (opposite (t_rel t))).
    { intros t. rewrite <- LT. unfold shifted_cell, zero3. cbn. destruct c; cbn. rewrite !Z.add_0_r. reflexivity. }
    rewrite (ksum_ext _ _ (fun T => ksum (fun f => ksum (fun t => kmul (if leads_to t (shifted_cell c T, a) (c, b) then nt_cast nt (m_at (fm_energy f) p q) else k0) (ph T)) (fm_terms f)) fams))
      by (intros T _; rewrite <- ksum_mul_r; apply ksum_ext; intros f _; rewrite <- ksum_mul_r; reflexivity).
    rewrite ksum_swap. rewrite <- ksum_add. apply ksum_ext. intros f Hf. rewrite ksum_swap, <- ksum_add. apply ksum_ext. intros t Ht.
    rewrite L0. rewrite (ksum_ext _ _ (fun T => if eqb3 T (opposite (t_rel t)) then (if (a =? t_from t) && (b =? t_to t) then kmul (nt_cast nt (m_at (fm_energy f) p q)) (ph T) else k0) else k0)).
    2:{ intros T _. rewrite LT. destruct ((a =? t_from t) && (b =? t_to t)), (eqb3 T (opposite (t_rel t))); cbn [andb]; ring. }
    destruct ((a =? t_from t) && (b =? t_to t)) eqn:E; cbn [andb].
    - destruct (eqb3 zero3 (opposite (t_rel t))) eqn:EZ.
      + apply eqb3_eq in EZ. rewrite <- EZ, P0. rewrite (ksum_none _ (fun T => kmul _ (ph T))); [ring|]. intros C. apply (NZ _ C). reflexivity.
      + rewrite (ksum_pick _ (fun T => kmul (nt_cast nt (m_at (fm_energy f) p q)) (ph T))); [ring|exact ND|].
        apply (HT _ f t); auto.
        * destruct (HR f t Hf Ht) as [Z|(N & k1' & k2' & k3' & Z)].
          -- exfalso. rewrite Z in EZ. discriminate.
          -- split; [|exists (- k1')%Z, (- k2')%Z, (- k3')%Z; rewrite Z; unfold opposite; cbn [ix iy iz]; f_equal; ring].
             intros C. rewrite C in EZ. discriminate.
        * rewrite LT, E. apply eqb3_eq. reflexivity.
    - rewrite ksum_0; [ring|]. intros T _. destruct (eqb3 _ _); reflexivity.
  Qed.
End OneCell.

(** Everything the builder is given for a lattice whose periodic system has one unit cell: any
    iteration order of the lattice's maps, any block that holds the cell, any of its sites. *)
Record one_cell_system {R : scalar} {P : Type} (l : lattice R P) subs fams uc reg hreg size s (valid : list bool) (fpos : list P) cap : Prop := {
  oc_subs : Permutation subs (l_subs l);
  oc_fams : Permutation fams (l_fams l);
  oc_uc : unit_cell subs fams = Ok uc;
  oc_reg : site_registry subs = Ok reg;
  oc_hreg : hopping_registry fams = Ok hreg;
  oc_primary : forall x o, In x (l_subs l) -> In o (l_subs l) -> sb_uid o = sb_alias x -> primary o;
  oc_size : positive_block size;
  oc_holds : block_holds_period size s;
  oc_valid : length valid = num_block_sites size (length uc);
  oc_in : forall i a, cell_of size i -> a < length uc -> flagged size valid (i, a) = true -> in_period size s i;
  oc_fpos : length fpos = num_block_sites size (length uc);
  oc_one : forall i j, cell_of size i -> cell_of size j -> in_period size s i -> in_period size s j -> i = j;
  oc_rel : forall fam t, In fam (l_fams l) -> In t (fm_terms fam) -> t_rel t = zero3 \/ whole_periods s (t_rel t);
  oc_short : forall fam t, In fam (l_fams l) -> In t (fm_terms fam) -> short_range s (t_rel t);
  oc_buffer : fits_buffer R (l_fams l) cap
}.

(** The element between two sublattices of the only cell: onsite energy, terms and their conjugates. *)
Theorem C43_one_cell :
  forall (R : scalar) (P : Type) offset_ok order (cs : list (lcall R P)) subs fams uc reg hreg size s valid fpos dflt shift nt cap,
  let l := calls offset_ok order cs in
  one_cell_system l subs fams uc reg hreg size s valid fpos cap -> nt_ok nt ->
  exists sys, build_system dflt size uc s shift reg hreg fpos valid = Ok sys /\
    forall unshift phase simple, nt_cast nt (phase (shift zero3)) = k1 ->
    exists m, ham_make cap nt sys [] [] unshift phase simple = Ok m /\
      forall n k x y sx sy, site_at size uc valid n x -> site_at size uc valid k y ->
      In sx (l_subs l) -> sb_uid sx = snd x -> In sy (l_subs l) -> sb_uid sy = snd y ->
      forall p q, p < m_rows (sb_energy sx) -> q < m_rows (sb_energy sy) ->
        let ph := fun T => nt_cast nt (phase (shift T)) in
        coeff m (row_of (hs_subs sys) n p) (row_of (hs_subs sys) k q)
        = kadd (if snd x =? snd y then nt_cast nt (m_at (sb_energy sx) p q) else k0)
            (kadd (term_sum nt (l_fams l) ph (snd x) p (snd y) q) (nt_conj nt (term_sum nt (l_fams l) ph (snd y) q (snd x) p))).
Proof.
  intros R P oo order cs subs fams uc reg hreg size s valid fpos dflt shift nt cap l [H1 H2 H3 H4 H5 H6 H7 H8 H9 H10 H11 HU HR H12 H14] H13.
  destruct (C43_images R P oo order cs subs fams uc reg hreg size s valid fpos dflt shift nt cap H1 H2 H3 H4 H5 H6 H7 H8 H9 H10 H11 H12 H13 H14) as (sys & ES & _ & _ & (Ts & HTs) & HAM).
  exists sys. split; [exact ES|]. intros unshift phase simple P0. destruct (HAM unshift phase simple) as (m & EM & EL). exists m. split; [exact EM|].
  intros n k [c a] [d b] sx sy S1 S2 S3 S4 S5 S6 p q Hp Hq ph. cbn [fst snd] in *.
  destruct (HTs (c, a) (d, b) n k S1 S2) as [HT _]. rewrite (EL n k (c, a) (d, b) sx sy S1 S2 S3 S4 S5 S6 Ts p q HT Hp Hq). cbn [fst snd].
  assert (CD : d = c).
  { destruct S1 as (i1 & A1 & A2 & A3 & _). destruct S2 as (i2 & B1 & B2 & B3 & _). cbn [fst snd] in *.
    assert (L : forall i u, uid_at uc i = Some u -> i < length uc).
    { intros i u H. unfold uid_at in H. apply nth_error_Some. destruct (nth_error uc i); [discriminate|discriminate H]. }
    apply HU; [exact B1|exact A1|apply (H10 d i2 B1 (L _ _ B2) B3)|apply (H10 c i1 A1 (L _ _ A2) A3)]. }
  subst d.
  replace (n =? k) with (a =? b).
  2:{ apply Bool.eq_true_iff_eq. rewrite !Nat.eqb_eq. split; intros E.
      - subst b. destruct S1 as (i1 & A1 & A2 & A3 & A4). destruct S2 as (i2 & B1 & B2 & B3 & B4). cbn [fst snd] in *.
        unfold uid_at in A2, B2. destruct (nth_error uc i1) as [v|] eqn:E1; [|discriminate]. destruct (nth_error uc i2) as [w|] eqn:E2; [|discriminate].
        cbn in A2, B2. assert (i1 = i2) by (apply (ModsProofs.uid_inj R P oo order cs subs fams H1 H2 uc H3 i1 i2 v w E1 E2); congruence). congruence.
      - subst k. assert (EE : (c, a) = (c, b)) by (eapply site_at_inj; eassumption). congruence. }
  destruct H13 as (N1 & N2 & N3 & N4). destruct HT as (ND & HW & HA).
  assert (NZ : forall T, In T Ts -> T <> zero3) by (intros T HI; destruct (HW T HI); assumption).
  pose proof (hops_terms R nt (l_fams l) s ph c a b p q Ts N1 ND NZ HR ltac:(intros T fam t W F I L; apply (HA T fam t W F I); left; exact L) P0) as E1.
  pose proof (hops_terms R nt (l_fams l) s ph c b a q p Ts N1 ND NZ HR ltac:(intros T fam t W F I L; apply (HA T fam t W F I); right; exact L) P0) as E2.
  rewrite <- E1, <- E2. unfold bulk. rewrite ksum_add, N3.
  assert (CS : forall (g : idx3 -> R) L, nt_conj nt (ksum g L) = ksum (fun T => nt_conj nt (g T)) L).
  { intros g L. induction L as [|z L IH]; [exact N2|]. rewrite !ksum_cons, N3, IH. reflexivity. }
  rewrite CS. unfold ph.
  apply k_regroup.
Qed.
Print Assumptions C43_one_cell.
