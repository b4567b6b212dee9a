(* C75: the band structure of a lead.  Model: LeadBands.v, Leads.v; specification: BulkSpec.v. *)
From Coq Require Import Reals Lra Permutation Lia.
From Verif Require Import Base Rle RleProofs Blocks Scalar Foundation FoundationSpec Lattice LatticeSpec PropsLattice
  Hamiltonian HamiltonianSpec SystemBuild HamApi HamCor PropsFoundation Leads LeadsSpec LeadAttach LeadStruct BulkSpec BulkProofs LeadHam LeadCor BlochProofs PropsLeads
  Cplx Spectral MagneticProofs MassProofs MaterialsProofs PropsReciprocal LeadBands.
Local Open Scope nat_scope.

(** ** Specification *)
(** A Bloch phase per lead cell, as [exp(i k T)]. *)
Definition phases {R : scalar} (ph : Z -> R) : Prop := ph 0%Z = k1 /\ (forall T, kconj (ph T) = ph (- T)%Z) /\ forall S T, ph (S + T)%Z = kmul (ph S) (ph T).
(** The site [T] lead cells away. *)
Definition along {P} (l : lead P) (T : Z) (x : idx3 * nat) : idx3 * nat := (shifted_cell (fst x) (unit3 (lead_axis l) (lead_sign l * T)), snd x).
(** [Ts] holds every distance over which the lattice bonds [x] and [y]. *)
Definition reaches {R : scalar} {P} (lat : lattice R P) (l : lead P) (x y : idx3 * nat) (Ts : list Z) : Prop :=
  NoDup Ts /\ forall T fam t, In fam (l_fams lat) -> In t (fm_terms fam) ->
    leads_to t (along l T x) y = true \/ leads_to t y (along l T x) = true -> In T Ts.
(** The matrix of [calc_bands] is the Bloch Hamiltonian of the lead that repeats the contact sites
    of the bulk lattice for ever. *)
Definition bands_of_bulk {R : scalar} {P} (lat : lattice R P) size uc (l : lead P) (is_contact : idx3 -> nat -> Prop) valid' (s : lead_structure P) m0 m1 : Prop :=
  forall j k c c' x y, is_contact (fst c) (snd c) -> is_contact (fst c') (snd c') ->
    nth_error (lt_indices s) j = Some (site_number size valid' c) -> nth_error (lt_indices s) k = Some (site_number size valid' c') ->
    lattice_site P uc c x -> lattice_site P uc c' y ->
    exists sx sy, In sx (l_subs lat) /\ sb_uid sx = snd x /\ In sy (l_subs lat) /\ sb_uid sy = snd y /\
      forall p q Ts ph, p < m_rows (sb_energy sx) -> q < m_rows (sb_energy sy) -> phases ph -> reaches lat l x y Ts ->
        lead_bloch m0 m1 (ph 1%Z) (ph (-1)%Z) (row_of (lt_subs s) j p) (row_of (lt_subs s) k q)
        = kadd (if j =? k then m_at (sb_energy sx) p q else k0) (ksum (fun T => kmul (ph T) (bulk complex_type (l_fams lat) (along l T x) p y q)) Ts).

(** Full claim: for every lead whose matrices follow the bulk (C35). *)
Definition C75_claim_with (short : forall (R : scalar) (P : Type), lattice R P -> lead P -> Prop) : Prop :=
  forall (R : scalar) (P : Type) offset_ok order (cs : list (lcall R P)) subs fams uc size lower fpos l inside valid valid' reg hreg cap,
  let lat := calls offset_ok order cs in
  Permutation subs (l_subs lat) -> Permutation fams (l_fams lat) -> unit_cell subs fams = Ok uc ->
  positive_block size -> length fpos = num_block_sites size (length uc) -> lead_axis l < 3 -> (lead_sign l = 1 \/ lead_sign l = -1)%Z -> overlaps size lower l ->
  (forall ps, lead_contains l ps = map inside ps) -> length valid = num_block_sites size (length uc) ->
  create_attachment_area size lower uc fpos l valid = Ok valid' ->
  site_registry subs = Ok reg -> hopping_registry fams = Ok hreg ->
  (forall s o, In s (l_subs lat) -> In o (l_subs lat) -> sb_uid o = sb_alias s -> primary o) ->
  (forall fam, In fam (l_fams lat) -> mat_size (fm_energy fam) <= cap) ->
  (forall fam, In fam (l_fams lat) -> self_adjoint complex_type (fm_energy fam)) -> short R P lat l ->
  forall padd dflt shift, exists fi s m0 m1,
    finalized_indices size uc (length (l_fams lat)) valid' = Ok fi /\
    make_structure size lower uc fpos padd dflt (length (l_fams lat)) (fst (fst fi)) shift l valid' = Ok s /\
    lead_h0 R P cap complex_type (lead_system R P (map entry_of reg) (map entry_of hreg) shift s) [] [] = Ok m0 /\
    (forall unshift, lead_h1 R P cap complex_type (lead_system R P (map entry_of reg) (map entry_of hreg) shift s) [] unshift = Ok m1) /\
    bands_of_bulk lat size uc l (contact size lower uc fpos l inside valid') valid' s m0 m1.
Definition C75_claim : Prop := C75_claim_with (fun _ _ _ _ => True).

(** False: hoppings over two lead cells are dropped.  Chain with hopping energy 1 to the second
    neighbour: the matrix is zero, the Bloch Hamiltonian at k = 0 is 2. *)
Definition long_calls : list (lcall GI nat) :=
  [AddSublattice (Nm 1) 0 (energy1 (0, 0)%Z); AddHoppingEnergy (I3 2 0 0) (Nm 1) (Nm 1) (energy1 (1, 0)%Z)].
Definition long := calls (fun _ : nat => true) (fun x => x) long_calls.
Definition long_cell := match unit_cell (l_subs long) (l_fams long) with Ok uc => uc | _ => [] end.
Definition long_reg := match site_registry (l_subs long) with Ok r => r | _ => [] end.
Definition long_hreg := match hopping_registry (l_fams long) with Ok r => r | _ => [] end.
Lemma one_phases : phases (R := GI) (fun _ => (1, 0)%Z).
Proof. split; [reflexivity|]. split; reflexivity. Qed.
Theorem C75_long_hops_refuted : ~ C75_claim.
Proof.
  intros H.
  assert (PB : positive_block (I3 3 1 1)) by (split; [reflexivity|split; reflexivity]).
  assert (FI : exists fi, finalized_indices (I3 3 1 1) long_cell (length (l_fams long)) (repeat true 3) = Ok fi /\
     exists s, make_structure (I3 3 1 1) (I3 0 0 0) long_cell (seq 0 3) Nat.add 0 (length (l_fams long)) (fst (fst fi)) 0 (twisted_lead 1) (repeat true 3) = Ok s /\
       lt_indices s = [2%Z] /\ lt_subs s = [Elem 0 1 1] /\ exists m0 m1,
       lead_h0 GI nat 100 complex_type (lead_system GI nat (map entry_of long_reg) (map entry_of long_hreg) 0 s) [] [] = Ok m0 /\
       lead_h1 GI nat 100 complex_type (lead_system GI nat (map entry_of long_reg) (map entry_of long_hreg) 0 s) [] Nat.sub = Ok m1 /\
       lead_bloch m0 m1 (1, 0)%Z (1, 0)%Z 0 0 = (0, 0)%Z).
  { eexists. split; [vm_compute; reflexivity|]. eexists. split; [vm_compute; reflexivity|]. split; [reflexivity|]. split; [reflexivity|].
    eexists. eexists. split; [reflexivity|]. split; [reflexivity|]. vm_compute. reflexivity. }
  destruct FI as (fi & F & s & ES & EI & ED & m0 & m1 & E0 & E1 & EC).
  assert (CT : contact (I3 3 1 1) (I3 0 0 0) long_cell (seq 0 3) (twisted_lead 1) (fun _ => true) (repeat true 3) (I3 2 0 0) 0).
  { split; [unfold cell_of; cbn; lia|]. split; [vm_compute; lia|]. split.
    - split; [|exists 1; split; reflexivity]. intros b Hb Nb. cbn in Nb. unfold box_lo, box_hi. destruct b as [|[|[|b]]]; cbn; lia.
    - exists 0%Z. split; [|reflexivity]. split.
      + exists (I3 2 0 0), 0. split; [unfold cell_of; cbn; lia|]. split; [vm_compute; lia|]. split; [|split; reflexivity].
        intros b Hb Nb. cbn in Nb. unfold box_lo, box_hi. destruct b as [|[|[|b]]]; cbn; lia.
      + intros [x y z] a Hi _ _ _. unfold cell_of in Hi. cbn [ix iy iz] in Hi. change (0 <= 3 - 1 - x)%Z. lia. }
  assert (LS : lattice_site nat long_cell (I3 2 0 0, 0) (I3 2 0 0, 0)) by (split; reflexivity).
  destruct (H GI nat (fun _ => true) (fun x => x) long_calls (l_subs long) (l_fams long) long_cell (I3 3 1 1) (I3 0 0 0) (seq 0 3) (twisted_lead 1)
    (fun _ => true) (repeat true 3) (repeat true 3) long_reg long_hreg 100 (Permutation_refl _) (Permutation_refl _) eq_refl PB eq_refl
    ltac:(cbn; lia) ltac:(left; reflexivity) ltac:(unfold overlaps, box_lo, box_hi, axis_len; cbn; lia) ltac:(reflexivity) eq_refl ltac:(vm_compute; reflexivity) eq_refl eq_refl
    ltac:(intros x o [<-|[]] [<-|[]] _; reflexivity) ltac:(intros fam [<-|[]]; cbn; lia)
    ltac:(intros fam [<-|[]]; split; [reflexivity|intros; reflexivity]) I
    Nat.add 0 0) as (fi' & s' & m0' & m1' & F' & ES' & E0' & E1' & BB).
  specialize (E1' Nat.sub). change (calls (fun _ : nat => true) (fun x => x) long_calls) with long in *.
  assert (fi' = fi) by congruence. subst fi'. assert (s' = s) by congruence. subst s'. assert (m0' = m0) by congruence. subst m0'. assert (m1' = m1) by congruence. subst m1'.
  destruct (BB 0 0 (I3 2 0 0, 0) (I3 2 0 0, 0) (I3 2 0 0, 0) (I3 2 0 0, 0) CT CT) as (sx & sy & S1 & S2 & S4 & S5 & EL); auto.
  - rewrite EI. vm_compute. reflexivity.
  - rewrite EI. vm_compute. reflexivity.
  - rewrite ED in *. destruct S1 as [<-|[]]. destruct S4 as [<-|[]].
    specialize (EL 0 0 [-2; 2]%Z (fun _ => (1, 0)%Z) ltac:(cbn; lia) ltac:(cbn; lia) one_phases).
    assert (RC : reaches long (twisted_lead 1) (I3 2 0 0, 0) (I3 2 0 0, 0) [-2; 2]%Z).
    { split; [repeat constructor; cbn; intuition lia|]. intros T fam t Hf Ht HL.
      assert (TR : t_rel t = I3 2 0 0) by (destruct Hf as [<-|[]]; destruct Ht as [<-|[]]; reflexivity).
      destruct HL as [L|L]; apply leads_to_iff in L; destruct L as (_ & _ & L); rewrite TR in L; apply (f_equal ix) in L;
      unfold along, shifted_cell, unit3, twisted_lead in L; cbn [fst snd lead_axis lead_sign ix] in L; cbn [In]; lia. }
    specialize (EL RC). cbv beta in EL. change (row_of [Elem 0 1 1] 0 0) with 0 in EL. rewrite EC in EL. vm_compute in EL. discriminate.
Qed.
Print Assumptions C75_long_hops_refuted.

(** ** Proof for nearest cells *)
Definition nearest_cells (R : scalar) (P : Type) (lat : lattice R P) (l : lead P) : Prop :=
  forall fam t, In fam (l_fams lat) -> In t (fm_terms fam) -> (-1 <= comp3 (lead_axis l) (t_rel t) <= 1)%Z.

Section Bulk.
  Variable R : scalar.
  Add Ring Rr : (k_ring R).
  Lemma bulk_conj : forall (fams : list (family R)) x p y q, kconj (bulk complex_type fams y q x p) = bulk complex_type fams x p y q.
  Proof. intros. unfold bulk. cbn [nt_conj complex_type]. rewrite kconj_add, kconj_conj. ring. Qed.
  Lemma bulk_shift : forall (fams : list (family R)) x p y q x' y', snd x' = snd x -> snd y' = snd y ->
    (ix (fst y') - ix (fst x') = ix (fst y) - ix (fst x))%Z -> (iy (fst y') - iy (fst x') = iy (fst y) - iy (fst x))%Z -> (iz (fst y') - iz (fst x') = iz (fst y) - iz (fst x))%Z ->
    bulk complex_type fams x' p y' q = bulk complex_type fams x p y q.
  Proof. intros fams x p y q x' y' H1 H2 H3 H4 H5. rewrite !bulk_goes. cbv zeta. rewrite H1, H2, H3, H4, H5. reflexivity. Qed.
  Lemma bulk_none : forall (fams : list (family R)) x p y q,
    (forall fam t, In fam fams -> In t (fm_terms fam) -> leads_to t x y = false /\ leads_to t y x = false) -> bulk complex_type fams x p y q = k0.
  Proof.
    intros fams x p y q H. unfold bulk, hops_to. cbn [nt_conj complex_type].
    rewrite (ksum_0 R _ fams), (ksum_0 R _ fams), kconj_0; [ring| |]; intros f Hf; apply ksum_0; intros t Ht; destruct (H f t Hf Ht) as [Q1 Q2]; rewrite ?Q1, ?Q2; reflexivity.
  Qed.
End Bulk.

Lemma contact_axis : forall P size lower (uc : list (usite P)) fpos l inside valid i a j b, lead_axis l < 3 ->
  contact size lower uc fpos l inside valid i a -> contact size lower uc fpos l inside valid j b -> comp3 (lead_axis l) i = comp3 (lead_axis l) j.
Proof.
  intros P size lower uc fpos l inside valid i a j b HA (C1 & C2 & C3 & d & (S1 & S2) & D1) (K1 & K2 & K3 & e & (T1 & T2) & D2).
  assert (DE : d = e).
  { destruct S1 as (i1 & a1 & X1 & X2 & X3 & X4 & X5). destruct T1 as (i2 & a2 & Y1 & Y2 & Y3 & Y4 & Y5).
    pose proof (S2 i2 a2 Y1 Y2 Y3 Y5). pose proof (T2 i1 a1 X1 X2 X3 X5). lia. }
  rewrite DE, <- D2 in D1. unfold depth in D1. destruct (lead_sign l <? 0)%Z; lia.
Qed.

Theorem C75_partial : C75_claim_with nearest_cells.
Proof.
  intros R P oo order cs subs fams uc size lower fpos l inside valid valid' reg hreg cap lat H1 H2 H3 H4 H5 H6 HS H7 H8 H9 H10 H11 H12 H13 H14 H15 NC padd dflt shift.
  destruct (C35_lead_is_bulk_partial R P oo order cs subs fams uc size lower fpos l inside valid valid' reg hreg complex_type cap H1 H2 H3 H4 H5 H6 H7 H8 H9 H10 H11 H12 H13
    (HamCor.complex_ok R) H14 (fun fam t c c' x y Hf _ _ _ _ _ _ => H15 fam Hf) padd dflt shift) as (fi & s & m0 & m1 & F & ES & E0 & E1 & FB).
  exists fi, s, m0, m1. split; [exact F|]. split; [exact ES|]. split; [exact E0|]. split; [exact E1|].
  intros j k c c' x y C1 C2 N1 N2 L1 L2.
  destruct (FB j k c c' x y C1 C2 N1 N2 L1 L2) as (sx & sy & X1 & X2 & X3 & Y1 & Y2 & Y3 & EL).
  destruct (FB k j c' c y x C2 C1 N2 N1 L2 L1) as (sy' & sx' & Y1' & Y2' & Y3' & X1' & X2' & X3' & EL').
  exists sx, sy. split; [exact X1|]. split; [exact X2|]. split; [exact Y1|]. split; [exact Y2|]. intros p q Ts ph Hp Hq (P0 & P1 & P2) [ND RC].
  destruct (EL p q Hp Hq) as [A0 A1]. destruct (EL' q p ltac:(congruence) ltac:(congruence)) as [_ B1].
  unfold lead_bloch. rewrite A0, A1, B1. cbn [nt_cast complex_type]. fold lat. 
  assert (AX : comp3 (lead_axis l) (fst x) = comp3 (lead_axis l) (fst y)).
  { destruct L1 as [-> _]. destruct L2 as [-> _]. exact (contact_axis P size lower uc fpos l inside valid' _ _ _ _ H6 C1 C2). }
  assert (BT : forall T, along l T x = along l T x) by reflexivity.
  assert (SUP : ksum (fun T => kmul (ph T) (bulk complex_type (l_fams lat) (along l T x) p y q)) Ts =
                ksum (fun T => kmul (ph T) (bulk complex_type (l_fams lat) (along l T x) p y q)) [0; 1; -1]%Z).
  { assert (Z0 : forall T Us, (forall T fam t, In fam (l_fams lat) -> In t (fm_terms fam) -> leads_to t (along l T x) y = true \/ leads_to t y (along l T x) = true -> In T Us) ->
        ~ In T Us -> kmul (ph T) (bulk complex_type (l_fams lat) (along l T x) p y q) = k0).
    { intros T Us HU NI. rewrite bulk_none; [apply kmul_0_r|]. intros fam t Hf Ht. 
      split; [destruct (leads_to t (along l T x) y) eqn:Q|destruct (leads_to t y (along l T x)) eqn:Q]; try reflexivity; exfalso; apply NI; apply (HU T fam t Hf Ht); auto. }
    apply (ksum_support R Z.eq_dec); [exact ND|repeat constructor; cbn; intuition lia|intros T _ NI|intros T _ NI].
    - apply (Z0 T [0; 1; -1]%Z); [|exact NI]. intros T' fam t Hf Ht HL. pose proof (NC fam t Hf Ht) as HR.
      assert (Q : (lead_sign l * T' = - comp3 (lead_axis l) (t_rel t) \/ lead_sign l * T' = comp3 (lead_axis l) (t_rel t))%Z).
      { destruct HL as [HL|HL]; apply leads_to_iff in HL; destruct HL as (_ & _ & HL); destruct x as [[x1 x2 x3] xa], y as [[y1 y2 y3] ya], (t_rel t) as [r1 r2 r3];
          unfold along, shifted_cell in HL; cbn [fst snd] in *; unfold unit3, comp3 in *; destruct (lead_axis l) as [|[|[|n]]]; cbn [ix iy iz] in *; injection HL; intros; lia. }
      cbn [In]. destruct HS as [HS|HS]; rewrite HS in Q; lia.
    - apply (Z0 T Ts); [exact RC|exact NI]. }
  rewrite SUP. rewrite !ksum_cons, ksum_nil, P0.
  assert (U1 : (shifted_cell (fst x) (unit3 (lead_axis l) (lead_sign l)), snd x) = along l 1 x) by (unfold along; rewrite Z.mul_1_r; reflexivity).
  rewrite U1.
  assert (U0 : bulk complex_type (l_fams lat) (along l 0 x) p y q = bulk complex_type (l_fams lat) x p y q).
  { apply bulk_shift; try reflexivity; unfold along; rewrite Z.mul_0_r; unfold shifted_cell, unit3; cbn [fst snd]; destruct (lead_axis l) as [|[|[|n]]]; cbn; lia. }
  assert (Um : kconj (bulk complex_type (l_fams lat) (shifted_cell (fst y) (unit3 (lead_axis l) (lead_sign l)), snd y) q x p) = bulk complex_type (l_fams lat) (along l (-1) x) p y q).
  { rewrite bulk_conj. apply bulk_shift; try reflexivity; unfold along, shifted_cell, unit3; cbn [fst snd]; destruct (lead_axis l) as [|[|[|n]]]; cbn [ix iy iz]; lia. }
  rewrite U0, Um. clear.
  generalize (if j =? k then m_at (sb_energy sx) p q else k0). generalize (bulk complex_type (l_fams lat) x p y q). generalize (bulk complex_type (l_fams lat) (along l 1 x) p y q).
  generalize (bulk complex_type (l_fams lat) (along l (-1) x) p y q). intros a b d e. destruct (k_ring R) as [r1 r2 r3 r4 r5 r6 r7 r8 r9].
  rewrite !r4. change (kadd (kadd (kadd e d) (kmul b (ph 1%Z))) (kmul a (ph (-1)%Z)) = kadd e (kadd d (kadd (kmul (ph 1%Z) b) (kadd (kmul (ph (-1)%Z) a) k0)))).
  rewrite (r5 b), (r5 a), <- !r3. rewrite (r2 _ k0), r1. reflexivity.
Qed.
Print Assumptions C75_partial.

(** ** The matrix at wave number [k], in units of the inverse lead period *)
Local Open Scope R_scope.
Add Ring CXlb : (k_ring CX).
Definition band_matrix (m0 m1 : sparse CX) (k : R) : nat -> nat -> CX := lead_bloch m0 m1 (expi k) (expi (- k)).

(** [exp(i k T)] is a phase in the sense of C75_partial. *)
Theorem C75_phases : forall k, phases (R := CX) (fun T => expi (k * IZR T)) /\ expi (k * IZR 1) = expi k /\ expi (k * IZR (-1)) = expi (- k).
Proof.
  intros k. split; [|split; f_equal; ring]. split; [rewrite Rmult_0_r; apply expi_0|]. split.
  - intros T. rewrite opp_IZR. replace (k * - IZR T) with (- (k * IZR T)) by ring. rewrite expi_neg. reflexivity.
  - intros S T. rewrite plus_IZR. replace (k * (IZR S + IZR T)) with (k * IZR S + k * IZR T) by ring. rewrite expi_add. reflexivity.
Qed.
Print Assumptions C75_phases.

(** It is Hermitian at every [k] when [h0] is, for any [h1]; it repeats with period 2 pi; with real
    matrices it is conjugated when [k] changes sign. *)
Theorem C75_symmetry : forall (m0 m1 : sparse CX) N, (forall i j, (i < N)%nat -> (j < N)%nat -> coeff m0 i j = kconj (coeff m0 j i)) ->
  forall k i j, (i < N)%nat -> (j < N)%nat ->
    band_matrix m0 m1 k i j = kconj (band_matrix m0 m1 k j i) /\
    (forall n : Z, band_matrix m0 m1 (k + 2 * PI * IZR n) i j = band_matrix m0 m1 k i j) /\
    ((forall a b, kconj (coeff m0 a b) = coeff m0 a b) -> (forall a b, kconj (coeff m1 a b) = coeff m1 a b) -> band_matrix m0 m1 (- k) i j = kconj (band_matrix m0 m1 k i j)).
Proof.
  intros m0 m1 N H k i j Hi Hj. unfold band_matrix, lead_bloch. split; [|split].
  - rewrite !kconj_add, !kconj_mul, kconj_conj, <- H by assumption. rewrite <- !expi_neg, Ropp_involutive. ring.
  - intros n. assert (E : expi (k + 2 * PI * IZR n) = expi k) by (unfold expi, mk; apply PropsReciprocal.turn).
    rewrite !expi_neg, E. reflexivity.
  - intros R0 R1. rewrite !kconj_add, !kconj_mul, R0, !R1, <- !expi_neg, Ropp_involutive. reflexivity.
Qed.
Print Assumptions C75_symmetry.

(** Eigenvectors of the matrix are the standing patterns of plane waves in the infinite lead: [v] has
    energy [E] exactly when the wave exp(-i k n) v, with cells numbered away from the system, solves
    the Schroedinger equation h1 psi(n-1) + h0 psi(n) + h1^H psi(n+1) = E psi(n) in every cell. *)
Definition lead_equation (N : nat) (m0 m1 : sparse CX) (E : R) (psi : Z -> nat -> CX) : Prop :=
  forall n a, (a < N)%nat ->
    kadd (kadd (ksum (fun b => kmul (coeff m1 a b) (psi (n - 1)%Z b)) (seq 0 N)) (ksum (fun b => kmul (coeff m0 a b) (psi n b)) (seq 0 N)))
         (ksum (fun b => kmul (kconj (coeff m1 b a)) (psi (n + 1)%Z b)) (seq 0 N)) = kmul (re E) (psi n a).
Theorem C75_waves : forall N m0 m1 k E v,
  eigen N (band_matrix m0 m1 k) E v <-> lead_equation N m0 m1 E (fun n b => kmul (expi (- k * IZR n)) (v b)).
Proof.
  intros N m0 m1 k E v.
  assert (W : forall n a,
    kadd (kadd (ksum (fun b => kmul (coeff m1 a b) (kmul (expi (- k * IZR (n - 1))) (v b))) (seq 0 N)) (ksum (fun b => kmul (coeff m0 a b) (kmul (expi (- k * IZR n)) (v b))) (seq 0 N)))
         (ksum (fun b => kmul (kconj (coeff m1 b a)) (kmul (expi (- k * IZR (n + 1))) (v b))) (seq 0 N))
    = kmul (expi (- k * IZR n)) (ksum (fun b => kmul (band_matrix m0 m1 k a b) (v b)) (seq 0 N))).
  { intros n a. rewrite <- (ksum_add CX), <- (ksum_add CX), <- (ksum_mul_l CX). apply (ksum_ext CX). intros b _. unfold band_matrix, lead_bloch.
    rewrite minus_IZR, plus_IZR. replace (- k * (IZR n - 1)) with (- k * IZR n + k) by ring. replace (- k * (IZR n + 1)) with (- k * IZR n + - k) by ring.
    rewrite <- !expi_add. ring. }
  split.
  - intros H n a Ha. rewrite W, (H a Ha). ring.
  - intros H a Ha. pose proof (H 0%Z a Ha) as H0. cbv beta in H0. rewrite W in H0. rewrite Rmult_0_r, expi_0 in H0.
    replace (kmul k1 (ksum (fun b => kmul (band_matrix m0 m1 k a b) (v b)) (seq 0 N))) with (ksum (fun b => kmul (band_matrix m0 m1 k a b) (v b)) (seq 0 N)) in H0 by ring.
    rewrite H0. ring.
Qed.
Print Assumptions C75_waves.

(** A chain with energy 1 per site and hopping t: the band 1 + 2 t cos k. *)
Example C75_example : forall t k, band_matrix [((0, 0)%nat, re 1)] [((0, 0)%nat, re t)] k 0 0 = re (1 + 2 * t * cos k).
Proof.
  intros t k. unfold band_matrix, lead_bloch, coeff. cbn. unfold expi, mk, re, cx_add, cx_mul, cx_conj. cbn [fst snd]. rewrite cos_neg, sin_neg. f_equal; ring.
Qed.
