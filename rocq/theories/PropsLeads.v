(* Property theorems C35, C40, C41, C42: leads.
   Model: Leads.v; specification: LeadsSpec.v, BulkSpec.v; proofs: LeadRows.v, LeadFill.v,
   LeadAttach.v, LeadBuild.v, LeadStruct.v, LeadMany.v, BulkProofs.v, LeadHam.v, LeadCor.v. *)
From Verif Require Import Base Rle RleProofs Blocks Scalar Foundation FoundationSpec Lattice LatticeSpec PropsLattice
  Hamiltonian HamiltonianSpec SystemBuild HamApi HamCor PropsFoundation Leads LeadsSpec LeadAttach LeadStruct LeadMany BulkSpec LeadHam LeadCor.
From Coq Require Import Permutation.

(* ------------------------------------------------------------------ C40 *)
(** Attaching succeeds exactly when every column of the lead's cross-section meets the structure;
    it adds the sites between the start of the lead and the structure, and nothing else. *)
Theorem C40_attachment_area :
  forall (P : Type) size lower (uc : list (usite P)) fpos l inside valid,
  positive_block size -> lead_axis l < 3 -> length fpos = num_block_sites size (length uc) ->
  overlaps size lower l -> (forall ps, lead_contains l ps = map inside ps) ->
  length valid = num_block_sites size (length uc) ->
  match create_attachment_area size lower uc fpos l valid with
  | Ok v' => attachable size lower uc fpos l inside valid /\ length v' = length valid /\
      exists d, starts size lower uc l valid d /\
        forall i s, cell_of size i -> s < length uc ->
          (flagged size v' (i, s) = true <-> flagged size valid (i, s) = true \/ gap size lower fpos l inside valid d i s)
  | Throw => ~ attachable size lower uc fpos l inside valid
  | UB => False
  end.
Proof.
  intros P size lower uc fpos l inside valid Hs Ha Hp Ho Hi Hv.
  exact (attach_spec size lower uc fpos l Hs Ha Hp (Hlen l inside Hi) Ho inside Hi valid Hv).
Qed.
Print Assumptions C40_attachment_area.

(** 5 x 3 cells; a lead enters from the left beside all three rows.  The first row starts at column
    1, the second at column 3, the third at column 2: two sites of the second and one of the third
    row are filled in.  If the second row is empty, attaching fails. *)
Definition wide_lead (sign : Z) (lo hi : Z) : lead nat := Lead 0 sign (I3 0 lo 0, I3 4 hi 0) (map (fun _ => true)).
Example C40_example :
  create_attachment_area (I3 5 3 1) (I3 0 0 0) chain_cell (seq 0 15) (wide_lead (-1) 0 2)
    [false; true; true; true; true;  false; false; false; true; true;  false; false; true; true; true]
  = Ok [false; true; true; true; true;  false; true; true; true; true;  false; true; true; true; true] /\
  create_attachment_area (I3 5 3 1) (I3 0 0 0) chain_cell (seq 0 15) (wide_lead (-1) 0 2)
    [false; true; true; true; true;  false; false; false; false; false;  false; false; true; true; true] = Throw.
Proof. split; vm_compute; reflexivity. Qed.

(* ------------------------------------------------------------------ C41 *)
(** Full claim: attaching a lead never reads or writes outside the block, whatever its shape. *)
Definition C41_claim : Prop :=
  forall (P : Type) size lower (uc : list (usite P)) fpos l inside valid,
  positive_block size -> lead_axis l < 3 -> length fpos = num_block_sites size (length uc) ->
  (forall ps, lead_contains l ps = map inside ps) -> length valid = num_block_sites size (length uc) ->
  create_attachment_area size lower uc fpos l valid <> UB.

(** False: nothing checks that the lead's box meets the block on the lead's own axis.  A lead whose
    box lies behind the block (columns 6 to 9 of 5) reads the positions of column 5. *)
Theorem C41_shifted_box_refuted : ~ C41_claim.
Proof.
  intros H.
  apply (H nat (I3 5 1 1) (I3 0 0 0) chain_cell (seq 0 5) (Lead 0 (-1)%Z (I3 6 0 0, I3 9 0 0) (map (fun _ => true))) (fun _ => true) (repeat true 5)).
  - repeat split; reflexivity.
  - cbn. lia.
  - reflexivity.
  - reflexivity.
  - reflexivity.
  - vm_compute. reflexivity.
Qed.
Print Assumptions C41_shifted_box_refuted.

(** What holds: no such access whenever the box overlaps the block on the lead's axis, for any
    shape function that gives one flag per position. *)
Theorem C41_memory_safe_partial :
  forall (P : Type) size lower (uc : list (usite P)) fpos l valid,
  positive_block size -> lead_axis l < 3 -> length fpos = num_block_sites size (length uc) ->
  (forall ps, length (lead_contains l ps) = length ps) -> overlaps size lower l ->
  length valid = num_block_sites size (length uc) ->
  create_attachment_area size lower uc fpos l valid <> UB.
Proof. intros P size lower uc fpos l valid Hs Ha Hp Hl Ho Hv. exact (attach_safe size lower uc fpos l Hs Ha Hp Hl Ho valid Hv). Qed.
Print Assumptions C41_memory_safe_partial.
Example C41_example : overlaps (I3 5 3 1) (I3 0 0 0) (wide_lead (-1) 0 2).
Proof. unfold overlaps, box_lo, box_hi, axis_len. cbn. lia. Qed.

(* ------------------------------------------------------------------ C42 *)
(** Full claim: with any number of leads, the index list of every lead names sites of the system. *)
Definition C42_claim : Prop :=
  forall (R : scalar) (P : Type) offset_ok order (cs : list (lcall R P)) subs fams uc size lower fpos ls valid valid' fi,
  let lat := calls offset_ok order cs in
  Permutation subs (l_subs lat) -> Permutation fams (l_fams lat) -> unit_cell subs fams = Ok uc ->
  positive_block size -> length fpos = num_block_sites size (length uc) -> length valid = num_block_sites size (length uc) ->
  (forall l, In l ls -> lead_axis l < 3 /\ overlaps size lower l /\ exists inside, forall ps, lead_contains l ps = map inside ps) ->
  create_attachment_areas size lower uc fpos ls valid = Ok valid' ->
  finalized_indices size uc (length (l_fams lat)) valid' = Ok fi ->
  forall l padd dflt shift s n, In l ls ->
    make_structure size lower uc fpos padd dflt (length (l_fams lat)) (fst (fst fi)) shift l valid' = Ok s ->
    In n (lt_indices s) -> (0 <= n)%Z.

(** False: two leads on the same side share a row.  The second lead starts further out and fills
    the shared row, which moves the start of the first lead to a column where its other row has no
    site; the first lead then gets the index -1. *)
Theorem C42_two_leads_refuted : ~ C42_claim.
Proof.
  intros H.
  pose (ls := [wide_lead (-1) 0 1; wide_lead (-1) 1 2]).
  pose (valid := [false; true; true; true; true;  false; true; true; true; true;  true; true; true; true; true]).
  pose (valid' := [false; true; true; true; true;  true; true; true; true; true;  true; true; true; true; true]).
  assert (E : create_attachment_areas (I3 5 3 1) (I3 0 0 0) chain_cell (seq 0 15) ls valid = Ok valid') by (vm_compute; reflexivity).
  assert (F : exists fi, finalized_indices (I3 5 3 1) chain_cell (length (l_fams chain_lattice)) valid' = Ok fi /\
    exists s, make_structure (I3 5 3 1) (I3 0 0 0) chain_cell (seq 0 15) Nat.add 0 (length (l_fams chain_lattice)) (fst (fst fi)) 0 (wide_lead (-1) 0 1) valid' = Ok s /\
      In (-1)%Z (lt_indices s)).
  { eexists. split; [vm_compute; reflexivity|]. eexists. split; [vm_compute; reflexivity|]. cbn. auto. }
  destruct F as (fi & F & s & ES & IN).
  assert (K : forall l, In l ls -> lead_axis l < 3 /\ overlaps (I3 5 3 1) (I3 0 0 0) l /\ exists inside, forall ps, lead_contains l ps = map inside ps).
  { intros l [<-|[<-|[]]]; (split; [cbn; lia|]; split; [unfold overlaps, box_lo, box_hi, axis_len; cbn; lia|]; exists (fun _ => true); reflexivity). }
  pose proof (H GI nat (fun _ => true) (fun x => x) _ (l_subs chain_lattice) (l_fams chain_lattice) chain_cell (I3 5 3 1) (I3 0 0 0) (seq 0 15) ls valid valid' fi
    (Permutation_refl _) (Permutation_refl _) eq_refl ltac:(repeat split; reflexivity) eq_refl eq_refl K E F (wide_lead (-1) 0 1) Nat.add 0 0 s (-1)%Z
    (or_introl eq_refl) ES IN). lia.
Qed.
Print Assumptions C42_two_leads_refuted.

(** What holds: for every lead of which all later leads keep clear (they run beside no common cell,
    or come from the opposite side) the index list holds the numbers of the contact sites, each
    once; all contact sites exist.  The lead attached last needs no condition. *)
Theorem C42_contacts_partial :
  forall (R : scalar) (P : Type) offset_ok order (cs : list (lcall R P)) subs fams uc size lower fpos pre l inside post valid valid',
  let lat := calls offset_ok order cs in
  Permutation subs (l_subs lat) -> Permutation fams (l_fams lat) -> unit_cell subs fams = Ok uc ->
  positive_block size -> length fpos = num_block_sites size (length uc) -> length valid = num_block_sites size (length uc) ->
  (forall m, In m (pre ++ l :: post) -> exists inm, good_lead size lower m inm) -> good_lead size lower l inside ->
  (forall m, In m post -> keeps_clear size lower l m) ->
  create_attachment_areas size lower uc fpos (pre ++ l :: post) valid = Ok valid' ->
  forall padd dflt shift, exists fi s,
    finalized_indices size uc (length (l_fams lat)) valid' = Ok fi /\
    make_structure size lower uc fpos padd dflt (length (l_fams lat)) (fst (fst fi)) shift l valid' = Ok s /\
    NoDup (lt_indices s) /\
    (forall n, In n (lt_indices s) <-> exists i a, contact size lower uc fpos l inside valid' i a /\ n = site_number size valid' (i, a)) /\
    (forall i a, contact size lower uc fpos l inside valid' i a -> flagged size valid' (i, a) = true) /\
    (forall n, In n (lt_indices s) -> (0 <= n < Z.of_nat (number valid' (num_block_sites size (length uc))))%Z).
Proof.
  intros R P oo order cs subs fams uc size lower fpos pre l inside post valid valid' lat H1 H2 H3 H4 H5 H6 HG GL HK E.
  destruct (many_live size lower uc fpos H4 H5 pre l inside post valid valid' HG GL H6 HK E) as (LE & HC & LV). destruct GL as (G1 & G2 & G3).
  exact (contacts_ok R P oo order cs subs fams H1 H2 uc H3 size lower H4 fpos H5 l G1 G2 inside G3 valid' LE HC LV).
Qed.
Print Assumptions C42_contacts_partial.

(** A lead on the left and one on the right of the same three rows keep clear of each other; the
    ragged edges are filled on both sides. *)
Example C42_two_leads :
  keeps_clear (I3 5 3 1) (I3 0 0 0) (wide_lead (-1) 0 2) (wide_lead 1 0 2) /\
  create_attachment_areas (I3 5 3 1) (I3 0 0 0) chain_cell (seq 0 15) [wide_lead (-1) 0 2; wide_lead 1 0 2]
    [false; true; true; false; false;  false; false; true; true; false;  false; true; false; false; false]
  = Ok [false; true; true; true; false;  false; true; true; true; false;  false; true; true; true; false].
Proof. split; [right; split; reflexivity|vm_compute; reflexivity]. Qed.

(** The lead of the C40 example: contacts are sites 0, 4, 8. *)
Example C42_example :
  match finalized_indices (I3 5 3 1) chain_cell 2 [false; true; true; true; true;  false; true; true; true; true;  false; true; true; true; true] with
  | Ok fi => omap lt_indices (make_structure (I3 5 3 1) (I3 0 0 0) chain_cell (seq 0 15) Nat.add 0 2 (fst (fst fi)) 0 (wide_lead (-1) 0 2)
      [false; true; true; true; true;  false; true; true; true; true;  false; true; true; true; true])
  | _ => UB
  end = Ok [0; 4; 8]%Z.
Proof. vm_compute. reflexivity. Qed.

(* ------------------------------------------------------------------ C35 *)
(** The matrices of a lead that was attached: [h0] is the bulk Hamiltonian within a lead cell, [h1]
    the bulk hopping from the next cell away from the system to this one. *)
Definition lead_follows_bulk {R : scalar} {P} (lat : lattice R P) nt size uc (l : lead P) (is_contact : idx3 -> nat -> Prop) valid' (s : lead_structure P) m0 m1 : Prop :=
  forall j k c c' x y, is_contact (fst c) (snd c) -> is_contact (fst c') (snd c') ->
    nth_error (lt_indices s) j = Some (site_number size valid' c) -> nth_error (lt_indices s) k = Some (site_number size valid' c') ->
    lattice_site P uc c x -> lattice_site P uc c' y ->
    exists sx sy, In sx (l_subs lat) /\ sb_uid sx = snd x /\ norb_at (lt_subs s) j = m_rows (sb_energy sx) /\
      In sy (l_subs lat) /\ sb_uid sy = snd y /\ norb_at (lt_subs s) k = m_rows (sb_energy sy) /\
      forall p q, p < m_rows (sb_energy sx) -> q < m_rows (sb_energy sy) ->
        coeff m0 (row_of (lt_subs s) j p) (row_of (lt_subs s) k q)
          = kadd (if j =? k then nt_cast nt (m_at (sb_energy sx) p q) else k0) (bulk nt (l_fams lat) x p y q) /\
        coeff m1 (row_of (lt_subs s) j p) (row_of (lt_subs s) k q)
          = bulk nt (l_fams lat) (shifted_cell (fst x) (unit3 (lead_axis l) (lead_sign l)), snd x) p y q.

(** Full claim: for every lattice, real or complex. *)
Definition C35_claim : Prop :=
  forall (R : scalar) (P : Type) offset_ok order (cs : list (lcall R P)) subs fams uc size lower fpos l inside valid valid' reg hreg nt cap,
  let lat := calls offset_ok order cs in
  Permutation subs (l_subs lat) -> Permutation fams (l_fams lat) -> unit_cell subs fams = Ok uc ->
  positive_block size -> length fpos = num_block_sites size (length uc) -> lead_axis l < 3 -> overlaps size lower l ->
  (forall ps, lead_contains l ps = map inside ps) -> length valid = num_block_sites size (length uc) ->
  create_attachment_area size lower uc fpos l valid = Ok valid' ->
  site_registry subs = Ok reg -> hopping_registry fams = Ok hreg ->
  (forall s o, In s (l_subs lat) -> In o (l_subs lat) -> sb_uid o = sb_alias s -> primary o) ->
  nt_ok nt -> (forall fam, In fam (l_fams lat) -> mat_size (fm_energy fam) <= cap) ->
  forall padd dflt shift fi s m0 m1 unshift,
    finalized_indices size uc (length (l_fams lat)) valid' = Ok fi ->
    make_structure size lower uc fpos padd dflt (length (l_fams lat)) (fst (fst fi)) shift l valid' = Ok s ->
    lead_h0 R P cap nt (lead_system R P (map entry_of reg) (map entry_of hreg) shift s) [] [] = Ok m0 ->
    lead_h1 R P cap nt (lead_system R P (map entry_of reg) (map entry_of hreg) shift s) [] unshift = Ok m1 ->
    lead_follows_bulk lat nt size uc l (contact size lower uc fpos l inside valid') valid' s m0 m1.

(** False: bonds that point against the lead are stored with the energy of the forward direction.
    Chain with hopping energy [i] to the right and a lead to the right: [h1] is [i], the bulk
    hopping from the next cell back to this one is [-i]. *)
Definition twisted_calls : list (lcall GI nat) :=
  [AddSublattice (Nm 1) 0 (energy1 (0, 0)%Z); AddHoppingEnergy (I3 1 0 0) (Nm 1) (Nm 1) (energy1 (0, 1)%Z)].
Definition twisted := calls (fun _ : nat => true) (fun x => x) twisted_calls.
Definition twisted_cell := match unit_cell (l_subs twisted) (l_fams twisted) with Ok uc => uc | _ => [] end.
Definition twisted_reg := match site_registry (l_subs twisted) with Ok r => r | _ => [] end.
Definition twisted_hreg := match hopping_registry (l_fams twisted) with Ok r => r | _ => [] end.
Definition twisted_lead (sign : Z) : lead nat := Lead 0 sign (I3 0 0 0, I3 2 0 0) (map (fun _ => true)).
Definition twisted_structure (sign : Z) : outcome (lead_structure nat) :=
  obind (finalized_indices (I3 3 1 1) twisted_cell 1 (repeat true 3)) (fun fi =>
  make_structure (I3 3 1 1) (I3 0 0 0) twisted_cell (seq 0 3) Nat.add 0 1 (fst (fst fi)) 0 (twisted_lead sign) (repeat true 3)).
Definition twisted_h1 (sign : Z) : outcome (Z * Z) :=
  obind (twisted_structure sign) (fun s =>
  omap (fun m => coeff m 0 0) (lead_h1 GI nat 100 complex_type (lead_system GI nat (map entry_of twisted_reg) (map entry_of twisted_hreg) 0 s) [] Nat.sub)).
Definition twisted_bulk (sign : Z) : Z * Z := bulk complex_type (l_fams twisted) (I3 (1 + sign) 0 0, 0) 0 (I3 1 0 0, 0) 0.
Example C35_example : twisted_h1 (-1) = Ok (twisted_bulk (-1)) /\ twisted_bulk (-1) = (0, 1)%Z.
Proof. split; vm_compute; reflexivity. Qed.
Example C35_wrong_sign : twisted_h1 1 = Ok (0, 1)%Z /\ twisted_bulk 1 = (0, -1)%Z.
Proof. split; vm_compute; reflexivity. Qed.

Theorem C35_complex_refuted : ~ C35_claim.
Proof.
  intros H.
  assert (PB : positive_block (I3 3 1 1)) by (split; [reflexivity|split; reflexivity]).
  assert (FI : exists fi, finalized_indices (I3 3 1 1) twisted_cell (length (l_fams twisted)) (repeat true 3) = Ok fi /\
     exists s, make_structure (I3 3 1 1) (I3 0 0 0) twisted_cell (seq 0 3) Nat.add 0 (length (l_fams twisted)) (fst (fst fi)) 0 (twisted_lead 1) (repeat true 3) = Ok s /\
       lt_indices s = [2%Z] /\ lt_subs s = [Elem 0 1 1] /\ exists m0 m1, 
       lead_h0 GI nat 100 complex_type (lead_system GI nat (map entry_of twisted_reg) (map entry_of twisted_hreg) 0 s) [] [] = Ok m0 /\
       lead_h1 GI nat 100 complex_type (lead_system GI nat (map entry_of twisted_reg) (map entry_of twisted_hreg) 0 s) [] Nat.sub = Ok m1 /\
       coeff m1 0 0 = (0, 1)%Z).
  { eexists. split; [vm_compute; reflexivity|]. eexists. split; [vm_compute; reflexivity|]. split; [reflexivity|]. split; [reflexivity|].
    eexists. eexists. split; [reflexivity|]. split; [reflexivity|]. vm_compute. reflexivity. }
  destruct FI as (fi & F & s & ES & EI & ED & m0 & m1 & E0 & E1 & EC).
  assert (CT : contact (I3 3 1 1) (I3 0 0 0) twisted_cell (seq 0 3) (twisted_lead 1) (fun _ => true) (repeat true 3) (I3 2 0 0) 0).
  { split; [unfold cell_of; cbn; lia|]. split; [vm_compute; lia|]. split.
    - split; [|exists 1; split; reflexivity]. intros b Hb Nb. cbn in Nb. unfold box_lo, box_hi. destruct b as [|[|[|b]]]; cbn; lia.
    - exists 0%Z. split; [|reflexivity]. split.
      + exists (I3 2 0 0), 0. split; [unfold cell_of; cbn; lia|]. split; [vm_compute; lia|]. split; [|split; reflexivity].
        intros b Hb Nb. cbn in Nb. unfold box_lo, box_hi. destruct b as [|[|[|b]]]; cbn; lia.
      + intros [x y z] a Hi _ _ _. unfold cell_of in Hi. cbn [ix iy iz] in Hi. change (0 <= 3 - 1 - x)%Z. lia. }
  assert (LS : lattice_site nat twisted_cell (I3 2 0 0, 0) (I3 2 0 0, 0)) by (split; reflexivity).
  destruct (H GI nat (fun _ => true) (fun x => x) twisted_calls (l_subs twisted) (l_fams twisted) twisted_cell (I3 3 1 1) (I3 0 0 0) (seq 0 3) (twisted_lead 1)
    (fun _ => true) (repeat true 3) (repeat true 3) twisted_reg twisted_hreg complex_type 100 (Permutation_refl _) (Permutation_refl _) eq_refl PB eq_refl
    ltac:(cbn; lia) ltac:(unfold overlaps, box_lo, box_hi, axis_len; cbn; lia) ltac:(reflexivity) eq_refl ltac:(vm_compute; reflexivity) eq_refl eq_refl
    ltac:(intros x o [<-|[]] [<-|[]] _; reflexivity) (complex_ok GI) ltac:(intros fam [<-|[]]; cbn; lia)
    Nat.add 0 0 fi s m0 m1 Nat.sub F ES E0 E1 0 0 (I3 2 0 0, 0) (I3 2 0 0, 0) (I3 2 0 0, 0) (I3 2 0 0, 0) CT CT) as (sx & sy & S1 & S2 & S3 & S4 & S5 & S6 & EL); auto.
  - rewrite EI. vm_compute. reflexivity.
  - rewrite EI. vm_compute. reflexivity.
  - rewrite ED in *. destruct (EL 0 0) as [_ Q].
    + destruct S1 as [<-|[]]. cbn. lia.
    + destruct S4 as [<-|[]]. cbn. lia.
    + change (row_of [Elem 0 1 1] 0 0) with 0 in Q. rewrite EC in Q. vm_compute in Q. discriminate.
Qed.
Print Assumptions C35_complex_refuted.

(** What holds: both matrices are those of the bulk when every term that points against the lead
    across the cut has a self-adjoint energy; other terms are arbitrary.  Any number of leads, of
    which the later ones keep clear of this one. *)
Theorem C35_leads_partial :
  forall (R : scalar) (P : Type) offset_ok order (cs : list (lcall R P)) subs fams uc size lower fpos pre l inside post valid valid' reg hreg nt cap,
  let lat := calls offset_ok order cs in
  Permutation subs (l_subs lat) -> Permutation fams (l_fams lat) -> unit_cell subs fams = Ok uc ->
  positive_block size -> length fpos = num_block_sites size (length uc) -> length valid = num_block_sites size (length uc) ->
  (forall m, In m (pre ++ l :: post) -> exists inm, good_lead size lower m inm) -> good_lead size lower l inside ->
  (forall m, In m post -> keeps_clear size lower l m) ->
  create_attachment_areas size lower uc fpos (pre ++ l :: post) valid = Ok valid' ->
  site_registry subs = Ok reg -> hopping_registry fams = Ok hreg ->
  (forall s o, In s (l_subs lat) -> In o (l_subs lat) -> sb_uid o = sb_alias s -> primary o) ->
  nt_ok nt -> (forall fam, In fam (l_fams lat) -> mat_size (fm_energy fam) <= cap) ->
  (forall fam t c c' x y, In fam (l_fams lat) -> In t (fm_terms fam) ->
     contact size lower uc fpos l inside valid' (fst c) (snd c) -> contact size lower uc fpos l inside valid' (fst c') (snd c') ->
     lattice_site P uc c x -> lattice_site P uc c' y ->
     leads_to t y (shifted_cell (fst x) (unit3 (lead_axis l) (lead_sign l)), snd x) = true -> self_adjoint nt (fm_energy fam)) ->
  forall padd dflt shift, exists fi s m0 m1,
    finalized_indices size uc (length (l_fams lat)) valid' = Ok fi /\
    make_structure size lower uc fpos padd dflt (length (l_fams lat)) (fst (fst fi)) shift l valid' = Ok s /\
    lead_h0 R P cap nt (lead_system R P (map entry_of reg) (map entry_of hreg) shift s) [] [] = Ok m0 /\
    (forall unshift, lead_h1 R P cap nt (lead_system R P (map entry_of reg) (map entry_of hreg) shift s) [] unshift = Ok m1) /\
    lead_follows_bulk lat nt size uc l (contact size lower uc fpos l inside valid') valid' s m0 m1.
Proof.
  intros R P oo order cs subs fams uc size lower fpos pre l inside post valid valid' reg hreg nt cap lat H1 H2 H3 H4 H5 H6 HG GL HK E H11 H12 H13 H14 H15 H16 padd dflt shift.
  destruct (many_live size lower uc fpos H4 H5 pre l inside post valid valid' HG GL H6 HK E) as (LE & HC & LV). destruct GL as (G1 & G2 & G3).
  exact (lead_is_bulk R P oo order cs subs fams H1 H2 uc H3 size lower H4 fpos H5 l G1 G2 inside G3 valid' LE HC LV reg hreg H11 H12 H13 nt H14 cap H15 H16 padd dflt shift).
Qed.
Print Assumptions C35_leads_partial.

(** The same for a single lead. *)
Theorem C35_lead_is_bulk_partial :
  forall (R : scalar) (P : Type) offset_ok order (cs : list (lcall R P)) subs fams uc size lower fpos l inside valid valid' reg hreg nt cap,
  let lat := calls offset_ok order cs in
  Permutation subs (l_subs lat) -> Permutation fams (l_fams lat) -> unit_cell subs fams = Ok uc ->
  positive_block size -> length fpos = num_block_sites size (length uc) -> lead_axis l < 3 -> overlaps size lower l ->
  (forall ps, lead_contains l ps = map inside ps) -> length valid = num_block_sites size (length uc) ->
  create_attachment_area size lower uc fpos l valid = Ok valid' ->
  site_registry subs = Ok reg -> hopping_registry fams = Ok hreg ->
  (forall s o, In s (l_subs lat) -> In o (l_subs lat) -> sb_uid o = sb_alias s -> primary o) ->
  nt_ok nt -> (forall fam, In fam (l_fams lat) -> mat_size (fm_energy fam) <= cap) ->
  (forall fam t c c' x y, In fam (l_fams lat) -> In t (fm_terms fam) ->
     contact size lower uc fpos l inside valid' (fst c) (snd c) -> contact size lower uc fpos l inside valid' (fst c') (snd c') ->
     lattice_site P uc c x -> lattice_site P uc c' y ->
     leads_to t y (shifted_cell (fst x) (unit3 (lead_axis l) (lead_sign l)), snd x) = true -> self_adjoint nt (fm_energy fam)) ->
  forall padd dflt shift, exists fi s m0 m1,
    finalized_indices size uc (length (l_fams lat)) valid' = Ok fi /\
    make_structure size lower uc fpos padd dflt (length (l_fams lat)) (fst (fst fi)) shift l valid' = Ok s /\
    lead_h0 R P cap nt (lead_system R P (map entry_of reg) (map entry_of hreg) shift s) [] [] = Ok m0 /\
    (forall unshift, lead_h1 R P cap nt (lead_system R P (map entry_of reg) (map entry_of hreg) shift s) [] unshift = Ok m1) /\
    lead_follows_bulk lat nt size uc l (contact size lower uc fpos l inside valid') valid' s m0 m1.
Proof.
  intros R P oo order cs subs fams uc size lower fpos l inside valid valid' reg hreg nt cap lat H1 H2 H3 H4 H5 H6 H7 H8 H9 H10 H11 H12 H13 H14 H15 H16 padd dflt shift.
  refine (C35_leads_partial R P oo order cs subs fams uc size lower fpos [] l inside [] valid valid' reg hreg nt cap H1 H2 H3 H4 H5 H9 _ _ _ _ H11 H12 H13 H14 H15 H16 padd dflt shift).
  - intros m [<-|[]]. exists inside. split; auto.
  - split; auto.
  - intros m [].
  - cbn. rewrite H10. reflexivity.
Qed.
Print Assumptions C35_lead_is_bulk_partial.

(** Real one-orbital hoppings are self-adjoint, so real one-orbital models need no condition. *)
Theorem C35_real_scalar :
  forall (R : scalar) (re : R -> R) (E : mat R), m_rows E = 1 -> m_cols E = 1 -> self_adjoint (real_type re) E.
Proof. intros R re E H1 H2. split; [congruence|]. intros p q Hp Hq. assert (p = 0) by lia. assert (q = 0) by lia. subst p q. reflexivity. Qed.
Print Assumptions C35_real_scalar.
