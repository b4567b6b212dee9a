(* The matrices of a lead (C35). *)
From Verif Require Import Base Rle RleProofs Blocks BlocksProofs TablesSpec Scalar Foundation FoundationSpec IndexProofs Lattice LatticeSpec
  LatticeProofs UnitCellProofs LatticeFacts FoundationFacts PopulateFacts BoundaryProofs DanglingProofs FinalProofs
  Hamiltonian HamiltonianSpec HamProofs HamElements HamFacts HamHermitian SystemBuild HamApi Leads LeadsSpec LeadBuild LeadStruct BulkSpec BulkProofs.
From Coq Require Import Permutation.

Lemma NoDup_map_skips : forall {R : scalar} (full es : list (coo * R)), skips R full es -> NoDup (map fst full) -> NoDup (map fst es).
Proof. intros R full es [-> | ->] H; [exact H|]. apply NoDup_map_filter. exact H. Qed.

Lemma NoDup_concat_blocks : forall {A} (bs : list (list A)), (forall f, f < length bs -> NoDup (nth f bs [])) ->
  (forall f f' x, f < length bs -> f' < length bs -> In x (nth f bs []) -> In x (nth f' bs []) -> f = f') -> NoDup (concat bs).
Proof.
  induction bs as [|b bs IH]; intros H1 H2; [constructor|]. cbn [concat]. apply NoDup_app_intro.
  - apply (H1 0). cbn. lia.
  - apply IH; [intros f Hf; apply (H1 (S f)); cbn; lia|]. intros f f' x Hf Hf' X X'. assert (S f = S f') by (apply (H2 (S f) (S f') x); auto; cbn; lia). lia.
  - intros x X Y. apply in_concat in Y. destruct Y as (b' & Hb & Xb). apply In_nth with (d := []) in Hb. destruct Hb as (n & Hn & <-).
    assert (0 = S n) by (apply (H2 0 (S n) x); auto; cbn; lia). discriminate.
Qed.

Section LeadPair.
  Variable R : scalar.
  Variable V : Type.
  Variable nt : ntype R.
  Hypothesis NT_ok : nt_ok nt.

  (** The matrix within a lead cell is built like the Hamiltonian of a system without boundaries. *)
  Definition no_bounds (sys : hsys R V) : hsys R V :=
    HSys (hs_subs sys) (hs_pos sys) (hs_site sys) (hs_hop sys) (hs_hops sys) [].

  Lemma h0_elements : forall sys, wf_hsys (no_bounds sys) -> forall unshift phase cap om og hm hg,
    Forall2 os_follows om og -> Forall2 hop_follows hm hg -> cap_ok R V sys cap (hs_hops sys) -> simple_bonds sys ->
    exists m, lead_h0 R V cap nt sys om hm = Ok m /\
      forall s i t j, s < rle_size (hs_subs sys) -> t < rle_size (hs_subs sys) -> i < norb_at (hs_subs sys) s -> j < norb_at (hs_subs sys) t ->
        coeff m (row_of (hs_subs sys) s i) (row_of (hs_subs sys) t j) = element nt (no_bounds sys) og hg unshift phase s i t j.
  Proof.
    intros sys WF unshift phase cap om og hm hg Ho Hh Hc SB.
    destruct (ham_elements R V nt NT_ok (no_bounds sys) WF unshift phase cap om og hm hg true Ho Hh) as (m & E & _ & C).
    - intros h [-> | []]. exact Hc.
    - intros _. exact SB.
    - exists m. split; [|exact C]. unfold ham_make in E. unfold lead_h0.
      change (build_main cap nt (no_bounds sys) om hm true) with (build_main cap nt sys om hm true) in E.
      destruct (build_main cap nt sys om hm true) as [m'| |]; cbn [obind] in E; try discriminate.
      unfold build_periodic in E. cbn [no_bounds hs_bounds ofold] in E. exact E.
  Qed.

  Lemma h1_elements : forall sys b sh rest, hs_bounds sys = (b, sh) :: rest -> wf_hsys (no_bounds sys) -> wf_hops sys b ->
    NoDup (map snd (stored b)) -> forall unshift cap hm hg, Forall2 hop_follows hm hg -> cap_ok R V sys cap b ->
    exists m, lead_h1 R V cap nt sys hm unshift = Ok m /\
      forall s i t j, s < rle_size (hs_subs sys) -> t < rle_size (hs_subs sys) -> i < norb_at (hs_subs sys) s -> j < norb_at (hs_subs sys) t ->
        coeff m (row_of (hs_subs sys) s i) (row_of (hs_subs sys) t j)
        = ksum (fun fc => if (fst (snd fc) =? s) && (snd (snd fc) =? t)
                          then m_at (hop_matrix nt sys hg (fun p => unshift p sh) (fst fc) (snd fc)) i j else k0) (stored b).
  Proof.
    intros sys b sh rest EB WF WB ND unshift cap hm hg Hh Hc. unfold lead_h1. rewrite EB.
    destruct (hoppings_ok R V nt sys (wf_pos _ _ _ WF) (wf_sorted _ _ _ WF) (wf_norb _ _ _ WF) cap hm hg (fun p => unshift p sh) b Hh WB Hc) as (full & es & E & Sk & Pm).
    rewrite E. cbn [obind].
    assert (IM : Forall (in_mat (hamiltonian_size (hs_subs sys))) es) by (eapply entries_in_mat; eauto).
    assert (NF : NoDup (map fst full)).
    { apply (Permutation_NoDup (l := map fst (flat_map (hop_entries R V nt sys hg (fun p => unshift p sh)) (stored b)))).
      { symmetry. apply Permutation_map. exact Pm. }
      destruct WB as [_ Hw]. rewrite map_flat_map. apply HamProofs.NoDup_flat_map.
      - apply (NoDup_map_inv snd). exact ND.
      - intros [f c] Hc'. destruct (Hw f c Hc') as (C1 & C2 & _). apply grid_pos_nodup; auto.
      - intros [f1 c1] [f2 c2] x H1 H2 X1 X2. destruct (Hw f1 c1 H1) as (C1 & C2 & _). destruct (Hw f2 c2 H2) as (D1 & D2 & _).
        apply grid_pos_in in X1. apply grid_pos_in in X2. cbn [fst snd] in *. destruct X1 as (i1 & j1 & I1 & J1 & ->).
        destruct X2 as (i2 & j2 & I2 & J2 & Q). injection Q as E1 E2. apply row_of_inj in E1; auto. apply row_of_inj in E2; auto.
        assert (c1 = c2) by (destruct c1, c2; cbn [fst snd] in *; f_equal; tauto). subst c2.
        clear - H1 H2 ND. induction (stored b) as [|[f c] ll IH]; [destruct H1|].
        cbn [map snd] in ND. inversion ND as [|? ? N1 N2]; subst. destruct H1 as [H1|H1], H2 as [H2|H2]; auto.
        + congruence.
        + exfalso. injection H1 as -> ->. apply N1. apply in_map_iff. exists (f2, c1). auto.
        + exfalso. injection H2 as -> ->. apply N1. apply in_map_iff. exists (f1, c1). auto. }
    rewrite puts_ok; auto; [|intros _; cbn [app]; eapply NoDup_map_skips; eauto].
    cbn [app]. exists es. split; [reflexivity|]. intros s i t j Hs Ht Hi Hj.
    rewrite (coeff_skips _ _ _ _ _ Sk), (coeff_perm _ _ _ _ _ Pm). apply coeff_hops; auto.
  Qed.
End LeadPair.
Arguments no_bounds {R V}.

Section ApiLead.
  Variable R : scalar.
  Add Ring Rlead : (k_ring R).
  Variable P : Type.
  Variable offset_ok : P -> bool.
  Variable order : list (family R) -> list (family R).
  Variable cs : list (lcall R P).
  Notation lat := (calls offset_ok order cs).
  Variable subs : list (sublattice R P).
  Variable fams : list (family R).
  Hypothesis Hs : Permutation subs (l_subs lat).
  Hypothesis Hf : Permutation fams (l_fams lat).
  Variable uc : list (usite P).
  Hypothesis Huc : unit_cell subs fams = Ok uc.
  Variable reg hreg : list (option (name * mat R)).
  Hypothesis Hreg : site_registry subs = Ok reg.
  Hypothesis Hhreg : hopping_registry fams = Ok hreg.
  Hypothesis Hprim : forall s o, In s (l_subs lat) -> In o (l_subs lat) -> sb_uid o = sb_alias s -> primary o.
  Variable size lower : idx3.
  Hypothesis Hsize : positive_block size.
  Notation N := (num_block_sites size (length uc)).
  Variable fpos : list P.
  Hypothesis Hpos : length fpos = N.
  Variable padd : P -> P -> P.
  Variable dflt shift : P.
  Variable l : lead P.
  Hypothesis Haxis : lead_axis l < 3.
  Hypothesis Hover : overlaps size lower l.
  Variable inside : P -> bool.
  Hypothesis Hin : forall ps, lead_contains l ps = map inside ps.
  Variable valid : list bool.
  Hypothesis Hvalid : length valid = N.
  Hypothesis Hhas : has_contacts size lower uc fpos l inside valid.
  Hypothesis Hlive : forall i a, contact size lower uc fpos l inside valid i a -> flagged size valid (i, a) = true.
  Notation e := (unit3 (lead_axis l) (lead_sign l)).

  (** The contact sites as sites of the lattice. *)
  Definition lattice_site (c : idx3 * nat) (x : idx3 * nat) : Prop := fst x = fst c /\ uid_at uc (snd c) = Some (snd x).

  (** Bonds between contacts, from the terms. *)
  Lemma bond_terms : forall c c' x y T a u, lattice_site c x -> lattice_site c' y -> snd c = a -> nth_error uc a = Some u ->
    forall all f,
    (exists h, In h (u_hops u) /\ h_fam h = f /\ (all = true \/ h_conj h = false) /\ c' = (shifted_cell (shifted_cell (fst c) T) (h_rel h), h_to h)) <->
    (exists fam t, In fam (l_fams lat) /\ fm_id fam = f /\ In t (fm_terms fam) /\
       (leads_to t (shifted_cell (fst x) T, snd x) y = true \/ (all = true /\ leads_to t y (shifted_cell (fst x) T, snd x) = true))).
  Proof.
    intros c c' x y T a u [Lx Ux] [Ly Uy] <- EU all f. pose proof (inv_calls R P offset_ok order cs) as I.
    pose proof (api_cell R P offset_ok order cs subs fams Hs Hf uc Huc) as EC.
    assert (UX : u_uid u = snd x) by (unfold uid_at in Ux; rewrite EU in Ux; cbn in Ux; congruence).
    assert (NB : forall i r r', shifted_cell i r' = shifted_cell i r -> r' = r).
    { intros [i1 i2 i3] [r1 r2 r3] [s1 s2 s3] E. unfold shifted_cell in E. cbn in E. injection E as E1 E2 E3. f_equal; lia. }
    rewrite EC in EU. split.
    - intros (h & Hh & EF & HA & Ec). apply (in_cell_hops R P _ fams _ u h EU) in Hh. destruct Hh as ((fid, t) & Hft & He).
      destruct (term_ids R P _ I fams Hf _ Hft) as [T1 T2]. cbn [snd] in T1, T2.
      unfold fam_terms in Hft. apply in_flat_map in Hft. destruct Hft as (fam & Hfam & Ht). apply in_map_iff in Ht. destruct Ht as (t' & Et & Ht). injection Et as <- ->.
      exists fam, t. split; [apply (Permutation_in _ Hf); exact Hfam|].
      apply in_entry in He. cbn [fst snd] in He. destruct He as [[E1 ->]|[E1 ->]]; cbn [h_fam h_rel h_to h_conj] in *; (split; [exact EF|]; split; [exact Ht|]).
      + left. apply leads_to_iff. cbn [fst snd]. split; [congruence|].
        destruct (idx_of_cell R P _ fams _ T2) as (v & Ev & Uv). subst c'. cbn [fst snd] in *. unfold uid_at in Uy. rewrite EC, Ev in Uy. cbn in Uy.
        split; [congruence|]. rewrite Ly, Lx. reflexivity.
      + destruct HA as [->|HA]; [|discriminate]. right. split; [reflexivity|]. apply leads_to_iff. cbn [fst snd].
        destruct (idx_of_cell R P _ fams _ T1) as (v & Ev & Uv). subst c'. cbn [fst snd] in *. unfold uid_at in Uy. rewrite EC, Ev in Uy. cbn in Uy.
        split; [congruence|]. split; [congruence|]. rewrite Ly, Lx. destruct (fst c) as [i1 i2 i3], T as [t1 t2 t3], (t_rel t) as [r1 r2 r3]. unfold shifted_cell, neg3. cbn. f_equal; lia.
    - intros (fam & t & Hfam & EF & Ht & HL).
      assert (Hft : In (fm_id fam, t) (fam_terms fams)).
      { unfold fam_terms. apply in_flat_map. exists fam. split; [apply (Permutation_in _ (Permutation_sym Hf)); exact Hfam|]. apply in_map_iff. exists t. auto. }
      destruct (term_ids R P _ I fams Hf _ Hft) as [T1 T2]. cbn [snd] in T1, T2.
      unfold uid_at in Uy. rewrite EC in Uy. destruct (nth_error (cell R P lat fams) (snd c')) as [v|] eqn:Ev; [|discriminate]. cbn in Uy. injection Uy as Uy.
      pose proof (idx_of_uid R P _ I fams _ _ Ev) as IV. rewrite Uy in IV.
      destruct HL as [HL|[-> HL]]; apply leads_to_iff in HL; cbn [fst snd] in HL; destruct HL as (H1 & H2 & H3).
      + exists (Hop (t_rel t) (idx_of (uids R P lat) (t_to t)) (fm_id fam) false). split.
        * apply (in_cell_hops R P _ fams _ u _ EU). exists (fm_id fam, t). split; [exact Hft|]. apply in_entry. left. cbn [fst snd]. split; [congruence|reflexivity].
        * cbn [h_fam h_conj h_rel h_to]. split; [exact EF|]. split; [right; reflexivity|]. rewrite <- H2, IV. destruct c' as [ci cb]. cbn [fst snd] in *. rewrite <- Lx, <- H3, Ly. reflexivity.
      + exists (Hop (neg3 (t_rel t)) (idx_of (uids R P lat) (t_from t)) (fm_id fam) true). split.
        * apply (in_cell_hops R P _ fams _ u _ EU). exists (fm_id fam, t). split; [exact Hft|]. apply in_entry. right. cbn [fst snd]. split; [congruence|reflexivity].
        * cbn [h_fam h_conj h_rel h_to]. split; [exact EF|]. split; [left; reflexivity|]. rewrite <- H1, IV. destruct c' as [ci cb]. cbn [fst snd] in *. f_equal.
          rewrite <- Lx, H3, Ly. destruct ci as [i1 i2 i3], (t_rel t) as [r1 r2 r3]. unfold shifted_cell, neg3. cbn. f_equal; lia.
  Qed.

  Variable fi : list Z * list nat * nat.
  Hypothesis Hfi : finalized_indices size uc (length (l_fams lat)) valid = Ok fi.
  Variable nt : ntype R.
  Hypothesis NT_ok : nt_ok nt.
  Variable cap : nat.
  Hypothesis Hcap : forall fam, In fam (l_fams lat) -> mat_size (fm_energy fam) <= cap.
  Notation is_contact := (contact size lower uc fpos l inside valid).
  (** Terms that point against the lead across the cut have self-adjoint energies. *)
  Hypothesis Hback : forall fam t c c' x y, In fam (l_fams lat) -> In t (fm_terms fam) ->
    is_contact (fst c) (snd c) -> is_contact (fst c') (snd c') -> lattice_site c x -> lattice_site c' y ->
    leads_to t y (shifted_cell (fst x) e, snd x) = true -> self_adjoint nt (fm_energy fam).

  Lemma fam_lt : forall fam, In fam (l_fams lat) -> fm_id fam < length (l_fams lat).
  Proof.
    intros fam H. pose proof (inv_calls R P offset_ok order cs) as I. apply (in_map (@fm_id R)) in H. rewrite (li_fids _ _ _ I) in H. apply in_seq in H. lia.
  Qed.

  Lemma site_of : forall c, snd c < length uc -> exists x u sb, lattice_site c x /\ nth_error uc (snd c) = Some u /\ u_uid u = snd x /\
    In sb (l_subs lat) /\ sb_uid sb = snd x /\ u_alias u = sb_alias sb /\ u_norb u = m_cols (sb_energy sb).
  Proof.
    intros c Hc. destruct (nth_error uc (snd c)) as [u|] eqn:U; [|apply nth_error_None in U; lia].
    pose proof U as U'. rewrite (api_cell R P offset_ok order cs subs fams Hs Hf uc Huc) in U'. apply (cell_sub R P lat fams) in U'.
    destruct U' as (sb & S1 & S2 & S3 & S4 & S5). exists (fst c, u_uid u), u, sb.
    split; [split; [reflexivity|unfold uid_at; rewrite U; reflexivity]|]. repeat split; auto.
  Qed.

  Theorem lead_matrices : exists cs' s m0 m1,
    make_structure size lower uc fpos padd dflt (length (l_fams lat)) (fst (fst fi)) shift l valid = Ok s /\
    NoDup cs' /\ (forall i a, In (i, a) cs' <-> is_contact i a) /\
    lt_indices s = map (fun c => Z.of_nat (number valid (place size (fst c) (snd c)))) cs' /\
    let sys := lead_system R P (map entry_of reg) (map entry_of hreg) shift s in
    lead_h0 R P cap nt sys [] [] = Ok m0 /\
    (forall unshift, lead_h1 R P cap nt sys [] unshift = Ok m1) /\
    forall j k c c' x y, nth_error cs' j = Some c -> nth_error cs' k = Some c' -> lattice_site c x -> lattice_site c' y ->
      exists sx sy, In sx (l_subs lat) /\ sb_uid sx = snd x /\ norb_at (lt_subs s) j = m_rows (sb_energy sx) /\
        In sy (l_subs lat) /\ sb_uid sy = snd y /\ norb_at (lt_subs s) k = m_rows (sb_energy sy) /\
        forall p q, p < m_rows (sb_energy sx) -> q < m_rows (sb_energy sy) ->
          coeff m0 (row_of (lt_subs s) j p) (row_of (lt_subs s) k q)
            = kadd (if j =? k then nt_cast nt (m_at (sb_energy sx) p q) else k0) (bulk nt (l_fams lat) x p y q) /\
          coeff m1 (row_of (lt_subs s) j p) (row_of (lt_subs s) k q)
            = bulk nt (l_fams lat) (shifted_cell (fst x) e, snd x) p y q.
  Proof.
    pose proof (inv_calls R P offset_ok order cs) as I.
    destruct (structure_spec size lower uc (length (l_fams lat)) Hsize (api_ok R P offset_ok order cs subs fams Hs Hf uc Huc)
      (api_fam R P offset_ok order cs subs fams Hs Hf uc Huc) _ (api_norb R P offset_ok order cs subs fams Hs Hf uc Huc)
      (api_contig R P offset_ok order cs subs fams Hs Hf uc Huc) (api_sorted R P offset_ok order cs subs fams Hs Hf uc Huc)
      fpos Hpos padd dflt shift l Haxis Hover inside Hin valid Hvalid Hlive Hhas fi Hfi)
      as (ct & s & ES & ND & IC & EI & _ & EP & VF & LB & LL & FE & LH & LD & BH & BB & NB & SH & SB).
    assert (CL : forall j c, nth_error ct j = Some c -> snd c < length uc /\ is_contact (fst c) (snd c)).
    { intros j [i a] Hj. apply nth_error_In in Hj. apply IC in Hj. split; [apply Hj|exact Hj]. }
    assert (ZS : forall i, shifted_cell i zero3 = i) by (intros [a b c]; unfold shifted_cell, zero3; cbn; f_equal; lia).
    (* the two tables in terms of the lattice *)
    assert (TH : forall f j k c c' x y, nth_error ct j = Some c -> nth_error ct k = Some c' -> lattice_site c x -> lattice_site c' y ->
      (In (f, (j, k)) (stored (lt_hops s)) <-> exists fam t, In fam (l_fams lat) /\ fm_id fam = f /\ In t (fm_terms fam) /\ leads_to t x y = true)).
    { intros f j k c c' x y Ej Ek Lx Ly. destruct (CL j c Ej) as [Sc _].
      destruct (nth_error uc (snd c)) as [u|] eqn:U; [|apply nth_error_None in U; lia].
      pose proof (bond_terms c c' x y zero3 (snd c) u Lx Ly eq_refl U false f) as BT. rewrite !ZS in BT. rewrite <- surjective_pairing in BT.
      rewrite in_stored_iff. split.
      - intros H. assert (Hf' : f < length (l_fams lat)).
        { destruct (Nat.lt_ge_cases f (length (l_fams lat))); [auto|]. rewrite nth_overflow in H by lia. destruct H. }
        apply BH in H; [|auto]. destruct H as (i & a & u' & h & E1 & E2 & E3 & E4 & E5 & E6). rewrite Ej in E1. injection E1 as ->. cbn [fst snd] in *.
        assert (u' = u) by congruence. subst u'. destruct BT as [BT _]. destruct BT as (fam & t & F1 & F2 & F3 & F4).
        { exists h. rewrite Ek, ZS in E6. injection E6 as ->. auto. }
        exists fam, t. destruct F4 as [F4|[F4 _]]; [auto|discriminate].
      - intros (fam & t & F1 & F2 & F3 & F4). apply BH; [subst f; apply fam_lt; auto|].
        destruct BT as [_ BT]. destruct BT as (h & G1 & G2 & G3 & G4); [exists fam, t; auto|].
        exists (fst c), (snd c), u, h. rewrite <- surjective_pairing, ZS. rewrite <- G4. auto 10. }
    assert (TB : forall f j k c c' x y, nth_error ct j = Some c -> nth_error ct k = Some c' -> lattice_site c x -> lattice_site c' y ->
      (In (f, (j, k)) (stored (lt_bound s)) <-> exists fam t, In fam (l_fams lat) /\ fm_id fam = f /\ In t (fm_terms fam) /\
         (leads_to t (shifted_cell (fst x) e, snd x) y = true \/ leads_to t y (shifted_cell (fst x) e, snd x) = true))).
    { intros f j k c c' x y Ej Ek Lx Ly. destruct (CL j c Ej) as [Sc _].
      destruct (nth_error uc (snd c)) as [u|] eqn:U; [|apply nth_error_None in U; lia].
      pose proof (bond_terms c c' x y e (snd c) u Lx Ly eq_refl U true f) as BT.
      rewrite in_stored_iff. split.
      - intros H. assert (Hf' : f < length (l_fams lat)).
        { destruct (Nat.lt_ge_cases f (length (l_fams lat))); [auto|]. rewrite nth_overflow in H by lia. destruct H. }
        apply BB in H; [|auto]. destruct H as (i & a & u' & h & E1 & E2 & E3 & E4 & E5 & E6). rewrite Ej in E1. injection E1 as ->. cbn [fst snd] in *.
        assert (u' = u) by congruence. subst u'. destruct BT as [BT _]. destruct BT as (fam & t & F1 & F2 & F3 & F4).
        { exists h. rewrite Ek in E6. injection E6 as ->. auto. }
        exists fam, t. destruct F4 as [F4|[_ F4]]; auto.
      - intros (fam & t & F1 & F2 & F3 & F4). apply BB; [subst f; apply fam_lt; auto|].
        destruct BT as [_ BT]. destruct BT as (h & G1 & G2 & G3 & G4); [exists fam, t; destruct F4; auto 10|].
        exists (fst c), (snd c), u, h. rewrite <- surjective_pairing. rewrite <- G4. auto 10. }
    (* members of the tables are contacts *)
    assert (RH : forall f j k, In (f, (j, k)) (stored (lt_hops s)) -> f < length (l_fams lat) /\ j < length ct /\ k < length ct).
    { intros f j k H. apply in_stored_iff in H. assert (Hf' : f < length (l_fams lat)).
      { destruct (Nat.lt_ge_cases f (length (l_fams lat))); [auto|]. rewrite nth_overflow in H by lia. destruct H. }
      split; auto. apply BH in H; auto. destruct H as (i & a & u & h & E1 & _ & _ & _ & _ & E2). split; apply nth_error_Some; congruence. }
    assert (RB : forall f j k, In (f, (j, k)) (stored (lt_bound s)) -> f < length (l_fams lat) /\ j < length ct /\ k < length ct).
    { intros f j k H. apply in_stored_iff in H. assert (Hf' : f < length (l_fams lat)).
      { destruct (Nat.lt_ge_cases f (length (l_fams lat))); [auto|]. rewrite nth_overflow in H by lia. destruct H. }
      split; auto. apply BB in H; auto. destruct H as (i & a & u & h & E1 & _ & _ & _ & _ & E2). split; apply nth_error_Some; congruence. }
    assert (SC : forall j, j < length ct -> exists c x sb, nth_error ct j = Some c /\ lattice_site c x /\ In sb (l_subs lat) /\ sb_uid sb = snd x /\
      nth_error (labels (lt_subs s)) j = Some (sb_alias sb, m_cols (sb_energy sb)) /\ m_rows (sb_energy sb) = m_cols (sb_energy sb)).
    { intros j Hj. destruct (nth_error ct j) as [c|] eqn:Ej; [|apply nth_error_None in Ej; lia].
      destruct (CL j c Ej) as [Sc _]. destruct (site_of c Sc) as (x & u & sb & Lx & U & X1 & S1 & S2 & S3 & S4).
      exists c, x, sb. rewrite (LB j (fst c) (snd c) u); auto; [|rewrite <- surjective_pairing; auto]. rewrite S3, S4.
      destruct (li_sub _ _ _ I sb S1) as (_ & HM). destruct HM as (_ & HM & _). auto 10. }
    assert (SU : forall c x x', lattice_site c x -> lattice_site c x' -> x = x').
    { intros c [x1 x2] [y1 y2] [A1 A2] [B1 B2]. cbn [fst snd] in *. f_equal; congruence. }
    set (sys := lead_system R P (map entry_of reg) (map entry_of hreg) shift s).
    assert (RS : rle_size (lt_subs s) = length ct) by (rewrite rle_size_labels; exact LL).
    assert (LHR : length hreg = length (l_fams lat)) by (rewrite (hreg_eq R P offset_ok order cs fams Hf hreg Hhreg); apply map_length).
    assert (NA : forall j (sb : sublattice R P), nth_error (labels (lt_subs s)) j = Some (sb_alias sb, m_cols (sb_energy sb)) -> norb_at (lt_subs s) j = m_cols (sb_energy sb)).
    { intros j sb H. unfold norb_at. change (site_list (lt_subs s)) with (labels (lt_subs s)). rewrite (nth_error_nth _ _ _ H). reflexivity. }
    (* shapes of the energies of terms between contacts *)
    assert (SHP : forall fam t j k c c' x y, In fam (l_fams lat) -> In t (fm_terms fam) -> nth_error ct j = Some c -> nth_error ct k = Some c' ->
      lattice_site c x -> lattice_site c' y -> t_from t = snd x -> t_to t = snd y ->
      m_rows (fm_energy fam) = norb_at (lt_subs s) j /\ m_cols (fm_energy fam) = norb_at (lt_subs s) k).
    { intros fam t j k c c' x y H1 H2 Ej Ek Lx Ly Tx Ty.
      destruct (SC j) as (c1 & x1 & s1 & A1 & A2 & A3 & A4 & A5 & A6); [apply nth_error_Some; congruence|].
      destruct (SC k) as (c2 & x2 & s2 & B1 & B2 & B3 & B4 & B5 & B6); [apply nth_error_Some; congruence|].
      assert (c1 = c) by congruence. assert (c2 = c') by congruence. subst c1 c2.
      pose proof (SU _ _ _ A2 Lx) as ->. pose proof (SU _ _ _ B2 Ly) as ->.
      rewrite (NA j s1 A5), (NA k s2 B5).
      destruct (li_terms _ _ _ I fam t H1 H2) as (sa & sb & T1 & T2 & T3 & T4 & T5 & T6 & _).
      assert (s1 = sa) by (apply (sub_uid_inj R P lat I); auto; congruence). assert (s2 = sb) by (apply (sub_uid_inj R P lat I); auto; congruence). subst s1 s2.
      split; congruence. }
    assert (WH : wf_hops sys (lt_hops s)).
    { split; [cbn [sys lead_system hs_hop]; rewrite map_length; lia|]. intros f [j k] H. cbn [fst snd]. cbn [sys lead_system hs_subs hs_hop]. rewrite RS.
      destruct (RH f j k H) as (Hf' & Hj & Hk). split; auto. split; auto.
      destruct (SC j Hj) as (c & x & sx & E1 & Lx & _). destruct (SC k Hk) as (c' & y & sy & E2 & Ly & _).
      apply (TH f j k c c' x y) in H; auto. destruct H as (fam & t & F1 & F2 & F3 & F4). subst f.
      rewrite (hop_entry R P offset_ok order cs fams Hf hreg Hhreg fam F1). cbn [snd]. apply leads_to_iff in F4. destruct F4 as (G1 & G2 & _).
      eapply SHP; eauto. }
    assert (WB : wf_hops sys (lt_bound s)).
    { split; [cbn [sys lead_system hs_hop]; rewrite map_length; lia|]. intros f [j k] H. cbn [fst snd]. cbn [sys lead_system hs_subs hs_hop]. rewrite RS.
      destruct (RB f j k H) as (Hf' & Hj & Hk). split; auto. split; auto.
      destruct (SC j Hj) as (c & x & sx & E1 & Lx & _). destruct (SC k Hk) as (c' & y & sy & E2 & Ly & _).
      apply (TB f j k c c' x y) in H; auto. destruct H as (fam & t & F1 & F2 & F3 & F4). subst f.
      rewrite (hop_entry R P offset_ok order cs fams Hf hreg Hhreg fam F1). cbn [snd]. destruct F4 as [F4|F4].
      - apply leads_to_iff in F4. destruct F4 as (G1 & G2 & _). cbn [fst snd] in *. eapply SHP; eauto.
      - destruct (CL j c E1) as [_ Cj]. destruct (CL k c' E2) as [_ Ck].
        destruct (Hback fam t c c' x y F1 F3 Cj Ck Lx Ly F4) as [Sq _].
        apply leads_to_iff in F4. destruct F4 as (G1 & G2 & _). cbn [fst snd] in *.
        destruct (SHP fam t k j c' c y x F1 F3 E2 E1 Ly Lx) as [Q1 Q2]; auto. split; congruence. }
    assert (WF : wf_hsys (no_bounds sys)).
    { split; [cbn [no_bounds hs_pos hs_subs sys lead_system]; rewrite EP, map_length; lia|].
      split; [cbn [no_bounds hs_subs sys lead_system]; unfold rle_verify in VF; rewrite !andb_true_iff in VF; tauto|].
      split; [|split; [exact WH|intros b []]].
      intros el He. cbn [no_bounds hs_subs sys lead_system hs_site] in *. rewrite Forall_forall in FE. destruct (FE el He) as (a & u & U & U1 & U2).
      rewrite (api_cell R P offset_ok order cs subs fams Hs Hf uc Huc) in U. apply (cell_sub R P lat fams) in U.
      destruct U as (sb & S1 & S2 & S3 & S4 & S5).
      destruct (site_entry R P offset_ok order cs subs Hs reg Hreg Hprim sb S1) as [G1 G2].
      rewrite U1, U2, S5, S3, G2. destruct (li_sub _ _ _ I sb S1) as (V1 & HM). destruct HM as (V2 & V3 & _). split; [lia|]. split; [exact G1|]. split; congruence. }
    assert (NDH : NoDup (map snd (stored (lt_hops s)))).
    { rewrite stored_snd. apply NoDup_concat_blocks; [intros f Hf'; apply NB; lia|]. intros f f' pq H1 H2. apply SH; lia. }
    assert (NDB : NoDup (map snd (stored (lt_bound s)))).
    { rewrite stored_snd. apply NoDup_concat_blocks; [intros f Hf'; apply NB; lia|]. intros f f' pq H1 H2. apply SB; lia. }
    assert (SMP : simple_bonds sys).
    { unfold simple_bonds. cbv zeta. cbn [sys lead_system hs_hops]. apply NoDup_app_intro; [exact NDH| |].
      - apply FinFun.Injective_map_NoDup; auto. intros [x y] [x' y'] Q. cbn [fst snd] in Q. congruence.
      - intros [j k] H1 H2. apply in_map_iff in H2. destruct H2 as ([x0 y0] & Q & H2). cbn [fst snd] in Q. injection Q as -> ->.
        apply in_map_iff in H1. destruct H1 as ([f1 c1] & Q1 & H1). cbn [snd] in Q1. subst c1.
        apply in_map_iff in H2. destruct H2 as ([f2 c2] & Q2 & H2). cbn [snd] in Q2. subst c2.
        destruct (RH _ _ _ H1) as (_ & Hj & Hk). destruct (SC j Hj) as (c & x & sx & E1 & Lx & _). destruct (SC k Hk) as (c' & y & sy & E2 & Ly & _).
        apply (TH f1 j k c c' x y) in H1; auto. apply (TH f2 k j c' c y x) in H2; auto.
        destruct H1 as (fa & ta & A1 & _ & A2 & A3). destruct H2 as (fb & tb & B1 & _ & B2 & B3).
        exact (no_return R P lat I fa ta fb tb x y A1 A2 B1 B2 A3 B3). }
    assert (CO : forall h, (forall f c, In (f, c) (stored h) -> f < length (l_fams lat)) -> cap_ok R P sys cap h).
    { intros h Hh f c H. apply Hh in H. cbn [sys lead_system hs_hop].
      destruct (nth_error (l_fams lat) f) as [fam|] eqn:Ef; [|apply nth_error_None in Ef; lia].
      assert (fm_id fam = f).
      { assert (X : nth_error (map (@fm_id R) (l_fams lat)) f = Some (fm_id fam)) by (rewrite nth_error_map, Ef; reflexivity).
        rewrite (li_fids _ _ _ I) in X. rewrite (nth_error_nth' _ 0), seq_nth in X by (rewrite ?seq_length; auto). cbn in X. congruence. }
      apply nth_error_In in Ef. subst f. rewrite (hop_entry R P offset_ok order cs fams Hf hreg Hhreg fam Ef). cbn [snd]. auto. }
    destruct (h0_elements R P nt NT_ok sys WF (fun p _ => p) (fun _ => k0) cap [] [] [] [] (Forall2_nil _) (Forall2_nil _)) as (m0 & E0 & C0).
    { apply CO. intros f [j k] H. apply RH in H. tauto. }
    { exact SMP. }
    destruct (h1_elements R P nt sys (lt_bound s) shift [] eq_refl WF WB NDB (fun p _ => p) cap [] [] (Forall2_nil _)) as (m1 & E1 & C1).
    { apply CO. intros f [j k] H. apply RB in H. tauto. }
    exists ct, s, m0, m1. split; [exact ES|]. split; [exact ND|]. split; [exact IC|]. split; [exact EI|]. fold sys. cbv zeta.
    split; [exact E0|]. split.
    { intros unshift. rewrite <- E1. unfold lead_h1. cbn [sys lead_system hs_bounds]. reflexivity. }
    intros j k c c' x y Ej Ek Lx Ly.
    destruct (SC j) as (c1 & x1 & sx & A1 & A2 & A3 & A4 & A5 & A6); [apply nth_error_Some; congruence|].
    destruct (SC k) as (c2 & x2 & sy & B1 & B2 & B3 & B4 & B5 & B6); [apply nth_error_Some; congruence|].
    assert (c1 = c) by congruence. assert (c2 = c') by congruence. subst c1 c2.
    pose proof (SU _ _ _ A2 Lx) as ->. pose proof (SU _ _ _ B2 Ly) as ->.
    exists sx, sy. rewrite (NA j sx A5), (NA k sy B5). do 6 (split; [auto|]).
    intros p q Hp Hq. assert (Hj : j < length ct) by (apply nth_error_Some; congruence). assert (Hk : k < length ct) by (apply nth_error_Some; congruence).
    split.
    - pose proof (C0 j p k q) as Q. change (hs_subs sys) with (lt_subs s) in Q. rewrite RS, (NA j sx A5), (NA k sy B5) in Q. rewrite Q by lia. clear Q.
      unfold element. cbn [no_bounds hs_bounds ksum fold_right]. unfold bulk.
      assert (SM : (if j =? k then m_at (site_matrix nt (no_bounds sys) [] j) p q else k0) = (if j =? k then nt_cast nt (m_at (sb_energy sx) p q) else k0)).
      { destruct (j =? k); [|reflexivity]. unfold site_matrix. cbn [no_bounds hs_subs sys lead_system hs_site hs_pos fold_left].
        change (site_list (lt_subs s)) with (labels (lt_subs s)). rewrite (nth_error_nth _ _ _ A5). cbn [fst].
        destruct (site_entry R P offset_ok order cs subs Hs reg Hreg Hprim sx A3) as [_ G2].
        destruct (nth_error (lt_pos s) j); cbn [cast_mat m_at]; rewrite G2; reflexivity. }
      rewrite SM.
      assert (HM : forall f cc i0 j0, m_at (hop_matrix nt (no_bounds sys) [] (fun p0 => p0) f cc) i0 j0 = nt_cast nt (m_at (snd (reg_entry (map entry_of hreg) f)) i0 j0)).
      { intros f cc i0 j0. unfold hop_matrix. cbn [no_bounds hs_hop hs_pos sys lead_system fold_left]. destruct (nth_error (lt_pos s) (fst cc)), (nth_error (lt_pos s) (snd cc)); reflexivity. }
      cbn [no_bounds hs_hops sys lead_system].
      rewrite (ksum_ext R _ (fun fc => kadd (if (fst (snd fc) =? j) && (snd (snd fc) =? k) then nt_cast nt (m_at (snd (reg_entry (map entry_of hreg) (fst fc))) p q) else k0)
          (nt_conj nt (if (fst (snd fc) =? k) && (snd (snd fc) =? j) then nt_cast nt (m_at (snd (reg_entry (map entry_of hreg) (fst fc))) q p) else k0)))).
      2:{ intros [f cc] _. unfold hop_part. cbn [fst snd]. fold sys. rewrite !HM. destruct ((fst cc =? k) && (snd cc =? j)); [reflexivity|]. destruct NT_ok as (_ & N0 & _). rewrite N0. reflexivity. }
      rewrite ksum_add, <- (ksum_ntconj R nt NT_ok).
      rewrite (table_hops_to R P lat I nt (stored (lt_hops s)) (fun f => nt_cast nt (m_at (snd (reg_entry (map entry_of hreg) f)) p q)) j k x y p q NDH).
      2:{ intros f. apply (TH f j k c c' x y); auto. }
      2:{ intros fam Hfam. rewrite (hop_entry R P offset_ok order cs fams Hf hreg Hhreg fam Hfam). reflexivity. }
      rewrite (table_hops_to R P lat I nt (stored (lt_hops s)) (fun f => nt_cast nt (m_at (snd (reg_entry (map entry_of hreg) f)) q p)) k j y x q p NDH).
      2:{ intros f. apply (TH f k j c' c y x); auto. }
      2:{ intros fam Hfam. rewrite (hop_entry R P offset_ok order cs fams Hf hreg Hhreg fam Hfam). reflexivity. }
      ring.
    - pose proof (C1 j p k q) as Q. change (hs_subs sys) with (lt_subs s) in Q. rewrite RS, (NA j sx A5), (NA k sy B5) in Q. rewrite Q by lia. clear Q.
      rewrite (ksum_ext R _ (fun fc => if (fst (snd fc) =? j) && (snd (snd fc) =? k) then nt_cast nt (m_at (snd (reg_entry (map entry_of hreg) (fst fc))) p q) else k0)).
      2:{ intros [f cc] _. cbn [fst snd]. unfold hop_matrix. cbn [hs_hop hs_pos sys lead_system fold_left]. destruct (nth_error (lt_pos s) (fst cc)), (nth_error (lt_pos s) (snd cc)); reflexivity. }
      apply (table_bulk R P lat I nt NT_ok (stored (lt_bound s)) (fun f => nt_cast nt (m_at (snd (reg_entry (map entry_of hreg) f)) p q)) j k); auto.
      + intros f. apply (TB f j k c c' x y); auto.
      + intros fam Hfam. rewrite (hop_entry R P offset_ok order cs fams Hf hreg Hhreg fam Hfam). reflexivity.
      + intros fam tm F1 F2 F3. destruct (CL j c Ej) as [_ Cj]. destruct (CL k c' Ek) as [_ Ck].
        destruct (Hback fam tm c c' x y F1 F2 Cj Ck Lx Ly F3) as [Sq SA].
        apply leads_to_iff in F3. destruct F3 as (G1 & G2 & _). cbn [fst snd] in *.
        destruct (SHP fam tm k j c' c y x F1 F2 Ek Ej Ly Lx) as [Q1 Q2]; auto. rewrite (NA j sx A5) in Q2. rewrite (NA k sy B5) in Q1.
        apply SA; lia.
  Qed.
End ApiLead.
