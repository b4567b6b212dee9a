(* Attaching a lead and building its matrices, from the lattice to the end (C35, C42). *)
From Verif Require Import Base Rle RleProofs Blocks BlocksProofs TablesSpec Scalar Foundation FoundationSpec IndexProofs Lattice LatticeSpec
  LatticeProofs UnitCellProofs LatticeFacts FoundationFacts PopulateFacts BoundaryProofs DanglingProofs FinalProofs
  Hamiltonian HamiltonianSpec HamProofs HamElements HamFacts SystemBuild HamApi Leads LeadsSpec LeadAttach LeadBuild LeadStruct BulkSpec BulkProofs LeadHam.
From Coq Require Import Permutation.

(** Number that a system site gets, as stored in the index list of a lead. *)
Definition site_number (size : idx3) (valid : list bool) (c : idx3 * nat) : Z := Z.of_nat (number valid (place size (fst c) (snd c))).

Section Cor.
  Variable R : scalar.
  Variable P : Type.
  Variable offset_ok : P -> bool.
  Variable order : list (family R) -> list (family R).
  Variable cs : list (lcall R P).
  Notation lat := (calls offset_ok order cs).
  Variable subs : list (sublattice R P).
  Variable fams : list (family R).
  Hypothesis Hs : Permutation subs (l_subs lat).
  Hypothesis Hf : Permutation fams (l_fams lat).
  Variable uc : list (usite P).
  Hypothesis Huc : unit_cell subs fams = Ok uc.
  Variable size lower : idx3.
  Hypothesis Hsize : positive_block size.
  Notation N := (num_block_sites size (length uc)).
  Variable fpos : list P.
  Hypothesis Hpos : length fpos = N.
  Variable l : lead P.
  Hypothesis Haxis : lead_axis l < 3.
  Hypothesis Hover : overlaps size lower l.
  Variable inside : P -> bool.
  Hypothesis Hin : forall ps, lead_contains l ps = map inside ps.
  Variable valid' : list bool.
  Hypothesis attached_length : length valid' = N.
  Hypothesis HC : has_contacts size lower uc fpos l inside valid'.
  Hypothesis LV : forall i a, contact size lower uc fpos l inside valid' i a -> flagged size valid' (i, a) = true.
  Notation is_contact := (contact size lower uc fpos l inside valid').

  Lemma numbers_ok : exists fi, finalized_indices size uc (length (l_fams lat)) valid' = Ok fi.
  Proof.
    destruct (finalized_ok size uc (length (l_fams lat)) Hsize (api_fam R P offset_ok order cs subs fams Hs Hf uc Huc) valid') as (inds & counts & E & _).
    { rewrite nbs_eq by auto. apply attached_length. }
    eauto.
  Qed.

  (** Position of a contact in the list of contacts, from the stored number. *)
  Lemma contact_at : forall ct (ix : list Z), (forall i a, In (i, a) ct <-> is_contact i a) ->
    ix = map (site_number size valid') ct ->
    forall j c, is_contact (fst c) (snd c) -> nth_error ix j = Some (site_number size valid' c) -> nth_error ct j = Some c.
  Proof.
    intros ct ix IC -> j c C E. rewrite nth_error_map in E. destruct (nth_error ct j) as [c'|] eqn:Ej; [|discriminate]. cbn in E. f_equal.
    assert (Q : number valid' (place size (fst c') (snd c')) = number valid' (place size (fst c) (snd c))) by (unfold site_number in E; injection E as E; lia).
    assert (C' : is_contact (fst c') (snd c')) by (apply IC; rewrite <- surjective_pairing; eapply nth_error_In; eauto).
    pose proof (LV _ _ C) as F. pose proof (LV _ _ C') as F'. unfold flagged in F, F'. cbn [fst snd] in F, F'.
    apply (number_inj valid') in Q; auto.
    destruct c as [i a], c' as [i' a']. cbn [fst snd] in *. apply (place_bij size (length uc)) in Q; [destruct Q; congruence|auto|apply C'|apply C].
  Qed.

  Theorem contacts_ok : forall padd dflt shift, exists fi s,
    finalized_indices size uc (length (l_fams lat)) valid' = Ok fi /\
    make_structure size lower uc fpos padd dflt (length (l_fams lat)) (fst (fst fi)) shift l valid' = Ok s /\
    NoDup (lt_indices s) /\
    (forall n, In n (lt_indices s) <-> exists i a, is_contact i a /\ n = site_number size valid' (i, a)) /\
    (forall i a, is_contact i a -> flagged size valid' (i, a) = true) /\
    (forall n, In n (lt_indices s) -> (0 <= n < Z.of_nat (number valid' N))%Z).
  Proof.
    intros padd dflt shift. destruct numbers_ok as (fi & Hfi).
    destruct (structure_spec size lower uc (length (l_fams lat)) Hsize (api_ok R P offset_ok order cs subs fams Hs Hf uc Huc)
      (api_fam R P offset_ok order cs subs fams Hs Hf uc Huc) _ (api_norb R P offset_ok order cs subs fams Hs Hf uc Huc)
      (api_contig R P offset_ok order cs subs fams Hs Hf uc Huc) (api_sorted R P offset_ok order cs subs fams Hs Hf uc Huc)
      fpos Hpos padd dflt shift l Haxis Hover inside Hin valid' attached_length LV HC fi Hfi)
      as (ct & s & ES & ND & IC & EI & _).
    exists fi, s. split; [exact Hfi|]. split; [exact ES|].
    change (fun c : idx3 * nat => Z.of_nat (number valid' (place size (fst c) (snd c)))) with (site_number size valid') in EI.
    assert (IN : forall n, In n (lt_indices s) <-> exists i a, is_contact i a /\ n = site_number size valid' (i, a)).
    { intros n. rewrite EI, in_map_iff. split.
      - intros ([i a] & <- & H). apply IC in H. eauto.
      - intros (i & a & H & ->). exists (i, a). split; auto. apply IC. exact H. }
    split; [|split; [exact IN|split; [exact LV|]]].
    - apply NoDup_nth_error. intros j k Hj E. destruct (nth_error (lt_indices s) j) as [n|] eqn:Ej; [|apply nth_error_None in Ej; lia]. symmetry in E.
      pose proof (nth_error_In _ _ Ej) as H. apply IN in H. destruct H as (i & a & C & ->).
      pose proof (contact_at ct _ IC EI j (i, a) C Ej) as Qj. pose proof (contact_at ct _ IC EI k (i, a) C E) as Qk.
      apply (proj1 (NoDup_nth_error ct) ND); [apply nth_error_Some; congruence|congruence].
    - intros n H. apply IN in H. destruct H as (i & a & C & ->). pose proof (LV i a C) as F. unfold flagged in F. cbn [fst snd] in F.
      unfold site_number. cbn [fst snd]. split; [lia|].
      assert (PL : place size i a < N) by (apply (place_bij size (length uc)); [auto|apply C|apply C]).
      pose proof (number_mono valid' (S (place size i a)) N PL) as G. rewrite number_S, F in G. cbn [b2n] in G. lia.
  Qed.

  Variable reg hreg : list (option (name * mat R)).
  Hypothesis Hreg : site_registry subs = Ok reg.
  Hypothesis Hhreg : hopping_registry fams = Ok hreg.
  Hypothesis Hprim : forall s o, In s (l_subs lat) -> In o (l_subs lat) -> sb_uid o = sb_alias s -> primary o.
  Variable nt : ntype R.
  Hypothesis NT_ok : nt_ok nt.
  Variable cap : nat.
  Hypothesis Hcap : forall fam, In fam (l_fams lat) -> mat_size (fm_energy fam) <= cap.
  Notation e := (unit3 (lead_axis l) (lead_sign l)).
  Hypothesis Hback : forall fam t c c' x y, In fam (l_fams lat) -> In t (fm_terms fam) ->
    is_contact (fst c) (snd c) -> is_contact (fst c') (snd c') -> lattice_site P uc c x -> lattice_site P uc c' y ->
    leads_to t y (shifted_cell (fst x) e, snd x) = true -> self_adjoint nt (fm_energy fam).

  Theorem lead_is_bulk : forall padd dflt shift, exists fi s m0 m1,
    finalized_indices size uc (length (l_fams lat)) valid' = Ok fi /\
    make_structure size lower uc fpos padd dflt (length (l_fams lat)) (fst (fst fi)) shift l valid' = Ok s /\
    let sys := lead_system R P (map entry_of reg) (map entry_of hreg) shift s in
    lead_h0 R P cap nt sys [] [] = Ok m0 /\
    (forall unshift, lead_h1 R P cap nt sys [] unshift = Ok m1) /\
    forall j k c c' x y, is_contact (fst c) (snd c) -> is_contact (fst c') (snd c') ->
      nth_error (lt_indices s) j = Some (site_number size valid' c) -> nth_error (lt_indices s) k = Some (site_number size valid' c') ->
      lattice_site P uc c x -> lattice_site P uc c' y ->
      exists sx sy, In sx (l_subs lat) /\ sb_uid sx = snd x /\ norb_at (lt_subs s) j = m_rows (sb_energy sx) /\
        In sy (l_subs lat) /\ sb_uid sy = snd y /\ norb_at (lt_subs s) k = m_rows (sb_energy sy) /\
        forall p q, p < m_rows (sb_energy sx) -> q < m_rows (sb_energy sy) ->
          coeff m0 (row_of (lt_subs s) j p) (row_of (lt_subs s) k q)
            = kadd (if j =? k then nt_cast nt (m_at (sb_energy sx) p q) else k0) (bulk nt (l_fams lat) x p y q) /\
          coeff m1 (row_of (lt_subs s) j p) (row_of (lt_subs s) k q)
            = bulk nt (l_fams lat) (shifted_cell (fst x) e, snd x) p y q.
  Proof.
    intros padd dflt shift. destruct numbers_ok as (fi & Hfi).
    destruct (lead_matrices R P offset_ok order cs subs fams Hs Hf uc Huc reg hreg Hreg Hhreg Hprim size lower Hsize fpos Hpos padd dflt shift l Haxis
      Hover inside Hin valid' attached_length HC LV fi Hfi nt NT_ok cap Hcap Hback) as (ct & s & m0 & m1 & ES & ND & IC & EI & E0 & E1 & EL).
    exists fi, s, m0, m1. split; [exact Hfi|]. split; [exact ES|]. split; [exact E0|]. split; [exact E1|].
    intros j k c c' x y C C' Ej Ek Lx Ly. apply (EL j k c c' x y); auto; eapply contact_at; eauto.
  Qed.
End Cor.
