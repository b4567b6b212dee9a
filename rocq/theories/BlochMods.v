(* The Hamiltonian of a system made with the lattice API and with energy modifiers, in terms of the
   infinite lattice (C98). *)
From Verif Require Import Base Rle RleProofs Blocks BlocksProofs TablesSpec Scalar Foundation FoundationSpec IndexProofs Lattice LatticeSpec
  LatticeProofs UnitCellProofs LatticeFacts FoundationFacts PopulateFacts DanglingProofs Symmetry SymmetrySpec BoundaryProofs
  Hamiltonian HamiltonianSpec HamProofs HamElements HamFacts HamHermitian SystemBuild HamApi HamCor BulkSpec BulkProofs LeadHam BlochProofs.
From Coq Require Import Permutation.

(** ** Specification *)
Section Energies.
  Variable R : scalar.
  Variable P : Type.
  Variable nt : ntype R.
  (** The energy matrix [E] of a sublattice called [nm], at position [p], after the onsite modifiers. *)
  Definition site_energy (og : list (os_rule R P)) (nm : name) (E : mat R) (p : P) : mat R :=
    fold_left (fun A g => g nm p A) og (cast_mat nt E).
  (** The energy matrix of a hopping of a family from position [p] to position [q], after the hopping modifiers. *)
  Definition hop_energy (hg : list (hop_rule R P)) (p q : P) (f : family R) : mat R :=
    fold_left (fun A g => g (fm_name f) p q A) hg (cast_mat nt (fm_energy f)).
  (** Sum of the energies of all terms from [x] to [y], with energies [E]. *)
  Definition hops_by (E : family R -> mat R) (fams : list (family R)) (x : idx3 * nat) (p : nat) (y : idx3 * nat) (q : nat) : R :=
    ksum (fun f => ksum (fun t => if leads_to t x y then m_at (E f) p q else k0) (fm_terms f)) fams.
End Energies.
Arguments site_energy {R P}. Arguments hop_energy {R P}. Arguments hops_by {R}.

(** [A] is the tight-binding matrix with modified energies: rows are numbered by [d], site [n] is
    the lattice site [x] at position [px]; an element is the modified onsite energy, the modified hopping
    terms between the two sites, and those across whole periods, which see the position of the
    image and get the phase of the period.  Onsite modifiers see an alias under the name of its
    original. *)
Definition modified_binding {R : scalar} {P} (nt : ntype R) (l : lattice R P) s (shift : idx3 -> P) (phase : P -> R) (unshift : P -> P -> P) og hg
    size (uc : list (usite P)) v (d : rle) (pos : list P) (A : nat -> nat -> R) : Prop :=
  forall n k x y sx ox sy px py, site_at size uc v n x -> site_at size uc v k y ->
  In sx (l_subs l) -> sb_uid sx = snd x -> In ox (l_subs l) -> sb_uid ox = sb_alias sx -> In sy (l_subs l) -> sb_uid sy = snd y ->
  nth_error pos n = Some px -> nth_error pos k = Some py ->
  forall Ts p q, translations_of s (l_fams l) x y Ts -> p < m_rows (sb_energy sx) -> q < m_rows (sb_energy sy) ->
    A (row_of d n p) (row_of d k q)
    = kadd (kadd (if n =? k then m_at (site_energy nt og (sb_name ox) (sb_energy sx) px) p q else k0)
        (kadd (hops_by (hop_energy nt hg px py) (l_fams l) x p y q) (nt_conj nt (hops_by (hop_energy nt hg py px) (l_fams l) y q x p))))
        (ksum (fun T => kadd
            (kmul (hops_by (hop_energy nt hg px (unshift py (shift T))) (l_fams l) (shifted_cell (fst x) T, snd x) p y q) (nt_cast nt (phase (shift T))))
            (nt_conj nt (kmul (hops_by (hop_energy nt hg py (unshift px (shift T))) (l_fams l) (shifted_cell (fst y) T, snd y) q x p) (nt_cast nt (phase (shift T)))))) Ts).

Section BlochMods.
  Variable R : scalar.
  Add Ring Rblm : (k_ring R).
  Variable P : Type.
  Variable offset_ok : P -> bool.
  Variable order : list (family R) -> list (family R).
  Variable cs : list (lcall R P).
  Notation l := (calls offset_ok order cs).
  Variable subs : list (sublattice R P).
  Variable fams : list (family R).
  Hypothesis Hs : Permutation subs (l_subs l).
  Hypothesis Hf : Permutation fams (l_fams l).
  Variable uc : list (usite P).
  Hypothesis Huc : unit_cell subs fams = Ok uc.
  Variable reg hreg : list (option (name * mat R)).
  Hypothesis Hreg : site_registry subs = Ok reg.
  Hypothesis Hhreg : hopping_registry fams = Ok hreg.
  Hypothesis Hprim : forall s o, In s (l_subs l) -> In o (l_subs l) -> sb_uid o = sb_alias s -> primary o.
  Variable size : idx3.
  Hypothesis Hsize : positive_block size.
  Variable s : Symmetry.sym.
  Hypothesis Hper : block_holds_period size s.
  Variable valid : list bool.
  Notation N := (num_block_sites size (length uc)).
  Hypothesis Hvalid : length valid = N.
  Hypothesis Hin : forall i a, cell_of size i -> a < length uc -> flagged size valid (i, a) = true -> in_period size s i.
  Variable fpos : list P.
  Variable dflt : P.
  Hypothesis Hpos : length fpos = N.
  Variable shift : idx3 -> P.
  Hypothesis Hshort : forall fam t, In fam (l_fams l) -> In t (fm_terms fam) -> short_range s (t_rel t).

  Notation site_at := (site_at size uc valid).
  Variable nt : ntype R.
  Hypothesis NT_ok : nt_ok nt.
  Variable cap : nat.
  Hypothesis Hcap : fits_buffer R (l_fams l) cap.
  Notation translations_of := (translations_of s (l_fams l)).

  Lemma hops_by_cast : forall x p y q, hops_by (fun f => cast_mat nt (fm_energy f)) (l_fams l) x p y q = hops_to nt (l_fams l) x p y q.
  Proof. reflexivity. Qed.
  Lemma hops_by_none : forall E x p y q, (forall f t, In f (l_fams l) -> In t (fm_terms f) -> leads_to t x y = false) ->
    hops_by E (l_fams l) x p y q = k0.
  Proof. intros E x p y q H. unfold hops_by. apply ksum_0. intros f Hf0. apply ksum_0. intros t Ht. rewrite (H f t); auto. Qed.

  Lemma hops_by_one : forall E f t x p y q, In f (l_fams l) -> In t (fm_terms f) -> leads_to t x y = true ->
    hops_by E (l_fams l) x p y q = m_at (E f) p q.
  Proof.
    intros E f t x p y q Hf0 Ht HL. pose proof (inv_calls R P offset_ok order cs) as I.
    assert (EP : hops_by E (l_fams l) x p y q = ksum (fun ft => if leads_to (snd ft) x y then m_at (E (fst ft)) p q else k0) (pairs R (l_fams l))).
    { unfold hops_by, pairs. rewrite ksum_flat_map. apply ksum_ext. intros g _. rewrite ksum_map. reflexivity. }
    rewrite EP. assert (HI : In (f, t) (pairs R (l_fams l))) by (unfold pairs; apply in_flat_map; exists f; split; auto; apply in_map; auto).
    destruct (fop_split _ _ _ (pairs_fop R P l I) HI) as (l1 & l2 & EE & F). rewrite EE, ksum_app, ksum_cons. cbn [fst snd]. rewrite HL.
    assert (Z : forall y0, In y0 (l1 ++ l2) -> (if leads_to (snd y0) x y then m_at (E (fst y0)) p q else k0) = k0).
    { intros z Hz. destruct (leads_to (snd z) x y) eqn:EZ; [|reflexivity]. exfalso. pose proof (leads_to_same _ _ _ _ HL EZ) as ET.
      destruct (F z Hz) as [G|G]; apply G; left; cbn [snd]; congruence. }
    rewrite !ksum_0; [ring| |]; intros z Hz; apply Z; apply in_app_iff; auto.
  Qed.

  (** Tables of forward terms. *)
  Lemma table_hops_by : forall (E : family R -> mat R) (tbl : list (nat * (nat * nat))) (M : nat -> R) a b x y p q, NoDup (map snd tbl) ->
    (forall f, In (f, (a, b)) tbl <-> exists fam tm, In fam (l_fams l) /\ fm_id fam = f /\ In tm (fm_terms fam) /\ leads_to tm x y = true) ->
    (forall fam, In fam (l_fams l) -> M (fm_id fam) = m_at (E fam) p q) ->
    ksum (fun fc => if (fst (snd fc) =? a) && (snd (snd fc) =? b) then M (fst fc) else k0) tbl = hops_by E (l_fams l) x p y q.
  Proof.
    intros E tbl M a b x y p q ND HT HM. pose proof (inv_calls R P offset_ok order cs) as I.
    destruct (leads_dec R P l x y) as [(f & tm & Hf0 & Ht & HL)|NO].
    - rewrite (table_one R tbl M a b (fm_id f) ND) by (apply HT; exists f, tm; auto). rewrite HM by auto. symmetry. eapply hops_by_one; eauto.
    - rewrite table_none; [symmetry; apply hops_by_none; auto|]. intros f HI. apply HT in HI. destruct HI as (fam & tm & Hf0 & _ & Ht & HL). rewrite (NO fam tm) in HL; auto. discriminate.
  Qed.

  Theorem bloch_mods : exists sys, build_system dflt size uc s shift reg hreg fpos valid = Ok sys /\
    (forall n, n < rle_size (hs_subs sys) <-> exists x, site_at n x) /\
    (forall n x, site_at n x -> exists sb, In sb (l_subs l) /\ sb_uid sb = snd x /\ norb_at (hs_subs sys) n = m_rows (sb_energy sb)) /\
    (exists Ts, forall x y n k, site_at n x -> site_at k y -> translations_of x y Ts /\ (forall T, In T Ts -> In (opposite T) Ts)) /\
    (forall n x, site_at n x -> exists a, uid_at uc a = Some (snd x) /\ nth_error (hs_pos sys) n = nth_error fpos (place size (fst x) a)) /\
    forall om og hm hg unshift phase simple, Forall2 os_follows om og -> Forall2 hop_follows hm hg ->
      exists m, ham_make cap nt sys om hm unshift phase simple = Ok m /\
        (forall e, In e m -> fst (fst e) < hamiltonian_size (hs_subs sys) /\ snd (fst e) < hamiltonian_size (hs_subs sys)) /\
        modified_binding nt l s shift phase unshift og hg size uc valid (hs_subs sys) (hs_pos sys) (coeff m).
  Proof.
    pose proof (inv_calls R P offset_ok order cs) as I.
    assert (LH : length hreg = length (l_fams l)) by (rewrite (hreg_eq R P offset_ok order cs fams Hf hreg Hhreg); apply map_length).
    destruct (api_hamiltonian R P offset_ok order cs subs fams uc reg hreg size s valid fpos dflt shift Hs Hf Huc Hreg Hhreg Hprim Hsize Hper Hvalid Hin Hpos)
      as (sys & ES & WF & _ & HAM).
    exists sys. split; [exact ES|].
    destruct (api_populate R P offset_ok order cs subs fams Hs Hf uc Huc size Hsize valid Hvalid fpos dflt Hpos) as (d & hb & E & VF & LB & HN & HL & HB).
    destruct (api_numbering R P offset_ok order cs subs fams Hs Hf uc Huc size Hsize valid Hvalid fpos dflt Hpos _ _ _ E) as (A1 & A2 & A3 & A4 & A5 & A6).
    destruct (api_bonds R P offset_ok order cs subs fams Hs Hf uc Huc size Hsize valid Hvalid fpos dflt Hpos _ _ _ E) as (B1 & B2 & B3 & B4).
    destruct (api_boundaries R P offset_ok order cs subs fams Hs Hf uc Huc size Hsize s Hper valid Hvalid Hin) as (bs & EB & D1 & D2 & D3 & D4).
    unfold build_system in ES. rewrite LH, E in ES. cbn [obind fst snd] in ES. rewrite EB in ES. cbn [obind fst snd] in ES. injection ES as <-.
    cbn [hs_subs] in *. 
    assert (SZ : rle_size d = number valid N) by (rewrite rle_size_labels; exact A2).
    assert (LT : forall n x, site_at n x -> n < rle_size d).
    { intros n x (a & C & U & F & ->). unfold uid_at in U. destruct (nth_error uc a) as [u|] eqn:Ea; [|discriminate].
      rewrite rle_size_labels. apply nth_error_Some. destruct (A4 _ _ _ C Ea F) as [_ Q]. congruence. }
    assert (SB : forall n x, site_at n x -> exists sb, In sb (l_subs l) /\ sb_uid sb = snd x /\
      nth_error (labels d) n = Some (sb_alias sb, m_cols (sb_energy sb)) /\ m_rows (sb_energy sb) = m_cols (sb_energy sb)).
    { intros n x (a & C & U & F & ->). unfold uid_at in U. destruct (nth_error uc a) as [u|] eqn:Ea; [|discriminate]. cbn in U.
      destruct (A4 _ _ _ C Ea F) as [_ Q]. pose proof Ea as Ea'. rewrite (api_cell R P offset_ok order cs subs fams Hs Hf uc Huc) in Ea'.
      apply (cell_sub R P l fams) in Ea'. destruct Ea' as (sb & S1 & S2 & S3 & S4 & S5). exists sb.
      split; [exact S1|]. split; [congruence|]. split; [congruence|]. destruct (li_sub _ _ _ I sb S1) as (_ & _ & HM & _). exact (eq_sym HM). }
    assert (NA : forall n (sb : sublattice R P), nth_error (labels d) n = Some (sb_alias sb, m_cols (sb_energy sb)) -> norb_at d n = m_cols (sb_energy sb)).
    { intros n sb H. unfold norb_at. change (site_list d) with (labels d). rewrite (nth_error_nth _ _ _ H). reflexivity. }
    split; [|split; [|split; [|split]]].
    - intros n. split; [|intros (x & H); eapply LT; eauto]. intros H. rewrite SZ in H. destruct (A5 n H) as (i & a & C & La & F & <-).
      destruct (nth_error uc a) as [u|] eqn:Ea; [|apply nth_error_None in Ea; lia].
      exists (i, u_uid u), a. cbn [fst snd]. unfold uid_at. rewrite Ea. auto.
    - intros n x H. destruct (SB n x H) as (sb & S1 & S2 & S3 & S4). exists sb. rewrite (NA n sb S3). auto.
    - set (S := map b_shift bs). exists (nodup idx3_dec (S ++ map opposite S)). intros x y n k Sx Sy.
      assert (WP : forall T, In T (S ++ map opposite S) -> whole_periods s T).
      { intros T HT. apply in_app_iff in HT. destruct HT as [HT|HT].
        - apply in_map_iff in HT. destruct HT as (b & <- & Hb). apply (D2 b Hb).
        - apply in_map_iff in HT. destruct HT as (T' & <- & HT). apply in_map_iff in HT. destruct HT as (b & <- & Hb). apply (whole_opposite P uc size s valid Hvalid fpos Hpos). apply (D2 b Hb). }
      split; [split; [apply NoDup_nodup|]; split|].
      + intros T HT. apply nodup_In in HT. auto.
      + intros T fam t W Hfam Ht HL0. apply nodup_In. apply in_app_iff. left. destruct HL0 as [HL0|HL0].
        * apply (image_leads P uc size Hsize valid T t n k x y Sx Sy) in HL0. destruct (D4 fam t T (n, k) Hfam Ht (Hshort fam t Hfam Ht) W HL0) as (b & Hb & <- & _). apply in_map. exact Hb.
        * apply (image_leads P uc size Hsize valid T t k n y x Sy Sx) in HL0. destruct (D4 fam t T (k, n) Hfam Ht (Hshort fam t Hfam Ht) W HL0) as (b & Hb & <- & _). apply in_map. exact Hb.
      + intros T HT. rewrite nodup_In in *. apply in_app_iff in HT. apply in_app_iff. destruct HT as [HT|HT].
        * right. apply in_map. exact HT.
        * left. apply in_map_iff in HT. destruct HT as (T' & <- & HT). rewrite (opposite_twice P uc size valid Hvalid fpos Hpos). exact HT.
    - intros n x (a & C & U & F & ->). exists a. split; [exact U|]. cbn [hs_pos].
      assert (La : a < length uc) by (unfold uid_at in U; destruct (nth_error uc a) as [u|] eqn:Ea; [apply nth_error_Some; congruence|discriminate]).
      apply (mask_number P uc size valid Hvalid); [exact Hpos|apply (place_bij size (length uc)); auto|exact F].
    - intros om og hm hg unshift phase simple HO HH.
      destruct (HAM nt om og hm hg unshift phase simple cap NT_ok HO HH Hcap) as (m & EM & IR & CM).
      exists m. split; [exact EM|]. split; [exact IR|]. intros n k x y sx ox sy px py Sx Sy Isx Usx Iox Uox Isy Usy Epx Epy Ts p q (TN & TW & TC) Hp Hq.
      destruct (SB n x Sx) as (sx' & X1 & X2 & X3 & X4). assert (sx' = sx) by (apply (sub_uid_inj R P l I); auto; congruence). subst sx'.
      destruct (SB k y Sy) as (sy' & Y1 & Y2 & Y3 & Y4). assert (sy' = sy) by (apply (sub_uid_inj R P l I); auto; congruence). subst sy'.
      rewrite CM; [|eapply LT; eauto|eapply LT; eauto|rewrite (NA n sx X3); lia|rewrite (NA k sy Y3); lia].
      unfold element. cbn [hs_hops hs_bounds]. cbn [hs_pos] in Epx, Epy.
      match goal with |- kadd (kadd ?a _) _ = kadd (kadd ?a' _) _ => assert (SM : a = a') end.
      { destruct (n =? k); [|reflexivity]. unfold site_matrix. cbn [hs_subs hs_site hs_pos].
        change (site_list d) with (labels d). rewrite (nth_error_nth _ _ _ X3). cbn [fst].
        pose proof (site_registry_alias R P offset_ok order cs subs reg sx ox Hs Hreg Isx Iox Uox (Hprim sx ox Isx Iox Uox)) as G1.
        assert (G2 : reg_entry (map entry_of reg) (sb_alias sx) = (sb_name ox, sb_energy sx)).
        { unfold reg_entry. erewrite nth_error_nth; [|rewrite nth_error_map, G1; reflexivity]. reflexivity. }
        rewrite Epx, G2. reflexivity. }
      rewrite SM. clear SM.
      match goal with |- kadd (kadd _ (ksum (fun fc => hop_part nt (m_at (hop_matrix nt ?sy0 _ _ _ _)) _ _ _ _ _) _)) _ = _ => set (sys := sy0) end.
      destruct NT_ok as (_ & N0 & _).
      set (en := fun sh f cc i0 j0 => m_at (hop_matrix nt sys hg sh f cc) i0 j0).
      assert (EN : forall sh n1 k1 p1 p2 i0 j0 fam, nth_error (mask valid fpos) n1 = Some p1 -> nth_error (mask valid fpos) k1 = Some p2 -> In fam (l_fams l) ->
        en sh (fm_id fam) (n1, k1) i0 j0 = m_at (hop_energy nt hg p1 (sh p2) fam) i0 j0).
      { intros sh n1 k1 p1 p2 i0 j0 fam E1 E2 Hfam. unfold en, hop_matrix. cbn [sys hs_hop hs_pos fst snd]. rewrite E1, E2.
        rewrite (hop_entry R P offset_ok order cs fams Hf hreg Hhreg fam Hfam). reflexivity. }
      assert (IFE : forall (b1 : coo) sh f i0 j0 n1 k1, (if (fst b1 =? n1) && (snd b1 =? k1) then en sh f b1 i0 j0 else k0) = (if (fst b1 =? n1) && (snd b1 =? k1) then en sh f (n1, k1) i0 j0 else k0)).
      { intros [b1 b2] sh f i0 j0 n1 k1. cbn [fst snd]. destruct (Nat.eqb_spec b1 n1) as [->|]; [|reflexivity]. destruct (Nat.eqb_spec b2 k1) as [->|]; reflexivity. }
      assert (TH : forall n k x y f, site_at n x -> site_at k y -> In (f, (n, k)) (stored hb) <->
        exists fam t, In fam (l_fams l) /\ fm_id fam = f /\ In t (fm_terms fam) /\ leads_to t x y = true).
      { intros n0 k0 x0 y0 f S0 S1. rewrite in_stored_iff, B2. split; intros (fam & t & F1 & F2 & F3 & F4); exists fam, t; repeat (split; [assumption|]);
          apply (bond_leads P uc size Hsize valid Hvalid fpos Hpos t n0 k0 x0 y0 S0 S1); assumption. }
      assert (TB : forall b, In b bs -> forall n k x y f, site_at n x -> site_at k y -> In (f, (n, k)) (stored (b_hops b)) <->
        exists fam t, In fam (l_fams l) /\ fm_id fam = f /\ In t (fm_terms fam) /\ leads_to t (shifted_cell (fst x) (b_shift b), snd x) y = true).
      { intros b Hb n0 k0 x0 y0 f S0 S1. destruct (D2 b Hb) as (W & _ & _ & _ & G). rewrite in_stored_iff. split.
        - intros HI. apply G in HI. destruct HI as (fam & t & F1 & F2 & F3 & F4). exists fam, t. repeat (split; [assumption|]).
          apply (image_leads P uc size Hsize valid (b_shift b) t n0 k0 x0 y0 S0 S1). exact F4.
        - intros (fam & t & F1 & F2 & F3 & F4). apply (image_leads P uc size Hsize valid (b_shift b) t n0 k0 x0 y0 S0 S1) in F4.
          destruct (D4 fam t (b_shift b) (n0, k0) F1 F3 (Hshort fam t F1 F3) W F4) as (b' & Hb' & Eb & HI). subst f.
          assert (b' = b) by (apply (NoDup_map_inj b_shift bs); auto). subst b'. exact HI. }
      pose (id0 := fun z : P => z).
      rewrite (ksum_ext R _ (fun fc => kadd (if (fst (snd fc) =? n) && (snd (snd fc) =? k) then en id0 (fst fc) (n, k) p q else k0)
          (nt_conj nt (if (fst (snd fc) =? k) && (snd (snd fc) =? n) then en id0 (fst fc) (k, n) q p else k0)))).
      2:{ intros [f cc] _. unfold hop_part. cbn [fst snd]. rewrite <- !IFE. unfold en, id0. destruct ((fst cc =? k) && (snd cc =? n)); [reflexivity|]. rewrite N0. reflexivity. }
      rewrite ksum_add, <- (ksum_ntconj R nt NT_ok).
      assert (NDH : NoDup (map snd (stored hb))) by (rewrite stored_snd; exact B3).
      rewrite (table_hops_by (hop_energy nt hg px py) (stored hb) (fun f => en id0 f (n, k) p q) n k x y p q NDH); [|intros f; apply TH; auto|intros fam HF; apply (EN id0); auto].
      rewrite (table_hops_by (hop_energy nt hg py px) (stored hb) (fun f => en id0 f (k, n) q p) k n y x q p NDH); [|intros f; apply TH; auto|intros fam HF; apply (EN id0); auto].
      f_equal.
      rewrite ksum_map. cbn [fst snd].
      set (g := fun T => kadd (kmul (hops_by (hop_energy nt hg px (unshift py (shift T))) (l_fams l) (shifted_cell (fst x) T, snd x) p y q) (nt_cast nt (phase (shift T))))
                (nt_conj nt (kmul (hops_by (hop_energy nt hg py (unshift px (shift T))) (l_fams l) (shifted_cell (fst y) T, snd y) q x p) (nt_cast nt (phase (shift T)))))).
      transitivity (ksum (fun b => g (b_shift b)) bs).
      + apply ksum_ext. intros b Hb. destruct (D2 b Hb) as (_ & _ & _ & NDb & _). pose (sh := fun z => unshift z (shift (b_shift b))).
        rewrite (ksum_ext R _ (fun fc => kadd ((if (fst (snd fc) =? n) && (snd (snd fc) =? k) then en sh (fst fc) (n, k) p q else k0) * nt_cast nt (phase (shift (b_shift b))))
          (nt_conj nt (kmul (if (fst (snd fc) =? k) && (snd (snd fc) =? n) then en sh (fst fc) (k, n) q p else k0) (nt_cast nt (phase (shift (b_shift b)))))))%k).
        2:{ intros [f cc] _. unfold hop_part. cbn [fst snd]. rewrite <- !IFE. unfold en, sh.
            f_equal; [destruct ((fst cc =? n) && (snd cc =? k)); [reflexivity|ring]|].
            destruct ((fst cc =? k) && (snd cc =? n)); [reflexivity|]. rewrite <- N0 at 1. f_equal. ring. }
        rewrite ksum_add, <- (ksum_ntconj R nt NT_ok), !ksum_mul_r.
        assert (ND' : NoDup (map snd (stored (b_hops b)))) by (rewrite stored_snd; exact NDb).
        rewrite (table_hops_by (hop_energy nt hg px (sh py)) (stored (b_hops b)) (fun f => en sh f (n, k) p q) n k (shifted_cell (fst x) (b_shift b), snd x) y p q ND'); [|intros f; apply TB; auto|intros fam HF; apply EN; auto].
        rewrite (table_hops_by (hop_energy nt hg py (sh px)) (stored (b_hops b)) (fun f => en sh f (k, n) q p) k n (shifted_cell (fst y) (b_shift b), snd y) x q p ND'); [|intros f; apply TB; auto|intros fam HF; apply EN; auto].
        reflexivity.
      + rewrite <- (ksum_map R b_shift g). 
        assert (G0 : forall T, (forall fam t, In fam (l_fams l) -> In t (fm_terms fam) ->
            leads_to t (shifted_cell (fst x) T, snd x) y <> true /\ leads_to t (shifted_cell (fst y) T, snd y) x <> true) -> g T = k0).
        { intros T H. unfold g. rewrite !hops_by_none; [|intros f t H1 H2; apply not_true_iff_false; apply (H f t H1 H2)..].
          replace (kmul k0 (nt_cast nt (phase (shift T)))) with (k0 (s := R)) by ring. rewrite N0. ring. }
        apply (ksum_support R idx3_dec); auto.
        * intros T H1 H2. apply G0. intros fam t F1 F2. apply in_map_iff in H1. destruct H1 as (b & <- & Hb). destruct (D2 b Hb) as (W & _).
          split; intros HL0; apply H2; apply (TC (b_shift b) fam t); auto.
        * intros T H1 H2. apply G0. intros fam t F1 F2.
          split; intros HL0; apply H2.
          -- apply (image_leads P uc size Hsize valid T t n k x y Sx Sy) in HL0. destruct (D4 fam t T (n, k) F1 F2 (Hshort fam t F1 F2) (TW T H1) HL0) as (b & Hb & <- & _). apply in_map. exact Hb.
          -- apply (image_leads P uc size Hsize valid T t k n y x Sy Sx) in HL0. destruct (D4 fam t T (k, n) F1 F2 (Hshort fam t F1 F2) (TW T H1) HL0) as (b & Hb & <- & _). apply in_map. exact Hb.
  Qed.

End BlochMods.
