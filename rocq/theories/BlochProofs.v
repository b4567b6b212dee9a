(* The Hamiltonian of a system made with the lattice API, in terms of the infinite lattice (C43). *)
From Verif Require Import Base Rle RleProofs Blocks BlocksProofs TablesSpec Scalar Foundation FoundationSpec IndexProofs Lattice LatticeSpec
  LatticeProofs UnitCellProofs LatticeFacts FoundationFacts PopulateFacts DanglingProofs Symmetry SymmetrySpec BoundaryProofs
  Hamiltonian HamiltonianSpec HamProofs HamElements HamFacts HamHermitian SystemBuild HamApi HamCor BulkSpec BulkProofs LeadHam.
From Coq Require Import Permutation.

Definition idx3_dec : forall a b : idx3, {a = b} + {a <> b}.
Proof. intros [a b c] [d e f]. destruct (Z.eq_dec a d), (Z.eq_dec b e), (Z.eq_dec c f); try (right; congruence). left. congruence. Defined.

Lemma NoDup_rem : forall {A} (dec : forall a b : A, {a = b} + {a <> b}) l a, NoDup l -> NoDup (remove dec a l).
Proof.
  intros A dec l a H. induction H as [|b l N1 N2 IH]; [constructor|]. cbn [remove]. destruct (dec a b); auto.
  constructor; auto. intros HI. apply in_remove in HI. tauto.
Qed.

Section Support.
  Variable R : scalar.
  Add Ring Rbl0 : (k_ring R).
  Lemma ksum_remove : forall {A} (dec : forall a b : A, {a = b} + {a <> b}) (f : A -> R) l a, NoDup l -> In a l ->
    ksum f l = kadd (f a) (ksum f (remove dec a l)).
  Proof.
    intros A dec f l a. induction l as [|b l IH]; intros ND HI; [destruct HI|]. inversion ND as [|? ? N1 N2]; subst. cbn [remove].
    destruct (dec a b) as [->|Ne].
    - rewrite ksum_cons, notin_remove by auto. reflexivity.
    - destruct HI as [->|HI]; [congruence|]. rewrite !ksum_cons, IH by auto. ring.
  Qed.
  Lemma ksum_support : forall {A} (dec : forall a b : A, {a = b} + {a <> b}) (f : A -> R) l1 l2, NoDup l1 -> NoDup l2 ->
    (forall a, In a l1 -> ~ In a l2 -> f a = k0) -> (forall a, In a l2 -> ~ In a l1 -> f a = k0) -> ksum f l1 = ksum f l2.
  Proof.
    intros A dec f l1. induction l1 as [|a l1 IH]; intros l2 N1 N2 H1 H2.
    - symmetry. apply ksum_0. intros a Ha. apply H2; auto.
    - inversion N1 as [|? ? M1 M2]; subst. rewrite ksum_cons. destruct (in_dec dec a l2) as [I|NI].
      + rewrite (ksum_remove dec f l2 a) by auto. f_equal. apply IH; auto.
        * apply NoDup_rem; auto.
        * intros b Hb Nb. apply H1; [right; auto|]. intros Hb'. apply Nb. apply in_in_remove; auto. intros ->. auto.
        * intros b Hb Nb. apply in_remove in Hb. destruct Hb as [Hb Ne]. apply H2; auto. intros [->|Hb']; auto.
      + rewrite (H1 a) by (auto; left; auto). rewrite (IH l2); auto; [ring| |].
        * intros b Hb Nb. apply H1; auto. right; auto.
        * intros b Hb Nb. apply H2; auto. intros [->|Hb']; auto.
  Qed.
End Support.

Section Bloch.
  Variable R : scalar.
  Add Ring Rbl : (k_ring R).
  Variable P : Type.
  Variable offset_ok : P -> bool.
  Variable order : list (family R) -> list (family R).
  Variable cs : list (lcall R P).
  Notation l := (calls offset_ok order cs).
  Variable subs : list (sublattice R P).
  Variable fams : list (family R).
  Hypothesis Hs : Permutation subs (l_subs l).
  Hypothesis Hf : Permutation fams (l_fams l).
  Variable uc : list (usite P).
  Hypothesis Huc : unit_cell subs fams = Ok uc.
  Variable reg hreg : list (option (name * mat R)).
  Hypothesis Hreg : site_registry subs = Ok reg.
  Hypothesis Hhreg : hopping_registry fams = Ok hreg.
  Hypothesis Hprim : forall s o, In s (l_subs l) -> In o (l_subs l) -> sb_uid o = sb_alias s -> primary o.
  Variable size : idx3.
  Hypothesis Hsize : positive_block size.
  Variable s : Symmetry.sym.
  Hypothesis Hper : block_holds_period size s.
  Variable valid : list bool.
  Notation N := (num_block_sites size (length uc)).
  Hypothesis Hvalid : length valid = N.
  Hypothesis Hin : forall i a, cell_of size i -> a < length uc -> flagged size valid (i, a) = true -> in_period size s i.
  Variable fpos : list P.
  Variable dflt : P.
  Hypothesis Hpos : length fpos = N.
  Variable shift : idx3 -> P.
  Hypothesis Hshort : forall fam t, In fam (l_fams l) -> In t (fm_terms fam) -> short_range s (t_rel t).

  Notation site_at := (site_at size uc valid).
  Lemma site_at_inj : forall n x y, site_at n x -> site_at n y -> x = y.
  Proof.
    intros n [i u] [j v] (a & C1 & U1 & F1 & E1) (b & C2 & U2 & F2 & E2). cbn [fst snd] in *. rewrite E1 in E2.
    unfold flagged in F1, F2. cbn [fst snd] in F1, F2. apply (number_inj valid) in E2; auto.
    apply (place_bij size (length uc)) in E2; auto. destruct E2 as [-> ->]. congruence.
  Qed.

  Lemma site_at_cell : forall n x i a u, site_at n x -> cell_of size i -> nth_error uc a = Some u -> flagged size valid (i, a) = true ->
    n = number valid (place size i a) -> i = fst x /\ u_uid u = snd x.
  Proof.
    intros n x i a u S C U F E. assert (S' : site_at n (i, u_uid u)).
    { exists a. cbn [fst snd]. unfold uid_at. rewrite U. auto. }
    pose proof (site_at_inj _ _ _ S S') as ->. auto.
  Qed.

  Lemma whole_opposite : forall T, whole_periods s T -> whole_periods s (opposite T).
  Proof.
    intros T (N0 & k1 & k2 & k3 & ->). split.
    - intros E. apply N0. unfold opposite, zero3 in *. cbn in E. injection E as E1 E2 E3. f_equal; lia.
    - exists (- k1)%Z, (- k2)%Z, (- k3)%Z. unfold opposite. cbn. f_equal; lia.
  Qed.

  Lemma opposite_twice : forall T, opposite (opposite T) = T.
  Proof. intros [a b c]. unfold opposite. cbn. f_equal; lia. Qed.

  Lemma image_leads : forall T t n k x y, site_at n x -> site_at k y ->
    (image_bond size uc valid T t (n, k) <-> leads_to t (shifted_cell (fst x) T, snd x) y = true).
  Proof.
    intros T t n k x y Sx Sy. rewrite leads_to_iff. cbn [fst snd]. split.
    - intros (i & a & b & u & v & X1 & X2 & X3 & X4 & X5 & X6 & X7 & X8 & X9). injection X9 as E1 E2.
      destruct (site_at_cell n x i a u) as [Q1 Q2]; auto. destruct (site_at_cell k y _ b v Sy X2 X5 X8 E2) as [Q3 Q4]. subst i.
      split; [congruence|]. split; [congruence|]. symmetry. exact Q3.
    - intros (G1 & G2 & G3). destruct Sx as (a & C1 & U1 & F1 & E1). destruct Sy as (b & C2 & U2 & F2 & E2).
      unfold uid_at in U1, U2. destruct (nth_error uc a) as [u|] eqn:Ea; [|discriminate]. destruct (nth_error uc b) as [v|] eqn:Eb; [|discriminate].
      cbn in U1, U2. exists (fst x), a, b, u, v. rewrite <- G3. repeat split; auto; try congruence; try apply C1; try apply C2.
  Qed.

  Lemma bond_leads : forall t n k x y, site_at n x -> site_at k y -> (bond_of size uc valid t (n, k) <-> leads_to t x y = true).
  Proof.
    intros t n k x y Sx Sy. pose proof (image_leads zero3 t n k x y Sx Sy) as H.
    assert (ZS : forall i, shifted_cell i zero3 = i) by (intros [a b c]; unfold shifted_cell, zero3; cbn; f_equal; lia).
    rewrite ZS, <- surjective_pairing in H. rewrite <- H. unfold bond_of, image_bond. split.
    - intros (i & a & b & u & v & X). exists i, a, b, u, v. rewrite ZS. exact X.
    - intros (i & a & b & u & v & X). exists i, a, b, u, v. rewrite ZS in X. exact X.
  Qed.

  Variable nt : ntype R.
  Hypothesis NT_ok : nt_ok nt.
  Variable cap : nat.
  Hypothesis Hcap : fits_buffer R (l_fams l) cap.

  Notation translations_of := (translations_of s (l_fams l)).
  Theorem bloch : exists sys, build_system dflt size uc s shift reg hreg fpos valid = Ok sys /\
    (forall n, n < rle_size (hs_subs sys) <-> exists x, site_at n x) /\
    (forall n x, site_at n x -> exists sb, In sb (l_subs l) /\ sb_uid sb = snd x /\ norb_at (hs_subs sys) n = m_rows (sb_energy sb)) /\
    (exists Ts, forall x y n k, site_at n x -> site_at k y -> translations_of x y Ts /\ (forall T, In T Ts -> In (opposite T) Ts)) /\
    forall unshift phase simple, exists m, ham_make cap nt sys [] [] unshift phase simple = Ok m /\
      forall n k x y sx sy, site_at n x -> site_at k y -> In sx (l_subs l) -> sb_uid sx = snd x -> In sy (l_subs l) -> sb_uid sy = snd y ->
      forall Ts p q, translations_of x y Ts -> p < m_rows (sb_energy sx) -> q < m_rows (sb_energy sy) ->
        coeff m (row_of (hs_subs sys) n p) (row_of (hs_subs sys) k q)
        = kadd (kadd (if n =? k then nt_cast nt (m_at (sb_energy sx) p q) else k0) (bulk nt (l_fams l) x p y q))
            (ksum (fun T => kadd
                (kmul (hops_to nt (l_fams l) (shifted_cell (fst x) T, snd x) p y q) (nt_cast nt (phase (shift T))))
                (nt_conj nt (kmul (hops_to nt (l_fams l) (shifted_cell (fst y) T, snd y) q x p) (nt_cast nt (phase (shift T)))))) Ts).
  Proof.
    pose proof (inv_calls R P offset_ok order cs) as I.
    assert (LH : length hreg = length (l_fams l)) by (rewrite (hreg_eq R P offset_ok order cs fams Hf hreg Hhreg); apply map_length).
    destruct (api_hamiltonian R P offset_ok order cs subs fams uc reg hreg size s valid fpos dflt shift Hs Hf Huc Hreg Hhreg Hprim Hsize Hper Hvalid Hin Hpos)
      as (sys & ES & WF & _ & HAM).
    exists sys. split; [exact ES|].
    destruct (api_populate R P offset_ok order cs subs fams Hs Hf uc Huc size Hsize valid Hvalid fpos dflt Hpos) as (d & hb & E & VF & LB & HN & HL & HB).
    destruct (api_numbering R P offset_ok order cs subs fams Hs Hf uc Huc size Hsize valid Hvalid fpos dflt Hpos _ _ _ E) as (A1 & A2 & A3 & A4 & A5 & A6).
    destruct (api_bonds R P offset_ok order cs subs fams Hs Hf uc Huc size Hsize valid Hvalid fpos dflt Hpos _ _ _ E) as (B1 & B2 & B3 & B4).
    destruct (api_boundaries R P offset_ok order cs subs fams Hs Hf uc Huc size Hsize s Hper valid Hvalid Hin) as (bs & EB & D1 & D2 & D3 & D4).
    unfold build_system in ES. rewrite LH, E in ES. cbn [obind fst snd] in ES. rewrite EB in ES. cbn [obind fst snd] in ES. injection ES as <-.
    cbn [hs_subs] in *. 
    assert (SZ : rle_size d = number valid N) by (rewrite rle_size_labels; exact A2).
    assert (LT : forall n x, site_at n x -> n < rle_size d).
    { intros n x (a & C & U & F & ->). unfold uid_at in U. destruct (nth_error uc a) as [u|] eqn:Ea; [|discriminate].
      rewrite rle_size_labels. apply nth_error_Some. destruct (A4 _ _ _ C Ea F) as [_ Q]. congruence. }
    assert (SB : forall n x, site_at n x -> exists sb, In sb (l_subs l) /\ sb_uid sb = snd x /\
      nth_error (labels d) n = Some (sb_alias sb, m_cols (sb_energy sb)) /\ m_rows (sb_energy sb) = m_cols (sb_energy sb)).
    { intros n x (a & C & U & F & ->). unfold uid_at in U. destruct (nth_error uc a) as [u|] eqn:Ea; [|discriminate]. cbn in U.
      destruct (A4 _ _ _ C Ea F) as [_ Q]. pose proof Ea as Ea'. rewrite (api_cell R P offset_ok order cs subs fams Hs Hf uc Huc) in Ea'.
      apply (cell_sub R P l fams) in Ea'. destruct Ea' as (sb & S1 & S2 & S3 & S4 & S5). exists sb.
      split; [exact S1|]. split; [congruence|]. split; [congruence|]. destruct (li_sub _ _ _ I sb S1) as (_ & _ & HM & _). exact (eq_sym HM). }
    assert (NA : forall n (sb : sublattice R P), nth_error (labels d) n = Some (sb_alias sb, m_cols (sb_energy sb)) -> norb_at d n = m_cols (sb_energy sb)).
    { intros n sb H. unfold norb_at. change (site_list d) with (labels d). rewrite (nth_error_nth _ _ _ H). reflexivity. }
    split; [|split; [|split]].
    - intros n. split; [|intros (x & H); eapply LT; eauto]. intros H. rewrite SZ in H. destruct (A5 n H) as (i & a & C & La & F & <-).
      destruct (nth_error uc a) as [u|] eqn:Ea; [|apply nth_error_None in Ea; lia].
      exists (i, u_uid u), a. cbn [fst snd]. unfold uid_at. rewrite Ea. auto.
    - intros n x H. destruct (SB n x H) as (sb & S1 & S2 & S3 & S4). exists sb. rewrite (NA n sb S3). auto.
    - set (S := map b_shift bs). exists (nodup idx3_dec (S ++ map opposite S)). intros x y n k Sx Sy.
      assert (WP : forall T, In T (S ++ map opposite S) -> whole_periods s T).
      { intros T HT. apply in_app_iff in HT. destruct HT as [HT|HT].
        - apply in_map_iff in HT. destruct HT as (b & <- & Hb). apply (D2 b Hb).
        - apply in_map_iff in HT. destruct HT as (T' & <- & HT). apply in_map_iff in HT. destruct HT as (b & <- & Hb). apply whole_opposite. apply (D2 b Hb). }
      split; [split; [apply NoDup_nodup|]; split|].
      + intros T HT. apply nodup_In in HT. auto.
      + intros T fam t W Hfam Ht HL0. apply nodup_In. apply in_app_iff. left. destruct HL0 as [HL0|HL0].
        * apply (image_leads T t n k x y Sx Sy) in HL0. destruct (D4 fam t T (n, k) Hfam Ht (Hshort fam t Hfam Ht) W HL0) as (b & Hb & <- & _). apply in_map. exact Hb.
        * apply (image_leads T t k n y x Sy Sx) in HL0. destruct (D4 fam t T (k, n) Hfam Ht (Hshort fam t Hfam Ht) W HL0) as (b & Hb & <- & _). apply in_map. exact Hb.
      + intros T HT. rewrite nodup_In in *. apply in_app_iff in HT. apply in_app_iff. destruct HT as [HT|HT].
        * right. apply in_map. exact HT.
        * left. apply in_map_iff in HT. destruct HT as (T' & <- & HT). rewrite opposite_twice. exact HT.
    - intros unshift phase simple.
      destruct (HAM nt [] [] [] [] unshift phase simple cap NT_ok (Forall2_nil _) (Forall2_nil _) Hcap) as (m & EM & _ & CM).
      exists m. split; [exact EM|]. intros n k x y sx sy Sx Sy Isx Usx Isy Usy Ts p q (TN & TW & TC) Hp Hq.
      destruct (SB n x Sx) as (sx' & X1 & X2 & X3 & X4). assert (sx' = sx) by (apply (sub_uid_inj R P l I); auto; congruence). subst sx'.
      destruct (SB k y Sy) as (sy' & Y1 & Y2 & Y3 & Y4). assert (sy' = sy) by (apply (sub_uid_inj R P l I); auto; congruence). subst sy'.
      rewrite CM; [|eapply LT; eauto|eapply LT; eauto|rewrite (NA n sx X3); lia|rewrite (NA k sy Y3); lia].
      unfold element. cbn [hs_hops hs_bounds].
      match goal with |- kadd (kadd ?a _) _ = kadd (kadd ?a' _) _ => assert (SM : a = a') end.
      { destruct (n =? k); [|reflexivity]. unfold site_matrix. cbn [hs_subs hs_site hs_pos fold_left].
        change (site_list d) with (labels d). rewrite (nth_error_nth _ _ _ X3). cbn [fst].
        destruct (site_entry R P offset_ok order cs subs Hs reg Hreg Hprim sx Isx) as [_ G2].
        match goal with |- context [match ?z with Some _ => _ | None => _ end] => destruct z end; cbn [cast_mat m_at]; rewrite G2; reflexivity. }
      rewrite SM. clear SM.
      match goal with |- kadd (kadd _ (ksum (fun fc => hop_part nt (m_at (hop_matrix nt ?sy0 _ _ _ _)) _ _ _ _ _) _)) _ = _ => set (sys := sy0) end.
      assert (HM : forall sh f cc i0 j0, m_at (hop_matrix nt sys [] sh f cc) i0 j0 = nt_cast nt (m_at (snd (reg_entry (map entry_of hreg) f)) i0 j0)).
      { intros sh f cc i0 j0. unfold hop_matrix. cbn [sys hs_hop hs_pos fold_left].
        destruct (nth_error (mask valid fpos) (fst cc)), (nth_error (mask valid fpos) (snd cc)); reflexivity. }
      destruct NT_ok as (_ & N0 & _).
      set (en := fun f i0 j0 => nt_cast nt (m_at (snd (reg_entry (map entry_of hreg) f)) i0 j0)).
      assert (EN : forall i0 j0 fam, In fam (l_fams l) -> en (fm_id fam) i0 j0 = nt_cast nt (m_at (fm_energy fam) i0 j0)).
      { intros i0 j0 fam Hfam. unfold en. rewrite (hop_entry R P offset_ok order cs fams Hf hreg Hhreg fam Hfam). reflexivity. }
      assert (TH : forall n k x y f, site_at n x -> site_at k y -> In (f, (n, k)) (stored hb) <->
        exists fam t, In fam (l_fams l) /\ fm_id fam = f /\ In t (fm_terms fam) /\ leads_to t x y = true).
      { intros n0 k0 x0 y0 f S0 S1. rewrite in_stored_iff, B2. split; intros (fam & t & F1 & F2 & F3 & F4); exists fam, t; repeat (split; [assumption|]);
          apply (bond_leads t n0 k0 x0 y0 S0 S1); assumption. }
      assert (TB : forall b, In b bs -> forall n k x y f, site_at n x -> site_at k y -> In (f, (n, k)) (stored (b_hops b)) <->
        exists fam t, In fam (l_fams l) /\ fm_id fam = f /\ In t (fm_terms fam) /\ leads_to t (shifted_cell (fst x) (b_shift b), snd x) y = true).
      { intros b Hb n0 k0 x0 y0 f S0 S1. destruct (D2 b Hb) as (W & _ & _ & _ & G). rewrite in_stored_iff. split.
        - intros HI. apply G in HI. destruct HI as (fam & t & F1 & F2 & F3 & F4). exists fam, t. repeat (split; [assumption|]).
          apply (image_leads (b_shift b) t n0 k0 x0 y0 S0 S1). exact F4.
        - intros (fam & t & F1 & F2 & F3 & F4). apply (image_leads (b_shift b) t n0 k0 x0 y0 S0 S1) in F4.
          destruct (D4 fam t (b_shift b) (n0, k0) F1 F3 (Hshort fam t F1 F3) W F4) as (b' & Hb' & Eb & HI). subst f.
          assert (b' = b) by (apply (NoDup_map_inj b_shift bs); auto). subst b'. exact HI. }
      rewrite (ksum_ext R _ (fun fc => kadd (if (fst (snd fc) =? n) && (snd (snd fc) =? k) then en (fst fc) p q else k0)
          (nt_conj nt (if (fst (snd fc) =? k) && (snd (snd fc) =? n) then en (fst fc) q p else k0)))).
      2:{ intros [f cc] _. unfold hop_part. cbn [fst snd]. fold sys. rewrite !HM. fold (en f p q) (en f q p). destruct ((fst cc =? k) && (snd cc =? n)); [reflexivity|]. rewrite N0. reflexivity. }
      rewrite ksum_add, <- (ksum_ntconj R nt NT_ok).
      assert (NDH : NoDup (map snd (stored hb))) by (rewrite stored_snd; exact B3).
      rewrite (table_hops_to R P l I nt (stored hb) (fun f => en f p q) n k x y p q NDH); [|intros f; apply TH; auto|apply EN].
      rewrite (table_hops_to R P l I nt (stored hb) (fun f => en f q p) k n y x q p NDH); [|intros f; apply TH; auto|apply EN].
      fold (bulk nt (l_fams l) x p y q). f_equal.
      rewrite ksum_map. cbn [fst snd].
      set (g := fun T => kadd (kmul (hops_to nt (l_fams l) (shifted_cell (fst x) T, snd x) p y q) (nt_cast nt (phase (shift T))))
                (nt_conj nt (kmul (hops_to nt (l_fams l) (shifted_cell (fst y) T, snd y) q x p) (nt_cast nt (phase (shift T)))))).
      transitivity (ksum (fun b => g (b_shift b)) bs).
      + apply ksum_ext. intros b Hb. destruct (D2 b Hb) as (_ & _ & _ & NDb & _).
        rewrite (ksum_ext R _ (fun fc => kadd ((if (fst (snd fc) =? n) && (snd (snd fc) =? k) then en (fst fc) p q else k0) * nt_cast nt (phase (shift (b_shift b))))
          (nt_conj nt (kmul (if (fst (snd fc) =? k) && (snd (snd fc) =? n) then en (fst fc) q p else k0) (nt_cast nt (phase (shift (b_shift b)))))))%k).
        2:{ intros [f cc] _. unfold hop_part. cbn [fst snd]. fold sys. rewrite !HM. fold (en f p q) (en f q p).
            f_equal; [destruct ((fst cc =? n) && (snd cc =? k)); [reflexivity|ring]|].
            destruct ((fst cc =? k) && (snd cc =? n)); [reflexivity|]. rewrite <- N0 at 1. f_equal. ring. }
        rewrite ksum_add, <- (ksum_ntconj R nt NT_ok), !ksum_mul_r.
        assert (ND' : NoDup (map snd (stored (b_hops b)))) by (rewrite stored_snd; exact NDb).
        rewrite (table_hops_to R P l I nt (stored (b_hops b)) (fun f => en f p q) n k (shifted_cell (fst x) (b_shift b), snd x) y p q ND'); [|intros f; apply TB; auto|apply EN].
        rewrite (table_hops_to R P l I nt (stored (b_hops b)) (fun f => en f q p) k n (shifted_cell (fst y) (b_shift b), snd y) x q p ND'); [|intros f; apply TB; auto|apply EN].
        reflexivity.
      + rewrite <- (ksum_map R b_shift g). 
        assert (G0 : forall T, (forall fam t, In fam (l_fams l) -> In t (fm_terms fam) ->
            leads_to t (shifted_cell (fst x) T, snd x) y <> true /\ leads_to t (shifted_cell (fst y) T, snd y) x <> true) -> g T = k0).
        { intros T H. unfold g. rewrite !(hops_to_none R P l nt); [|intros f t H1 H2; apply not_true_iff_false; apply (H f t H1 H2)..].
          replace (kmul k0 (nt_cast nt (phase (shift T)))) with (k0 (s := R)) by ring. rewrite N0. ring. }
        apply (ksum_support R idx3_dec); auto.
        * intros T H1 H2. apply G0. intros fam t F1 F2. apply in_map_iff in H1. destruct H1 as (b & <- & Hb). destruct (D2 b Hb) as (W & _).
          split; intros HL0; apply H2; apply (TC (b_shift b) fam t); auto.
        * intros T H1 H2. apply G0. intros fam t F1 F2.
          split; intros HL0; apply H2.
          -- apply (image_leads T t n k x y Sx Sy) in HL0. destruct (D4 fam t T (n, k) F1 F2 (Hshort fam t F1 F2) (TW T H1) HL0) as (b & Hb & <- & _). apply in_map. exact Hb.
          -- apply (image_leads T t k n y x Sy Sx) in HL0. destruct (D4 fam t T (k, n) F1 F2 (Hshort fam t F1 F2) (TW T H1) HL0) as (b & Hb & <- & _). apply in_map. exact Hb.
  Qed.

  Lemma leads_back : forall t x y T, leads_to t (shifted_cell (fst y) T, snd y) x = leads_to t y (shifted_cell (fst x) (opposite T), snd x).
  Proof.
    intros t x y T. apply eq_true_iff_eq. rewrite !leads_to_iff. cbn [fst snd].
    destruct (fst x) as [x1 x2 x3], (fst y) as [y1 y2 y3], T as [a b c], (t_rel t) as [r1 r2 r3]. unfold shifted_cell, opposite. cbn [ix iy iz].
    split; intros (H1 & H2 & H3); (split; [exact H1|]; split; [exact H2|]); injection H3 as E1 E2 E3; f_equal; lia.
  Qed.

  Lemma hops_back : forall fs x p y q T, hops_to nt fs (shifted_cell (fst y) T, snd y) q x p = hops_to nt fs y q (shifted_cell (fst x) (opposite T), snd x) p.
  Proof. intros fs x p y q T. unfold hops_to. apply ksum_ext. intros f _. apply ksum_ext. intros t _. rewrite leads_back. reflexivity. Qed.

  (** Bloch form: with phases that are conjugate for opposite translations. *)
  Lemma bloch_form : forall (x y : idx3 * nat) p q Ts (ph : idx3 -> R),
    (forall a b, nt_conj nt (kmul a b) = kmul (nt_conj nt a) (nt_conj nt b)) ->
    NoDup Ts -> (forall T, In T Ts -> In (opposite T) Ts) ->
    (forall T, In T Ts -> nt_conj nt (ph T) = ph (opposite T)) ->
    ksum (fun T => kadd (kmul (hops_to nt (l_fams l) (shifted_cell (fst x) T, snd x) p y q) (ph T))
                (nt_conj nt (kmul (hops_to nt (l_fams l) (shifted_cell (fst y) T, snd y) q x p) (ph T)))) Ts
    = ksum (fun T => kmul (ph T) (bulk nt (l_fams l) (shifted_cell (fst x) T, snd x) p y q)) Ts.
  Proof.
    intros x y p q Ts ph HM ND HO HP. unfold bulk. rewrite ksum_add.
    rewrite (ksum_ext R (fun T => kmul (ph T) _) (fun T => kadd (kmul (hops_to nt (l_fams l) (shifted_cell (fst x) T, snd x) p y q) (ph T))
      (kmul (ph T) (nt_conj nt (hops_to nt (l_fams l) y q (shifted_cell (fst x) T, snd x) p))))) by (intros T _; ring).
    rewrite ksum_add. f_equal.
    set (g := fun T => kmul (ph T) (nt_conj nt (hops_to nt (l_fams l) y q (shifted_cell (fst x) T, snd x) p))).
    transitivity (ksum (fun T => g (opposite T)) Ts).
    - apply ksum_ext. intros T HT. unfold g. rewrite hops_back, HM, (HP T HT). ring.
    - rewrite <- (ksum_map R opposite g). apply ksum_perm. apply NoDup_Permutation; auto.
      + apply FinFun.Injective_map_NoDup; auto. intros a b E. rewrite <- (opposite_twice a), E. apply opposite_twice.
      + intros T. split.
        * intros H. apply in_map_iff in H. destruct H as (T' & <- & H). auto.
        * intros H. apply in_map_iff. exists (opposite T). rewrite opposite_twice. auto.
  Qed.
End Bloch.
