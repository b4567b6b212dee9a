(* Waves of a built system and the eigenvalues of its matrix (C102). *)
From Verif Require Import Base Rle RleProofs Blocks BlocksProofs TablesSpec Scalar Foundation FoundationSpec IndexProofs Lattice LatticeSpec
  LatticeProofs UnitCellProofs LatticeFacts FoundationFacts PopulateFacts DanglingProofs Symmetry SymmetrySpec BoundaryProofs
  Hamiltonian HamiltonianSpec HamProofs HamElements HamFacts HamHermitian SystemBuild HamApi HamCor BulkSpec BulkProofs LeadHam BlochProofs ModsProofs CrystalSpec CrystalProofs.
From Coq Require Import Permutation.

(** A translation by whole periods or by nothing, decided. *)
Definition multiple (p z : Z) : bool := if (p =? 0)%Z then (z =? 0)%Z else (z mod p =? 0)%Z.
Definition some_periodsb (s : Symmetry.sym) (T : idx3) : bool := multiple (period (sy1 s)) (ix T) && multiple (period (sy2 s)) (iy T) && multiple (period (sy3 s)) (iz T).
Lemma multiple_iff : forall p z, multiple p z = true <-> exists k, z = (k * p)%Z.
Proof.
  intros p z. unfold multiple. destruct (Z.eqb_spec p 0) as [->|N].
  - rewrite Z.eqb_eq. split; [intros ->; exists 0%Z; lia|intros (k & ->); lia].
  - rewrite Z.eqb_eq. split; [intros H; exists (z / p)%Z; pose proof (Z.div_mod z p N); lia|intros (k & ->); apply Z.mod_mul; exact N].
Qed.
Lemma some_periodsb_iff : forall s T, some_periodsb s T = true <-> some_periods s T.
Proof.
  intros s [a b c]. unfold some_periodsb. rewrite some_periods_iff, !andb_true_iff, !multiple_iff. cbn [ix iy iz]. split.
  - intros (((k1 & ->) & k2 & ->) & k3 & ->). exists k1, k2, k3. reflexivity.
  - intros (k1 & k2 & k3 & E). injection E as -> -> ->. repeat split; eexists; reflexivity.
Qed.
Definition apart (y x : idx3) : idx3 := shifted_cell y (opposite x).
Lemma apart_add : forall y x T, y = shifted_cell x T <-> T = apart y x.
Proof. intros [a b c] [d e f] [g h k]. unfold apart, shifted_cell, opposite. cbn. split; intros E; injection E as -> -> ->; f_equal; lia. Qed.

Lemma back_again : forall i T, shifted_cell (shifted_cell i (opposite T)) T = i.
Proof. intros [a b c] [d e f]. unfold shifted_cell, opposite. cbn. f_equal; lia. Qed.

Section Waves.
  Variable R : scalar.
  Add Ring Rwv : (k_ring R).
  Variable P : Type.
  Variable offset_ok : P -> bool.
  Variable order : list (family R) -> list (family R).
  Variable cs : list (lcall R P).
  Let l := calls offset_ok order cs.
  Variable subs : list (sublattice R P).
  Variable fams : list (family R).
  Variable uc : list (usite P).
  Variable reg hreg : list (option (name * mat R)).
  Variable size : idx3.
  Variable s : Symmetry.sym.
  Variable valid : list bool.
  Variable fpos : list P.
  Variable dflt : P.
  Variable shift : idx3 -> P.
  Variable cap : nat.
  Hypothesis PS : periodic_system l subs fams uc reg hreg size s valid fpos cap.
  Notation site_at := (site_at size uc valid).
  Notation image_site := (image_site s size uc valid).
  Local Open Scope k_scope.

  Lemma orbitals_sub : forall x sb, In sb (l_subs l) -> sb_uid sb = snd x -> orbitals (l_subs l) x = m_rows (sb_energy sb).
  Proof using.
    intros x sb H E. pose proof (inv_calls R P offset_ok order cs) as I. fold l in I. unfold orbitals. destruct (find _ (l_subs l)) as [sb'|] eqn:F.
    - apply find_some in F. destruct F as (F1 & F2). apply Nat.eqb_eq in F2. assert (sb' = sb) by (apply (sub_uid_inj R P l I); auto; congruence). congruence.
    - pose proof (find_none _ _ F sb H) as X. cbn in X. apply Nat.eqb_neq in X. congruence.
  Qed.
  Lemma site_period : forall n x, site_at n x -> in_period size s (fst x).
  Proof using PS. apply (site_in_period P uc size s valid (ps_in _ _ _ _ _ _ _ _ _ _ _ PS)). Qed.
  Lemma image_unique : forall n n' x T T', some_periods s T -> some_periods s T' -> site_at n (moved_site x T) -> site_at n' (moved_site x T') -> n = n' /\ T = T'.
  Proof using PS.
    intros n n' x T T' HT HT' S1 S2. pose proof (site_period _ _ S1) as P1. pose proof (site_period _ _ S2) as P2. unfold moved_site in P1, P2. cbn [fst] in P1, P2.
    assert (Q : shifted_cell T' (opposite T) = zero3).
    { apply (in_period_unique size s (shifted_cell (fst x) T)); [exact P1| |].
      - replace (shifted_cell (shifted_cell (fst x) T) (shifted_cell T' (opposite T))) with (shifted_cell (fst x) T'); [exact P2|].
        destruct (fst x), T, T'. unfold shifted_cell, opposite. cbn. f_equal; lia.
      - apply some_periods_add; [exact HT'|apply some_periods_opposite; exact HT]. }
    assert (E : T = T') by (destruct T, T'; unfold shifted_cell, opposite, zero3 in Q; cbn in Q; injection Q as Q1 Q2 Q3; f_equal; lia). subst T'. split; [|reflexivity].
    exact (site_number R P offset_ok order cs subs fams (ps_subs _ _ _ _ _ _ _ _ _ _ _ PS) (ps_fams _ _ _ _ _ _ _ _ _ _ _ PS) uc (ps_uc _ _ _ _ _ _ _ _ _ _ _ PS) size valid _ _ _ S1 S2).
  Qed.

  (** Every vector of values on the system is a wave of the crystal. *)
  Lemma wave_exists : forall (ph : idx3 -> R) d v, phases ph ->
    (forall n, n < rle_size d <-> exists x, site_at n x) ->
    exists psi, wave_of s ph size uc valid d v psi.
  Proof using PS.
    intros ph d v (PH0 & PHA & PHC) HN.
    destruct (finite_choice site_at (zero3, 0) (rle_size d)) as (f & Hff); [intros n Hn; apply HN; exact Hn|].
    set (cond := fun (x : idx3 * nat) n => (snd (f n) =? snd x)%nat && some_periodsb s (apart (fst (f n)) (fst x))).
    set (psi := fun (x : idx3 * nat) q => ksum (fun n => if cond x n then ph (apart (fst (f n)) (fst x)) * v (row_of d n q) else k0) (seq 0 (rle_size d))).
    assert (CE : forall x n, cond x n = true -> f n = moved_site x (apart (fst (f n)) (fst x)) /\ some_periods s (apart (fst (f n)) (fst x))).
    { intros x n H. unfold cond in H. apply andb_prop in H. destruct H as (H1 & H2). apply Nat.eqb_eq in H1. apply some_periodsb_iff in H2. split; [|exact H2].
      unfold moved_site. rewrite <- (proj2 (apart_add (fst (f n)) (fst x) _) eq_refl), <- H1. apply surjective_pairing. }
    assert (CI : forall x n T, some_periods s T -> f n = moved_site x T -> cond x n = true /\ apart (fst (f n)) (fst x) = T).
    { intros x n T HT E. assert (A : apart (fst (f n)) (fst x) = T) by (symmetry; apply (proj1 (apart_add (fst (f n)) (fst x) T)); rewrite E; reflexivity). split; [|exact A].
      unfold cond. rewrite A, E. unfold moved_site. cbn [snd]. rewrite Nat.eqb_refl. apply some_periodsb_iff. exact HT. }
    exists psi. split.
    - intros x T q WT. unfold psi. rewrite <- ksum_mul_l. apply ksum_ext. intros n Hn.
      assert (AP : apart (fst (f n)) (fst (moved_site x T)) = shifted_cell (apart (fst (f n)) (fst x)) (opposite T)).
      { unfold apart, moved_site. cbn [fst]. destruct (fst (f n)), (fst x), T. unfold shifted_cell, opposite. cbn. f_equal; lia. }
      assert (CC : cond (moved_site x T) n = cond x n).
      { unfold cond. rewrite AP. cbn [moved_site snd]. f_equal. apply eq_true_iff_eq. rewrite !some_periodsb_iff. split; intros H.
        - replace (apart (fst (f n)) (fst x)) with (shifted_cell (shifted_cell (apart (fst (f n)) (fst x)) (opposite T)) T) by apply back_again.
          apply some_periods_add; [exact H|right; exact WT].
        - apply some_periods_add; [exact H|apply some_periods_opposite; right; exact WT]. }
      rewrite CC, AP. destruct (cond x n); [|ring]. rewrite PHA, PHC. ring.
    - intros n x q S Hq. unfold psi. assert (Ln : n < rle_size d) by (apply HN; eauto).
      pose proof (site_at_inj P uc size (ps_size _ _ _ _ _ _ _ _ _ _ _ PS) valid n _ _ (Hff n Ln) S) as EF.
      destruct (CI x n zero3) as (C1 & C2); [left; reflexivity|unfold moved_site; rewrite add_zero3, <- surjective_pairing; exact EF|].
      rewrite (ksum_one R (cond x) (fun n => ph (apart (fst (f n)) (fst x)) * v (row_of d n q)) _ n (seq_NoDup _ _)); [|apply in_seq; lia|exact C1|].
      + rewrite C2, PH0. ring.
      + intros n' Hn' C'. apply in_seq in Hn'. destruct (CE x n' C') as (E1 & E2).
        destruct (image_unique n' n x (apart (fst (f n')) (fst x)) zero3) as (E3 & _); auto; [left; reflexivity|rewrite <- E1; apply Hff; lia|].
        unfold moved_site. rewrite add_zero3, <- surjective_pairing. exact S.
    - intros x q NI. unfold psi. apply ksum_0. intros n Hn. apply in_seq in Hn. destruct (cond x n) eqn:C; [|reflexivity]. exfalso. destruct (CE x n C) as (E1 & E2).
      apply (NI n). exists (apart (fst (f n)) (fst x)). split; [exact E2|]. rewrite <- E1. apply Hff. lia.
  Qed.

  (** The operator of the crystal commutes with whole periods. *)
  Lemma crystal_moved : forall ss fs (ph : idx3 -> R) psi x T p, repeats s ph psi -> whole_periods s T ->
    crystal (P := P) ss fs psi (moved_site x T) p = kconj (ph T) * crystal ss fs psi x p.
  Proof using.
    intros ss fs ph psi x T p W WT. unfold crystal.
    assert (ON : onsite_action ss psi (moved_site x T) p = kconj (ph T) * onsite_action ss psi x p).
    { unfold onsite_action. rewrite <- ksum_mul_l. apply ksum_ext. intros sb _. cbn [moved_site snd]. destruct (_ =? _)%nat; [|ring].
      rewrite <- ksum_mul_l. apply ksum_ext. intros q _. rewrite (W x T q WT). ring. }
    rewrite ON. transitivity (kconj (ph T) * onsite_action ss psi x p + kconj (ph T) * ksum (fun f => ksum (fun t => forward_action (fm_energy f) t psi x p + backward_action (fm_energy f) t psi x p) (fm_terms f)) fs); [|ring].
    f_equal. rewrite <- ksum_mul_l. apply ksum_ext. intros f _. rewrite <- ksum_mul_l. apply ksum_ext. intros t _.
    assert (FW : forward_action (fm_energy f) t psi (moved_site x T) p = kconj (ph T) * forward_action (fm_energy f) t psi x p).
    { unfold forward_action. cbn [moved_site snd fst]. destruct (_ =? _)%nat; [|ring]. rewrite <- ksum_mul_l. apply ksum_ext. intros q _.
      rewrite (add_swap (fst x) T). 
      change (shifted_cell (shifted_cell (fst x) (t_rel t)) T, t_to t) with (moved_site (shifted_cell (fst x) (t_rel t), t_to t) T). rewrite (W _ T q WT). ring. }
    assert (BW : backward_action (fm_energy f) t psi (moved_site x T) p = kconj (ph T) * backward_action (fm_energy f) t psi x p).
    { unfold backward_action. cbn [moved_site snd fst]. destruct (_ =? _)%nat; [|ring]. rewrite <- ksum_mul_l. apply ksum_ext. intros q _.
      rewrite (add_swap (fst x) T).
      change (shifted_cell (shifted_cell (fst x) (opposite (t_rel t))) T, t_from t) with (moved_site (shifted_cell (fst x) (opposite (t_rel t)), t_from t) T). rewrite (W _ T q WT). ring. }
    rewrite FW, BW. ring.
  Qed.
  Lemma unit_phase : forall ph : idx3 -> R, phases ph -> forall T, ph T * kconj (ph T) = k1.
  Proof using.
    intros ph (H0 & HA & HC) T. rewrite HC, <- HA. rewrite <- H0. f_equal. destruct T. unfold shifted_cell, opposite, zero3. cbn. f_equal; lia.
  Qed.

  Theorem operator : exists sys, build_system dflt size uc s shift reg hreg fpos valid = Ok sys /\
    (forall n, n < rle_size (hs_subs sys) <-> exists x, site_at n x) /\
    (forall n x, site_at n x -> norb_at (hs_subs sys) n = orbitals (l_subs l) x) /\
    forall unshift phase simple,
      (forall T, whole_periods s T -> phase (shift T) * kconj (phase (shift T)) = k1 /\ kconj (phase (shift T)) = phase (shift (opposite T))) ->
      exists m, ham_make cap complex_type sys [] [] unshift phase simple = Ok m /\
      forall v psi, wave_of s (fun T => phase (shift T)) size uc valid (hs_subs sys) v psi ->
      forall n x p, site_at n x -> p < orbitals (l_subs l) x ->
        ksum (fun j => coeff m (row_of (hs_subs sys) n p) j * v j) (seq 0 (hamiltonian_size (hs_subs sys))) = crystal (l_subs l) (l_fams l) psi x p.
  Proof using PS.
    destruct PS as [H1 H2 H3 H4 H5 H6 H7 H8 H9 H10 H11 H12 H14].
    destruct (bloch R P offset_ok order cs subs fams H1 H2 uc H3 reg hreg H4 H5 H6 size H7 s H8 valid H9 H10 fpos dflt H11 shift H12 complex_type (HamCor.complex_ok R) cap H14)
      as (sys & ES & HN & HSB & (Ts & HTs) & HAM).
    exists sys. split; [exact ES|]. split; [exact HN|]. split.
    { intros n x S. destruct (HSB n x S) as (sb & S1 & S2 & S3). rewrite S3. symmetry. apply orbitals_sub; auto. }
    intros unshift phase simple HP. destruct (HAM unshift phase simple) as (m & EM & EL). exists m. split; [exact EM|]. intros v psi W n x p S Hp.
    set (d := hs_subs sys) in *.
    destruct (finite_choice site_at (zero3, 0) (rle_size d)) as (f & Hff); [intros k Hk; apply HN; exact Hk|].
    assert (Ln : n < rle_size d) by (apply HN; eauto). assert (EF : f n = x) by (apply (site_at_inj P uc size H7 valid n); auto). subst x.
    destruct (HSB n (f n) S) as (sx & X1 & X2 & X3). rewrite (orbitals_sub (f n) sx X1 X2) in Hp.
    set (ph := fun T => if some_periodsb s T then (if eqb3 T zero3 then k1 else phase (shift T)) else k1).
    assert (PE : forall T, whole_periods s T -> ph T = phase (shift T)).
    { intros T WT. unfold ph. rewrite (proj2 (some_periodsb_iff s T) (or_intror WT)). destruct (eqb3 T zero3) eqn:EZ; [|reflexivity]. apply eqb3_eq in EZ. destruct WT as (X & _). contradiction. }
    refine (row_action R P offset_ok order cs subs fams H1 H2 uc H3 size H7 s valid H9 H10 fpos H11 ph d (coeff m) v psi Ts f n p sx _ _ HN Hff HSB _ _ Ln X1 X2 Hp _).
    - destruct W as [W1 W2 W3]. split; auto. intros x T q WT. rewrite (PE T WT). apply W1. exact WT.
    - intros T. unfold ph. destruct (some_periodsb s T) eqn:EP; [|rewrite kconj_1; ring]. destruct (eqb3 T zero3) eqn:EZ; [rewrite kconj_1; ring|].
      apply some_periodsb_iff in EP. destruct EP as [->|WT]; [discriminate EZ|]. apply (HP T WT).
    - intros k Lk. apply (HTs (f n) (f k) n k); auto.
    - apply (HTs (f n) (f n) n n); auto.
    - intros k q Lk Hq. destruct (HSB k (f k) (Hff k Lk)) as (sk & Y1 & Y2 & Y3). rewrite Y3 in Hq.
      destruct (HTs (f n) (f k) n k (Hff n Ln) (Hff k Lk)) as (HT & HO).
      rewrite (EL n k (f n) (f k) sx sk (Hff n Ln) (Hff k Lk) X1 X2 Y1 Y2 Ts p q HT Hp Hq). f_equal.
      destruct HT as (ND & HW & _).
      rewrite (bloch_form R P offset_ok order cs uc size valid H9 fpos H11 complex_type (f n) (f k) p q Ts (fun T => nt_cast complex_type (phase (shift T))) (kconj_mul R) ND HO (fun T H => proj2 (HP T (HW T H)))).
      apply ksum_ext. intros T HI. rewrite (PE T (HW T HI)). reflexivity.
  Qed.

  (** The energies of the matrix are those of the stationary states of the crystal of its sites. *)
  Theorem energies : exists sys, build_system dflt size uc s shift reg hreg fpos valid = Ok sys /\
    forall unshift phase simple, phases (fun T => phase (shift T)) ->
      exists m, ham_make cap complex_type sys [] [] unshift phase simple = Ok m /\
      forall E, matrix_energy (hamiltonian_size (hs_subs sys)) (coeff m) E <->
        exists psi, bloch_state (l_subs l) (l_fams l) s (fun T => phase (shift T)) (fun x => exists n, image_site n x) E psi.
  Proof using PS.
    destruct operator as (sys & ES & HN & HO & HOP). exists sys. split; [exact ES|]. intros unshift phase simple PH. pose proof (unit_phase _ PH) as UP. cbn beta in UP.
    destruct (HOP unshift phase simple) as (m & EM & EL). { intros T _. split; [apply UP|]. destruct PH as (_ & _ & C). apply C. }
    exists m. split; [exact EM|]. intros E. set (d := hs_subs sys) in *. set (ph := fun T => phase (shift T)) in *. assert (UP' : forall T, ph T * kconj (ph T) = k1) by exact UP. clear UP. rename UP' into UP.
    destruct (finite_choice site_at (zero3, 0) (rle_size d)) as (f & Hff); [intros k Hk; apply HN; exact Hk|].
    assert (HX : forall n x T, site_at n (moved_site x T) -> orbitals (l_subs l) x = norb_at d n) by (intros n x T S; rewrite (HO n _ S); reflexivity).
    split.
    - intros (v & (i & Hi & Vi) & HE). destruct (wave_exists ph d v PH HN) as (psi & W). exists psi.
      assert (W1 := wv_repeats _ _ _ _ _ _ _ _ W). split.
      + exact W1.
      + destruct (row_of_onto d i Hi) as (n & p & Ln & Lp & ->). exists (f n), p. split; [|split].
        * exists n, zero3. split; [left; reflexivity|]. unfold moved_site. rewrite add_zero3, <- surjective_pairing. apply Hff; exact Ln.
        * rewrite <- (HO n (f n) (Hff n Ln)). exact Lp.
        * rewrite (wv_values _ _ _ _ _ _ _ _ W n (f n) p (Hff n Ln) Lp). exact Vi.
      + intros x p N. apply (wv_empty _ _ _ _ _ _ _ _ W). intros n H. apply N. exists n. exact H.
      + intros x p (n & T & HT & S) Hp. pose proof (HX n x T S) as ON. rewrite ON in Hp. assert (Ln : n < rle_size d) by (apply HN; eauto).
        pose proof (EL v psi W n _ p S ltac:(rewrite <- (HO n _ S); exact Hp)) as Q. rewrite (HE _ (row_of_lt d n p Ln Hp)) in Q.
        rewrite <- (wv_values _ _ _ _ _ _ _ _ W n _ p S Hp) in Q. destruct HT as [->|WT].
        * unfold moved_site in Q. rewrite add_zero3, <- surjective_pairing in Q. symmetry. exact Q.
        * rewrite (W1 x T p WT), (crystal_moved _ _ ph psi x T p W1 WT) in Q.
          transitivity ((ph T * kconj (ph T)) * crystal (l_subs l) (l_fams l) psi x p); [rewrite UP; ring|]. transitivity (ph T * (kconj (ph T) * crystal (l_subs l) (l_fams l) psi x p)); [ring|].
          rewrite <- Q. transitivity ((ph T * kconj (ph T)) * (E * psi x p)); [ring|]. rewrite UP. ring.
    - intros (psi & [W1 (x & p & (n & T & HT & S) & Hp & NZ) W2 HE]).
      destruct (finite_choice (fun i (np : nat * nat) => fst np < rle_size d /\ snd np < norb_at d (fst np) /\ i = row_of d (fst np) (snd np)) (0, 0) (hamiltonian_size d)) as (g & Hg).
      { intros i Hi. destruct (row_of_onto d i Hi) as (n' & p' & L1 & L2 & L3). exists (n', p'). auto. }
      set (v := fun i => psi (f (fst (g i))) (snd (g i))).
      assert (VV : forall n x q, site_at n x -> q < norb_at d n -> psi x q = v (row_of d n q)).
      { intros n' x' q S' Hq. assert (Ln : n' < rle_size d) by (apply HN; eauto). destruct (Hg (row_of d n' q) (row_of_lt d n' q Ln Hq)) as (G1 & G2 & G3).
        destruct (row_of_inj d n' q _ _ Ln G1 Hq G2 G3) as (E1 & E2). unfold v. rewrite <- E1, <- E2. f_equal. symmetry. apply (site_at_inj P uc size (ps_size _ _ _ _ _ _ _ _ _ _ _ PS) valid n'); auto. }
      assert (W : wave_of s ph size uc valid d v psi).
      { split; [exact W1|exact VV|]. intros x' q N. apply W2. intros (n' & H). exact (N n' H). }
      exists v. split.
      + pose proof (HX n x T S) as ON. rewrite ON in Hp. assert (Ln : n < rle_size d) by (apply HN; eauto). exists (row_of d n p). split; [apply row_of_lt; assumption|].
        rewrite <- (VV n _ p S Hp). intros C. apply NZ. destruct HT as [->|WT].
        * unfold moved_site in C. rewrite add_zero3, <- surjective_pairing in C. exact C.
        * rewrite (W1 x T p WT) in C. transitivity ((ph T * kconj (ph T)) * psi x p); [rewrite UP; ring|]. transitivity (ph T * (kconj (ph T) * psi x p)); [ring|]. rewrite C. ring.
      + intros i Hi. destruct (row_of_onto d i Hi) as (n' & p' & L1 & L2 & ->). pose proof (Hff n' L1) as S'.
        rewrite (EL v psi W n' (f n') p' S') by (rewrite <- (HO n' _ S'); exact L2).
        rewrite <- (VV n' _ p' S' L2). apply HE; [|rewrite <- (HO n' _ S'); exact L2].
        exists n', zero3. split; [left; reflexivity|]. unfold moved_site. rewrite add_zero3, <- surjective_pairing. exact S'.
  Qed.
End Waves.

(** ** All sites of the crystal *)
Lemma home1 : forall size p z, (period p <= size)%Z -> (p = None -> 0 <= z < size)%Z ->
  exists k, in_period1 size p (z + k * period p) /\ (0 <= z + k * period p < size)%Z.
Proof.
  intros size [n|] z H H0.
  - unfold in_period1. set (Q := period (Some n)) in *. assert (Q1 : (1 <= Q)%Z) by (unfold Q, period; lia). set (lo := ((size - Q) / 2)%Z).
    exists (- ((z - lo) / Q))%Z. pose proof (Z.div_mod (z - lo) Q ltac:(lia)) as D. pose proof (Z.mod_pos_bound (z - lo) Q ltac:(lia)) as B.
    assert (L : (0 <= lo /\ lo + Q <= size)%Z).
    { unfold lo. pose proof (Z.div_mod (size - Q) 2 ltac:(lia)). pose proof (Z.mod_pos_bound (size - Q) 2 ltac:(lia)). lia. }
    replace (z + - ((z - lo) / Q) * Q)%Z with (lo + (z - lo) mod Q)%Z by lia. lia.
  - exists 0%Z. unfold in_period1. specialize (H0 eq_refl). lia.
Qed.
Lemma in_cell1 : forall size p z, (period p <= size)%Z -> in_period1 size p z -> (0 <= z < size)%Z.
Proof.
  intros size [n|] z H H0; unfold in_period1 in H0; [|exact H0]. set (Q := period (Some n)) in *. assert (Q1 : (1 <= Q)%Z) by (unfold Q, period; lia).
  pose proof (Z.div_mod (size - Q) 2 ltac:(lia)). pose proof (Z.mod_pos_bound (size - Q) 2 ltac:(lia)). lia.
Qed.

Lemma all_images : forall (R : scalar) (P : Type) offset_ok order (cs : list (lcall R P)) subs fams uc reg hreg size s valid fpos cap,
  let l := calls offset_ok order cs in
  periodic_system l subs fams uc reg hreg size s valid fpos cap -> all_sites size s uc valid ->
  forall x, (exists n, image_site s size uc valid n x) <-> in_slab size s (fst x) /\ exists sb, In sb (l_subs l) /\ sb_uid sb = snd x.
Proof.
  intros R P oo order cs subs fams uc reg hreg size s valid fpos cap l PS AS x. split.
  - intros (n & T & HT & (a & C & U & F & E)). cbn [moved_site fst snd] in *. split.
    + destruct C as (C1 & C2 & C3). apply some_periods_iff in HT. destruct HT as (k1 & k2 & k3 & ->). unfold shifted_cell in *. cbn [ix iy iz] in *.
      split; [|split]; intros E0; [rewrite E0 in C1; cbn [period] in C1|rewrite E0 in C2; cbn [period] in C2|rewrite E0 in C3; cbn [period] in C3]; lia.
    + unfold uid_at in U. destruct (nth_error uc a) as [u|] eqn:Ea; [|discriminate]. cbn in U.
      rewrite (api_cell R P oo order cs subs fams (ps_subs _ _ _ _ _ _ _ _ _ _ _ PS) (ps_fams _ _ _ _ _ _ _ _ _ _ _ PS) uc (ps_uc _ _ _ _ _ _ _ _ _ _ _ PS)) in Ea.
      apply (cell_sub R P l fams) in Ea. destruct Ea as (sb & S1 & _ & _ & S4 & _). exists sb. split; [exact S1|congruence].
  - intros ((C1 & C2 & C3) & sb & Isb & Usb). destruct (ps_holds _ _ _ _ _ _ _ _ _ _ _ PS) as (B1 & B2 & B3).
    destruct (home1 _ _ _ B1 C1) as (k1 & P1 & Q1). destruct (home1 _ _ _ B2 C2) as (k2 & P2 & Q2). destruct (home1 _ _ _ B3 C3) as (k3 & P3 & Q3).
    set (T := I3 (k1 * period (sy1 s)) (k2 * period (sy2 s)) (k3 * period (sy3 s))).
    assert (UA : exists a, a < length uc /\ uid_at uc a = Some (snd x)).
    { assert (HI : In (snd x) (map (@u_uid P) uc)).
      { pose proof (inv_calls R P oo order cs) as I. rewrite (api_cell R P oo order cs subs fams (ps_subs _ _ _ _ _ _ _ _ _ _ _ PS) (ps_fams _ _ _ _ _ _ _ _ _ _ _ PS) uc (ps_uc _ _ _ _ _ _ _ _ _ _ _ PS)).
        rewrite cell_uids. unfold uids. eapply Permutation_in; [apply Permutation_map; apply frame_perm|]. rewrite map_map. cbn [site_of u_uid]. apply in_map_iff. exists sb. auto. }
      apply In_nth_error in HI. destruct HI as (a & Ha). rewrite nth_error_map in Ha. exists a. split; [|exact Ha]. apply nth_error_Some. destruct (nth_error uc a); [discriminate|discriminate Ha]. }
    destruct UA as (a & La & Ua).
    assert (CC : cell_of size (shifted_cell (fst x) T)) by (unfold cell_of, T, shifted_cell; cbn [ix iy iz]; lia).
    assert (PP : in_period size s (shifted_cell (fst x) T)) by (unfold in_period, T, shifted_cell; cbn [ix iy iz]; auto).
    exists (number valid (place size (shifted_cell (fst x) T) a)), T. split.
    + apply some_periods_iff. exists k1, k2, k3. reflexivity.
    + exists a. cbn [moved_site fst snd]. repeat split; auto; apply CC.
Qed.
