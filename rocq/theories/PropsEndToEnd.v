(* C98: from the description of a model to its local density of states. *)
From Verif Require Import Base Rle RleProofs Blocks TablesSpec TablesProofs Scalar Foundation FoundationSpec FoundationFacts PopulateFacts Lattice LatticeSpec LatticeProofs
  PropsLattice Symmetry SymmetrySpec Hamiltonian HamiltonianSpec HamProofs HamElements HamFacts HamHermitian HamCor SystemBuild HamApi PropsHamiltonian BulkSpec BlochProofs
  Leads LeadsSpec SystemMods ModsSpec ModsProofs MakeProofs DanglingProofs PropsSystem Kpm KpmSpec KpmCheb KpmGram KpmFinal RSum Cplx RInt Spectral SpectralProofs SpectralLine SpectralTheorem
  PropsSpectral PropsEigen Compress CompressProofs.
From Coq Require Import Permutation Reals Lra.
Local Open Scope nat_scope.

(** ** Specification *)
(** [A] is the tight-binding matrix: rows are numbered by [d], site [n] is the lattice site [x]; an
    element is the onsite energy, the hopping terms between the two sites, and those across whole
    periods with the phase of the period. *)
Definition tight_binding {R P} (l : lattice R P) s (shift : idx3 -> P) (phase : P -> R) size (uc : list (usite P)) v (d : rle) (A : nat -> nat -> R) : Prop :=
  forall n k x y sx sy, site_at size uc v n x -> site_at size uc v k y ->
  In sx (l_subs l) -> sb_uid sx = snd x -> In sy (l_subs l) -> sb_uid sy = snd y ->
  forall Ts p q, translations_of s (l_fams l) x y Ts -> p < m_rows (sb_energy sx) -> q < m_rows (sb_energy sy) ->
    A (row_of d n p) (row_of d k q)
    = kadd (kadd (if n =? k then m_at (sb_energy sx) p q else k0) (bulk complex_type (l_fams l) x p y q))
        (ksum (fun T => kadd
            (kmul (hops_to complex_type (l_fams l) (shifted_cell (fst x) T, snd x) p y q) (phase (shift T)))
            (kconj (kmul (hops_to complex_type (l_fams l) (shifted_cell (fst y) T, snd y) q x p) (phase (shift T))))) Ts).

(** ** The matrix *)
(** What the solvers receive from a model that could be built: one element per position, equal to
    its conjugate transpose, and nothing but the tight-binding matrix. *)
Theorem C98_matrix :
  forall (R : scalar) (P : Type) offset_ok order (cs : list (lcall R P)) subs fams uc reg hreg size lower s fpos dflt padd shift inside cap mods rs sys lts,
  let l := calls offset_ok order cs in
  Permutation subs (l_subs l) -> Permutation fams (l_fams l) -> unit_cell subs fams = Ok uc ->
  site_registry subs = Ok reg -> hopping_registry fams = Ok hreg ->
  (forall x o, In x (l_subs l) -> In o (l_subs l) -> sb_uid o = sb_alias x -> primary o) ->
  positive_block size -> block_holds_period size s ->
  length fpos = num_block_sites size (length uc) -> length inside = num_block_sites size (length uc) ->
  (forall fam t, In fam (l_fams l) -> In t (fm_terms fam) -> short_range s (t_rel t)) ->
  fits_buffer R (l_fams l) cap -> Forall2 mod_is mods rs -> Forall only_removes rs ->
  make_system dflt padd size lower uc subs (length (l_fams l)) s shift (map entry_of reg) (map entry_of hreg) mods [] fpos inside = Ok (sys, lts) ->
  let d := sd_subs sys in let N := hamiltonian_size d in
  exists v0 pos v,
    (forall i a, cell_of size i -> a < length uc -> (flagged size v0 (i, a) = true <-> flagged size inside (i, a) = true /\ in_period size s i)) /\
    rules_effect size uc (l_subs l) rs fpos v0 pos v /\
    (forall n, n < length (sd_pos sys) <-> exists x, site_at size uc v n x) /\ rle_size d = length (sd_pos sys) /\ 0 < N /\
    forall unshift phase simple, exists m, ham_make cap complex_type (hsys_of (map entry_of reg) (map entry_of hreg) sys) [] [] unshift phase simple = Ok m /\
      let h := compress N m in
      wf_csr N h /\ KpmSpec.hermitian N (coef h) /\ sym_pattern h /\ tight_binding l s shift phase size uc v d (coef h) /\
      forall A, tight_binding l s shift phase size uc v d A -> forall i j, i < N -> j < N -> A i j = coef h i j.
Proof.
  intros R P oo order cs subs fams uc reg hreg size lower s fpos dflt padd shift inside cap mods rs sys lts l H1 H2 H3 H4 H5 H6 H7 H8 H9 H10 H11 H13 HM HO MS d N.
  destruct (make_plain R P oo order cs subs fams H1 H2 uc H3 reg hreg H5 size lower H7 s H8 fpos dflt padd H9 shift inside H10 mods rs HM HO)
    as (v0 & pos & v & base & L0 & F0 & RE & LP & LV & IN & EB & MK).
  exists v0, pos, v. split; [exact F0|]. split; [exact RE|].
  fold l in MK. assert (LPOS : 0 < length (sd_pos sys)).
  { destruct (C45_build R P oo order cs subs fams uc reg hreg size lower s fpos dflt padd shift inside complex_type cap mods rs H1 H2 H3 H4 H5 H6 H7 H8 H9 H10 H11 (complex_ok R) H13 HM HO)
      as (a & b & c & _ & _ & POS). fold l in POS. rewrite MS in POS. apply POS. }
  rewrite MS in MK. destruct MK as (E1 & _ & _ & _).
  destruct (bloch R P oo order cs subs fams H1 H2 uc H3 reg hreg H4 H5 H6 size H7 s H8 v LV IN pos dflt LP shift H11 complex_type (complex_ok R) cap H13)
    as (base' & EB' & N1 & N2 & (Ts & N3) & HAM).
  assert (base' = base) by congruence. subst base'.
  destruct (api_hamiltonian R P oo order cs subs fams uc reg hreg size s v pos dflt shift H1 H2 H3 H4 H5 H6 H7 H8 LV IN LP) as (base' & EB2 & WF & HE & HA).
  assert (base' = base) by congruence. subst base'. clear EB' EB2.
  assert (SB : d = hs_subs base) by (rewrite <- E1; reflexivity).
  assert (LS : rle_size d = length (sd_pos sys)) by (rewrite SB; replace (sd_pos sys) with (hs_pos base) by (rewrite <- E1; reflexivity); symmetry; apply WF).
  rewrite <- SB in *.
  split; [intros n; rewrite <- LS; apply N1|]. split; [exact LS|].
  assert (NP : 0 < N).
  { assert (Q : 0 < norb_at d 0) by (rewrite SB; apply (norb_pos R P base WF); rewrite <- SB; lia).
    pose proof (row_of_lt d 0 0 ltac:(lia) Q). unfold N. lia. }
  split; [exact NP|]. intros unshift phase simple. destruct (HAM unshift phase simple) as (m & Em & EL).
  destruct (HA complex_type [] [] [] [] unshift phase simple cap (complex_ok R) ltac:(constructor) ltac:(constructor) H13) as (m' & Em' & IR & _).
  assert (m' = m) by congruence. subst m'. exists m. rewrite E1. split; [exact Em|].
  destruct (ham_symmetric R P complex_type (complex_ok R) base cap [] [] unshift phase simple m (HE complex_type ltac:(reflexivity)) ltac:(constructor) Em) as (SY & PT).
  intros h. assert (CF : forall i j, i < N -> coef h i j = coeff m i j) by (intros i j Hi; apply compress_coef; exact Hi).
  assert (RW : forall n p x sx, site_at size uc v n x -> In sx (l_subs l) -> sb_uid sx = snd x -> p < m_rows (sb_energy sx) -> row_of d n p < N).
  { intros n p x sx Sx Ix Ux Hp. destruct (N2 n x Sx) as (sb & I1 & U1 & NO). apply row_of_lt; [apply N1; eauto|]. rewrite NO.
    replace sb with sx; [exact Hp|]. apply (NoDup_map_inj sb_uid (l_subs l)); auto; [|congruence].
    unfold l. rewrite (li_uids _ _ _ (inv_calls R P oo order cs)). apply seq_NoDup. }
  split; [|split; [|split; [|split]]].
  - apply compress_wf. exact IR.
  - intros i j Hi Hj. rewrite !CF by assumption. symmetry. exact (SY i j).
  - intros i j L. apply compress_linked in L. destruct L as (Hi & I). apply compress_linked. split; [|apply PT, I].
    apply in_map_iff in I. destruct I as (e & E & I). apply IR in I. rewrite E in I. apply I.
  - intros n k x y sx sy Sx Sy Ix Ux Iy Uy Ts' p q HT Hp Hq. rewrite CF by (exact (RW n p x sx Sx Ix Ux Hp)). exact (EL n k x y sx sy Sx Sy Ix Ux Iy Uy Ts' p q HT Hp Hq).
  - intros A HAA i j Hi Hj. rewrite CF by exact Hi.
    destruct (row_of_onto d i Hi) as (n & p & Hn & Hp & ->). destruct (row_of_onto d j Hj) as (k & q & Hk & Hq & ->).
    destruct (proj1 (N1 n) Hn) as (x & Sx). destruct (proj1 (N1 k) Hk) as (y & Sy).
    destruct (N2 n x Sx) as (sx & I1 & U1 & NO1). destruct (N2 k y Sy) as (sy & I2 & U2 & NO2). destruct (N3 x y n k Sx Sy) as (TT & _).
    rewrite NO1 in Hp. rewrite NO2 in Hq. rewrite (HAA n k x y sx sy Sx Sy I1 U1 I2 U2 Ts p q TT Hp Hq). symmetry. exact (EL n k x y sx sy Sx Sy I1 U1 I2 U2 Ts p q TT Hp Hq).
Qed.
Print Assumptions C98_matrix.

(** ** The local density of states *)
(** Algorithms that reorder need a connected matrix, the vectorised ELLPACK kernel one that is not zero. *)
Definition runs (N : nat) (h : list (list (nat * CX))) (lo hi : R) (al : algorithm) (f : format) : Prop :=
  (al_size al || al_inter al = true -> connected N h) /\
  forall aligned step, f = EllSimd aligned step -> 0 < step /\ exists i j, i < N /\ j < N /\
    scaled_dense (re (/ s_a (make_scale lo hi))) (re (s_b (make_scale lo hi))) (coef h) i j <> k0.

(** The density computed at orbital [p] of site [n] of a built model is the sum of a peak at every
    energy of the tight-binding matrix, weighted with the state at that orbital. *)
Theorem C98_ldos :
  forall (P : Type) offset_ok order (cs : list (lcall CX P)) subs fams uc reg hreg size lower s fpos dflt padd shift inside cap mods rs sys lts,
  let l := calls offset_ok order cs in
  Permutation subs (l_subs l) -> Permutation fams (l_fams l) -> unit_cell subs fams = Ok uc ->
  site_registry subs = Ok reg -> hopping_registry fams = Ok hreg ->
  (forall x o, In x (l_subs l) -> In o (l_subs l) -> sb_uid o = sb_alias x -> primary o) ->
  positive_block size -> block_holds_period size s ->
  length fpos = num_block_sites size (length uc) -> length inside = num_block_sites size (length uc) ->
  (forall fam t, In fam (l_fams l) -> In t (fm_terms fam) -> short_range s (t_rel t)) ->
  fits_buffer CX (l_fams l) cap -> Forall2 mod_is mods rs -> Forall only_removes rs ->
  make_system dflt padd size lower uc subs (length (l_fams l)) s shift (map entry_of reg) (map entry_of hreg) mods [] fpos inside = Ok (sys, lts) ->
  let d := sd_subs sys in let N := hamiltonian_size d in
  exists v0 pos v,
    (forall i a, cell_of size i -> a < length uc -> (flagged size v0 (i, a) = true <-> flagged size inside (i, a) = true /\ in_period size s i)) /\
    rules_effect size uc (l_subs l) rs fpos v0 pos v /\
    (forall n, n < length (sd_pos sys) <-> exists x, site_at size uc v n x) /\
    forall unshift phase simple, exists m, ham_make cap complex_type (hsys_of (map entry_of reg) (map entry_of hreg) sys) [] [] unshift phase simple = Ok m /\
      let h := compress N m in
      (exists A psi en, tight_binding l s shift phase size uc v d A /\ eigenbasis N A psi en) /\
      forall A psi en, tight_binding l s shift phase size uc v d A -> eigenbasis N A psi en ->
      forall f al lo hi broadening, (lo < hi)%R -> (0 < broadening)%R -> (forall k, k < N -> (lo <= en k <= hi)%R) -> runs N h lo hi al f ->
      exists peak : R -> R -> R,
        (forall k, k < N -> sharp_peak (peak (en k)) (s_b (make_scale lo hi) - s_a (make_scale lo hi))%R (s_b (make_scale lo hi) + s_a (make_scale lo hi))%R (en k) broadening) /\
        forall n, n < length (sd_pos sys) -> exists idx, to_hamiltonian_indices d n = Ok idx /\ length idx = norb_at d n /\
        forall p energy, p < norb_at d n -> (forall E, In E energy -> (lo <= E <= hi)%R) ->
          calc_ldos f jackson al lo hi h idx p broadening energy
          = Ok (map (fun E => Some (rsum (fun k => abs2 (psi k (row_of d n p)) * peak (en k) E)%R N)) energy).
Proof.
  intros P oo order cs subs fams uc reg hreg size lower s fpos dflt padd shift inside cap mods rs sys lts l H1 H2 H3 H4 H5 H6 H7 H8 H9 H10 H11 H13 HM HO MS d N.
  destruct (C98_matrix CX P oo order cs subs fams uc reg hreg size lower s fpos dflt padd shift inside cap mods rs sys lts H1 H2 H3 H4 H5 H6 H7 H8 H9 H10 H11 H13 HM HO MS)
    as (v0 & pos & v & A1 & A2 & A3 & A4 & A5 & A6).
  exists v0, pos, v. split; [exact A1|]. split; [exact A2|]. split; [exact A3|]. intros unshift phase simple.
  destruct (A6 unshift phase simple) as (m & Em & W & HH & SP & TB & UN). exists m. split; [exact Em|]. intros h. split.
  - destruct (C53_states N (coef h) HH) as (psi & en & EB). exists (coef h), psi, en. auto.
  - intros A psi en TA EA f al lo hi br Hl Hb Hen (RC & RZ).
    assert (EH : eigenbasis N (coef h) psi en).
    { destruct EA as (E1 & E2). split; [|exact E2]. intros k i Hk Hi. rewrite <- (E1 k i Hk Hi). apply ksum_ext. intros j Hj. apply in_seq in Hj.
      rewrite (UN A TA i j) by (exact Hi || apply Hj). reflexivity. }
    assert (CR : can_run N h lo hi al f) by (split; [intros Q; split; [exact SP|apply RC, Q]|exact RZ]).
    destruct (C53_ldos f al lo hi N h psi en br A5 W HH Hl CR Hb EH Hen) as (peak & V & S). exists peak. split; [exact S|].
    intros n Hn. rewrite <- A4 in Hn. exists (seq (orb_offset d n) (orb_count d n)). split; [apply to_ham_spec; exact Hn|].
    split; [rewrite seq_length; symmetry; apply norb_at_count|]. intros p energy Hp HE. apply V; [|rewrite row_of_offset; rewrite norb_at_count in Hp; rewrite (nth_error_nth' _ 0) by (rewrite seq_length; exact Hp); rewrite seq_nth by exact Hp; reflexivity|exact HE].
    intros j Hj. apply in_seq in Hj. replace j with (row_of d n (j - orb_offset d n)) by (rewrite row_of_offset; lia).
      apply row_of_lt; [exact Hn|]. rewrite norb_at_count. lia.
Qed.
Print Assumptions C98_ldos.

(** The matrix of a chain of four sites, the third removed: onsite energy 1, hopping 2. *)
Example C98_matrix_example :
  obind (built plain_chain (I3 4 1 1) [drop_at 2] [] [0; 1; 2; 3]%Z) (fun r =>
    omap (compress 3) (ham_make 100 complex_type (hsys_of (sites_of plain_chain []) (hops_of plain_chain []) (fst r)) [] [] Z.sub (fun _ => (1, 0)%Z) true))
  = Ok [[(0, (1, 0)%Z); (1, (2, 0)%Z)]; [(0, (2, 0)%Z); (1, (1, 0)%Z)]; [(2, (1, 0)%Z)]].
Proof. vm_compute. reflexivity. Qed.

(** Two sites with hopping -1: the whole way from the lattice to the density. *)
Definition pair_calls : list (lcall CX Z) :=
  [AddSublattice (Nm 1) 0%Z (Mat 1 1 (fun _ _ => re 0)); AddHoppingEnergy (I3 1 0 0) (Nm 1) (Nm 1) (Mat 1 1 (fun _ _ => re (-1)))].
Definition pair_lattice : lattice CX Z :=
  Lat [Sub (Nm 1) 0%Z (hermitian_view (Mat 1 1 (fun _ _ => re 0 : CX))) 0 0] [Fam (Anon 0) (Mat 1 1 (fun _ _ => re (-1) : CX)) 0 [Term (I3 1 0 0) 0 0]] None 1.
Lemma pair_eq : calls (fun _ => true) (fun x => x) pair_calls = pair_lattice.
Proof.
  unfold calls, pair_calls. cbn [fold_left call]. unfold add_sublattice.
  assert (E : Lattice.onsite_ok (Mat 1 1 (fun _ _ => re 0 : CX)) = true).
  { unfold Lattice.onsite_ok, diag_real, is_upper. cbn [m_rows m_cols m_at seq forallb Nat.eqb Nat.ltb Nat.leb negb andb orb].
    assert (K : keqb (re 0 : CX) (kconj (re 0)) = true) by (apply keqb_eq; symmetry; apply re_conj). rewrite K. reflexivity. }
  rewrite E. reflexivity.
Qed.
Definition pair_reg : list (option (name * mat CX)) := [Some (Nm 1, hermitian_view (Mat 1 1 (fun _ _ => re 0 : CX)))].
Definition pair_hreg : list (option (name * mat CX)) := [Some (Anon 0, Mat 1 1 (fun _ _ => re (-1) : CX))].
Definition pair_cell : list (usite Z) := match unit_cell (l_subs pair_lattice) (l_fams pair_lattice) with Ok u => u | _ => [] end.
Definition pair_system := make_system 0%Z Z.add (I3 2 1 1) zero3 pair_cell (l_subs pair_lattice) 1 open_ends ix (map entry_of pair_reg) (map entry_of pair_hreg) [] [] [0; 1]%Z [true; true].
Definition pair_data : sysdata Z Z := SysData [0; 1]%Z [Elem 0 2 1] (HB 2 [[(0, 1)]]) [] [].
Example C98_example :
  pair_system = Ok (pair_data, []) /\
  exists v m A psi en lo hi (peak : R -> R -> R),
    ham_make 100 complex_type (hsys_of (map entry_of pair_reg) (map entry_of pair_hreg) pair_data) [] [] Z.sub (fun _ => k1) true = Ok m /\
    tight_binding pair_lattice open_ends ix (fun _ => k1) (I3 2 1 1) pair_cell v (sd_subs pair_data) A /\ eigenbasis 2 A psi en /\
    sharp_peak (peak (en 0)) (s_b (make_scale lo hi) - s_a (make_scale lo hi))%R (s_b (make_scale lo hi) + s_a (make_scale lo hi))%R (en 0) (/ 10) /\
    calc_ldos Csr jackson plain lo hi (compress 2 m) [1] 0 (/ 10) [lo; hi]
    = Ok (map (fun E => Some (rsum (fun k => abs2 (psi k 1%nat) * peak (en k) E)%R 2)) [lo; hi]).
Proof.
  assert (ES : pair_system = Ok (pair_data, [])) by reflexivity. split; [exact ES|].
  destruct (C98_ldos Z (fun _ => true) (fun x => x) pair_calls (l_subs pair_lattice) (l_fams pair_lattice) pair_cell pair_reg pair_hreg (I3 2 1 1) zero3 open_ends [0; 1]%Z 0%Z Z.add ix
    [true; true] 100 [] [] pair_data []) as (v0 & pos & v & _ & _ & _ & K); rewrite ?pair_eq.
  1,2: apply Permutation_refl.
  all: try reflexivity. 
  all: try (unfold positive_block, block_holds_period; cbn; lia).
  - intros x o [<-|[]] [<-|[]] _. reflexivity.
  - intros fam t [<-|[]] [<-|[]]. unfold short_range. cbn. auto.
  - intros fam [<-|[]]. cbn. lia.
  - constructor.
  - constructor.
  - rewrite pair_eq in K. destruct (K Z.sub (fun _ => k1) true) as (m & Em & (A & psi & en & TB & EB) & L).
    pose (lo := (Rmin (en 0%nat) (en 1%nat) - 1)%R). pose (hi := (Rmax (en 0%nat) (en 1%nat) + 1)%R).
    pose proof (Rmin_l (en 0) (en 1)). pose proof (Rmin_r (en 0) (en 1)). pose proof (Rmax_l (en 0) (en 1)). pose proof (Rmax_r (en 0) (en 1)).
    destruct (L A psi en TB EB Csr plain lo hi (/ 10)%R) as (peak & SP & V).
    + unfold lo, hi. lra.
    + lra.
    + intros [|[|k]] Hk; [unfold lo, hi; lra|unfold lo, hi; lra|exfalso; cbn in Hk; lia].
    + split; [discriminate|intros; discriminate].
    + exists v, m, A, psi, en, lo, hi, peak. split; [exact Em|]. split; [exact TB|]. split; [exact EB|]. split; [apply SP; cbn; lia|].
      destruct (V 1 ltac:(cbn; lia)) as (idx & EI & _ & W). injection EI as <-. apply W; [cbn; lia|].
      intros E [<-|[<-|[]]]; unfold lo, hi; lra.
Qed.
