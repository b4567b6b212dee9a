(* C98 for models with onsite and hopping modifiers. *)
From Verif Require Import Base Rle RleProofs Blocks TablesSpec TablesProofs Scalar Foundation FoundationSpec FoundationFacts PopulateFacts Lattice LatticeSpec LatticeProofs
  PropsLattice Symmetry SymmetrySpec Hamiltonian HamiltonianSpec HamProofs HamElements HamFacts HamHermitian HamCor SystemBuild HamApi PropsHamiltonian BulkSpec BlochProofs
  Leads LeadsSpec SystemMods ModsSpec ModsProofs MakeProofs DanglingProofs PropsSystem Kpm KpmSpec KpmCheb KpmGram KpmFinal RSum Cplx RInt Spectral SpectralProofs SpectralLine SpectralTheorem
  PropsSpectral PropsEigen Compress CompressProofs BlochMods PropsEndToEnd.
From Coq Require Import Permutation Reals Lra.
Local Open Scope nat_scope.

(** ** Specification *)
(** A rule of an onsite modifier that makes Hermitian energies of Hermitian energies. *)
Definition rule_hermitian {R : scalar} {P} (g : os_rule R P) : Prop := forall nm p (A : mat R), m_rows A = m_cols A ->
  (forall i j, i < m_rows A -> j < m_rows A -> m_at A j i = kconj (m_at A i j)) ->
  forall i j, i < m_rows A -> j < m_rows A -> m_at (g nm p A) j i = kconj (m_at (g nm p A) i j).

Lemma rules_hermitian : forall (R : scalar) P om (og : list (os_rule R P)), Forall2 os_follows om og -> Forall rule_hermitian og -> Forall (keeps_hermitian complex_type) om.
Proof.
  intros R P om og H. induction H as [|m g om og (_ & Hf) H IH]; intros RH; [constructor|]. inversion RH as [|? ? H1 H2]; subst. constructor; [|auto].
  intros n ps nm buf buf' L E HB i j k Hi Hj Hk. destruct (Hf n ps nm buf L) as (b & Eb & _ & G). rewrite E in Eb. injection Eb as <-.
  destruct (nth_error ps k) as [p|] eqn:Ep; [|apply nth_error_None in Ep; lia]. rewrite (G j i k p Hj Hi Ep), (G i j k p Hi Hj Ep).
  cbn [complex_type nt_conj]. apply H1; [reflexivity| |exact Hi|exact Hj]. cbn [m_rows m_at]. intros i' j' Hi' Hj'. apply (HB i' j' k Hi' Hj' Hk).
Qed.

(** ** The matrix *)
(** What the solvers receive from a model with energy modifiers: nothing but the tight-binding
    matrix with the modified energies, every modifier seeing the names and final positions. *)
Theorem C98_matrix_modified :
  forall (R : scalar) (P : Type) offset_ok order (cs : list (lcall R P)) subs fams uc reg hreg size lower s fpos dflt padd shift inside cap mods rs sys lts om og hm hg,
  let l := calls offset_ok order cs in
  Permutation subs (l_subs l) -> Permutation fams (l_fams l) -> unit_cell subs fams = Ok uc ->
  site_registry subs = Ok reg -> hopping_registry fams = Ok hreg ->
  (forall x o, In x (l_subs l) -> In o (l_subs l) -> sb_uid o = sb_alias x -> primary o) ->
  positive_block size -> block_holds_period size s ->
  length fpos = num_block_sites size (length uc) -> length inside = num_block_sites size (length uc) ->
  (forall fam t, In fam (l_fams l) -> In t (fm_terms fam) -> short_range s (t_rel t)) ->
  fits_buffer R (l_fams l) cap -> Forall2 mod_is mods rs -> Forall only_removes rs ->
  make_system dflt padd size lower uc subs (length (l_fams l)) s shift (map entry_of reg) (map entry_of hreg) mods [] fpos inside = Ok (sys, lts) ->
  Forall2 os_follows om og -> Forall rule_hermitian og -> Forall2 hop_follows hm hg ->
  let d := sd_subs sys in let N := hamiltonian_size d in
  exists v0 pos v,
    (forall i a, cell_of size i -> a < length uc -> (flagged size v0 (i, a) = true <-> flagged size inside (i, a) = true /\ in_period size s i)) /\
    rules_effect size uc (l_subs l) rs fpos v0 pos v /\
    (forall n, n < length (sd_pos sys) <-> exists x, site_at size uc v n x) /\ rle_size d = length (sd_pos sys) /\ 0 < N /\
    (forall n x, site_at size uc v n x -> exists a, uid_at uc a = Some (snd x) /\ nth_error (sd_pos sys) n = nth_error pos (place size (fst x) a)) /\
    forall unshift phase simple, exists m, ham_make cap complex_type (hsys_of (map entry_of reg) (map entry_of hreg) sys) om hm unshift phase simple = Ok m /\
      let h := compress N m in
      wf_csr N h /\ KpmSpec.hermitian N (coef h) /\ sym_pattern h /\ modified_binding complex_type l s shift phase unshift og hg size uc v d (sd_pos sys) (coef h) /\
      forall A, modified_binding complex_type l s shift phase unshift og hg size uc v d (sd_pos sys) A -> forall i j, i < N -> j < N -> A i j = coef h i j.
Proof.
  intros R P oo order cs subs fams uc reg hreg size lower s fpos dflt padd shift inside cap mods rs sys lts om og hm hg l H1 H2 H3 H4 H5 H6 H7 H8 H9 H10 H11 H13 HM HO MS FO RH FH d N.
  destruct (make_plain R P oo order cs subs fams H1 H2 uc H3 reg hreg H5 size lower H7 s H8 fpos dflt padd H9 shift inside H10 mods rs HM HO)
    as (v0 & pos & v & base & L0 & F0 & RE & LP & LV & IN & EB & MK).
  exists v0, pos, v. split; [exact F0|]. split; [exact RE|].
  fold l in MK. assert (LPOS : 0 < length (sd_pos sys)).
  { destruct (C45_build R P oo order cs subs fams uc reg hreg size lower s fpos dflt padd shift inside complex_type cap mods rs H1 H2 H3 H4 H5 H6 H7 H8 H9 H10 H11 (complex_ok R) H13 HM HO)
      as (a & b & c & _ & _ & POS). fold l in POS. rewrite MS in POS. apply POS. }
  rewrite MS in MK. destruct MK as (E1 & _ & _ & _).
  destruct (bloch_mods R P oo order cs subs fams H1 H2 uc H3 reg hreg H4 H5 H6 size H7 s H8 v LV IN pos dflt LP shift H11 complex_type (complex_ok R) cap H13)
    as (base' & EB' & N1 & N2 & (Ts & N3) & PS & HAM).
  assert (base' = base) by congruence. subst base'.
  destruct (api_hamiltonian R P oo order cs subs fams uc reg hreg size s v pos dflt shift H1 H2 H3 H4 H5 H6 H7 H8 LV IN LP) as (base' & EB2 & WF & HE & HA).
  assert (base' = base) by congruence. subst base'. clear EB' EB2.
  assert (SB : d = hs_subs base) by (rewrite <- E1; reflexivity).
  assert (LS : rle_size d = length (sd_pos sys)) by (rewrite SB; replace (sd_pos sys) with (hs_pos base) by (rewrite <- E1; reflexivity); symmetry; apply WF).
  rewrite <- SB in *.
  split; [intros n; rewrite <- LS; apply N1|]. split; [exact LS|].
  assert (NP : 0 < N).
  { assert (Q : 0 < norb_at d 0) by (rewrite SB; apply (norb_pos R P base WF); rewrite <- SB; lia).
    pose proof (row_of_lt d 0 0 ltac:(lia) Q). unfold N. lia. }
  assert (SP : sd_pos sys = hs_pos base) by (rewrite <- E1; reflexivity). rewrite <- SP in *.
  split; [exact NP|]. split; [exact PS|]. intros unshift phase simple. destruct (HAM om og hm hg unshift phase simple FO FH) as (m & Em & IR & EL).
  exists m. rewrite E1. split; [exact Em|].
  destruct (ham_symmetric R P complex_type (complex_ok R) base cap om hm unshift phase simple m (HE complex_type ltac:(reflexivity)) (rules_hermitian R P om og FO RH) Em) as (SY & PT).
  intros h. assert (CF : forall i j, i < N -> coef h i j = coeff m i j) by (intros i j Hi; apply compress_coef; exact Hi).
  assert (RW : forall n p x sx, site_at size uc v n x -> In sx (l_subs l) -> sb_uid sx = snd x -> p < m_rows (sb_energy sx) -> row_of d n p < N).
  { intros n p x sx Sx Ix Ux Hp. destruct (N2 n x Sx) as (sb & I1 & U1 & NO). apply row_of_lt; [apply N1; eauto|]. rewrite NO.
    replace sb with sx; [exact Hp|]. apply (NoDup_map_inj sb_uid (l_subs l)); auto; [|congruence].
    unfold l. rewrite (li_uids _ _ _ (inv_calls R P oo order cs)). apply seq_NoDup. }
  split; [|split; [|split; [|split]]].
  - apply compress_wf. exact IR.
  - intros i j Hi Hj. rewrite !CF by assumption. symmetry. exact (SY i j).
  - intros i j L. apply compress_linked in L. destruct L as (Hi & I). apply compress_linked. split; [|apply PT, I].
    apply in_map_iff in I. destruct I as (e & E & I). apply IR in I. rewrite E in I. apply I.
  - intros n k x y sx ox sy px py Sx Sy Ix Ux Iox Uox Iy Uy Ex Ey Ts' p q HT Hp Hq. rewrite CF by (exact (RW n p x sx Sx Ix Ux Hp)). exact (EL n k x y sx ox sy px py Sx Sy Ix Ux Iox Uox Iy Uy Ex Ey Ts' p q HT Hp Hq).
  - intros A HAA i j Hi Hj. rewrite CF by exact Hi.
    destruct (row_of_onto d i Hi) as (n & p & Hn & Hp & ->). destruct (row_of_onto d j Hj) as (k & q & Hk & Hq & ->).
    destruct (proj1 (N1 n) Hn) as (x & Sx). destruct (proj1 (N1 k) Hk) as (y & Sy).
    destruct (N2 n x Sx) as (sx & I1 & U1 & NO1). destruct (N2 k y Sy) as (sy & I2 & U2 & NO2). destruct (N3 x y n k Sx Sy) as (TT & _).
    destruct (li_alias _ _ _ (inv_calls R P oo order cs) sx I1) as (ox & Io & O1 & _).
    assert (XP : forall z, z < rle_size d -> exists pz, nth_error (sd_pos sys) z = Some pz).
    { intros z Hz. rewrite LS in Hz. destruct (nth_error (sd_pos sys) z) as [pz|] eqn:Ez; [eauto|]. apply nth_error_None in Ez. lia. }
    destruct (XP n Hn) as (px & Ex). destruct (XP k Hk) as (py & Ey).
    rewrite NO1 in Hp. rewrite NO2 in Hq. rewrite (HAA n k x y sx ox sy px py Sx Sy I1 U1 Io O1 I2 U2 Ex Ey Ts p q TT Hp Hq). symmetry. exact (EL n k x y sx ox sy px py Sx Sy I1 U1 Io O1 I2 U2 Ex Ey Ts p q TT Hp Hq).
Qed.
Print Assumptions C98_matrix_modified.

(** ** The local density of states *)
Theorem C98_ldos_modified :
  forall (P : Type) offset_ok order (cs : list (lcall CX P)) subs fams uc reg hreg size lower s fpos dflt padd shift inside cap mods rs sys lts om og hm hg,
  let l := calls offset_ok order cs in
  Permutation subs (l_subs l) -> Permutation fams (l_fams l) -> unit_cell subs fams = Ok uc ->
  site_registry subs = Ok reg -> hopping_registry fams = Ok hreg ->
  (forall x o, In x (l_subs l) -> In o (l_subs l) -> sb_uid o = sb_alias x -> primary o) ->
  positive_block size -> block_holds_period size s ->
  length fpos = num_block_sites size (length uc) -> length inside = num_block_sites size (length uc) ->
  (forall fam t, In fam (l_fams l) -> In t (fm_terms fam) -> short_range s (t_rel t)) ->
  fits_buffer CX (l_fams l) cap -> Forall2 mod_is mods rs -> Forall only_removes rs ->
  make_system dflt padd size lower uc subs (length (l_fams l)) s shift (map entry_of reg) (map entry_of hreg) mods [] fpos inside = Ok (sys, lts) ->
  Forall2 os_follows om og -> Forall rule_hermitian og -> Forall2 hop_follows hm hg ->
  let d := sd_subs sys in let N := hamiltonian_size d in
  exists v0 pos v,
    (forall i a, cell_of size i -> a < length uc -> (flagged size v0 (i, a) = true <-> flagged size inside (i, a) = true /\ in_period size s i)) /\
    rules_effect size uc (l_subs l) rs fpos v0 pos v /\
    (forall n, n < length (sd_pos sys) <-> exists x, site_at size uc v n x) /\
    (forall n x, site_at size uc v n x -> exists a, uid_at uc a = Some (snd x) /\ nth_error (sd_pos sys) n = nth_error pos (place size (fst x) a)) /\
    forall unshift phase simple, exists m, ham_make cap complex_type (hsys_of (map entry_of reg) (map entry_of hreg) sys) om hm unshift phase simple = Ok m /\
      let h := compress N m in
      (exists A psi en, modified_binding complex_type l s shift phase unshift og hg size uc v d (sd_pos sys) A /\ eigenbasis N A psi en) /\
      forall A psi en, modified_binding complex_type l s shift phase unshift og hg size uc v d (sd_pos sys) A -> eigenbasis N A psi en ->
      forall f al lo hi broadening, (lo < hi)%R -> (0 < broadening)%R -> (forall k, k < N -> (lo <= en k <= hi)%R) -> runs N h lo hi al f ->
      exists peak : R -> R -> R,
        (forall k, k < N -> sharp_peak (peak (en k)) (s_b (make_scale lo hi) - s_a (make_scale lo hi))%R (s_b (make_scale lo hi) + s_a (make_scale lo hi))%R (en k) broadening) /\
        forall n, n < length (sd_pos sys) -> exists idx, to_hamiltonian_indices d n = Ok idx /\ length idx = norb_at d n /\
        forall p energy, p < norb_at d n -> (forall E, In E energy -> (lo <= E <= hi)%R) ->
          calc_ldos f jackson al lo hi h idx p broadening energy
          = Ok (map (fun E => Some (rsum (fun k => abs2 (psi k (row_of d n p)) * peak (en k) E)%R N)) energy).
Proof.
  intros P oo order cs subs fams uc reg hreg size lower s fpos dflt padd shift inside cap mods rs sys lts om og hm hg l H1 H2 H3 H4 H5 H6 H7 H8 H9 H10 H11 H13 HM HO MS FO RH FH d N.
  destruct (C98_matrix_modified CX P oo order cs subs fams uc reg hreg size lower s fpos dflt padd shift inside cap mods rs sys lts om og hm hg H1 H2 H3 H4 H5 H6 H7 H8 H9 H10 H11 H13 HM HO MS FO RH FH)
    as (v0 & pos & v & A1 & A2 & A3 & A4 & A5 & A7 & A6).
  exists v0, pos, v. split; [exact A1|]. split; [exact A2|]. split; [exact A3|]. split; [exact A7|]. intros unshift phase simple.
  destruct (A6 unshift phase simple) as (m & Em & W & HH & SP & TB & UN). exists m. split; [exact Em|]. intros h. split.
  - destruct (C53_states N (coef h) HH) as (psi & en & EB). exists (coef h), psi, en. auto.
  - intros A psi en TA EA f al lo hi br Hl Hb Hen (RC & RZ).
    assert (EH : eigenbasis N (coef h) psi en).
    { destruct EA as (E1 & E2). split; [|exact E2]. intros k i Hk Hi. rewrite <- (E1 k i Hk Hi). apply ksum_ext. intros j Hj. apply in_seq in Hj.
      rewrite (UN A TA i j) by (exact Hi || apply Hj). reflexivity. }
    assert (CR : can_run N h lo hi al f) by (split; [intros Q; split; [exact SP|apply RC, Q]|exact RZ]).
    destruct (C53_ldos f al lo hi N h psi en br A5 W HH Hl CR Hb EH Hen) as (peak & V & S). exists peak. split; [exact S|].
    intros n Hn. rewrite <- A4 in Hn. exists (seq (orb_offset d n) (orb_count d n)). split; [apply to_ham_spec; exact Hn|].
    split; [rewrite seq_length; symmetry; apply norb_at_count|]. intros p energy Hp HE. apply V; [|rewrite row_of_offset; rewrite norb_at_count in Hp; rewrite (nth_error_nth' _ 0) by (rewrite seq_length; exact Hp); rewrite seq_nth by exact Hp; reflexivity|exact HE].
    intros j Hj. apply in_seq in Hj. replace j with (row_of d n (j - orb_offset d n)) by (rewrite row_of_offset; lia).
      apply row_of_lt; [exact Hn|]. rewrite norb_at_count. lia.
Qed.
Print Assumptions C98_ldos_modified.

(** A ring of three sites at 1, 2, 3, onsite energy 1 plus the position, hopping 2 plus the length:
    the bond that closes the ring has length 1 too, and the phase i. *)
Definition ramp : onsite_mod GI Z := fun n ps _ buf => Ok (map (fun kv => gi_add (snd kv) (nth (fst kv mod length ps) ps 0, 0)%Z) (combine (seq 0 (length buf)) buf)).
Example C98_modified_example :
  obind (make_system 0%Z Z.add (I3 5 1 1) zero3 (cell_of_calls plain_chain) (l_subs (lattice_of plain_chain)) 1 (Sym (Some 3%Z) None None) ix
      (sites_of plain_chain []) (hops_of plain_chain []) [] [] [0; 1; 2; 3; 4]%Z (repeat true 5)) (fun r =>
    omap (fun m => (sd_pos (fst r), compress 3 m)) (ham_make 100 complex_type (hsys_of (sites_of plain_chain []) (hops_of plain_chain []) (fst r)) [ramp] [add_dist] Z.sub (fun d => (0, if (0 <? d)%Z then 1 else -1)%Z) true))
  = Ok ([1; 2; 3]%Z,
        [[(0, (2, 0)%Z); (1, (3, 0)%Z); (2, (0, 3)%Z)];
         [(0, (3, 0)%Z); (1, (3, 0)%Z); (2, (3, 0)%Z)];
         [(0, (0, -3)%Z); (1, (3, 0)%Z); (2, (4, 0)%Z)]]).
Proof. vm_compute. reflexivity. Qed.
