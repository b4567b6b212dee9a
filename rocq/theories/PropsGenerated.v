(* C98 for models with site and hopping generators, and for every consistent system. *)
From Verif Require Import Base Rle RleProofs Blocks TablesSpec TablesProofs Scalar Foundation FoundationSpec FoundationFacts PopulateFacts Lattice LatticeSpec LatticeProofs
  PropsLattice Symmetry SymmetrySpec Hamiltonian HamiltonianSpec HamProofs HamElements HamFacts HamHermitian HamCor SystemBuild HamApi PropsHamiltonian BulkSpec BlochProofs
  Leads LeadsSpec SystemMods ModsSpec ModsProofs ModsSystem MakeProofs WidenProofs ExtendProofs GenProofs DanglingProofs PropsSystem Kpm KpmSpec KpmCheb KpmGram KpmFinal RSum Cplx RInt Spectral SpectralProofs SpectralLine SpectralTheorem
  PropsSpectral PropsEigen Compress CompressProofs BlochMods PropsEndToEnd PropsModified.
From Coq Require Import Permutation Reals Lra.
Local Open Scope nat_scope.

(** ** Specification *)
(** [A] has the tight-binding elements of the system: the onsite energy and the stored hoppings, after the modifiers. *)
Definition has_elements {V} (sys : hsys CX V) og hg unshift phase (A : nat -> nat -> CX) : Prop :=
  forall a i b j, a < rle_size (hs_subs sys) -> b < rle_size (hs_subs sys) -> i < norb_at (hs_subs sys) a -> j < norb_at (hs_subs sys) b ->
    A (row_of (hs_subs sys) a i) (row_of (hs_subs sys) b j) = element complex_type sys og hg unshift phase a i b j.
(** What the solver computes for the model: at orbital [p] of site [n] a peak at every energy, weighted with the state at that orbital. *)
Definition ldos_of_elements {V} (sys : hsys CX V) og hg unshift phase (h : list (list (nat * CX))) : Prop :=
  let d := hs_subs sys in let N := hamiltonian_size d in
  (exists A psi en, has_elements sys og hg unshift phase A /\ eigenbasis N A psi en) /\
  forall A psi en, has_elements sys og hg unshift phase A -> eigenbasis N A psi en ->
  forall f al lo hi broadening, (lo < hi)%R -> (0 < broadening)%R -> (forall k, k < N -> (lo <= en k <= hi)%R) -> runs N h lo hi al f ->
  exists peak : R -> R -> R,
    (forall k, k < N -> sharp_peak (peak (en k)) (s_b (make_scale lo hi) - s_a (make_scale lo hi))%R (s_b (make_scale lo hi) + s_a (make_scale lo hi))%R (en k) broadening) /\
    forall n, n < length (hs_pos sys) -> exists idx, to_hamiltonian_indices d n = Ok idx /\ length idx = norb_at d n /\
    forall p energy, p < norb_at d n -> (forall E, In E energy -> (lo <= E <= hi)%R) ->
      calc_ldos f jackson al lo hi h idx p broadening energy
      = Ok (map (fun E => Some (rsum (fun k => abs2 (psi k (row_of d n p)) * peak (en k) E)%R N)) energy).

(** The energy of a generated family fits the system the generator is applied to; [n0]: number of hopping families of the lattice. *)
Definition gen_fits {P} (reg hreg : list (name * mat CX)) (n0 cap : nat) (s : sysdata P P) (g : smod CX P) : Prop :=
  match g with
  | SiteGen n e make => exists ps id, make s = Ok ps /\ reg_id reg n = Ok id /\ snd (reg_entry reg id) = e /\ 0 < m_rows e /\ m_cols e = m_rows e /\
      (forall b, In b (sd_subs s) -> e_norb b <= m_rows e) /\ (forall i j, i < m_rows e -> j < m_rows e -> m_at e j i = kconj (m_at e i j))
  | HopGen n e make => exists rows cols f, make s = Ok (rows, cols) /\ reg_id hreg n = Ok f /\ n0 <= f /\ snd (reg_entry hreg f) = e /\ length rows = length cols /\
      mat_size e <= cap /\
      forall x y, x <= y -> In (x, y) (combine rows cols) \/ In (y, x) (combine rows cols) ->
        y < length (sd_pos s) /\ m_rows e = norb_at (sd_subs s) x /\ m_cols e = norb_at (sd_subs s) y
  | _ => False
  end.
Inductive all_fit {P} (reg hreg : list (name * mat CX)) (n0 cap : nat) : list (smod CX P) -> sysdata P P -> Prop :=
| fit_none : forall s, all_fit reg hreg n0 cap [] s
| fit_next : forall g r s, gen_fits reg hreg n0 cap s g -> (forall s', apply_system reg hreg s g = Ok s' -> all_fit reg hreg n0 cap r s') -> all_fit reg hreg n0 cap (g :: r) s.

(** ** Every consistent system *)
Theorem C98_ldos_system : forall V (sys : hsys CX V) om og hm hg unshift phase simple cap,
  wf_hsys sys -> hermitian_energies complex_type sys -> cap_fits CX V sys cap -> (simple = true -> simple_bonds sys) -> 0 < length (hs_pos sys) ->
  Forall2 os_follows om og -> Forall rule_hermitian og -> Forall2 hop_follows hm hg ->
  exists m, ham_make cap complex_type sys om hm unshift phase simple = Ok m /\
    has_elements sys og hg unshift phase (coef (compress (hamiltonian_size (hs_subs sys)) m)) /\
    ldos_of_elements sys og hg unshift phase (compress (hamiltonian_size (hs_subs sys)) m).
Proof.
  intros V sys om og hm hg un ph simple cap W HE HC SB HP FO RH FH.
  destruct (ham_elements CX V complex_type (complex_ok CX) sys W un ph cap om og hm hg simple FO FH HC SB) as (m & Em & IR & EL).
  exists m. split; [exact Em|]. pose (N := hamiltonian_size (hs_subs sys)). fold N. pose (h := compress N m). fold h.
  destruct (ham_symmetric CX V complex_type (complex_ok CX) sys cap om hm un ph simple m HE (rules_hermitian CX V om og FO RH) Em) as (SY & PT).
  assert (CF : forall i j, i < N -> coef h i j = coeff m i j) by (intros i j Hi; apply compress_coef; exact Hi).
  assert (HB : has_elements sys og hg un ph (coef h)) by (intros a i b j Ha Hb Hi Hj; rewrite CF by (apply row_of_lt; assumption); apply EL; assumption).
  split; [exact HB|].
  assert (WC : wf_csr N h) by (apply compress_wf; exact IR).
  assert (HH : KpmSpec.hermitian N (coef h)) by (intros i j Hi Hj; rewrite !CF by assumption; symmetry; exact (SY i j)).
  assert (SP : sym_pattern h).
  { intros i j L. apply compress_linked in L. destruct L as (Hi & I). apply compress_linked. split; [|apply PT, I].
    apply in_map_iff in I. destruct I as (e & E & I). apply IR in I. rewrite E in I. apply I. }
  assert (LS : length (hs_pos sys) = rle_size (hs_subs sys)) by apply W.
  assert (NP : 0 < N).
  { assert (Q : 0 < norb_at (hs_subs sys) 0) by (apply (norb_pos CX V sys W); lia). pose proof (row_of_lt (hs_subs sys) 0 0 ltac:(lia) Q). unfold N. lia. }
  split.
  - destruct (C53_states N (coef h) HH) as (psi & en & EB). exists (coef h), psi, en. auto.
  - intros A psi en TA EA f al lo hi br Hl Hb Hen (RC & RZ).
    assert (EH : eigenbasis N (coef h) psi en).
    { destruct EA as (E1 & E2). split; [|exact E2]. intros k i Hk Hi. rewrite <- (E1 k i Hk Hi). apply ksum_ext. intros j Hj. apply in_seq in Hj. f_equal.
      assert (Hj' : j < N) by apply Hj. destruct (row_of_onto (hs_subs sys) i Hi) as (n & p & Hn & Hp & ->). destruct (row_of_onto (hs_subs sys) j Hj') as (k' & q & Hk' & Hq & ->).
      rewrite (HB n p k' q), (TA n p k' q) by assumption. reflexivity. }
    assert (CR : can_run N h lo hi al f) by (split; [intros Q; split; [exact SP|apply RC, Q]|exact RZ]).
    destruct (C53_ldos f al lo hi N h psi en br NP WC HH Hl CR Hb EH Hen) as (peak & Vv & S). exists peak. split; [exact S|].
    intros n Hn. rewrite LS in Hn. exists (seq (orb_offset (hs_subs sys) n) (orb_count (hs_subs sys) n)). split; [apply to_ham_spec; exact Hn|].
    split; [rewrite seq_length; symmetry; apply norb_at_count|]. intros p energy Hp HEn. apply Vv; [|rewrite row_of_offset; rewrite norb_at_count in Hp; rewrite (nth_error_nth' _ 0) by (rewrite seq_length; exact Hp); rewrite seq_nth by exact Hp; reflexivity|exact HEn].
    intros j Hj. apply in_seq in Hj. replace j with (row_of (hs_subs sys) n (j - orb_offset (hs_subs sys) n)) by (rewrite row_of_offset; lia).
    apply row_of_lt; [exact Hn|]. rewrite norb_at_count. lia.
Qed.
Print Assumptions C98_ldos_system.

(** ** Generators *)
Section Gens.
  Variable P : Type.
  Variables reg hreg : list (name * mat CX).
  Variables n0 cap : nat.
  Definition kept_up (s : sysdata P P) : Prop :=
    wf_hsys (hsys_of reg hreg s) /\ hermitian_energies complex_type (hsys_of reg hreg s) /\ cap_fits CX P (hsys_of reg hreg s) cap /\ sd_valid s = [] /\
    forall f, n0 <= f -> f < length hreg -> exists b, nth_error (hb_blocks (sd_hops s)) f = Some b /\ NoDup b.

  Lemma reg_id_lt : forall (r : list (name * mat CX)) n id, reg_id r n = Ok id -> id < length r.
  Proof. intros r n id H. destruct (reg_id_some r n id H) as (x & E & _). apply nth_error_Some. congruence. Qed.

  Lemma gen_step : forall g s, gen_fits reg hreg n0 cap s g -> kept_up s ->
    exists s', apply_system reg hreg s g = Ok s' /\ kept_up s' /\ length (sd_pos s) <= length (sd_pos s').
  Proof.
    intros g s G (W & HE & HC & HV & HB). destruct g as [f k|f|n e make|n e make]; try contradiction G; cbn [gen_fits] in G.
    - destruct G as (ps & id & HM & HI & HEE & H0 & Hsq & Hge & Her).
      pose proof (grow_wf CX P reg hreg s W n e ps id HI HEE H0 Hsq Hge) as W'.
      exists (grown CX P s e ps id). split; [apply (grow_run CX P reg hreg s HV n e make ps id); auto|].
      split; [|cbn [grown sd_pos]; rewrite app_length; lia].
      split; [exact W'|]. split; [|split; [|split; [exact HV|]]].
      + intros b Hb. assert (W3 := proj1 (proj2 (proj2 W')) b Hb). cbv zeta. destruct W3 as (_ & _ & M1 & M2). split; [exact M1|]. split; [exact M2|].
        assert (D : e_id b = id \/ exists b', In b' (sd_subs s) /\ e_id b' = e_id b).
        { cbn [hsys_of hs_subs grown sd_subs] in Hb. destruct (rle_add_split (sd_subs s) id (m_rows e) (length ps)) as [(d0 & y & E1 & E2 & E3)|(E3 & _)]; rewrite E3 in Hb; apply in_app_iff in Hb; destruct Hb as [Hb|[<-|[]]].
          - right. exists b. rewrite E1. split; [apply in_app_iff; auto|reflexivity].
          - left. exact E2.
          - right. exists b. auto.
          - left. reflexivity. }
        cbn [hsys_of hs_site] in *. destruct D as [D|(b' & I' & D)].
        * rewrite D, HEE in *. intros i j Hi Hj. cbn [nt_cast nt_conj complex_type]. apply Her; lia.
        * destruct (HE b' I') as (N1 & _ & N2). cbn [hsys_of hs_site] in N1, N2. rewrite D in N1, N2. intros i j Hi Hj. apply N2; lia.
      + intros h [->|Hb] f c Hc; [apply (HC (sd_hops s) (or_introl eq_refl) f c Hc)|apply (HC h (or_intror Hb) f c Hc)].
      + exact HB.
    - destruct G as (rows & cols & f & HM & HI & Hn0 & HEE & HL & HS & HR).
      destruct (HB f Hn0 (reg_id_lt hreg n f HI)) as (b0 & HF & HN).
      assert (LS : length (sd_pos s) = rle_size (sd_subs s)) by apply W.
      destruct (bond_run CX P reg hreg s HV n e make rows cols f b0 HM HI HL HF HN) as (h' & news & E1 & E2 & E3 & E4 & E5 & E6 & E7 & E8 & E9 & E10).
      assert (HR' : forall c, GenProofs.wanted rows cols c -> snd c < rle_size (sd_subs s) /\ m_rows e = norb_at (sd_subs s) (fst c) /\ m_cols e = norb_at (sd_subs s) (snd c)).
      { intros [x y] [Hxy Hc]. rewrite <- LS. apply HR; assumption. }
      pose proof (bond_wf CX P reg hreg s W e rows cols f b0 HEE HL HR' h' news E3 E6 E7) as W'.
      eexists. split; [exact E2|]. split; [|cbn [sd_pos]; lia].
      split; [exact W'|]. split; [exact HE|]. split; [|split; [reflexivity|]].
      + intros h [->|Hb] g c Hc; [|eapply HC; [right; exact Hb|exact Hc]].
        cbn [hsys_of hs_hops hs_hop sd_hops] in *. eapply Permutation_in in Hc; [|exact E7]. apply in_app_iff in Hc. destruct Hc as [Hc|Hc].
        * apply (HC (sd_hops s) (or_introl eq_refl) g c Hc).
        * apply in_map_iff in Hc. destruct Hc as (c' & Q & _). injection Q as <- <-. rewrite HEE. exact HS.
      + intros g Hg1 Hg2. cbn [sd_hops]. destruct (Nat.eq_dec g f) as [->|D].
        * destruct (nth_error (hb_blocks h') f) as [b|] eqn:Q; [|congruence]. exists b. split; [reflexivity|]. apply E9, eq_refl.
        * rewrite (E10 g D). apply HB; assumption.
  Qed.
  Lemma gens_run : forall gms s, all_fit reg hreg n0 cap gms s -> kept_up s ->
    exists s', ofold (apply_system reg hreg) gms s = Ok s' /\ kept_up s' /\ length (sd_pos s) <= length (sd_pos s').
  Proof.
    intros gms s F. induction F as [s|g r s G F IH]; intros K; [exists s; split; [reflexivity|]; split; [exact K|lia]|].
    destruct (gen_step g s G K) as (s1 & E1 & K1 & L1). destruct (IH s1 E1 K1) as (s2 & E2 & K2 & L2).
    exists s2. cbn [ofold]. rewrite E1. cbn [obind]. split; [exact E2|]. split; [exact K2|lia].
  Qed.
End Gens.

Theorem C98_ldos_generated :
  forall (P : Type) offset_ok order (cs : list (lcall CX P)) subs fams uc reg hreg size lower s fpos dflt padd shift inside cap fms rs gms om og hm hg,
  let l := calls offset_ok order cs in
  let sites := map entry_of reg ++ site_families (fms ++ gms) in
  let hops := map entry_of hreg ++ hop_families (fms ++ gms) in
  Permutation subs (l_subs l) -> Permutation fams (l_fams l) -> unit_cell subs fams = Ok uc ->
  site_registry subs = Ok reg -> hopping_registry fams = Ok hreg ->
  (forall x o, In x (l_subs l) -> In o (l_subs l) -> sb_uid o = sb_alias x -> primary o) ->
  positive_block size -> block_holds_period size s ->
  length fpos = num_block_sites size (length uc) -> length inside = num_block_sites size (length uc) ->
  fits_buffer CX (l_fams l) cap -> Forall2 mod_is fms rs -> Forall only_removes rs -> (forall g t, gms = g :: t -> requires_system g = true) ->
  Forall2 os_follows om og -> Forall rule_hermitian og -> Forall2 hop_follows hm hg ->
  exists start, sd_valid start = [] /\
    (** without the generators the model has the same sites and matrix elements *)
    (0 < length (sd_pos start) -> exists plain,
       make_system dflt padd size lower uc subs (length (l_fams l)) s shift (map entry_of reg) (map entry_of hreg) fms [] fpos inside = Ok (plain, []) /\
       sd_pos start = sd_pos plain /\ sd_subs start = sd_subs plain /\
       forall og hg unshift phase a i b j, a < rle_size (sd_subs plain) ->
         element complex_type (hsys_of sites hops start) og hg unshift phase a i b j
         = element complex_type (hsys_of (map entry_of reg) (map entry_of hreg) plain) og hg unshift phase a i b j) /\
    (0 < length (sd_pos start) -> all_fit sites hops (length (l_fams l)) cap gms start ->
     exists sys, ofold (apply_system sites hops) gms start = Ok sys /\
       make_system dflt padd size lower uc subs (length (l_fams l)) s shift sites hops (fms ++ gms) [] fpos inside = Ok (sys, []) /\
       forall unshift phase, exists m, ham_make cap complex_type (hsys_of sites hops sys) om hm unshift phase false = Ok m /\
         has_elements (hsys_of sites hops sys) og hg unshift phase (coef (compress (hamiltonian_size (sd_subs sys)) m)) /\
         ldos_of_elements (hsys_of sites hops sys) og hg unshift phase (compress (hamiltonian_size (sd_subs sys)) m)).
Proof.
  intros P oo order cs subs fams uc reg hreg size lower s fpos dflt padd shift inside cap fms rs gms om og hm hg l sites hops H1 H2 H3 H4 H5 H6 H7 H8 H9 H10 HB HM HO HG FO RH FH.
  destruct (make_base CX P oo order cs subs fams H1 H2 uc H3 reg hreg H5 size lower H7 s H8 fpos dflt padd H9 shift inside H10 fms rs HM)
    as (v0 & pos & v & L0 & F0 & RE & LP & LV & IN & _ & K).
  assert (INv : forall i a, cell_of size i -> a < length uc -> flagged size v (i, a) = true -> in_period size s i) by (intros i a Ci La Fl; apply (IN HO i a); auto).
  destruct (K [] v eq_refl LV INv) as (base & fi & EB & MP & RS & RHop & LB & EF & EM).
  destruct (system_ok CX P oo order cs subs fams H1 H2 uc H3 reg hreg H4 H5 H6 size H7 s H8 v LV INv pos dflt LP shift) as (base' & EB2 & WF & SB & _ & HF).
  assert (base' = base) by congruence. subst base'.
  destruct (api_hamiltonian CX P oo order cs subs fams uc reg hreg size s v pos dflt shift H1 H2 H3 H4 H5 H6 H7 H8 LV INv LP) as (base' & EB3 & _ & HE & _).
  assert (base' = base) by congruence. subst base'. specialize (HE complex_type ltac:(reflexivity)).
  assert (CB : cap_fits CX P base cap) by (intros h Hh f c Hin'; destruct (HF f c h Hh Hin') as (fam & F1 & F2 & ->); apply HB; exact F1).
  fold l in LB, EM.
  set (start := start_of CX P (length (hop_families (fms ++ gms))) base).
  exists start. split; [reflexivity|].
  assert (ES : sites = hs_site base ++ site_families (fms ++ gms)) by (unfold sites; rewrite RS; reflexivity).
  assert (EH : hops = hs_hop base ++ hop_families (fms ++ gms)) by (unfold hops; rewrite RHop; reflexivity).
  split.
  - intros LPOS. exists (start_of CX P 0 base). split; [|split; [reflexivity|split; [reflexivity|]]].
    + pose proof (EM fms [] [] [] (split_none CX P fms rs HM)) as EM0. rewrite !app_nil_r in EM0. rewrite EM0. cbn [osequence obind ofold remove_invalid start_of sd_valid sd_pos length].
      change (sd_pos start) with (hs_pos base) in LPOS. destruct (Nat.eqb_spec (length (hs_pos base)) 0) as [Q|Q]; [lia|reflexivity].
    + intros og' hg' un ph a i b j Ha. rewrite ES, EH. unfold start. rewrite (extend_element CX P base WF) by exact Ha.
      pose proof (extend_element CX P base WF [] [] complex_type og' hg' un ph a i b j Ha) as X. rewrite !app_nil_r in X. rewrite RS, RHop in X. symmetry. exact X.
  - intros LPOS AF.
    assert (KU : kept_up P sites hops (length (l_fams l)) cap start).
    { rewrite ES, EH. split; [apply extend_wf; exact WF|]. split; [|split; [apply extend_cap; assumption|split; [reflexivity|]]].
      - intros e He. pose proof (HE e He) as Q. cbv zeta in Q |- *. cbn [hsys_of hs_site]. rewrite entry_app; [exact Q|]. destruct WF as (_ & _ & W3 & _). apply (W3 e He).
      - intros f Hf1 Hf2. exists []. split; [|constructor]. unfold start. cbn [start_of sd_hops widen hb_blocks]. rewrite nth_error_app2 by lia.
        rewrite app_length, RHop, map_length in Hf2. assert (LH : length hreg = length (l_fams l)) by (unfold l; rewrite (hreg_eq CX P oo order cs fams H2 hreg H5); apply map_length).
        rewrite (nth_error_nth' _ []) by (rewrite repeat_length; lia). f_equal. apply nth_repeat. }
    destruct (gens_run P sites hops (length (l_fams l)) cap gms start AF KU) as (sys & E & (W & HEs & HC & HV & _) & LE).
    exists sys. split; [exact E|]. split.
    + unfold sites, hops. rewrite (EM (fms ++ gms) gms _ _ (split_at CX P fms rs gms HM HG)). cbn [osequence obind]. fold sites hops start.
      rewrite E. cbn [obind]. unfold remove_invalid. rewrite HV. cbn [obind]. destruct (Nat.eqb_spec (length (sd_pos sys)) 0) as [Q|Q]; [lia|reflexivity].
    + intros un ph. apply (C98_ldos_system P (hsys_of sites hops sys) om og hm hg un ph false cap W HEs HC ltac:(discriminate)); auto. cbn [hsys_of hs_pos]. lia.
Qed.
Print Assumptions C98_ldos_generated.

(** A site of the lattice, a generated site next to it, and a generated bond between the two fit, and the
    conditions on the system hold: its density of states is that of the dimer. *)
Definition one_by_one : mat CX := Mat 1 1 (fun _ _ => k1).
Definition lone : sysdata Z Z := SysData [0%Z] [Elem 0 1 1] (HB 1 [[]; []]) [] [].
Definition lone_sites := [(Nm 1, one_by_one); (Nm 3, one_by_one)].
Definition lone_hops := [(Nm 2, one_by_one); (Nm 8, one_by_one)].
Definition dimer_gens : list (smod CX Z) := [SiteGen (Nm 3) one_by_one (fun _ => Ok [9%Z]); HopGen (Nm 8) one_by_one (fun _ => Ok ([1], [0]))].
Example C98_generated_example :
  all_fit lone_sites lone_hops 1 10 dimer_gens lone /\ kept_up Z lone_sites lone_hops 1 10 lone /\
  omap (fun s => (sd_pos s, sd_subs s, hb_blocks (sd_hops s))) (ofold (apply_system lone_sites lone_hops) dimer_gens lone)
  = Ok ([0; 9]%Z, [Elem 0 1 1; Elem 1 1 1], [[]; [(0, 1)]]).
Proof.
  split; [|split; [|reflexivity]].
  - apply fit_next.
    + exists [9%Z], 1. repeat split; cbn [m_rows m_cols one_by_one]; try lia; [intros b [<-|[]]; cbn; lia|]. intros. symmetry. apply injective_projections; cbn; ring.
    + intros s' E. cbn in E. injection E as <-. apply fit_next; [|intros s' _; apply fit_none].
      exists [1], [0], 1. cbn [m_rows m_cols one_by_one]. repeat split; try (cbn; lia);
        (destruct H0 as [[Q|[]]|[Q|[]]]; injection Q as <- <-; cbn; lia).
  - split; [|split; [|split; [|split; [reflexivity|]]]].
    + split; [reflexivity|]. split; [reflexivity|]. split; [intros e [<-|[]]; cbn; lia|]. split; [|intros b []]. split; [cbn; lia|]. intros f c [].
    + intros e [<-|[]]. cbn [lone_sites one_by_one hsys_of hs_site reg_entry nth e_id snd m_rows m_cols e_norb]. split; [reflexivity|]. split; [reflexivity|]. intros. symmetry. apply injective_projections; cbn; ring.
    + intros h [->|[]] f c [].
    + intros f Hf1 Hf2. cbn in Hf2. assert (f = 1) by lia. subst f. exists []. split; [reflexivity|constructor].
Qed.
