(* Property theorems C33, C44-C47: structure modifiers, generators, lead contacts and queries of the
   built model.  Model: SystemMods.v (with Lattice.v, Foundation.v, Symmetry.v, Leads.v,
   Hamiltonian.v); specification: ModsSpec.v, BulkSpec.v, HamiltonianSpec.v; proofs: ModsProofs.v,
   ModsSystem.v, WidenProofs.v, GenProofs.v, MakeProofs.v, ExtendProofs.v, SystemProofs.v, SystemInv.v. *)
From Verif Require Import Base Rle RleProofs Blocks TablesSpec Scalar Foundation FoundationSpec FoundationFacts PopulateFacts Lattice LatticeSpec LatticeProofs
  PropsLattice Symmetry SymmetrySpec Hamiltonian HamiltonianSpec HamFacts HamCor SystemBuild HamApi PropsHamiltonian BulkSpec BlochProofs
  Leads LeadsSpec LeadStruct LeadMany LeadCor SystemMods ModsSpec ModsProofs ModsSystem WidenProofs GenProofs MakeProofs ExtendProofs SystemProofs SystemInv.
From Coq Require Import QArith Permutation.
Local Open Scope nat_scope.

(** Whole build of a lattice given by API calls, for the examples: the registries hold the families
    of the lattice and of the generators, as Model.cpp:75-85 registers them. *)
Definition lattice_of (cs : list (lcall GI Z)) := calls (fun _ : Z => true) (fun x => x) cs.
Definition sites_of (cs : list (lcall GI Z)) (mods : list (smod GI Z)) : list (name * mat GI) :=
  match site_registry (l_subs (lattice_of cs)) with Ok r => map entry_of r ++ site_families mods | _ => [] end.
Definition hops_of (cs : list (lcall GI Z)) (mods : list (smod GI Z)) : list (name * mat GI) :=
  match hopping_registry (l_fams (lattice_of cs)) with Ok r => map entry_of r ++ hop_families mods | _ => [] end.
Definition cell_of_calls (cs : list (lcall GI Z)) : list (usite Z) :=
  match unit_cell (l_subs (lattice_of cs)) (l_fams (lattice_of cs)) with Ok u => u | _ => [] end.
Definition open_ends : sym := Sym None None None.
Definition built (cs : list (lcall GI Z)) size mods leads fpos :=
  make_system 0%Z Z.add size zero3 (cell_of_calls cs) (l_subs (lattice_of cs)) (length (l_fams (lattice_of cs))) open_ends ix
    (sites_of cs mods) (hops_of cs mods) mods leads fpos (repeat true (length fpos)).

(** Modifiers for the examples: remove a sublattice, remove the site at a position, a generator
    that adds no hopping, one site at a position, one bond. *)
Definition drop (x : nat) : smod GI Z := SiteState (fun v _ nm => Ok (map (fun b => b && negb (name_eqb nm (Nm x))) v)) 0.
Definition drop_at (z : Z) : smod GI Z := SiteState (fun v ps _ => Ok (map (fun pb => snd pb && negb (Z.eqb (fst pb) z)) (combine ps v))) 0.
Definition add_nothing : smod GI Z := HopGen (Nm 8) (energy1 (0, 1)%Z) (fun _ => Ok ([], [])).
Definition add_site (x : nat) (e : Z * Z) (z : Z) : smod GI Z := SiteGen (Nm x) (energy1 e) (fun _ => Ok [z]).
Definition add_bond (r c : nat) : smod GI Z := HopGen (Nm 8) (energy1 (0, 1)%Z) (fun _ => Ok ([r], [c])).

Definition two_subs : list (lcall GI Z) :=
  [AddSublattice (Nm 1) 0%Z (energy1 (1, 0)%Z); AddSublattice (Nm 2) 5%Z (energy1 (1, 0)%Z);
   AddHoppingEnergy (I3 0 0 0) (Nm 1) (Nm 2) (energy1 (2, 0)%Z)].
Definition with_alias : list (lcall GI Z) :=
  [AddSublattice (Nm 1) 0%Z (energy1 (1, 0)%Z); AddAlias (Nm 2) (Nm 1) 5%Z;
   AddHoppingEnergy (I3 0 0 0) (Nm 1) (Nm 2) (energy1 (2, 0)%Z)].
Definition plain_chain : list (lcall GI Z) :=
  [AddSublattice (Nm 1) 0%Z (energy1 (1, 0)%Z); AddHoppingEnergy (I3 1 0 0) (Nm 1) (Nm 1) (energy1 (2, 0)%Z)].
Definition mixed_orbitals : list (lcall GI Z) :=
  [AddSublattice (Nm 1) 0%Z (energy1 (1, 0)%Z); AddSublattice (Nm 2) 5%Z (gmat 2 2 (fun i j => if i =? j then (4, 0)%Z else (0, 0)%Z))].

(* ------------------------------------------------------------------ C33 *)
(** Full claim: on every built model, the query for the site of a sublattice nearest to a point
    returns a site of that sublattice, or throws. *)
Definition C33_claim : Prop :=
  forall (R : scalar) (P : Type) dflt padd size lower uc subs nfam s shift reg hreg mods leads fpos inside sys lts,
  make_system dflt padd size lower uc subs nfam s shift reg hreg mods leads fpos inside = Ok (sys : sysdata P P, lts) ->
  forall dist n, n <> Blank ->
    match find_nearest (R := R) dist reg sys n with
    | Ok i => i < length (sd_pos sys) /\ site_name reg (sd_subs sys) i = n
    | Throw => True
    | UB => False
    end.

(** False: when a state modifier placed after a generator removes all sites of a sublattice, the
    empty block stays in the table.  The query then answers with a site of the next sublattice, or
    reads outside the positions when the block is the last one. *)
Example C33_emptied_last :
  omap (fun r => (sd_pos (fst r), find_nearest (fun z => inject_Z z) (sites_of two_subs []) (fst r) (Nm 2)))
    (built two_subs (I3 2 1 1) [add_nothing; drop 2] [] [0; 1; 5; 6]%Z) = Ok ([0; 1]%Z, UB).
Proof. vm_compute. reflexivity. Qed.
Theorem C33_emptied_refuted : ~ C33_claim.
Proof.
  intros H.
  destruct (built two_subs (I3 2 1 1) [add_nothing; drop 1] [] [0; 1; 5; 6]%Z) as [[sys lts]| |] eqn:E;
    [|vm_compute in E; discriminate|vm_compute in E; discriminate].
  pose proof (H GI Z _ _ _ _ _ _ _ _ _ _ _ _ _ _ _ sys lts E (fun z => inject_Z z) (Nm 1) ltac:(discriminate)) as X.
  vm_compute in E. injection E as <- <-. vm_compute in X. destruct X as [_ X]. discriminate.
Qed.
Print Assumptions C33_emptied_refuted.

(** What holds, for every model made with the API, any modifiers, generators and leads: when a site
    of the sublattice exists, the answer is such a site, no other one is nearer, and on ties it is
    the one with the smallest number; unknown names throw.  An empty name asks among all sites. *)
Theorem C33_nearest_partial :
  forall (R : scalar) (P : Type) offset_ok order (cs : list (lcall R P)) subs fams uc reg hreg size lower s fpos dflt padd shift inside mods leads sys lts,
  let l := calls offset_ok order cs in
  let sites := map entry_of reg ++ site_families mods in
  Permutation subs (l_subs l) -> Permutation fams (l_fams l) -> unit_cell subs fams = Ok uc ->
  site_registry subs = Ok reg -> hopping_registry fams = Ok hreg ->
  (forall x o, In x (l_subs l) -> In o (l_subs l) -> sb_uid o = sb_alias x -> primary o) ->
  positive_block size -> block_holds_period size s ->
  length fpos = num_block_sites size (length uc) -> length inside = num_block_sites size (length uc) ->
  NoDup (map fst sites) ->
  make_system dflt padd size lower uc subs (length (l_fams l)) s shift sites (map entry_of hreg ++ hop_families mods) mods leads fpos inside
    = Ok (sys, lts) ->
  forall dist n,
    let mine k := k < length (sd_pos sys) /\
      (n = Blank \/ exists id, nth_error (map fst sites) id = Some n /\ fst (nth k (site_list (sd_subs sys)) (0, 0)) = id) in
    ((exists k, mine k) -> exists i p, find_nearest dist sites sys n = Ok i /\ mine i /\ nth_error (sd_pos sys) i = Some p /\
       forall j q, mine j -> nth_error (sd_pos sys) j = Some q -> (dist p <= dist q)%Q /\ (j < i -> ~ (dist q <= dist p)%Q)) /\
    (n <> Blank -> ~ In n (map fst sites) -> find_nearest dist sites sys n = Throw).
Proof.
  intros R P oo order cs subs fams uc reg hreg size lower s fpos dflt padd shift inside mods leads sys lts l sites H1 H2 H3 H4 H5 H6 H7 H8 H9 H10 H11 E dist n mine.
  destruct (built_ok R P oo order cs subs fams H1 H2 uc H3 reg hreg H4 H5 H6 size lower H7 s H8 fpos dflt padd H9 shift inside H10 mods H11 leads sys lts E) as (SO & _ & _).
  assert (EQ : forall k, mine k <-> k < length (sd_pos sys) /\ (n = Blank \/ exists id, reg_id sites n = Ok id /\ fst (nth k (site_list (sd_subs sys)) (0, 0)) = id)).
  { intros k. unfold mine. split; intros [A [B|(id & B & C)]]; split; auto; right; exists id; split; auto.
    - assert (IN : In n (map fst sites)) by (eapply nth_error_In; eauto). destruct (reg_id_in sites n IN) as (id' & EI).
      destruct (reg_id_some sites n id' EI) as (e & X & _). rewrite EI. f_equal.
      apply (proj1 (NoDup_nth_error (map fst sites)) H11); [apply nth_error_Some; rewrite nth_error_map, X; discriminate|].
      rewrite B, nth_error_map, X. reflexivity.
    - destruct (reg_id_some sites n id B) as (e & X & _). rewrite nth_error_map, X. reflexivity. }
  split; [|intros; apply nearest_unknown; auto].
  intros (k & Hk). destruct (nearest_ok R P sites sys (so_size _ _ SO) dist n (so_nodup _ _ SO)) as (i & p & F1 & F2 & F3 & F4); [exists k; apply EQ; auto|].
  exists i, p. split; auto. split; [apply EQ; exact F2|]. split; auto. intros j q Hj Eq. apply F4; auto. apply EQ; auto.
Qed.
Print Assumptions C33_nearest_partial.
Example C33_example :
  omap (fun r => map (find_nearest (fun z => inject_Z (Z.abs (z - 3))) (sites_of two_subs [add_site 3 (7, 0)%Z 4%Z]) (fst r)) [Blank; Nm 1; Nm 2; Nm 3; Nm 9])
    (built two_subs (I3 3 1 1) [add_site 3 (7, 0)%Z 4%Z] [] [1; 2; 2; 5; 1; 5]%Z) = Ok [Ok 1; Ok 1; Ok 3; Ok 6; Throw].
Proof. vm_compute. reflexivity. Qed.

(* ------------------------------------------------------------------ C44 *)
(** Full claim: modifiers see every site under the name of its own sublattice, so a modifier that
    looks only at single sites gives the same sites before and after a generator that adds nothing. *)
Definition C44_claim : Prop :=
  forall (R : scalar) (P : Type) dflt padd size lower uc subs nfam s shift reg hreg fpos inside (m : smod R P) g n e,
  mod_is m (Keep g 0) -> only_removes (Keep g 0) ->
  let idle := HopGen n e (fun _ => Ok ([], [])) in
  match make_system dflt padd size lower uc subs nfam s shift reg hreg [m; idle] [] fpos inside,
        make_system dflt padd size lower uc subs nfam s shift reg hreg [idle; m] [] fpos inside with
  | Ok (s1, _), Ok (s2, _) => sd_pos s1 = sd_pos s2
  | _, _ => True
  end.

Lemma drop_is : forall x, mod_is (drop x) (Keep (fun nm _ b => b && negb (name_eqb nm (Nm x))) 0).
Proof.
  intros x. split; [reflexivity|]. intros v ps nm H. f_equal.
  revert ps H. induction v as [|b v IH]; intros [|p ps] H; cbn in *; try discriminate; auto. f_equal. apply IH. lia.
Qed.
(** False: before the first generator an alias sublattice has its own name, afterwards the name of
    the sublattice it is an alias of.  Removing sublattice 2 works only before the generator. *)
Theorem C44_alias_refuted : ~ C44_claim.
Proof.
  intros H.
  pose proof (H GI Z 0%Z Z.add (I3 2 1 1) zero3 (cell_of_calls with_alias) (l_subs (lattice_of with_alias)) (length (l_fams (lattice_of with_alias)))
    open_ends ix (sites_of with_alias []) (hops_of with_alias [add_nothing]) [0; 1; 5; 6]%Z (repeat true 4) (drop 2) _ (Nm 8) (energy1 (0, 1)%Z)
    (drop_is 2) ltac:(intros nm p; reflexivity)) as X.
  vm_compute in X. discriminate.
Qed.
Print Assumptions C44_alias_refuted.

(** On the foundation (no generator before): any list of modifiers runs without error, and each one
    treats every site of the block by its rule, under the name of the site's own sublattice;
    [min_neighbors] then trims the sites. *)
Theorem C44_foundation_partial :
  forall (R : scalar) (P : Type) offset_ok order (cs : list (lcall R P)) subs fams uc size ms rs pos v,
  let l := calls offset_ok order cs in
  Permutation subs (l_subs l) -> Permutation fams (l_fams l) -> unit_cell subs fams = Ok uc -> positive_block size ->
  Forall2 mod_is ms rs -> length pos = num_block_sites size (length uc) -> length v = num_block_sites size (length uc) ->
  exists pos' v', ofold (apply_foundation size uc subs) ms (pos, v) = Ok (pos', v') /\ rules_effect size uc (l_subs l) rs pos v pos' v'.
Proof.
  intros R P oo order cs subs fams uc size ms rs pos v l H1 H2 H3 H4 H5 H6 H7.
  destruct (apply_rules R P oo order cs subs fams H1 H2 uc H3 size H4 ms rs pos v H5 H6 H7) as (pos' & v' & E & _ & _ & RE). eauto.
Qed.
Print Assumptions C44_foundation_partial.

(** On a built system (after a generator): states and positions are changed site by site, under the
    name that the registry has for the site's family; a positive [min_neighbors] always throws. *)
Theorem C44_system_partial :
  forall (R : scalar) (P : Type) (reg hreg : list (name * mat R)) (s : sysdata P P),
  rle_size (sd_subs s) = length (sd_pos s) -> (forall e, In e (sd_subs s) -> e_id e < length reg) ->
  sd_valid s = [] \/ length (sd_valid s) = length (sd_pos s) ->
  (forall f k g, state_follows f g ->
     if (0 <? k)%Z then apply_system reg hreg s (SiteState f k) = Throw
     else exists v, apply_system reg hreg s (SiteState f k) = Ok (with_valid s v) /\ length v = length (sd_pos s) /\
       forall n p, nth_error (sd_pos s) n = Some p ->
         nth n v false = g (site_name reg (sd_subs s) n) p (match sd_valid s with [] => true | w => nth n w false end)) /\
  (forall f g, pos_follows f g -> exists ps, apply_system reg hreg s (PositionMod f) = Ok (with_pos s ps) /\ length ps = length (sd_pos s) /\
     forall n p, nth_error (sd_pos s) n = Some p -> nth_error ps n = Some (g (site_name reg (sd_subs s) n) p)).
Proof.
  intros R P reg hreg s H1 H2 H3. split.
  - intros f k g HF. destruct (Z.ltb_spec 0 k) as [HK|HK].
    + destruct (system_states R P reg hreg s H1 H2 f 0%Z g HF ltac:(lia) H3) as (v & E & _). cbn [apply_system] in *.
      apply obind_ok in E. destruct E as (w & -> & _). cbn [obind]. destruct (Z.ltb_spec 0 k); [reflexivity|lia].
    + destruct (system_states R P reg hreg s H1 H2 f k g HF HK H3) as (v & E & L & A). exists v. auto.
  - intros f g HF. exact (system_positions R P reg hreg s H1 H2 f g HF).
Qed.
Print Assumptions C44_system_partial.

(** The name of a site in the built system is that of the sublattice its alias id refers to; for
    sublattices that are no alias, its own. *)
Theorem C44_names :
  forall (R : scalar) (P : Type) offset_ok order (cs : list (lcall R P)) subs fams uc reg hreg size s v pos dflt shift base er,
  let l := calls offset_ok order cs in
  Permutation subs (l_subs l) -> Permutation fams (l_fams l) -> unit_cell subs fams = Ok uc ->
  site_registry subs = Ok reg -> hopping_registry fams = Ok hreg ->
  (forall x o, In x (l_subs l) -> In o (l_subs l) -> sb_uid o = sb_alias x -> primary o) ->
  positive_block size -> length v = num_block_sites size (length uc) -> length pos = num_block_sites size (length uc) ->
  build_system dflt size uc s shift reg hreg pos v = Ok base ->
  forall i a sb, cell_of size i -> a < length uc -> flagged size v (i, a) = true -> In sb (l_subs l) -> uid_at uc a = Some (sb_uid sb) ->
    exists o, In o (l_subs l) /\ sb_uid o = sb_alias sb /\
      site_name (map entry_of reg ++ er) (hs_subs base) (number v (place size i a)) = sb_name o.
Proof.
  intros R P oo order cs subs fams uc reg hreg size s v pos dflt shift base er l H1 H2 H3 H4 H5 H6 H7 H8 H9 EB.
  exact (built_names R P oo order cs subs fams H1 H2 uc H3 reg hreg H4 H5 H6 size H7 s v H8 pos H9 dflt shift base er EB).
Qed.
Print Assumptions C44_names.
Example C44_example :
  omap (fun r => sd_pos (fst r)) (built with_alias (I3 2 1 1) [drop 2; add_nothing] [] [0; 1; 5; 6]%Z) = Ok [0; 1]%Z /\
  omap (fun r => sd_pos (fst r)) (built with_alias (I3 2 1 1) [add_nothing; drop 2] [] [0; 1; 5; 6]%Z) = Ok [0; 1; 5; 6]%Z /\
  omap (fun r => sd_pos (fst r)) (built two_subs (I3 2 1 1) [add_nothing; drop 2] [] [0; 1; 5; 6]%Z) = Ok [0; 1]%Z.
Proof. vm_compute. repeat split. Qed.

(* ------------------------------------------------------------------ C45 *)
(** The whole build of a model without generators and leads: the shape's sites inside one period,
    changed by the modifiers in order, become the sites of the system; the build throws exactly
    when none is left; and the Hamiltonian is the Bloch sum over the lattice on those sites. *)
Theorem C45_build :
  forall (R : scalar) (P : Type) offset_ok order (cs : list (lcall R P)) subs fams uc reg hreg size lower s fpos dflt padd shift inside nt cap mods rs,
  let l := calls offset_ok order cs in
  Permutation subs (l_subs l) -> Permutation fams (l_fams l) -> unit_cell subs fams = Ok uc ->
  site_registry subs = Ok reg -> hopping_registry fams = Ok hreg ->
  (forall x o, In x (l_subs l) -> In o (l_subs l) -> sb_uid o = sb_alias x -> primary o) ->
  positive_block size -> block_holds_period size s ->
  length fpos = num_block_sites size (length uc) -> length inside = num_block_sites size (length uc) ->
  (forall fam t, In fam (l_fams l) -> In t (fm_terms fam) -> short_range s (t_rel t)) ->
  nt_ok nt -> fits_buffer R (l_fams l) cap ->
  Forall2 mod_is mods rs -> Forall only_removes rs ->
  exists v0 pos v,
    (forall i a, cell_of size i -> a < length uc -> (flagged size v0 (i, a) = true <-> flagged size inside (i, a) = true /\ in_period size s i)) /\
    rules_effect size uc (l_subs l) rs fpos v0 pos v /\
    match make_system dflt padd size lower uc subs (length (l_fams l)) s shift (map entry_of reg) (map entry_of hreg) mods [] fpos inside with
    | Ok (sys, lts) => lts = [] /\ sd_valid sys = [] /\
        (forall n, n < length (sd_pos sys) <-> exists x, site_at size uc v n x) /\ 0 < length (sd_pos sys) /\
        (forall i a, cell_of size i -> a < length uc -> flagged size v (i, a) = true ->
           nth_error (sd_pos sys) (number v (place size i a)) = nth_error pos (place size i a)) /\
        forall unshift phase simple, exists m, ham_make cap nt (hsys_of (map entry_of reg) (map entry_of hreg) sys) [] [] unshift phase simple = Ok m /\
          forall n k x y sx sy, site_at size uc v n x -> site_at size uc v k y ->
          In sx (l_subs l) -> sb_uid sx = snd x -> In sy (l_subs l) -> sb_uid sy = snd y ->
          forall Ts p q, translations_of s (l_fams l) x y Ts -> p < m_rows (sb_energy sx) -> q < m_rows (sb_energy sy) ->
            coeff m (row_of (sd_subs sys) n p) (row_of (sd_subs sys) k q)
            = kadd (kadd (if n =? k then nt_cast nt (m_at (sb_energy sx) p q) else k0) (bulk nt (l_fams l) x p y q))
                (ksum (fun T => kadd
                    (kmul (hops_to nt (l_fams l) (shifted_cell (fst x) T, snd x) p y q) (nt_cast nt (phase (shift T))))
                    (nt_conj nt (kmul (hops_to nt (l_fams l) (shifted_cell (fst y) T, snd y) q x p) (nt_cast nt (phase (shift T)))))) Ts)
    | Throw => forall i a, cell_of size i -> a < length uc -> flagged size v (i, a) = false
    | UB => False
    end.
Proof.
  intros R P oo order cs subs fams uc reg hreg size lower s fpos dflt padd shift inside nt cap mods rs l H1 H2 H3 H4 H5 H6 H7 H8 H9 H10 H11 H12 H13 HM HO.
  destruct (make_plain R P oo order cs subs fams H1 H2 uc H3 reg hreg H5 size lower H7 s H8 fpos dflt padd H9 shift inside H10 mods rs HM HO)
    as (v0 & pos & v & base & L0 & F0 & RE & LP & LV & IN & EB & MK).
  exists v0, pos, v. split; [exact F0|]. split; [exact RE|]. destruct (make_system _ _ _ _ _ _ _ _ _ _ _ _ _ _ _) as [[sys lts]| |]; [|exact MK|exact MK].
  destruct MK as (E1 & E2 & E3 & i0 & a0 & C0 & A0 & Fl0). split; [exact E2|]. split; [exact E3|].
  destruct (bloch R P oo order cs subs fams H1 H2 uc H3 reg hreg H4 H5 H6 size H7 s H8 v LV IN pos dflt LP shift H11 nt H12 cap H13)
    as (base' & EB' & N1 & _ & _ & HAM).
  assert (base' = base) by congruence. subst base'.
  destruct (api_hamiltonian R P oo order cs subs fams uc reg hreg size s v pos dflt shift H1 H2 H3 H4 H5 H6 H7 H8 LV IN LP) as (base' & EB2 & WF & _).
  assert (base' = base) by congruence. subst base'.
  assert (PB : sd_pos sys = hs_pos base) by (rewrite <- E1; reflexivity). assert (SB : sd_subs sys = hs_subs base) by (rewrite <- E1; reflexivity).
  assert (LS : length (sd_pos sys) = rle_size (hs_subs base)) by (rewrite PB; apply WF).
  split; [intros n; rewrite LS; apply N1|].
  assert (PM : forall i a, cell_of size i -> a < length uc -> flagged size v (i, a) = true ->
      nth_error (sd_pos sys) (number v (place size i a)) = nth_error pos (place size i a)).
  { intros i a Ci La Fl. assert (LH : length hreg = length (l_fams l)) by (unfold l; rewrite (hreg_eq R P oo order cs fams H2 hreg H5); apply map_length).
    unfold build_system in EB. rewrite LH in EB. apply obind_ok in EB. destruct EB as ([[p d] h] & E & EB). apply obind_ok in EB. destruct EB as (bs & _ & EB).
    injection EB as EB. rewrite PB, <- EB. cbn [hs_pos fst snd].
    destruct (api_numbering R P oo order cs subs fams H1 H2 uc H3 size H7 v LV pos dflt LP _ _ _ E) as (_ & _ & _ & A4 & _).
    destruct (nth_error uc a) as [u|] eqn:U; [|apply nth_error_None in U; lia]. apply (A4 i a u Ci U Fl). }
  split; [|split; [exact PM|]].
  { specialize (PM i0 a0 C0 A0 Fl0). destruct (nth_error pos (place size i0 a0)) as [x|] eqn:EX.
    - assert (number v (place size i0 a0) < length (sd_pos sys)) by (apply nth_error_Some; congruence). lia.
    - apply nth_error_None in EX. pose proof (place_bij size (length uc) H7) as (PL & _). specialize (PL i0 a0 C0 A0). lia. }
  intros unshift phase simple. destruct (HAM unshift phase simple) as (m & Em & EL). exists m. rewrite E1, SB. auto.
Qed.
Print Assumptions C45_build.
(** A chain of four sites with onsite energy 1 and hopping 2, the third site removed. *)
Example C45_example :
  obind (built plain_chain (I3 4 1 1) [drop_at 2] [] [0; 1; 2; 3]%Z) (fun r =>
    Ok (sd_pos (fst r), dense 3 (ham_make 100 complex_type (hsys_of (sites_of plain_chain []) (hops_of plain_chain []) (fst r)) [] [] Z.sub (fun _ => (1, 0)%Z) true)))
  = Ok ([0; 1; 3]%Z, [[(1, 0); (2, 0); (0, 0)]; [(2, 0); (1, 0); (0, 0)]; [(0, 0); (0, 0); (1, 0)]]%Z).
Proof. vm_compute. reflexivity. Qed.

(* ------------------------------------------------------------------ C46 *)
(** Full claim: the Hamiltonian of every built model has the tight-binding elements, when the
    energies of the generated sites and bonds have the shapes of the sites they belong to. *)
Definition C46_claim : Prop :=
  forall (R : scalar) (P : Type) dflt padd size lower uc subs nfam s shift reg hreg mods fpos inside sys lts cap unshift phase m,
  make_system dflt padd size lower uc subs nfam s shift reg hreg mods [] fpos inside = Ok (sys : sysdata P P, lts) ->
  (forall e, In e (sd_subs sys) -> 0 < e_norb e /\ e_id e < length reg /\
     m_rows (snd (reg_entry reg (e_id e))) = e_norb e /\ m_cols (snd (reg_entry reg (e_id e))) = e_norb e) ->
  (forall f c, In (f, c) (stored (sd_hops sys)) -> fst c < rle_size (sd_subs sys) /\ snd c < rle_size (sd_subs sys) /\
     m_rows (snd (reg_entry hreg f)) = norb_at (sd_subs sys) (fst c) /\ m_cols (snd (reg_entry hreg f)) = norb_at (sd_subs sys) (snd c)) ->
  sd_bounds sys = [] ->
  ham_make cap complex_type (hsys_of reg hreg sys) [] [] unshift phase false = Ok m ->
  forall a i b j, a < rle_size (sd_subs sys) -> b < rle_size (sd_subs sys) -> i < norb_at (sd_subs sys) a -> j < norb_at (sd_subs sys) b ->
    coeff m (row_of (sd_subs sys) a i) (row_of (sd_subs sys) b j) = element complex_type (hsys_of (R := R) reg hreg sys) [] [] unshift phase a i b j.

(** False: a generated site with fewer orbitals than the sites of the lattice comes last in the
    table, which is then no longer ordered by orbital count.  Its bond to site 0 is written to
    an orbital of site 1. *)
Theorem C46_fewer_orbitals_refuted : ~ C46_claim.
Proof.
  intros H. pose (mods := [add_site 3 (7, 0)%Z 9%Z; add_bond 0 2]).
  destruct (built mixed_orbitals (I3 1 1 1) mods [] [0; 5]%Z) as [[sys lts]| |] eqn:E;
    [|vm_compute in E; discriminate|vm_compute in E; discriminate].
  pose proof (fun m => H GI Z _ _ _ _ _ _ _ _ _ _ _ _ _ _ sys lts 100 Z.sub (fun _ => (1, 0)%Z) m E) as X. clear H.
  destruct (ham_make 100 complex_type (hsys_of (sites_of mixed_orbitals mods) (hops_of mixed_orbitals mods) sys) [] [] Z.sub (fun _ => (1, 0)%Z : GI) false) as [m| |] eqn:EM.
  - specialize (X m). revert X EM. vm_compute in E. injection E as <- <-. intros X EM.
    specialize (X ltac:(intros e [<-|[<-|[<-|[]]]]; vm_compute; repeat split; lia)
      ltac:(intros f c [Q|[]]; injection Q as <- <-; vm_compute; repeat split; lia) eq_refl eq_refl 0 0 2 0
      ltac:(vm_compute; lia) ltac:(vm_compute; lia) ltac:(vm_compute; lia) ltac:(vm_compute; lia)).
    vm_compute in EM. injection EM as <-. vm_compute in X. discriminate.
  - vm_compute in E. injection E as <- <-. vm_compute in EM. discriminate.
  - vm_compute in E. injection E as <- <-. vm_compute in EM. discriminate.
Qed.
Print Assumptions C46_fewer_orbitals_refuted.

(** What holds.  Before the first generator: the model with generators runs the generators on a
    system that has the same matrix elements as the model without them. *)
Theorem C46_start_partial :
  forall (R : scalar) (P : Type) offset_ok order (cs : list (lcall R P)) subs fams uc reg hreg size lower s fpos dflt padd shift inside fms rs gms,
  let l := calls offset_ok order cs in
  let sites := map entry_of reg ++ site_families (fms ++ gms) in
  let hops := map entry_of hreg ++ hop_families (fms ++ gms) in
  Permutation subs (l_subs l) -> Permutation fams (l_fams l) -> unit_cell subs fams = Ok uc ->
  site_registry subs = Ok reg -> hopping_registry fams = Ok hreg ->
  (forall x o, In x (l_subs l) -> In o (l_subs l) -> sb_uid o = sb_alias x -> primary o) ->
  positive_block size -> block_holds_period size s ->
  length fpos = num_block_sites size (length uc) -> length inside = num_block_sites size (length uc) ->
  Forall2 mod_is fms rs -> Forall only_removes rs -> (forall g t, gms = g :: t -> requires_system g = true) ->
  exists pos v base start, build_system dflt size uc s shift reg hreg pos v = Ok base /\ wf_hsys base /\
    sd_valid start = [] /\ sd_pos start = hs_pos base /\ sd_subs start = hs_subs base /\ wf_hsys (hsys_of sites hops start) /\
    (forall f, length (l_fams l) <= f -> f < length hops -> nth_error (hb_blocks (sd_hops start)) f = Some []) /\
    (forall nt og hg unshift phase a i b j, a < rle_size (hs_subs base) ->
       element nt (hsys_of sites hops start) og hg unshift phase a i b j = element nt base og hg unshift phase a i b j) /\
    make_system dflt padd size lower uc subs (length (l_fams l)) s shift (map entry_of reg) (map entry_of hreg) fms [] fpos inside
      = (if length (hs_pos base) =? 0 then Throw else Ok (start_of R P 0 base, [])) /\
    make_system dflt padd size lower uc subs (length (l_fams l)) s shift sites hops (fms ++ gms) [] fpos inside
      = obind (ofold (apply_system sites hops) gms start) (fun sys =>
        obind (remove_invalid sys) (fun sys => if length (sd_pos sys) =? 0 then Throw else Ok (sys, []))).
Proof.
  intros R P oo order cs subs fams uc reg hreg size lower s fpos dflt padd shift inside fms rs gms l sites hops H1 H2 H3 H4 H5 H6 H7 H8 H9 H10 HM HO HG.
  destruct (make_base R P oo order cs subs fams H1 H2 uc H3 reg hreg H5 size lower H7 s H8 fpos dflt padd H9 shift inside H10 fms rs HM)
    as (v0 & pos & v & L0 & F0 & RE & LP & LV & IN & _ & K).
  destruct (K [] v eq_refl LV ltac:(intros i a Ci La Fl; apply (IN HO i a); auto)) as (base & fi & EB & MP & RS & RH & LB & EF & EM).
  destruct (api_hamiltonian R P oo order cs subs fams uc reg hreg size s v pos dflt shift H1 H2 H3 H4 H5 H6 H7 H8 LV ltac:(intros i a Ci La Fl; apply (IN HO i a); auto) LP) as (base' & EB2 & WF & _).
  assert (base' = base) by congruence. subst base'.
  exists pos, v, base, (start_of R P (length (hop_families (fms ++ gms))) base).
  split; [exact EB|]. split; [exact WF|]. split; [reflexivity|]. split; [reflexivity|]. split; [reflexivity|].
  unfold sites, hops. rewrite <- RS, <- RH. split; [apply extend_wf; exact WF|]. split; [|split; [|split]].
  - intros f Hf1 Hf2. cbn [start_of sd_hops widen hb_blocks]. fold l in LB. rewrite nth_error_app2 by lia.
    rewrite app_length, RH, map_length in Hf2. assert (LH : length hreg = length (l_fams l)) by (unfold l; rewrite (hreg_eq R P oo order cs fams H2 hreg H5); apply map_length).
    rewrite (nth_error_nth' _ []) by (rewrite repeat_length; lia). f_equal. apply nth_repeat.
  - intros. apply extend_element; auto.
  - pose proof (EM fms [] [] [] (split_none R P fms rs HM)) as EM0. rewrite !app_nil_r in EM0. fold l in EM0. rewrite RS, RH, EM0. reflexivity.
  - fold l in EM. rewrite RS, RH. rewrite (EM (fms ++ gms) gms _ _ (split_at R P fms rs gms HM HG)). reflexivity.
Qed.
Print Assumptions C46_start_partial.

(** A site generator whose sites have at least as many orbitals as all others: it appends its sites,
    leaves all matrix elements between the others as they were, and gives the new sites the onsite
    energy of their family (after the onsite modifiers) and no hopping. *)
Theorem C46_sites_partial :
  forall (R : scalar) (P : Type) (reg hreg : list (name * mat R)) (s : sysdata P P) n e make ps id nt cap om og hm hg unshift phase,
  wf_hsys (hsys_of reg hreg s) -> sd_valid s = [] ->
  make s = Ok ps -> reg_id reg n = Ok id -> snd (reg_entry reg id) = e -> 0 < m_rows e -> m_cols e = m_rows e ->
  (forall b, In b (sd_subs s) -> e_norb b <= m_rows e) ->
  nt_ok nt -> Forall2 os_follows om og -> Forall2 hop_follows hm hg -> cap_fits R P (hsys_of reg hreg s) cap ->
  exists s' m m', apply_system reg hreg s (SiteGen n e make) = Ok s' /\
    sd_pos s' = sd_pos s ++ ps /\ sd_valid s' = [] /\ wf_hsys (hsys_of reg hreg s') /\ cap_fits R P (hsys_of reg hreg s') cap /\
    ham_make cap nt (hsys_of reg hreg s) om hm unshift phase false = Ok m /\
    ham_make cap nt (hsys_of reg hreg s') om hm unshift phase false = Ok m' /\
    let old := length (sd_pos s) in
    let at_ x a i b j := coeff x (row_of (sd_subs s') a i) (row_of (sd_subs s') b j) in
    (forall a, a < old -> norb_at (sd_subs s') a = norb_at (sd_subs s) a) /\
    (forall a, old <= a < old + length ps -> norb_at (sd_subs s') a = m_rows e /\ site_name reg (sd_subs s') a = n) /\
    (forall a i b j, a < old -> b < old -> i < norb_at (sd_subs s) a -> j < norb_at (sd_subs s) b -> at_ m' a i b j = at_ m a i b j) /\
    (forall a i b j, a < old + length ps -> b < old + length ps -> old <= a \/ old <= b ->
       i < norb_at (sd_subs s') a -> j < norb_at (sd_subs s') b ->
       at_ m' a i b j = if a =? b then match nth_error ps (a - old) with
                                      | Some p => m_at (fold_left (fun A g => g n p A) og (cast_mat nt e)) i j
                                      | None => k0 end
                        else k0).
Proof.
  intros R P reg hreg s n e make ps id nt cap om og hm hg unshift phase W HV HM HI HE H0 Hsq Hge NT Ho Hh HC.
  assert (LS : length (sd_pos s) = rle_size (sd_subs s)) by apply W.
  pose proof (grow_wf R P reg hreg s W n e ps id HI HE H0 Hsq Hge) as W'.
  assert (HC' : cap_fits R P (hsys_of reg hreg (grown R P s e ps id)) cap).
  { intros h [->|Hb] f c Hc; [apply (HC (sd_hops s) (or_introl eq_refl) f c Hc)|apply (HC h (or_intror Hb) f c Hc)]. }
  destruct (ham_elements R P nt NT _ W unshift phase cap om og hm hg false Ho Hh HC ltac:(discriminate)) as (m & Em & _ & El).
  destruct (ham_elements R P nt NT _ W' unshift phase cap om og hm hg false Ho Hh HC' ltac:(discriminate)) as (m' & Em' & _ & El').
  exists (grown R P s e ps id), m, m'. split; [apply (grow_run R P reg hreg s HV n e make ps id); auto|]. split; [reflexivity|]. split; [exact HV|].
  split; [exact W'|]. split; [exact HC'|]. split; [exact Em|]. split; [exact Em'|]. cbv zeta. rewrite LS.
  cbn [hsys_of hs_subs] in El, El'.
  pose proof (grow_size R P reg hreg s W e ps id HE) as GS.
  assert (GN : forall a, a < rle_size (sd_subs s) -> norb_at (sd_subs (grown R P s e ps id)) a = norb_at (sd_subs s) a) by (intros; eapply grow_norb; eauto).
  split; [exact GN|]. split; [|split].
  - intros a Ha. assert (Q : nth a (site_list (sd_subs (grown R P s e ps id))) (0, 0) = (id, m_rows e)) by (eapply grow_new; eauto). unfold norb_at, site_name. rewrite Q. cbn [fst snd]. split; auto.
    destruct (reg_id_some reg n id HI) as (x & X & _). rewrite (nth_error_nth _ _ _ X). reflexivity.
  - intros a i b j Ha Hb Hi Hj. rewrite El' by (rewrite ?GS, ?GN; auto; lia). rewrite (grow_element_old R P reg hreg s W e ps id HE H0 Hsq) by auto.
    rewrite <- El by auto. assert (GR : forall c k, c < rle_size (sd_subs s) -> row_of (sd_subs (grown R P s e ps id)) c k = row_of (sd_subs s) c k) by (intros; eapply grow_row; eauto; lia). rewrite !GR by auto. reflexivity.
  - intros a i b j Ha Hb Hab Hi Hj. rewrite El' by (rewrite ?GS; auto).
    rewrite (grow_element_new R P reg hreg s W n e ps id HI HE H0 Hsq) by (auto; apply NT). destruct (a =? b); destruct (nth_error ps _); reflexivity.
Qed.
Print Assumptions C46_sites_partial.

(** A hopping generator whose energy fits the sites: every pair it names (once, in the order of
    lower to higher site number) that the family does not hold yet adds its hopping and the
    conjugate to the matrix. *)
Theorem C46_bonds_partial :
  forall (R : scalar) (P : Type) (reg hreg : list (name * mat R)) (s : sysdata P P) n e make rows cols f b0 nt cap om og hm hg unshift phase,
  wf_hsys (hsys_of reg hreg s) -> sd_valid s = [] ->
  make s = Ok (rows, cols) -> reg_id hreg n = Ok f -> snd (reg_entry hreg f) = e -> length rows = length cols ->
  nth_error (hb_blocks (sd_hops s)) f = Some b0 -> NoDup b0 ->
  let wanted c := fst c <= snd c /\ (In c (combine rows cols) \/ In (snd c, fst c) (combine rows cols)) in
  (forall c, wanted c -> snd c < length (sd_pos s) /\ m_rows e = norb_at (sd_subs s) (fst c) /\ m_cols e = norb_at (sd_subs s) (snd c)) ->
  nt_ok nt -> Forall2 os_follows om og -> Forall2 hop_follows hm hg -> cap_fits R P (hsys_of reg hreg s) cap -> mat_size e <= cap ->
  exists s' m m' news, apply_system reg hreg s (HopGen n e make) = Ok s' /\
    sd_pos s' = sd_pos s /\ sd_subs s' = sd_subs s /\ sd_valid s' = [] /\ wf_hsys (hsys_of reg hreg s') /\ cap_fits R P (hsys_of reg hreg s') cap /\
    ham_make cap nt (hsys_of reg hreg s) om hm unshift phase false = Ok m /\
    ham_make cap nt (hsys_of reg hreg s') om hm unshift phase false = Ok m' /\
    NoDup news /\ (forall c, In c news <-> wanted c /\ ~ In c b0) /\
    forall a i b j, a < length (sd_pos s) -> b < length (sd_pos s) -> i < norb_at (sd_subs s) a -> j < norb_at (sd_subs s) b ->
      coeff m' (row_of (sd_subs s) a i) (row_of (sd_subs s) b j)
      = kadd (coeff m (row_of (sd_subs s) a i) (row_of (sd_subs s) b j))
          (ksum (fun c => match nth_error (sd_pos s) (fst c), nth_error (sd_pos s) (snd c) with
                 | Some p, Some q =>
                   let T := m_at (fold_left (fun A g => g n p q A) hg (cast_mat nt e)) in
                   kadd (if ((fst c =? a) && (snd c =? b))%nat then T i j else k0) (if ((fst c =? b) && (snd c =? a))%nat then nt_conj nt (T j i) else k0)
                 | _, _ => k0 end) news).
Proof.
  intros R P reg hreg s n e make rows cols f b0 nt cap om og hm hg unshift phase W HV HM HI HE HL HF HN wanted HR NT Ho Hh HC HS.
  assert (LS : length (sd_pos s) = rle_size (sd_subs s)) by apply W.
  assert (WQ : forall c, GenProofs.wanted rows cols c <-> wanted c).
  { intros [x y]. reflexivity. }
  destruct (bond_run R P reg hreg s HV n e make rows cols f b0 HM HI HL HF HN) as (h' & news & E1 & E2 & E3 & E4 & E5 & E6 & E7 & _).
  assert (HR' : forall c, GenProofs.wanted rows cols c -> snd c < rle_size (sd_subs s) /\ m_rows e = norb_at (sd_subs s) (fst c) /\ m_cols e = norb_at (sd_subs s) (snd c))
    by (intros c Hc; rewrite <- LS; apply HR, WQ, Hc).
  pose proof (bond_wf R P reg hreg s W e rows cols f b0 HE HL HR' h' news E3 E6 E7) as W'.
  set (s' := SysData (sd_pos s) (sd_subs s) h' (sd_bounds s) []) in *.
  assert (HC' : cap_fits R P (hsys_of reg hreg s') cap).
  { intros h Hh0 g c Hc. destruct Hh0 as [->|Hb]; [|eapply HC; eauto].
    cbn [hsys_of hs_hops hs_hop sd_hops s'] in *. eapply Permutation_in in Hc; [|exact E7]. apply in_app_iff in Hc. destruct Hc as [Hc|Hc].
    - apply (HC (sd_hops s) (or_introl eq_refl) g c Hc).
    - apply in_map_iff in Hc. destruct Hc as (c' & Q & _). injection Q as <- <-. rewrite HE. exact HS. }
  destruct (ham_elements R P nt NT _ W unshift phase cap om og hm hg false Ho Hh HC ltac:(discriminate)) as (m & Em & _ & El).
  destruct (ham_elements R P nt NT _ W' unshift phase cap om og hm hg false Ho Hh HC' ltac:(discriminate)) as (m' & Em' & _ & El').
  exists s', m, m', news. split; [exact E2|]. split; [reflexivity|]. split; [reflexivity|]. split; [reflexivity|]. split; [exact W'|]. split; [exact HC'|].
  split; [exact Em|]. split; [exact Em'|]. split; [exact E5|]. split; [intros c; rewrite E6, WQ; reflexivity|].
  intros a i b j Ha Hb Hi Hj. rewrite LS in Ha, Hb. cbn [hsys_of hs_subs] in El, El'.
  change (sd_subs s) with (sd_subs s') at 1 2. rewrite El' by auto. rewrite El by auto.
  unfold s'. rewrite (bond_element R P reg hreg s f h' news nt og hg unshift phase a i b j E7). f_equal. apply ksum_ext. intros c Hc.
  unfold hop_part, hop_matrix. cbn [hsys_of hs_hop hs_pos].
  apply E6 in Hc. destruct Hc as [Hc _]. apply WQ in Hc. destruct (HR c Hc) as (B & _). destruct Hc as [B2 _].
  destruct (nth_error (sd_pos s) (fst c)) as [p|] eqn:P1; [|apply nth_error_None in P1; lia].
  destruct (nth_error (sd_pos s) (snd c)) as [q|] eqn:P2; [|apply nth_error_None in P2; lia].
  destruct (reg_id_some hreg n f HI) as (x & X & _). unfold reg_entry in *. rewrite (nth_error_nth _ _ _ X) in *. cbn [fst snd] in *. subst x. reflexivity.
Qed.
Print Assumptions C46_bonds_partial.
(** One generated two-orbital site next to a one-orbital site, and its bond. *)
Definition twin (x : nat) (z : Z) : smod GI Z := SiteGen (Nm x) (gmat 2 2 (fun i j => if i =? j then (4, 0)%Z else (0, 0)%Z)) (fun _ => Ok [z]).
Definition side_bond : smod GI Z := HopGen (Nm 8) (gmat 1 2 (fun _ j => if j =? 0 then (0, 1)%Z else (3, 0)%Z)) (fun _ => Ok ([0; 1], [1; 0])).
Example C46_example :
  obind (built plain_chain (I3 1 1 1) [twin 3 9%Z; side_bond] [] [0]%Z) (fun r =>
    Ok (sd_pos (fst r), dense 3 (ham_make 100 complex_type
      (hsys_of (sites_of plain_chain [twin 3 9%Z; side_bond]) (hops_of plain_chain [twin 3 9%Z; side_bond]) (fst r)) [] [] Z.sub (fun _ => (1, 0)%Z) false)))
  = Ok ([0; 9]%Z, [[(1, 0); (0, 1); (3, 0)]; [(0, -1); (4, 0); (0, 0)]; [(3, 0); (0, 0); (4, 0)]]%Z).
Proof. vm_compute. reflexivity. Qed.

(* ------------------------------------------------------------------ C47 *)
(** Full claim: in every built model with a lead, the index list of the lead names sites of the
    final system: the position of contact [j] is that of the site, moved by one lead period. *)
Definition C47_claim : Prop :=
  forall (R : scalar) (P : Type) dflt padd size lower uc subs nfam s shift (reg hreg : list (name * mat R)) mods ld period fpos inside sys lt,
  make_system dflt padd size lower uc subs nfam s shift reg hreg mods [(ld, period)] fpos inside = Ok (sys : sysdata P P, [lt]) ->
  forall j n p, nth_error (lt_indices lt) j = Some n -> nth_error (lt_pos lt) j = Some p ->
    exists q, (0 <= n)%Z /\ nth_error (sd_pos sys) (Z.to_nat n) = Some q /\ p = padd q period.

(** False: the indices are taken before the modifiers that follow a generator.  Removing site 0
    there leaves three sites, but the lead still names site 3. *)
Definition end_lead : lead Z := Lead 0 1%Z (I3 0 0 0, I3 3 0 0) (map (fun _ => true)).
Theorem C47_removed_refuted : ~ C47_claim.
Proof.
  intros H.
  destruct (built plain_chain (I3 4 1 1) [add_nothing; drop_at 0] [(end_lead, 1%Z)] [0; 1; 2; 3]%Z) as [[sys lts]| |] eqn:E;
    [|vm_compute in E; discriminate|vm_compute in E; discriminate].
  assert (X : exists lt, lts = [lt]) by (vm_compute in E; injection E as <- <-; eexists; reflexivity). destruct X as (lt & ->).
  pose proof (H GI Z _ _ _ _ _ _ _ _ _ _ _ _ _ _ _ _ sys lt E 0 3%Z 4%Z) as X.
  vm_compute in E. injection E as <- <-. destruct (X eq_refl eq_refl) as (q & _ & Q & _). discriminate.
Qed.
Print Assumptions C47_removed_refuted.

Lemma structures_at {A B} (f : A -> outcome B) : forall pre x post ys, osequence f (pre ++ x :: post) = Ok ys ->
  length ys = length (pre ++ x :: post) /\ exists y, nth_error ys (length pre) = Some y /\ f x = Ok y.
Proof.
  induction pre as [|a t IH]; intros x post ys E.
  - cbn in E. destruct (f x) as [y| |] eqn:F; try discriminate. destruct (osequence f post) as [zs| |] eqn:G; try discriminate. injection E as <-.
    split; [|exists y; auto]. cbn. f_equal. clear -G. revert zs G. induction post as [|b u IH]; intros zs G; [injection G as <-; reflexivity|].
    cbn in G. destruct (f b) as [y| |]; try discriminate. destruct (osequence f u) as [ws| |]; try discriminate. injection G as <-. cbn. f_equal. auto.
  - cbn in E. destruct (f a) as [y| |] eqn:F; try discriminate. destruct (osequence f (t ++ x :: post)) as [zs| |] eqn:G; try discriminate. injection E as <-.
    destruct (IH x post zs G) as (L & y' & Q1 & Q2). split; [cbn; f_equal; exact L|]. exists y'. auto.
Qed.

(** What holds when every modifier after the first generator is a generator and the system has no
    periodic direction: the build throws or gives one structure per lead, in order; the indices of a
    lead of which the later leads keep clear are the numbers of its contact sites in the final
    system. *)
Theorem C47_contacts_partial :
  forall (R : scalar) (P : Type) offset_ok order (cs : list (lcall R P)) subs fams uc reg hreg size lower s fpos dflt padd shift inside fms rs gms pre ld period post is_in sys lts,
  let l := calls offset_ok order cs in
  let sites := map entry_of reg ++ site_families (fms ++ gms) in
  let hops := map entry_of hreg ++ hop_families (fms ++ gms) in
  Permutation subs (l_subs l) -> Permutation fams (l_fams l) -> unit_cell subs fams = Ok uc ->
  site_registry subs = Ok reg -> hopping_registry fams = Ok hreg ->
  (forall x o, In x (l_subs l) -> In o (l_subs l) -> sb_uid o = sb_alias x -> primary o) ->
  positive_block size -> block_holds_period size s -> (forall i, cell_of size i -> in_period size s i) ->
  length fpos = num_block_sites size (length uc) -> length inside = num_block_sites size (length uc) ->
  Forall2 mod_is fms rs -> Forall only_removes rs -> Forall (fun g => requires_system g = true) gms ->
  (forall m, In m (pre ++ (ld, period) :: post) -> exists inm, good_lead size lower (fst m) inm) -> good_lead size lower ld is_in ->
  (forall m, In m post -> keeps_clear size lower ld (fst m)) ->
  make_system dflt padd size lower uc subs (length (l_fams l)) s shift sites hops (fms ++ gms) (pre ++ (ld, period) :: post) fpos inside = Ok (sys, lts) ->
  length lts = length (pre ++ (ld, period) :: post) /\
  exists lt pos v cts, nth_error lts (length pre) = Some lt /\
    length (lt_indices lt) = length cts /\ length (lt_pos lt) = length cts /\ cts <> [] /\
    NoDup (lt_indices lt) /\ (forall i a, In (i, a) cts <-> contact size lower uc pos ld is_in v i a) /\
    forall j i a, nth_error cts j = Some (i, a) ->
      flagged size v (i, a) = true /\
      exists q, nth_error (lt_indices lt) j = Some (Z.of_nat (number v (place size i a))) /\
        nth_error pos (place size i a) = Some q /\
        nth_error (sd_pos sys) (number v (place size i a)) = Some q /\
        nth_error (lt_pos lt) j = Some (padd q period).
Proof.
  intros R P oo order cs subs fams uc reg hreg size lower s fpos dflt padd shift inside fms rs gms pre ld period post is_in sys lts l sites hops
    H1 H2 H3 H4 H5 H6 H7 H8 HP H9 H10 HM HO HG HLD GL HK E.
  set (leads := pre ++ (ld, period) :: post) in *.
  destruct (make_base R P oo order cs subs fams H1 H2 uc H3 reg hreg H5 size lower H7 s H8 fpos dflt padd H9 shift inside H10 fms rs HM)
    as (v0 & pos & v & L0 & F0 & RE & LP & LV & IN & TH & K). fold l in TH, K.
  assert (SP : split_mods (fms ++ gms) = (fms, gms)).
  { apply (split_at R P fms rs); auto. intros g t ->. inversion HG; auto. }
  assert (HLD' : forall m, In m (map fst leads) -> exists inm, good_lead size lower m inm).
  { intros m Hm. apply in_map_iff in Hm. destruct Hm as (x & <- & Hx). apply HLD. exact Hx. }
  pose proof (areas_safe size lower uc pos H7 LP (map fst leads) v HLD' LV) as SAFE.
  pose proof (TH (fms ++ gms) gms (site_families (fms ++ gms)) (hop_families (fms ++ gms)) leads SP) as TH'.
  destruct (create_attachment_areas size lower uc pos (map fst leads) v) as [v'| |] eqn:EC; [| |congruence].
  2:{ unfold sites, hops in E. rewrite TH' in E; [discriminate|reflexivity]. }
  assert (EC' : create_attachment_areas size lower uc pos (map fst pre ++ ld :: map fst post) v = Ok v').
  { unfold leads in EC. rewrite map_app in EC. exact EC. }
  destruct (many_live size lower uc pos H7 LP (map fst pre) ld is_in (map fst post) v v') as (LV' & CT & LIVE); auto.
  { unfold leads in HLD'. rewrite map_app in HLD'. exact HLD'. }
  { intros m Hm. apply in_map_iff in Hm. destruct Hm as (x & <- & Hx). apply HK. exact Hx. }
  pose proof GL as (HA & HV & HI).
  destruct (K leads v') as (base & fi & EB & MP & RS & RH & LB & EF & EM); auto.
  specialize (EM (fms ++ gms) gms (site_families (fms ++ gms)) (hop_families (fms ++ gms)) SP). unfold sites, hops in E. rewrite EM in E. clear EM.
  destruct (structure_spec size lower uc (length (l_fams l)) H7 (api_ok R P oo order cs subs fams H1 H2 uc H3)
      (api_fam R P oo order cs subs fams H1 H2 uc H3) _ (api_norb R P oo order cs subs fams H1 H2 uc H3)
      (api_contig R P oo order cs subs fams H1 H2 uc H3) (api_sorted R P oo order cs subs fams H1 H2 uc H3)
      pos LP padd dflt period ld HA HV is_in HI v' LV' LIVE CT fi EF)
      as (cts & lt & ES & ND & IC & EI & ORD & EPp & _).
  apply obind_ok in E. destruct E as (lts' & EL & E).
  apply obind_ok in E. destruct E as (sys1 & EG & E). apply obind_ok in E. destruct E as (sys2 & ER & E).
  destruct (length (sd_pos sys2) =? 0); [discriminate|]. injection E as <- <-.
  destruct (generators_append R P _ _ gms (start_of R P (length (hop_families (fms ++ gms))) base) sys1 eq_refl HG EG) as (V1 & ps & P1).
  unfold remove_invalid in ER. rewrite V1 in ER. injection ER as <-. cbn [start_of sd_pos] in P1. rewrite MP in P1.
  assert (LH : length hreg = length (l_fams l)) by (unfold l; rewrite (hreg_eq R P oo order cs fams H2 hreg H5); apply map_length).
  assert (PM : forall i a, cell_of size i -> a < length uc -> flagged size v' (i, a) = true ->
      nth_error (mask v' pos) (number v' (place size i a)) = nth_error pos (place size i a)).
  { intros i a Ci La Fl. destruct (api_populate R P oo order cs subs fams H1 H2 uc H3 size H7 v' LV' pos dflt LP) as (d & hb & EP & _).
    destruct (api_numbering R P oo order cs subs fams H1 H2 uc H3 size H7 v' LV' pos dflt LP _ _ _ EP) as (_ & _ & _ & A4 & _).
    destruct (nth_error uc a) as [u|] eqn:U; [|apply nth_error_None in U; lia]. apply (A4 i a u Ci U Fl). }
  destruct (structures_at _ pre (ld, period) post lts' EL) as (LL & lt' & EL1 & EL2). cbn [fst snd] in EL2. rewrite ES in EL2. injection EL2 as <-.
  split; [exact LL|]. exists lt, pos, v', cts. split; [exact EL1|]. split; [rewrite EI; apply map_length|]. split; [rewrite EPp; apply map_length|].
  assert (PIN : forall i a, In (i, a) cts -> contact size lower uc pos ld is_in v' i a /\ flagged size v' (i, a) = true /\ cell_of size i /\ a < length uc).
  { intros i a H. apply IC in H. split; auto. split; [apply LIVE; auto|]. destruct H as (C1 & C2 & _). auto. }
  split; [|split; [|split; [exact IC|]]].
  - intros ->. destruct CT as (i & a & C). apply IC in C. destruct C.
  - rewrite EI. apply DanglingProofs.NoDup_map_inj_in; auto. intros [i a] [i' a'] Hx Hy Q. cbn [fst snd] in Q. apply Nat2Z.inj in Q.
    destruct (PIN i a Hx) as (_ & F1 & C1 & A1). destruct (PIN i' a' Hy) as (_ & F2 & C2 & A2).
    apply (number_inj v') in Q; auto. apply (place_bij size (length uc)) in Q; auto. destruct Q; congruence.
  - intros j i a Hj. destruct (PIN i a (nth_error_In _ _ Hj)) as (C1 & C2 & C3 & C4). split; auto.
    pose proof (place_bij size (length uc) H7) as (PL & _). specialize (PL i a C3 C4).
    destruct (nth_error pos (place size i a)) as [q|] eqn:EQ; [|apply nth_error_None in EQ; lia].
    exists q. split; [rewrite EI, nth_error_map, Hj; reflexivity|]. split; [reflexivity|]. split.
    + rewrite P1. rewrite nth_error_app1; [rewrite PM; auto|]. apply nth_error_Some. rewrite PM by auto. congruence.
    + rewrite EPp, nth_error_map, Hj. cbn [option_map fst snd]. rewrite (nth_error_nth _ _ _ EQ). reflexivity.
Qed.
Print Assumptions C47_contacts_partial.
Example C47_example :
  omap (fun r => (sd_pos (fst r), map lt_indices (snd r), map lt_pos (snd r)))
    (built plain_chain (I3 4 1 1) [drop_at 0; add_site 3 (7, 0)%Z 9%Z; add_bond 0 3] [(end_lead, 1%Z)] [0; 1; 2; 3]%Z)
  = Ok ([1; 2; 3; 9]%Z, [[2%Z]], [[4%Z]]).
Proof. vm_compute. reflexivity. Qed.
Definition start_lead : lead Z := Lead 0 (-1)%Z (I3 0 0 0, I3 3 0 0) (map (fun _ => true)).
Example C47_two_leads :
  keeps_clear (I3 4 1 1) (I3 0 0 0) start_lead end_lead /\
  omap (fun r => (sd_pos (fst r), map lt_indices (snd r), map lt_pos (snd r)))
    (built plain_chain (I3 4 1 1) [drop_at 0; add_site 3 (7, 0)%Z 9%Z; add_bond 0 3] [(start_lead, (-1)%Z); (end_lead, 1%Z)] [0; 1; 2; 3]%Z)
  = Ok ([1; 2; 3; 9]%Z, [[0%Z]; [2%Z]], [[0%Z]; [4%Z]]).
Proof. split; [right; split; reflexivity|vm_compute; reflexivity]. Qed.
