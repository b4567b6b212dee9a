(* Property theorem C43: the Hamiltonian of a periodic system is the Bloch sum over the infinite
   lattice.  Model: Lattice.v, Foundation.v, Symmetry.v, Hamiltonian.v; specification: BulkSpec.v;
   proofs: BlochProofs.v. *)
From Verif Require Import Base Rle Blocks Foundation Scalar Lattice LatticeSpec PropsLattice FoundationSpec PopulateFacts PropsFoundation
  Symmetry SymmetrySpec Hamiltonian HamiltonianSpec HamFacts HamCor SystemBuild PropsHamiltonian BulkSpec BlochProofs.
From Coq Require Import Permutation.

(** For every lattice made with the API, every set of valid sites within one period and every
    phase function: the element between two sites is the onsite energy, plus the bulk element,
    plus the hoppings from and to periodic images, with their phases.  The sum may be taken over
    any list of translations that contains all those that bond the two sites. *)
Theorem C43_images :
  forall (R : scalar) (P : Type) offset_ok order (cs : list (lcall R P)) subs fams uc reg hreg size s valid fpos dflt shift nt cap,
  let l := calls offset_ok order cs in
  Permutation subs (l_subs l) -> Permutation fams (l_fams l) -> unit_cell subs fams = Ok uc ->
  site_registry subs = Ok reg -> hopping_registry fams = Ok hreg ->
  (forall x o, In x (l_subs l) -> In o (l_subs l) -> sb_uid o = sb_alias x -> primary o) ->
  positive_block size -> block_holds_period size s -> length valid = num_block_sites size (length uc) ->
  (forall i a, cell_of size i -> a < length uc -> flagged size valid (i, a) = true -> in_period size s i) ->
  length fpos = num_block_sites size (length uc) ->
  (forall fam t, In fam (l_fams l) -> In t (fm_terms fam) -> short_range s (t_rel t)) ->
  nt_ok nt -> fits_buffer R (l_fams l) cap ->
  exists sys, build_system dflt size uc s shift reg hreg fpos valid = Ok sys /\
    (forall n, n < rle_size (hs_subs sys) <-> exists x, site_at size uc valid n x) /\
    (forall n x, site_at size uc valid n x -> exists sb, In sb (l_subs l) /\ sb_uid sb = snd x /\ norb_at (hs_subs sys) n = m_rows (sb_energy sb)) /\
    (exists Ts, forall x y n k, site_at size uc valid n x -> site_at size uc valid k y ->
       translations_of s (l_fams l) x y Ts /\ (forall T, In T Ts -> In (opposite T) Ts)) /\
    forall unshift phase simple, exists m, ham_make cap nt sys [] [] unshift phase simple = Ok m /\
      forall n k x y sx sy, site_at size uc valid n x -> site_at size uc valid k y ->
      In sx (l_subs l) -> sb_uid sx = snd x -> In sy (l_subs l) -> sb_uid sy = snd y ->
      forall Ts p q, translations_of s (l_fams l) x y Ts -> p < m_rows (sb_energy sx) -> q < m_rows (sb_energy sy) ->
        coeff m (row_of (hs_subs sys) n p) (row_of (hs_subs sys) k q)
        = kadd (kadd (if n =? k then nt_cast nt (m_at (sb_energy sx) p q) else k0) (bulk nt (l_fams l) x p y q))
            (ksum (fun T => kadd
                (kmul (hops_to nt (l_fams l) (shifted_cell (fst x) T, snd x) p y q) (nt_cast nt (phase (shift T))))
                (nt_conj nt (kmul (hops_to nt (l_fams l) (shifted_cell (fst y) T, snd y) q x p) (nt_cast nt (phase (shift T)))))) Ts).
Proof.
  intros R P oo order cs subs fams uc reg hreg size s valid fpos dflt shift nt cap l H1 H2 H3 H4 H5 H6 H7 H8 H9 H10 H11 H12 H13 H14.
  exact (bloch R P oo order cs subs fams H1 H2 uc H3 reg hreg H4 H5 H6 size H7 s H8 valid H9 H10 fpos dflt H11 shift H12 nt H13 cap H14).
Qed.
Print Assumptions C43_images.

(** Bloch form: when opposite translations have conjugate phases, as [exp(i k T)] has, the
    element is the sum of the bulk elements between [y] and all images of [x], each with its phase. *)
Theorem C43_bloch :
  forall (R : scalar) (P : Type) offset_ok order (cs : list (lcall R P)) subs fams uc reg hreg size s valid fpos dflt shift nt cap,
  let l := calls offset_ok order cs in
  Permutation subs (l_subs l) -> Permutation fams (l_fams l) -> unit_cell subs fams = Ok uc ->
  site_registry subs = Ok reg -> hopping_registry fams = Ok hreg ->
  (forall x o, In x (l_subs l) -> In o (l_subs l) -> sb_uid o = sb_alias x -> primary o) ->
  positive_block size -> block_holds_period size s -> length valid = num_block_sites size (length uc) ->
  (forall i a, cell_of size i -> a < length uc -> flagged size valid (i, a) = true -> in_period size s i) ->
  length fpos = num_block_sites size (length uc) ->
  (forall fam t, In fam (l_fams l) -> In t (fm_terms fam) -> short_range s (t_rel t)) ->
  nt_ok nt -> fits_buffer R (l_fams l) cap ->
  (forall a b, nt_conj nt (kmul a b) = kmul (nt_conj nt a) (nt_conj nt b)) ->
  exists sys, build_system dflt size uc s shift reg hreg fpos valid = Ok sys /\
    forall unshift phase simple, 
    (forall T, whole_periods s T -> nt_conj nt (nt_cast nt (phase (shift T))) = nt_cast nt (phase (shift (opposite T)))) ->
    exists m, ham_make cap nt sys [] [] unshift phase simple = Ok m /\
      forall n k x y sx sy, site_at size uc valid n x -> site_at size uc valid k y ->
      In sx (l_subs l) -> sb_uid sx = snd x -> In sy (l_subs l) -> sb_uid sy = snd y ->
      forall Ts p q, translations_of s (l_fams l) x y Ts -> (forall T, In T Ts -> In (opposite T) Ts) ->
      p < m_rows (sb_energy sx) -> q < m_rows (sb_energy sy) ->
        coeff m (row_of (hs_subs sys) n p) (row_of (hs_subs sys) k q)
        = kadd (kadd (if n =? k then nt_cast nt (m_at (sb_energy sx) p q) else k0) (bulk nt (l_fams l) x p y q))
            (ksum (fun T => kmul (nt_cast nt (phase (shift T))) (bulk nt (l_fams l) (shifted_cell (fst x) T, snd x) p y q)) Ts).
Proof.
  intros R P oo order cs subs fams uc reg hreg size s valid fpos dflt shift nt cap l H1 H2 H3 H4 H5 H6 H7 H8 H9 H10 H11 H12 H13 H14 HM.
  destruct (bloch R P oo order cs subs fams H1 H2 uc H3 reg hreg H4 H5 H6 size H7 s H8 valid H9 H10 fpos dflt H11 shift H12 nt H13 cap H14) as (sys & ES & _ & _ & _ & HAM).
  exists sys. split; [exact ES|]. intros unshift phase simple HP. destruct (HAM unshift phase simple) as (m & EM & EL). exists m. split; [exact EM|].
  intros n k x y sx sy S1 S2 S3 S4 S5 S6 Ts p q HT HO Hp Hq. rewrite (EL n k x y sx sy S1 S2 S3 S4 S5 S6 Ts p q HT Hp Hq). f_equal.
  destruct HT as (ND & HW & _).
  exact (bloch_form R P oo order cs uc size valid H9 fpos H11 nt x y p q Ts (fun T => nt_cast nt (phase (shift T))) HM ND HO (fun T H => HP T (HW T H))).
Qed.
Print Assumptions C43_bloch.

(** A chain of two sublattices, period of one cell, phase [i] per cell: both the program and the
    Bloch sum over the translations -1 and 1 give [2 + 3 i] between the sublattices. *)
Definition ssh := calls (fun _ : Z => true) (fun x => x)
  [AddSublattice (Nm 1) 0%Z (energy1 (1, 0)%Z); AddSublattice (Nm 2) 0%Z (energy1 (4, 0)%Z);
   AddHoppingEnergy (I3 0 0 0) (Nm 1) (Nm 2) (energy1 (2, 0)%Z); AddHoppingEnergy (I3 1 0 0) (Nm 2) (Nm 1) (energy1 (3, 0)%Z)].
Definition ssh_phase (z : Z) : Z * Z := if (z =? 1)%Z then (0, 1)%Z else if (z =? -1)%Z then (0, -1)%Z else (1, 0)%Z.
Definition ssh_system : outcome (hsys GI Z) :=
  obind (unit_cell (l_subs ssh) (l_fams ssh)) (fun uc =>
  obind (site_registry (l_subs ssh)) (fun reg => obind (hopping_registry (l_fams ssh)) (fun hreg =>
  build_system 0%Z (I3 3 1 1) uc (Sym (Some 1%Z) None None) ix reg hreg (repeat 0%Z 6) [false; true; false; false; true; false]))).
Definition ssh_sum (x y : nat) : Z * Z :=
  let nt := complex_type (R := GI) in let c := I3 1 0 0 in
  kadd (s := GI) (kadd (s := GI) (if x =? y then nth x [(1, 0); (4, 0)]%Z (0, 0)%Z else (0, 0)%Z) (bulk nt (l_fams ssh) (c, x) 0 (c, y) 0))
    (ksum (fun T => kmul (ssh_phase (ix T) : GI) (bulk nt (l_fams ssh) (shifted_cell c T, x) 0 (c, y) 0)) [I3 (-1) 0 0; I3 1 0 0]).
Example C43_example :
  dense 2 (obind ssh_system (fun sys => ham_make 100 complex_type sys [] [] Z.sub ssh_phase true))
    = [[(1, 0); (2, 3)]; [(2, -3); (4, 0)]]%Z /\
  map (fun x => map (ssh_sum x) [0; 1]) [0; 1] = [[(1, 0); (2, 3)]; [(2, -3); (4, 0)]]%Z.
Proof. vm_compute. split; reflexivity. Qed.
