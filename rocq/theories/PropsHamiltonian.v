(* Property theorems C14 (direction), C17, C18, C19: the Hamiltonian.
   Model: Hamiltonian.v, SystemBuild.v; specification: HamiltonianSpec.v; proofs: HamProofs.v,
   HamElements.v, HamFacts.v, HamHermitian.v, HamApi.v, HamCor.v. *)
From Verif Require Import Base Rle RleProofs Blocks TablesSpec Scalar Foundation FoundationSpec Lattice LatticeSpec PropsLattice
  Symmetry SymmetrySpec Hamiltonian HamiltonianSpec HamProofs HamElements HamFacts HamHermitian SystemBuild HamApi HamCor.
From Coq Require Import Permutation.

(** A system with one-orbital and two-orbital sites: sites 0, 1 have one orbital, site 2 has
    two.  Family 0 joins 0-1, family 1 joins 1-2; one boundary joins 1 to 0 again. *)
Definition gmat (r c : nat) (f : nat -> nat -> Z * Z) : mat GI := @Mat GI r c f.
Definition ham_ex : hsys GI Z :=
  HSys [Elem 0 2 1; Elem 1 1 2] [10; 20; 30]%Z
    [(Nm 1, energy1 (7, 0)%Z); (Nm 2, gmat 2 2 (fun i j => match i, j with 0, 0 => (1, 0)%Z | 0, _ => (2, 3)%Z | _, 0 => (2, -3)%Z | _, _ => (4, 0)%Z end))]
    [(Nm 5, energy1 (0, 1)%Z); (Nm 6, gmat 1 2 (fun _ j => match j with 0 => (5, 0)%Z | _ => (0, 6)%Z end))]
    (HB 3 [[(0, 1)]; [(1, 2)]]) [(HB 3 [[(1, 0)]; []], 100%Z)].
Example ham_ex_wf : wf_hsys ham_ex.
Proof.
  split; [reflexivity|]. split; [reflexivity|]. split; [|split].
  - intros e [<-|[<-|[]]]; cbn; lia.
  - split; [cbn; lia|]. intros f c [H|[H|[]]]; injection H as <- <-; cbn; lia.
  - intros b [<-|[]]. split; [cbn; lia|]. intros f c [H|[]]; injection H as <- <-; cbn; lia.
Qed.
Definition dense (n : nat) (m : outcome (sparse GI)) : list (list (Z * Z)) :=
  match m with Ok m => map (fun i => map (coeff m i) (seq 0 n)) (seq 0 n) | _ => [] end.

(* ------------------------------------------------------------------ C17 *)
(** Full claim: whatever energies the site registry accepted, the matrix is Hermitian, for every
    wave vector (every choice of phases), provided onsite modifiers return Hermitian blocks. *)
Definition C17_claim : Prop :=
  forall (R : scalar) (V : Type) (sys : hsys R V) cap om hm unshift phase simple m,
  wf_hsys sys -> (forall e, In e (hs_site sys) -> Lattice.onsite_ok (snd e) = true) ->
  Forall (keeps_hermitian complex_type) om ->
  ham_make cap complex_type sys om hm unshift phase simple = Ok m ->
  forall a b, coeff m b a = kconj (coeff m a b).

(** False: [register_family] (used by site generators) accepts an upper triangular matrix and
    stores it as it is; only [Lattice::add_sublattice] completes it. *)
Definition upper_energy : mat GI := gmat 2 2 (fun i j => if i <? j then (1, 0)%Z else (0, 0)%Z).
Definition upper_sys : hsys GI nat := HSys [Elem 0 1 2] [0] [(Nm 1, upper_energy)] [] (HB 1 []) [].
Example upper_registered : register_family Lattice.onsite_ok (Nm 1) upper_energy [] = Ok [(Nm 1, upper_energy)].
Proof. reflexivity. Qed.
Theorem C17_registered_energy_refuted : ~ C17_claim.
Proof.
  intros H.
  assert (W : wf_hsys upper_sys).
  { split; [reflexivity|]. split; [reflexivity|]. split; [|split].
    - intros e [<-|[]]; cbn; lia.
    - split; [cbn; lia|]. intros f c [].
    - intros b []. }
  pose proof (H GI nat upper_sys 10 [] [] (fun p _ => p) (fun _ => (1, 0)%Z) true _ W
    ltac:(intros e [<-|[]]; reflexivity) (Forall_nil _) eq_refl 0 1) as X.
  vm_compute in X. discriminate.
Qed.
Print Assumptions C17_registered_energy_refuted.

(** What holds: Hermitian whenever the stored onsite energies are; hopping modifiers, phases and
    hopping energies are arbitrary; for real and complex scalar types. *)
Theorem C17_hermitian_partial :
  forall (R : scalar) (V : Type) nt (sys : hsys R V) cap om hm unshift phase simple m,
  nt_ok nt -> hermitian_energies nt sys -> Forall (keeps_hermitian nt) om ->
  ham_make cap nt sys om hm unshift phase simple = Ok m ->
  forall a b, coeff m b a = nt_conj nt (coeff m a b).
Proof. intros R V nt sys cap om hm unshift phase simple m NT H1 H2 E a b. exact (ham_hermitian R V nt NT sys cap om hm unshift phase simple m H1 H2 E a b). Qed.
Print Assumptions C17_hermitian_partial.

(** In particular for every model made with the lattice API: the stored energies are Hermitian
    for the complex type, and for real types ([re x] is the real part). *)
Theorem C17_lattice_models :
  forall (R : scalar) (P : Type) offset_ok order (cs : list (lcall R P)) subs fams uc reg hreg size s valid fpos dflt shift,
  let l := calls offset_ok order cs in
  Permutation subs (l_subs l) -> Permutation fams (l_fams l) -> unit_cell subs fams = Ok uc ->
  site_registry subs = Ok reg -> hopping_registry fams = Ok hreg ->
  (forall x o, In x (l_subs l) -> In o (l_subs l) -> sb_uid o = sb_alias x -> primary o) ->
  positive_block size -> block_holds_period size s -> length valid = num_block_sites size (length uc) ->
  (forall i a, cell_of size i -> a < length uc -> flagged size valid (i, a) = true -> in_period size s i) ->
  length fpos = num_block_sites size (length uc) ->
  exists sys, build_system dflt size uc s shift reg hreg fpos valid = Ok sys /\
    forall nt cap om hm unshift phase simple m, nt_ok nt -> (forall x, nt_cast nt (kconj x) = nt_conj nt (nt_cast nt x)) ->
      Forall (keeps_hermitian nt) om -> ham_make cap nt sys om hm unshift phase simple = Ok m ->
      forall a b, coeff m b a = nt_conj nt (coeff m a b).
Proof.
  intros R P oo order cs subs fams uc reg hreg size s valid fpos dflt shift l H1 H2 H3 H4 H5 H6 H7 H8 H9 H10 H11.
  destruct (api_hamiltonian R P oo order cs subs fams uc reg hreg size s valid fpos dflt shift H1 H2 H3 H4 H5 H6 H7 H8 H9 H10 H11) as (sys & E & W & HE & _).
  exists sys. split; auto. intros nt cap om hm unshift phase simple m NT Hc Hm Em a b.
  exact (ham_hermitian R P nt NT sys cap om hm unshift phase simple m (HE nt Hc) Hm Em a b).
Qed.
Print Assumptions C17_lattice_models.

(** Concrete matrix with the phase [i] on the boundary: the element (0, 1) is [i] from the bond
    plus [conj(i * i)] from the boundary. *)
Example C17_example :
  dense 4 (ham_make 100 complex_type ham_ex [] [] Z.sub (fun _ => (0, 1)%Z) true) =
  [[(7, 0); (-1, 1); (0, 0); (0, 0)]; [(-1, -1); (7, 0); (5, 0); (0, 6)];
   [(0, 0); (5, 0); (1, 0); (2, 3)]; [(0, 0); (0, -6); (2, -3); (4, 0)]]%Z.
Proof. vm_compute. reflexivity. Qed.

(* ------------------------------------------------------------------ C18 *)
(** Full claim: no condition on the shapes of the hopping matrices (a hopping generator can
    register any non-empty matrix and apply it to any sites). *)
Definition C18_claim : Prop :=
  forall (R : scalar) (V : Type) (sys : hsys R V) cap unshift phase m,
  length (hs_pos sys) = rle_size (hs_subs sys) -> is_sorted (orbital_counts (hs_subs sys)) = true ->
  (forall e, In e (hs_subs sys) -> 0 < e_norb e /\ e_id e < length (hs_site sys) /\
     m_rows (snd (reg_entry (hs_site sys) (e_id e))) = e_norb e /\ m_cols (snd (reg_entry (hs_site sys) (e_id e))) = e_norb e) ->
  (forall e, In e (hs_hop sys) -> hopping_ok (snd e) = true) ->
  (forall f c, In (f, c) (stored (hs_hops sys)) -> f < length (hs_hop sys) /\ fst c < rle_size (hs_subs sys) /\ snd c < rle_size (hs_subs sys)) ->
  hs_bounds sys = [] ->
  ham_make cap complex_type sys [] [] unshift phase false = Ok m ->
  forall s i t j, s < rle_size (hs_subs sys) -> t < rle_size (hs_subs sys) -> i < norb_at (hs_subs sys) s -> j < norb_at (hs_subs sys) t ->
    coeff m (row_of (hs_subs sys) s i) (row_of (hs_subs sys) t j) = element complex_type sys [] [] unshift phase s i t j.

(** False: a scalar hopping between two-orbital sites is written to the wrong place, here
    between the two orbitals of site 0. *)
Definition misfit_sys : hsys GI nat :=
  HSys [Elem 0 2 2] [0; 1] [(Nm 1, Mat 2 2 (fun _ _ => k0))] [(Nm 2, energy1 (1, 0)%Z)] (HB 2 [[(0, 1)]]) [].
Theorem C18_misfit_refuted : ~ C18_claim.
Proof.
  intros H.
  pose proof (H GI nat misfit_sys 10 (fun p _ => p) (fun _ => (1, 0)%Z) _ eq_refl eq_refl
    ltac:(intros e [<-|[]]; cbn; lia) ltac:(intros e [<-|[]]; reflexivity)
    ltac:(intros f c [X|[]]; injection X as <- <-; cbn; lia) eq_refl eq_refl 0 0 0 1
    ltac:(cbn; lia) ltac:(cbn; lia) ltac:(cbn; lia) ltac:(cbn; lia)) as X.
  vm_compute in X. discriminate.
Qed.
Print Assumptions C18_misfit_refuted.

(** What holds: for every system whose energy matrices fit their sites, building succeeds, stays
    inside the matrix, and every element is the tight-binding element, with modifiers, periodic
    boundaries and any phases, for both insertion strategies. *)
Theorem C18_elements_partial :
  forall (R : scalar) (V : Type) nt (sys : hsys R V) om og hm hg unshift phase simple cap,
  nt_ok nt -> wf_hsys sys -> Forall2 os_follows om og -> Forall2 hop_follows hm hg ->
  cap_fits R V sys cap -> (simple = true -> simple_bonds sys) ->
  exists m, ham_make cap nt sys om hm unshift phase simple = Ok m /\
    (forall e, In e m -> fst (fst e) < hamiltonian_size (hs_subs sys) /\ snd (fst e) < hamiltonian_size (hs_subs sys)) /\
    forall s i t j, s < rle_size (hs_subs sys) -> t < rle_size (hs_subs sys) -> i < norb_at (hs_subs sys) s -> j < norb_at (hs_subs sys) t ->
      coeff m (row_of (hs_subs sys) s i) (row_of (hs_subs sys) t j) = element nt sys og hg unshift phase s i t j.
Proof. intros R V nt sys om og hm hg unshift phase simple cap NT W Ho Hh C S. exact (ham_elements R V nt NT sys W unshift phase cap om og hm hg simple Ho Hh C S). Qed.
Print Assumptions C18_elements_partial.

(** Models made with the lattice API always satisfy the conditions. *)
Theorem C18_lattice_models :
  forall (R : scalar) (P : Type) offset_ok order (cs : list (lcall R P)) subs fams uc reg hreg size s valid fpos dflt shift,
  let l := calls offset_ok order cs in
  Permutation subs (l_subs l) -> Permutation fams (l_fams l) -> unit_cell subs fams = Ok uc ->
  site_registry subs = Ok reg -> hopping_registry fams = Ok hreg ->
  (forall x o, In x (l_subs l) -> In o (l_subs l) -> sb_uid o = sb_alias x -> primary o) ->
  positive_block size -> block_holds_period size s -> length valid = num_block_sites size (length uc) ->
  (forall i a, cell_of size i -> a < length uc -> flagged size valid (i, a) = true -> in_period size s i) ->
  length fpos = num_block_sites size (length uc) ->
  exists sys, build_system dflt size uc s shift reg hreg fpos valid = Ok sys /\ wf_hsys sys /\
    (forall nt, (forall x, nt_cast nt (kconj x) = nt_conj nt (nt_cast nt x)) -> hermitian_energies nt sys) /\
    forall nt om og hm hg unshift phase simple cap, nt_ok nt -> Forall2 os_follows om og -> Forall2 hop_follows hm hg -> fits_buffer R (l_fams l) cap ->
    exists m, ham_make cap nt sys om hm unshift phase simple = Ok m /\
      (forall e, In e m -> fst (fst e) < hamiltonian_size (hs_subs sys) /\ snd (fst e) < hamiltonian_size (hs_subs sys)) /\
      forall a i b j, a < rle_size (hs_subs sys) -> b < rle_size (hs_subs sys) -> i < norb_at (hs_subs sys) a -> j < norb_at (hs_subs sys) b ->
        coeff m (row_of (hs_subs sys) a i) (row_of (hs_subs sys) b j) = element nt sys og hg unshift phase a i b j.
Proof. exact api_hamiltonian. Qed.
Print Assumptions C18_lattice_models.

(** The path without modifiers and the path with a modifier that changes nothing agree. *)
Theorem C18_paths_agree :
  forall (R : scalar) (V : Type) nt (sys : hsys R V) om og unshift phase simple cap,
  nt_ok nt -> wf_hsys sys -> Forall2 os_follows om og -> (simple = true -> simple_bonds sys) -> cap_fits R V sys cap ->
  exists m1 m2, ham_make cap nt sys om [] unshift phase simple = Ok m1 /\ ham_make cap nt sys om [no_change R V] unshift phase simple = Ok m2 /\
    same_matrix R (hamiltonian_size (hs_subs sys)) m1 m2.
Proof. exact paths_agree. Qed.
Print Assumptions C18_paths_agree.

Example C18_example : element complex_type ham_ex [] [] Z.sub (fun _ => (0, 1)%Z) 1 0 2 1 = (0, 6)%Z /\
  element complex_type ham_ex [] [] Z.sub (fun _ => (0, 1)%Z) 0 0 1 0 = (-1, 1)%Z.
Proof. split; vm_compute; reflexivity. Qed.

(* ------------------------------------------------------------------ C19 *)
(** A modifier working element by element gives the same matrix for every buffer size. *)
Theorem C19_batching :
  forall (R : scalar) (V : Type) nt (sys : hsys R V) om og hm hg unshift phase simple cap1 cap2,
  nt_ok nt -> wf_hsys sys -> Forall2 os_follows om og -> Forall2 hop_follows hm hg -> (simple = true -> simple_bonds sys) ->
  cap_fits R V sys cap1 -> cap_fits R V sys cap2 ->
  exists m1 m2, ham_make cap1 nt sys om hm unshift phase simple = Ok m1 /\ ham_make cap2 nt sys om hm unshift phase simple = Ok m2 /\
    same_matrix R (hamiltonian_size (hs_subs sys)) m1 m2.
Proof. exact batching. Qed.
Print Assumptions C19_batching.

(** The slices are consecutive non-empty pieces that fit into the buffer and make up the block:
    each hopping is passed once and in order. *)
Theorem C19_slices :
  forall (R : scalar) (V : Type) cap nt (sys : hsys R V) shift mods f fam rs cs coos,
  reg_get (hs_hop sys) f = Ok fam -> translator_start (hs_subs sys) (m_rows (snd fam)) = Ok rs ->
  translator_start (hs_subs sys) (m_cols (snd fam)) = Ok cs -> coos <> [] ->
  0 < mat_size (snd fam) <= cap ->
  exists sl, concat sl = coos /\ Forall (fun c => c <> [] /\ length c * mat_size (snd fam) <= cap) sl /\
    hopping_block cap nt sys shift mods f coos
    = ofold (fun acc c => obind (hopping_slice nt (hs_pos sys) shift mods fam rs cs c) (fun r => Ok (acc ++ r))) sl [].
Proof. exact block_slices. Qed.
Print Assumptions C19_slices.

(** Within a slice the modifiers get, in the same order, the end positions of the hoppings and
    the entries of the energy matrix. *)
Theorem C19_slice_contents :
  forall (R : scalar) (V : Type) (nt : ntype R) (pos : list V) shift (mods : list (hopping_mod R V)) fam rs cs coos,
  (forall c, In c coos -> fst c < length pos /\ snd c < length pos) ->
  exists p1 p2, length p1 = length coos /\ length p2 = length coos /\
    (forall k c, nth_error coos k = Some c -> nth_error p1 k = nth_error pos (fst c) /\ nth_error p2 k = nth_error pos (snd c)) /\
    hopping_slice nt pos shift mods fam rs cs coos
    = obind (ofold (fun b (m : hopping_mod R V) => in_place (m (m_rows (snd fam)) (m_cols (snd fam)) p1 (map shift p2) (fst fam)) b) mods
               (flat_map (fun v => repeat (nt_cast nt v) (length coos)) (mat_vals (snd fam))))
            (fun b => emit (hopping_indices rs cs (m_rows (snd fam)) (m_cols (snd fam)) coos) b).
Proof. exact slice_positions. Qed.
Print Assumptions C19_slice_contents.

(** Full claim of termination for a given buffer size. *)
Definition C19_terminates_claim (cap : nat) : Prop :=
  forall (R : scalar) (V : Type) (sys : hsys R V) unshift phase simple, wf_hsys sys ->
  exists m, ham_make cap complex_type sys [] [] unshift phase simple = Ok m.
(** False for every buffer size: if one energy matrix has more entries than the buffer, the step
    is zero and the loop never advances. *)
Theorem C19_step_zero_refuted : forall cap, ~ C19_terminates_claim cap.
Proof.
  intros cap H. destruct (H GI nat (wide_sys GI (S (S cap))) (fun p _ => p) (fun _ => (1, 0)%Z) false (wide_wf _ _ (Nat.lt_0_succ _))) as (m & E).
  exact (wide_never_ends _ _ _ _ _ _ _ E).
Qed.
Print Assumptions C19_step_zero_refuted.

(** Four hoppings of a 1x2 matrix with a buffer of five: slices of two. *)
Definition add_dist : hopping_mod GI Z :=
  fun rows cols ps qs _ buf => Ok (map (fun kv => gi_add (snd kv) (nth (fst kv mod length ps) (map (fun pq => snd pq - fst pq)%Z (combine ps qs)) 0%Z, 0%Z))
                                     (combine (seq 0 (length buf)) buf)).
Definition many_sys : hsys GI Z :=
  HSys [Elem 0 2 1; Elem 1 2 2] [10; 20; 30; 70]%Z [(Nm 1, energy1 (0, 0)%Z); (Nm 2, gmat 2 2 (fun _ _ => (0, 0)%Z))]
    [(Nm 5, gmat 1 2 (fun _ j => match j with 0 => (1, 0)%Z | _ => (0, 1)%Z end))] (HB 4 [[(0, 2); (0, 3); (1, 2); (1, 3)]]) [].
Example C19_example :
  slices 4 2 [(0, 2); (0, 3); (1, 2); (1, 3)] = Some [[(0, 2); (0, 3)]; [(1, 2); (1, 3)]] /\
  dense 6 (ham_make 5 complex_type many_sys [] [add_dist] Z.sub (fun _ => (0, 1)%Z) true) =
  dense 6 (ham_make 100 complex_type many_sys [] [add_dist] Z.sub (fun _ => (0, 1)%Z) true) /\
  nth 0 (dense 6 (ham_make 5 complex_type many_sys [] [add_dist] Z.sub (fun _ => (0, 1)%Z) true)) [] =
  [(0, 0); (0, 0); (21, 0); (20, 1); (61, 0); (60, 1)]%Z.
Proof. repeat split; vm_compute; reflexivity. Qed.

(* ------------------------------------------------------------------ C14, direction *)
(** Full claim: the element from [a] to [b] is the generator's energy for a request (a, b). *)
Definition C14_direction_claim : Prop :=
  forall (R : scalar) (V : Type) (sys : hsys R V) h f rows cols unshift phase cap a b,
  wf_hsys sys -> cap_fits R V sys cap -> hs_bounds sys = [] ->
  hb_append h f rows cols = Ok (hs_hops sys) -> f < length (hb_blocks h) ->
  In (a, b) (combine rows cols) -> a <> b ->
  (forall g, ~ In (g, (a, b)) (stored h) /\ ~ In (g, (b, a)) (stored h)) ->
  exists m, ham_make cap complex_type sys [] [] unshift phase false = Ok m /\
    forall i j, i < norb_at (hs_subs sys) a -> j < norb_at (hs_subs sys) b ->
      coeff m (row_of (hs_subs sys) a i) (row_of (hs_subs sys) b j) = m_at (snd (reg_entry (hs_hop sys) f)) i j.

(** False for requests from a higher to a lower index. *)
Definition dir_sys : hsys GI nat :=
  HSys [Elem 0 2 1] [0; 1] [(Nm 1, energy1 (0, 0)%Z)] [(Nm 2, energy1 (0, 1)%Z)] (HB 2 [[(0, 1)]]) [].
Theorem C14_direction_refuted : ~ C14_direction_claim.
Proof.
  intros H.
  assert (W : wf_hsys dir_sys).
  { split; [reflexivity|]. split; [reflexivity|]. split; [|split].
    - intros e [<-|[]]; cbn; lia.
    - split; [cbn; lia|]. intros f c [X|[]]; injection X as <- <-; cbn; lia.
    - intros b []. }
  destruct (H GI nat dir_sys (HB 2 [[]]) 0 [1] [0] (fun p _ => p) (fun _ => (1, 0)%Z) 10 1 0 W) as (m & E & F).
  - intros h [->|[]] f c [X|[]]; injection X as <- <-; cbn; lia.
  - reflexivity.
  - reflexivity.
  - cbn; lia.
  - left; reflexivity.
  - discriminate.
  - intros g. split; intros X; unfold stored in X; cbn in X; tauto.
  - specialize (F 0 0 ltac:(cbn; lia) ltac:(cbn; lia)). vm_compute in E. injection E as <-. vm_compute in F. discriminate.
Qed.
Print Assumptions C14_direction_refuted.

(** What holds: the stored bond runs from the smaller to the larger index, so a request (a, b)
    with a < b gives the energy from [a] to [b], and one with a > b gives the conjugate
    transpose; the reverse element is the conjugate in both cases. *)
Theorem C14_direction_partial :
  forall (R : scalar) (V : Type) nt (sys : hsys R V) h f rows cols e om og unshift phase cap a b,
  nt_ok nt -> wf_hsys sys -> cap_fits R V sys cap -> Forall2 os_follows om og -> hs_bounds sys = [] ->
  hb_append h f rows cols = Ok (hs_hops sys) -> f < length (hb_blocks h) ->
  In (a, b) (combine rows cols) -> a <> b ->
  reg_entry (hs_hop sys) f = e ->
  (forall g, ~ In (g, (a, b)) (stored h) /\ ~ In (g, (b, a)) (stored h)) ->
  exists m, ham_make cap nt sys om [] unshift phase false = Ok m /\
    forall i j, i < norb_at (hs_subs sys) a -> j < norb_at (hs_subs sys) b ->
      coeff m (row_of (hs_subs sys) a i) (row_of (hs_subs sys) b j)
        = (if a <? b then nt_cast nt (m_at (snd e) i j) else nt_conj nt (nt_cast nt (m_at (snd e) j i))) /\
      coeff m (row_of (hs_subs sys) b j) (row_of (hs_subs sys) a i)
        = (if a <? b then nt_conj nt (nt_cast nt (m_at (snd e) i j)) else nt_cast nt (m_at (snd e) j i)).
Proof. exact generated_direction. Qed.
Print Assumptions C14_direction_partial.

Example C14_direction_example : hb_append (HB 2 [[]]) 0 [1] [0] = Ok (HB 2 [[(0, 1)]]) /\
  dense 2 (ham_make 10 complex_type dir_sys [] [] (fun p _ => p) (fun _ => (1, 0)%Z) true) = [[(0, 0); (0, 1)]; [(0, -1); (0, 0)]]%Z.
Proof. split; vm_compute; reflexivity. Qed.
