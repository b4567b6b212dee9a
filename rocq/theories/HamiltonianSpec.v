(* Independent specification for the Hamiltonian properties C14, C17, C18, C19: the
   tight-binding matrix element between two orbitals, written down directly. *)
From Verif Require Import Base Rle Blocks TablesSpec Scalar Foundation Lattice Hamiltonian.

Section Spec.
  Variable R : scalar.
  Variable V : Type.
  Local Open Scope k_scope.

  (** Number of orbitals of a site and matrix row of its orbital [o]: orbitals are numbered
      site after site. *)
  Definition norb_at (d : rle) (s : nat) : nat := snd (nth s (site_list d) (0, 0))%nat.
  Definition row_of (d : rle) (s o : nat) : nat := (sum_list (map snd (firstn s (site_list d))) + o)%nat.

  (** Layout of the arrays handed to modifiers: entry (i, j) of the [k]-th of [n] matrices
      with [cols] columns. *)
  Definition elem (cols n : nat) (buf : list R) (i j k : nat) : R := nth ((i * cols + j) * n + k) buf k0.

  Definition mat_same (A B : mat R) : Prop :=
    m_rows A = m_rows B /\ m_cols A = m_cols B /\
    forall i j, (i < m_rows A)%nat -> (j < m_cols A)%nat -> m_at A i j = m_at B i j.

  (** What a modifier does to the energy matrix of one site / one hopping. *)
  Definition os_rule := name -> V -> mat R -> mat R.
  Definition hop_rule := name -> V -> V -> mat R -> mat R.
  Definition os_rule_ok (g : os_rule) : Prop := forall nm p A B,
    mat_same A B -> mat_same (g nm p A) (g nm p B) /\ m_rows (g nm p A) = m_rows A /\ m_cols (g nm p A) = m_cols A.
  Definition hop_rule_ok (g : hop_rule) : Prop := forall nm p q A B,
    mat_same A B -> mat_same (g nm p q A) (g nm p q B) /\ m_rows (g nm p q A) = m_rows A /\ m_cols (g nm p q A) = m_cols A.

  (** The modifier treats every site (hopping) by itself, by the rule [g]. *)
  Definition os_follows (m : onsite_mod R V) (g : os_rule) : Prop :=
    os_rule_ok g /\
    forall n ps nm buf, length buf = (length ps * n * n)%nat ->
    exists buf', m n ps nm buf = Ok buf' /\ length buf' = length buf /\
      forall i j k p, (i < n)%nat -> (j < n)%nat -> nth_error ps k = Some p ->
        elem n (length ps) buf' i j k = m_at (g nm p (Mat n n (fun i j => elem n (length ps) buf i j k))) i j.
  Definition hop_follows (m : hopping_mod R V) (g : hop_rule) : Prop :=
    hop_rule_ok g /\
    forall rows cols ps qs nm buf, length ps = length qs -> length buf = (rows * cols * length ps)%nat ->
    exists buf', m rows cols ps qs nm buf = Ok buf' /\ length buf' = length buf /\
      forall i j k p q, (i < rows)%nat -> (j < cols)%nat -> nth_error ps k = Some p -> nth_error qs k = Some q ->
        elem cols (length ps) buf' i j k
        = m_at (g nm p q (Mat rows cols (fun i j => elem cols (length ps) buf i j k))) i j.

  Definition cast_mat (nt : ntype R) (e : mat R) : mat R :=
    Mat (m_rows e) (m_cols e) (fun i j => nt_cast nt (m_at e i j)).
  Definition reg_entry (reg : list (name * mat R)) (id : nat) : name * mat R :=
    nth id reg (Blank, Mat 0 0 (fun _ _ => k0)).

  Variable nt : ntype R.
  Variable sys : hsys R V.
  Variable og : list os_rule.
  Variable hg : list hop_rule.
  Variable unshift : V -> V -> V.
  Variable phase : V -> R.

  (** Energy matrix of site [s] after all onsite modifiers. *)
  Definition site_matrix (s : nat) : mat R :=
    let e := reg_entry (hs_site sys) (fst (nth s (site_list (hs_subs sys)) (0, 0)))%nat in
    match nth_error (hs_pos sys) s with
    | Some p => fold_left (fun A g => g (fst e) p A) og (cast_mat nt (snd e))
    | None => cast_mat nt (snd e)
    end.

  (** Energy matrix of a hopping of family [f] between the sites of [c], after all hopping
      modifiers; [shift] moves the position of the second site. *)
  Definition hop_matrix (shift : V -> V) (f : nat) (c : nat * nat) : mat R :=
    let e := reg_entry (hs_hop sys) f in
    match nth_error (hs_pos sys) (fst c), nth_error (hs_pos sys) (snd c) with
    | Some p, Some q => fold_left (fun A g => g (fst e) p (shift q) A) hg (cast_mat nt (snd e))
    | _, _ => cast_mat nt (snd e)
    end.

  (** All stored hoppings of a table, with their family. *)
  Definition stored (h : hblocks) : list (nat * (nat * nat)) :=
    flat_map (fun fb => map (fun c => (fst fb, c)) (snd fb)) (combine (seq 0 (length (hb_blocks h))) (hb_blocks h)).

  (** Contribution of one hopping with matrix [T] between sites (a, b) to the element between
      orbital [i] of site [s] and orbital [j] of site [t]: forward and Hermitian conjugate. *)
  Definition hop_part (T : nat -> nat -> R) (c : nat * nat) (s i t j : nat) : R :=
    (if ((fst c =? s) && (snd c =? t))%nat then T i j else k0)
    + (if ((fst c =? t) && (snd c =? s))%nat then nt_conj nt (T j i) else k0).

  (** The tight-binding matrix element. *)
  Definition element (s i t j : nat) : R :=
    (if (s =? t)%nat then m_at (site_matrix s) i j else k0)
    + ksum (fun fc => hop_part (m_at (hop_matrix (fun p => p) (fst fc) (snd fc))) (snd fc) s i t j) (stored (hs_hops sys))
    + ksum (fun b => ksum (fun fc =>
        hop_part (fun i j => m_at (hop_matrix (fun p => unshift p (snd b)) (fst fc) (snd fc)) i j * nt_cast nt (phase (snd b)))
                 (snd fc) s i t j) (stored (fst b))) (hs_bounds sys).

  (** Consistent system: one position per site; sublattices ordered by orbital count; energy
      matrices fit the sites they belong to. *)
  Definition wf_hops (h : hblocks) : Prop :=
    (length (hb_blocks h) <= length (hs_hop sys))%nat /\
    forall f c, In (f, c) (stored h) ->
      (fst c < rle_size (hs_subs sys))%nat /\ (snd c < rle_size (hs_subs sys))%nat /\
      m_rows (snd (reg_entry (hs_hop sys) f)) = norb_at (hs_subs sys) (fst c) /\
      m_cols (snd (reg_entry (hs_hop sys) f)) = norb_at (hs_subs sys) (snd c).
  Definition wf_hsys : Prop :=
    length (hs_pos sys) = rle_size (hs_subs sys) /\
    is_sorted (orbital_counts (hs_subs sys)) = true /\
    (forall e, In e (hs_subs sys) -> (0 < e_norb e)%nat /\ (e_id e < length (hs_site sys))%nat /\
       m_rows (snd (reg_entry (hs_site sys) (e_id e))) = e_norb e /\
       m_cols (snd (reg_entry (hs_site sys) (e_id e))) = e_norb e) /\
    wf_hops (hs_hops sys) /\ (forall b, In b (hs_bounds sys) -> wf_hops (fst b)).

  (** No pair of sites is bonded twice, no site to itself. *)
  Definition simple_bonds : Prop :=
    let l := map snd (stored (hs_hops sys)) in
    NoDup (l ++ map (fun c => (snd c, fst c)) l).

  Definition nt_ok : Prop :=
    nt_cast nt k0 = k0 /\ nt_conj nt k0 = k0 /\
    (forall x y, nt_conj nt (x + y) = nt_conj nt x + nt_conj nt y) /\
    (forall x, nt_conj nt (nt_conj nt x) = x).

  (** Every one of the [n] matrices in the array is Hermitian. *)
  Definition herm_array (size n : nat) (buf : list R) : Prop :=
    forall i j k, (i < size)%nat -> (j < size)%nat -> (k < n)%nat ->
      elem size n buf j i k = nt_conj nt (elem size n buf i j k).
  (** The modifier returns Hermitian blocks for Hermitian blocks. *)
  Definition keeps_hermitian (m : onsite_mod R V) : Prop :=
    forall n ps nm buf buf', length buf = (length ps * n * n)%nat -> m n ps nm buf = Ok buf' ->
      herm_array n (length ps) buf -> herm_array n (length ps) buf'.
  (** The onsite energies of the system are Hermitian matrices of the right size. *)
  Definition hermitian_energies : Prop :=
    forall e, In e (hs_subs sys) ->
      let E := snd (reg_entry (hs_site sys) (e_id e)) in
      m_rows E = e_norb e /\ m_cols E = e_norb e /\
      forall i j, (i < e_norb e)%nat -> (j < e_norb e)%nat -> nt_cast nt (m_at E j i) = nt_conj nt (nt_cast nt (m_at E i j)).
End Spec.
Arguments elem {R}. Arguments mat_same {R}. Arguments os_follows {R V}. Arguments hop_follows {R V}.
Arguments os_rule_ok {R V}. Arguments hop_rule_ok {R V}.
Arguments cast_mat {R}. Arguments reg_entry {R}. Arguments site_matrix {R V}. Arguments hop_matrix {R V}.
Arguments hop_part {R}. Arguments element {R V}. Arguments wf_hops {R V}. Arguments wf_hsys {R V}. Arguments simple_bonds {R V}.
Arguments nt_ok {R}.
Arguments herm_array {R}. Arguments keeps_hermitian {R V}. Arguments hermitian_energies {R V}.
