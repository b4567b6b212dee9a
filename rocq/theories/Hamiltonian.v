(* Model of the Hamiltonian builder and of the onsite / hopping modifiers.
   cppcore/include/hamiltonian/{Hamiltonian,HamiltonianModifiers}.hpp,
   cppcore/include/detail/algorithm.hpp *)
From Verif Require Import Base Rle Blocks Scalar Foundation Lattice.

(** algorithm.hpp:11-48 [Sliced]: pieces of [step] elements.  One unit of fuel per loop
    iteration; [None] means that the end was not reached within that many iterations. *)
Fixpoint slices {A} (fuel step : nat) (l : list A) : option (list (list A)) :=
  match l with
  | [] => Some []
  | _ => match fuel with
         | 0 => None
         | S k => option_map (cons (firstn step l)) (slices k step (skipn step l))
         end
  end.

Section Ham.
  Variable R : scalar.
  Variable V : Type.                  (* Cartesian *)

  (** Scalar type of the matrix, traits.hpp:53-78: [nt_cast] is [num::force_cast] (identity
      for the complex types, real part for the real ones) and [nt_conj] is
      [num::conjugate] (identity for the real types). *)
  Record ntype := NT { nt_cast : R -> R; nt_conj : R -> R }.
  Definition complex_type : ntype := NT (fun x => x) kconj.
  Definition real_type (re : R -> R) : ntype := NT re (fun x => x).

  (** HamiltonianModifiers.hpp:30-60.  Modifiers work in place on a buffer of scalars; they
      may also throw.  [nat] arguments are the matrix dimensions of the array view. *)
  Definition onsite_mod := nat -> list V -> name -> list R -> outcome (list R).
  Definition hopping_mod := nat -> nat -> list V -> list V -> name -> list R -> outcome (list R).

  (** The parts of [System] that the builder reads (System.hpp). *)
  Record hsys := HSys {
    hs_subs : rle; hs_pos : list V;
    hs_site : list (name * mat R);    (* site_registry *)
    hs_hop : list (name * mat R);     (* hopping_registry *)
    hs_hops : hblocks;
    hs_bounds : list (hblocks * V)    (* hopping blocks and shift *)
  }.

  (** Registry.cpp:54-70 [name], [energy] *)
  Definition reg_get {A} (reg : list A) (id : nat) : outcome A :=
    match nth_error reg id with Some x => Ok x | None => Throw end.

  (** Eigen matrices are row major (config.hpp:12); [begin]/[end] run over the data. *)
  Definition mat_vals (e : mat R) : list R :=
    flat_map (fun i => map (m_at e i) (seq 0 (m_cols e))) (seq 0 (m_rows e)).
  Definition mat_size (e : mat R) : nat := m_rows e * m_cols e.

  (** Registry.cpp:81-86; [isZero] is exact here instead of up to 1e-12. *)
  Definition has_nonzero_energy (reg : list (name * mat R)) : bool :=
    existsb (fun e => negb (forallb (fun v => keqb v k0) (mat_vals (snd e)))) reg.
  (** Registry.cpp:95-100 *)
  Definition has_multiple_orbitals (reg : list (name * mat R)) : bool :=
    existsb (fun e => negb (mat_size (snd e) =? 1)) reg.

  (** [segment(start, n).setConstant(v)] for consecutive segments
      (HamiltonianModifiers.hpp:124-128 and 222-227). *)
  Fixpoint fill_segments (buf : list R) (start n : nat) (vals : list R) : outcome (list R) :=
    match vals with
    | [] => Ok buf
    | v :: t => if start + n <=? length buf
                then fill_segments (set_segment buf start n v) (start + n) n t
                else UB
    end.

  (** A modifier sees a view of the buffer, so it cannot change its length. *)
  Definition in_place (f : list R -> outcome (list R)) (buf : list R) : outcome (list R) :=
    obind (f buf) (fun b => if length b =? length buf then Ok b else UB).

  (** Pass on (row, col, value) for consecutive buffer elements, skipping zeros:
      HamiltonianModifiers.hpp:144-154 and 175-189.  Reading past the buffer is UB. *)
  Fixpoint emit (idx : list (Z * Z)) (data : list R) : outcome (list (Z * Z * R)) :=
    match idx, data with
    | [], _ => Ok []
    | _ :: _, [] => UB
    | ij :: t, v :: d => omap (fun r => if keqb v k0 then r else (ij, v) :: r) (emit t d)
    end.

  (** HamiltonianModifiers.hpp:145-147 index order *)
  Definition onsite_indices (s : it) : list (Z * Z) :=
    let n := e_norb (it_e s) in
    flat_map (fun i => flat_map (fun j => map (fun k =>
      (Z.of_nat (i + (it_ham s + k * n)), Z.of_nat (j + (it_ham s + k * n)))) (seq 0 (e_num (it_e s))))
      (seq 0 n)) (seq 0 n).

  (** [positions.segment(start, n)] *)
  Definition segment {A} (l : list A) (start n : nat) : outcome (list A) :=
    if start + n <=? length l then Ok (firstn n (skipn start l)) else UB.

  (** HamiltonianModifiers.hpp:113-154, the final energies of one sublattice *)
  Definition onsite_buffer (nt : ntype) (sys : hsys) (mods : list onsite_mod) (intrinsic : bool) (s : it)
    : outcome (list R) :=
    let n := e_norb (it_e s) in
    let zero := repeat k0 (e_num (it_e s) * n * n) in
    obind (if intrinsic
           then obind (reg_get (hs_site sys) (e_id (it_e s))) (fun e =>
                fill_segments zero 0 (e_num (it_e s)) (map (nt_cast nt) (mat_vals (snd e))))
           else Ok zero) (fun b0 =>
    match mods with
    | [] => Ok b0
    | _ => obind (segment (hs_pos sys) (it_sys s) (e_num (it_e s))) (fun ps =>
           obind (reg_get (hs_site sys) (e_id (it_e s))) (fun e =>
           ofold (fun b m => in_place (m n ps (fst e)) b) mods b0))
    end).

  (** HamiltonianModifiers.hpp:106-156 [apply_to_onsite] *)
  Definition apply_to_onsite (nt : ntype) (sys : hsys) (mods : list onsite_mod) : outcome (list (Z * Z * R)) :=
    let intrinsic := has_nonzero_energy (hs_site sys) in
    if negb intrinsic && (length mods =? 0) then Ok []
    else ofold (fun acc s =>
           obind (onsite_buffer nt sys mods intrinsic s) (fun b =>
           obind (emit (onsite_indices s) b) (fun r => Ok (acc ++ r))))
         (iter (hs_subs sys)) [].

  (** HamiltonianModifiers.hpp:177-182 index order *)
  Definition hopping_indices (rs cs : nat * nat) (rows cols : nat) (coos : list coo) : list (Z * Z) :=
    flat_map (fun i => flat_map (fun j => map (fun c =>
      (translated_index_Z rs rows i (fst c), translated_index_Z cs cols j (snd c))) coos)
      (seq 0 cols)) (seq 0 rows).

  (** HamiltonianModifiers.hpp:272-287, one slice.  [cpos] is the position of the column
      site, shifted for boundaries (101-104).  Of the buffer only the part that was reset
      and is read is modelled. *)
  Definition hopping_slice (nt : ntype) (pos : list V) (shift : V -> V) (mods : list hopping_mod)
      (fam : name * mat R) (rs cs : nat * nat) (coos : list coo) : outcome (list (Z * Z * R)) :=
    let e := snd fam in
    obind (osequence (fun c => aget pos (fst c)) coos) (fun p1 =>
    obind (osequence (fun c => aget pos (snd c)) coos) (fun p2 =>
    let b0 := flat_map (fun v => repeat (nt_cast nt v) (length coos)) (mat_vals e) in
    obind (ofold (fun b m => in_place (m (m_rows e) (m_cols e) p1 (map shift p2) (fst fam)) b) mods b0) (fun b =>
    emit (hopping_indices rs cs (m_rows e) (m_cols e) coos) b))).

  (** HamiltonianModifiers.hpp:264-288, one block.  [cap] is [max_buffer_size].  A slice loop
      that never ends (step 0) is [UB]; see C19. *)
  Definition hopping_block (cap : nat) (nt : ntype) (sys : hsys) (shift : V -> V) (mods : list hopping_mod)
      (f : nat) (coos : list coo) : outcome (list (Z * Z * R)) :=
    match coos with
    | [] => Ok []
    | _ =>
      obind (reg_get (hs_hop sys) f) (fun fam =>
      obind (translator_start (hs_subs sys) (m_rows (snd fam))) (fun rs =>
      obind (translator_start (hs_subs sys) (m_cols (snd fam))) (fun cs =>
      if mat_size (snd fam) =? 0 then UB else
      let step := Nat.min (cap / mat_size (snd fam)) (length coos) in
      match slices (length coos) step coos with
      | None => UB
      | Some sl => ofold (fun acc c =>
                     obind (hopping_slice nt (hs_pos sys) shift mods fam rs cs c) (fun r => Ok (acc ++ r))) sl []
      end)))
    end.

  (** HamiltonianModifiers.hpp:245-260, fast path: zeros are passed on as well *)
  Definition hopping_block_fast (nt : ntype) (sys : hsys) (f : nat) (coos : list coo)
    : outcome (list (Z * Z * R)) :=
    obind (reg_get (hs_hop sys) f) (fun fam =>
    Ok (map (fun c => (Z.of_nat (fst c), Z.of_nat (snd c), nt_cast nt (m_at (snd fam) 0 0))) coos)).

  Definition with_family {A} (l : list A) : list (nat * A) := combine (seq 0 (length l)) l.

  (** HamiltonianModifiers.hpp:239-289 [apply_to_hoppings_impl] *)
  Definition apply_to_hoppings (cap : nat) (nt : ntype) (sys : hsys) (shift : V -> V) (mods : list hopping_mod)
      (h : hblocks) : outcome (list (Z * Z * R)) :=
    let fast := (length mods =? 0) && negb (has_multiple_orbitals (hs_hop sys)) in
    ofold (fun acc fb =>
      obind (if fast then hopping_block_fast nt sys (fst fb) (snd fb)
             else hopping_block cap nt sys shift mods (fst fb) (snd fb)) (fun r => Ok (acc ++ r)))
      (with_family (hb_blocks h)) [].

  (** The sparse matrix: list of contributions, the element is their sum. *)
  Definition sparse := list (coo * R).
  Definition coeff (m : sparse) (i j : nat) : R :=
    ksum (fun e => if coo_eqb (fst e) (i, j) then snd e else k0) m.

  (** Eigen [insert] ([strict]: the position must be new), [coeffRef +=] and
      [setFromTriplets]: an index outside the matrix is UB. *)
  Definition put (strict : bool) (size : nat) (m : sparse) (t : Z * Z * R) : outcome sparse :=
    let '(i, j, v) := t in
    if ((0 <=? i) && (i <? Z.of_nat size) && (0 <=? j) && (j <? Z.of_nat size))%Z
    then let c := (Z.to_nat i, Z.to_nat j) in
         if strict && existsb (fun e => coo_eqb (fst e) c) m then UB else Ok (m ++ [(c, v)])
    else UB.

  Definition both (conj : R -> R) (t : Z * Z * R) : list (Z * Z * R) :=
    let '(i, j, v) := t in [(i, j, v); (j, i, conj v)].

  (** Hamiltonian.hpp:74-117 [build_main].  Reserving space is not modelled.  The two paths
      differ in the use of [insert] or triplets. *)
  Definition build_main (cap : nat) (nt : ntype) (sys : hsys) (om : list onsite_mod) (hm : list hopping_mod)
      (simple : bool) : outcome sparse :=
    obind (apply_to_onsite nt sys om) (fun os =>
    obind (apply_to_hoppings cap nt sys (fun p => p) hm (hs_hops sys)) (fun hs =>
    ofold (put simple (hamiltonian_size (hs_subs sys))) (os ++ flat_map (both (nt_conj nt)) hs) [])).

  (** Hamiltonian.hpp:119-132 [build_periodic]; [phase d] is [exp(i k.d)] for the wave vector
      and [unshift p d] is [p - d]. *)
  Definition scale_by (ph : R) (t : Z * Z * R) : Z * Z * R := let '(i, j, v) := t in (i, j, kmul v ph).
  Definition build_periodic (cap : nat) (nt : ntype) (sys : hsys) (hm : list hopping_mod)
      (unshift : V -> V -> V) (phase : V -> R) (m : sparse) : outcome sparse :=
    ofold (fun m b =>
      obind (apply_to_hoppings cap nt sys (fun p => unshift p (snd b)) hm (fst b)) (fun hs =>
      ofold (put false (hamiltonian_size (hs_subs sys)))
            (flat_map (both (nt_conj nt)) (map (scale_by (nt_cast nt (phase (snd b)))) hs)) m))
      (hs_bounds sys) m.

  (** Hamiltonian.hpp:163-175 [ham::make].  NaN and infinity do not occur with exact
      scalars, so [throw_if_invalid] passes. *)
  Definition ham_make (cap : nat) (nt : ntype) (sys : hsys) (om : list onsite_mod) (hm : list hopping_mod)
      (unshift : V -> V -> V) (phase : V -> R) (simple : bool) : outcome sparse :=
    obind (build_main cap nt sys om hm simple) (build_periodic cap nt sys hm unshift phase).
End Ham.
Arguments NT {R}. Arguments nt_cast {R}. Arguments nt_conj {R}. Arguments complex_type {R}. Arguments real_type {R}.
Arguments HSys {R V}. Arguments hs_subs {R V}. Arguments hs_pos {R V}. Arguments hs_site {R V}. Arguments hs_hop {R V}.
Arguments hs_hops {R V}. Arguments hs_bounds {R V}.
Arguments mat_vals {R}. Arguments mat_size {R}. Arguments has_nonzero_energy {R}. Arguments has_multiple_orbitals {R}.
Arguments fill_segments {R}. Arguments in_place {R}. Arguments emit {R}.
Arguments onsite_buffer {R V}. Arguments apply_to_onsite {R V}. Arguments hopping_slice {R V}. Arguments hopping_block {R V}.
Arguments hopping_block_fast {R V}. Arguments apply_to_hoppings {R V}. Arguments coeff {R}. Arguments put {R}.
Arguments both {R}. Arguments build_main {R V}. Arguments scale_by {R}. Arguments build_periodic {R V}. Arguments ham_make {R V}.
