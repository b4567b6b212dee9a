(* Model of lead attachment: attachment area, lead structure and lead Hamiltonians.
   cppcore/src/leads/Spec.cpp, Structure.cpp, Leads.cpp, cppcore/include/leads/HamiltonianPair.hpp *)
From Verif Require Import Base Rle Blocks Foundation Scalar Lattice Hamiltonian.
Local Open Scope Z_scope.

Definition comp3 (a : nat) (i : idx3) : Z := match a with 0%nat => ix i | 1%nat => iy i | _ => iz i end.
Definition unit3 (a : nat) (v : Z) : idx3 := match a with 0%nat => I3 v 0 0 | 1%nat => I3 0 v 0 | _ => I3 0 0 v end.
Definition sl_get (a : nat) (r : slice3) : slice1 := match a with 0%nat => slx r | 1%nat => sly r | _ => slz r end.
Definition sl_set (a : nat) (x : slice1) (r : slice3) : slice3 :=
  match a with 0%nat => Sl3 x (sly r) (slz r) | 1%nat => Sl3 (slx r) x (slz r) | _ => Sl3 (slx r) (sly r) x end.

(** Foundation.hpp:271-277: a slice whose range was assigned after construction is not normalized
    again. *)
Definition slice_walk (size : idx3) (nsub : nat) (r : slice3) : list site :=
  walk (sl_next size r) (Z.to_nat (slice3_size r * Z.of_nat nsub)) (sl_begin size r).

(** Spec.hpp:22-28.  [lead_bounds] is [find_bounds(shape, lattice)]; [lead_contains] is
    [shape.contains], a function of the whole position array. *)
Record lead (P : Type) := Lead {
  lead_axis : nat; lead_sign : Z; lead_bounds : idx3 * idx3; lead_contains : list P -> list bool
}.
Arguments Lead {P}. Arguments lead_axis {P}. Arguments lead_sign {P}. Arguments lead_bounds {P}. Arguments lead_contains {P}.

(** Spec.cpp:6-9 *)
Definition make_lead {P} (direction : Z) (bounds : idx3 * idx3) (contains : list P -> list bool) : lead P :=
  Lead (Z.to_nat (Z.abs direction - 1)) (if direction =? 0 then 0 else Z.quot direction (Z.abs direction)) bounds contains.

Section Leads.
  Context {P : Type}.
  Variable size : idx3.                  (* foundation.get_spatial_size() *)
  Variable lower : idx3.                 (* foundation.get_bounds().first *)
  Variable uc : list (usite P).
  Variable fpos : list P.                (* foundation positions *)

  (** Spec.cpp:46-58 *)
  Definition shape_slice1 (lo lb ub n : Z) : slice1 := Sl (Z.max (lb - lo) 0) (Z.min (ub + 1 - lo) n).
  Definition shape_slice (l : lead P) : slice3 :=
    let lb := fst (lead_bounds l) in let ub := snd (lead_bounds l) in
    Sl3 (shape_slice1 (ix lower) (ix lb) (ix ub) (ix size))
        (shape_slice1 (iy lower) (iy lb) (iy ub) (iy size))
        (shape_slice1 (iz lower) (iz lb) (iz ub) (iz size)).

  (** Spec.cpp:71-77: stops at the first valid site *)
  Fixpoint any_valid (valid : list bool) (sites : list site) : outcome bool :=
    match sites with
    | [] => Ok false
    | s :: t => obind (agetZ valid (s_flat s)) (fun v => if v then Ok true else any_valid valid t)
    end.
  Fixpoint first_with (f : Z -> outcome bool) (ks : list Z) : outcome (option Z) :=
    match ks with
    | [] => Ok None
    | k :: t => obind (f k) (fun b => if b then Ok (Some k) else first_with f t)
    end.

  (** Indices on the lead's axis in the order in which the lead meets them: [step] is [-sign]. *)
  Definition axis_range (l : lead P) : list Z :=
    let n := comp3 (lead_axis l) size in
    if 0 <? - lead_sign l then zrange n else rev (zrange n).
  Definition axis_from (l : lead P) (k0 : Z) : list Z :=
    filter (fun k => if 0 <? - lead_sign l then k0 <=? k else k <=? k0) (axis_range l).

  (** Spec.cpp:60-87: the index on the lead's axis; the returned slice is [shape_slice] with the
      lead's axis set to that index. *)
  Definition attachment_start (l : lead P) (valid : list bool) : outcome Z :=
    let r := normalize size (shape_slice l) in
    obind (first_with (fun k => any_valid valid (slice_walk size (length uc) (sl_set (lead_axis l) (slice_one k) r))) (axis_range l))
    (fun o => match o with Some k => Ok k | None => Throw end).

  (** Spec.cpp:89-101 *)
  Definition middle (l : lead P) : Z :=
    let s := sl_get (lead_axis l) (shape_slice l) in Z.quot (sl_start s + sl_end s) 2.
  Definition junction (l : lead P) (valid : list bool) : outcome (Z * list bool) :=
    obind (attachment_start l valid) (fun k =>
    obind (osequence (fun s => agetZ fpos (s_flat s))
             (slice_sites size (length uc) (sl_set (lead_axis l) (slice_one (middle l)) (shape_slice l)))) (fun ps =>
    let jv := lead_contains l ps in
    if existsb (fun b => b) jv then Ok (k, jv) else Throw)).

  (** Spec.cpp:20-37 *)
  Definition fill_site (st : list bool * list bool) (ns : nat * site) : outcome (list bool * list bool) :=
    obind (aget (snd st) (fst ns)) (fun b =>
    if negb b then Ok st else
    obind (agetZ (fst st) (s_flat (snd ns))) (fun v =>
    if negb v then omap (fun valid => (valid, snd st)) (asetZ (fst st) (s_flat (snd ns)) true)
    else Ok (fst st, upd (snd st) (fst ns) false))).
  Definition numbered {A} (l : list A) : list (nat * A) := combine (seq 0 (length l)) l.
  Fixpoint fill (l : lead P) (r : slice3) (ks : list Z) (st : list bool * list bool) : outcome (list bool) :=
    match ks with
    | [] => Throw
    | k :: t =>
      obind (ofold fill_site (numbered (slice_walk size (length uc) (sl_set (lead_axis l) (slice_one k) r))) st) (fun st' =>
      if existsb (fun b => b) (snd st') then fill l r t st' else Ok (fst st'))
    end.
  (** Spec.cpp:11-42; the loop starts at the junction slice. *)
  Definition junction_slice (l : lead P) (k : Z) : slice3 := normalize size (sl_set (lead_axis l) (slice_one k) (shape_slice l)).
  Definition create_attachment_area (l : lead P) (valid : list bool) : outcome (list bool) :=
    obind (junction l valid) (fun kj =>
    fill l (junction_slice l (fst kj)) (axis_from l (fst kj)) (valid, snd kj)).

  (** Leads.cpp:5-9 *)
  Definition create_attachment_areas (ls : list (lead P)) (valid : list bool) : outcome (list bool) :=
    ofold (fun v l => create_attachment_area l v) ls valid.

  (** Structure.hpp:19-26 *)
  Fixpoint find_index (l : list Z) (x : Z) (n : Z) : Z :=
    match l with [] => -1 | y :: t => if y =? x then n else find_index t x (n + 1) end.
  Definition lead_index (l : list Z) (x : Z) : Z := find_index l x 0.

  Record lead_structure := LeadStructure {
    lt_indices : list Z; lt_pos : list P; lt_subs : rle; lt_hops : hblocks; lt_bound : hblocks
  }.

  (** Sites of the junction: Structure.cpp:20-24 *)
  Definition junction_sites (jv : list bool) (sites : list site) : outcome (list site) :=
    ofold (fun acc ns => obind (aget jv (fst ns)) (fun b => Ok (if b then acc ++ [snd ns] else acc))) (numbered sites) [].

  (** Structure.cpp:43-48 and 68-73: [all] also takes the conjugate hoppings. *)
  Definition add_lead_hops (all : bool) (fin indices : list Z) (index : Z) (nb : list (site * hop)) (hb : hblocks) : outcome hblocks :=
    ofold (fun hb nh => obind (agetZ fin (s_flat (fst nh))) (fun x =>
             let ni := lead_index indices x in
             if (0 <=? ni) && (all || negb (h_conj (snd nh)))
             then hb_add hb (h_fam (snd nh)) (Z.to_nat index) (Z.to_nat ni)
             else Ok hb)) nb hb.

  Variable padd : P -> P -> P.
  Variable dflt : P.
  Definition lead_step (fin indices : list Z) (shift : P) (st : list P * rle * hblocks) (s : site) : outcome (list P * rle * hblocks) :=
    obind (agetZ fin (s_flat s)) (fun x =>
    let index := lead_index indices x in
    obind (agetZ fpos (s_flat s)) (fun p =>
    obind (asetZ (fst (fst st)) index (padd p shift)) (fun pos' =>
    obind (agetZ uc (s_sub s)) (fun u =>
    obind (neighbors size uc (s_idx s) (s_sub s)) (fun nb =>
    obind (add_lead_hops false fin indices index nb (snd st)) (fun hb' =>
    Ok (pos', rle_add (snd (fst st)) (u_alias u) (u_norb u) 1, hb'))))))).
  Definition lead_bound_step (l : lead P) (fin indices : list Z) (hb : hblocks) (s : site) : outcome hblocks :=
    obind (neighbors size uc (add3 (s_idx s) (unit3 (lead_axis l) (lead_sign l))) (s_sub s)) (fun nb =>
    obind (agetZ fin (s_flat s)) (fun x =>
    add_lead_hops true fin indices (lead_index indices x) nb hb)).

  (** Structure.cpp:6-78; [fin] are the finalized indices and [shift] the lead vector. *)
  Definition make_structure (nfam : nat) (fin : list Z) (shift : P) (l : lead P) (valid : list bool) : outcome lead_structure :=
    obind (junction l valid) (fun kj =>
    obind (junction_sites (snd kj) (slice_sites size (length uc) (sl_set (lead_axis l) (slice_one (fst kj)) (shape_slice l)))) (fun sites =>
    obind (osequence (fun s => agetZ fin (s_flat s)) sites) (fun indices =>
    let n := length indices in
    obind (ofold (lead_step fin indices shift) sites (repeat dflt n, [], hb_new n nfam)) (fun st =>
    if rle_verify (snd (fst st)) n then
      omap (fun bd => LeadStructure indices (fst (fst st)) (snd (fst st)) (snd st) bd)
        (ofold (lead_bound_step l fin indices) sites (hb_new n nfam))
    else Throw)))).
End Leads.
Arguments lead_structure : clear implicits.
Arguments LeadStructure {P}. Arguments lt_indices {P}. Arguments lt_pos {P}. Arguments lt_subs {P}. Arguments lt_hops {P}. Arguments lt_bound {P}.

(** HamiltonianPair.hpp:7-35: the matrices within a lead cell and from the next cell to it. *)
Section Pair.
  Variable R : scalar.
  Variable V : Type.
  Definition lead_system (site_reg hop_reg : list (name * mat R)) (shift : V) (s : lead_structure V) : hsys R V :=
    HSys (lt_subs s) (lt_pos s) site_reg hop_reg (lt_hops s) [(lt_bound s, shift)].
  Definition lead_h0 (cap : nat) (nt : ntype R) (sys : hsys R V) (om : list (onsite_mod R V)) (hm : list (hopping_mod R V)) : outcome (sparse R) :=
    build_main cap nt sys om hm true.
  Definition lead_h1 (cap : nat) (nt : ntype R) (sys : hsys R V) (hm : list (hopping_mod R V)) (unshift : V -> V -> V) : outcome (sparse R) :=
    match hs_bounds sys with
    | [] => UB
    | (b, sh) :: _ =>
      obind (apply_to_hoppings cap nt sys (fun p => unshift p sh) hm b) (fun ts =>
      ofold (put true (hamiltonian_size (hs_subs sys))) ts [])
    end.
End Pair.
