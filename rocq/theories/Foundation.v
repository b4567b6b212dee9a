(* Model of the lattice foundation: block of unit cells, site iteration, slices,
   dangling-site removal, final numbering and population of the system.
   cppcore/{include,src}/system/Foundation.{hpp,cpp}, cppcore/include/detail/slice.hpp,
   cppcore/src/system/System.cpp (populate_system) *)
From Verif Require Import Base Rle Blocks.

(** Index3D (numeric/dense.hpp) *)
Record idx3 := I3 { ix : Z; iy : Z; iz : Z }.
Definition add3 (a b : idx3) : idx3 := I3 (ix a + ix b) (iy a + iy b) (iz a + iz b).
Definition neg3 (a : idx3) : idx3 := I3 (- ix a) (- iy a) (- iz a).
Definition mul3 (a b : idx3) : idx3 := I3 (ix a * ix b) (iy a * iy b) (iz a * iz b).
Definition zero3 : idx3 := I3 0 0 0.
Definition eqb3 (a b : idx3) : bool := (ix a =? ix b)%Z && (iy a =? iy b)%Z && (iz a =? iz b)%Z.
Definition prod3 (a : idx3) : Z := ix a * iy a * iz a.

(** Lattice.hpp:162-167 OptimizedUnitCell::Hopping *)
Record hop := Hop { h_rel : idx3; h_to : nat; h_fam : nat; h_conj : bool }.

(** Lattice.hpp:170-176 OptimizedUnitCell::Site; the position type is arbitrary *)
Record usite (P : Type) := USite { u_pos : P; u_norb : nat; u_uid : nat; u_alias : nat; u_hops : list hop }.
Arguments USite {P}. Arguments u_pos {P}. Arguments u_norb {P}. Arguments u_uid {P}.
Arguments u_alias {P}. Arguments u_hops {P}.

(** Foundation.hpp:122-175 Site: spatial index, sublattice index, flat index. *)
Record site := Site { s_idx : idx3; s_sub : Z; s_flat : Z }.

(** Foundation.hpp:164-168 reset_idx *)
Definition flat_of (size i : idx3) (sub : Z) : Z :=
  ((sub * iz size + iz i) * iy size + iy i) * ix size + ix i.

Definition mk_site (size i : idx3) (sub : Z) : site := Site i sub (flat_of size i sub).

(** Foundation.hpp:194-210 Iterator::operator++ *)
Definition it_next (size : idx3) (s : site) : site :=
  let fl := (s_flat s + 1)%Z in
  let i := s_idx s in
  if (ix i + 1 =? ix size)%Z then
    if (iy i + 1 =? iy size)%Z then
      if (iz i + 1 =? iz size)%Z then Site (I3 0 0 0) (s_sub s + 1) fl
      else Site (I3 0 0 (iz i + 1)) (s_sub s) fl
    else Site (I3 0 (iy i + 1) (iz i)) (s_sub s) fl
  else Site (I3 (ix i + 1) (iy i) (iz i)) (s_sub s) fl.

(** A range-for loop over [n] increments starting at [s]. *)
Fixpoint walk {S} (next : S -> S) (n : nat) (s : S) : list S :=
  match n with 0 => [] | S k => s :: walk next k (next s) end.

(** Foundation.hpp:73-76,189,355-362 and 84: [begin()] has indices 0 and the loop stops when
    flat_idx == size(). *)
Definition f_size (size : idx3) (nsub : nat) : Z := prod3 size * Z.of_nat nsub.
Definition all_sites (size : idx3) (nsub : nat) : list site :=
  walk (it_next size) (Z.to_nat (f_size size nsub)) (Site zero3 0 0).

(** Foundation.hpp:306-327 SublatticeSlice: the iterator starts with flat index
    [start_idx] but spatial index 0 and *sub_idx 0*. *)
Definition sub_slice_sites (size : idx3) (k : nat) : list site :=
  walk (it_next size) (Z.to_nat (prod3 size)) (Site zero3 0 (Z.of_nat k * prod3 size)).

(** slice.hpp:10-34 SliceIndex, 40-57 SliceIndexND *)
Record slice1 := Sl { sl_start : Z; sl_end : Z }.
Definition slice_all : slice1 := Sl 0 (-1).
Definition slice_one (i : Z) : slice1 := Sl i (i + 1).
Definition slice_size (r : slice1) : Z :=
  if (sl_start r <? sl_end r)%Z then (sl_end r - sl_start r)%Z else 0%Z.
Record slice3 := Sl3 { slx : slice1; sly : slice1; slz : slice1 }.
Definition slice3_size (r : slice3) : Z := slice_size (slx r) * slice_size (sly r) * slice_size (slz r).

(** Foundation.hpp:282-288 SpatialSlice::normalize *)
Definition normalize1 (n : Z) (r : slice1) : slice1 :=
  if (sl_end r <? 0)%Z then Sl (sl_start r) n else r.
Definition normalize (size : idx3) (r : slice3) : slice3 :=
  Sl3 (normalize1 (ix size) (slx r)) (normalize1 (iy size) (sly r)) (normalize1 (iz size) (slz r)).

(** Foundation.hpp:226-253 SpatialSliceIterator; [slice_idx] is the position in [walk]. *)
Definition sl_begin (size : idx3) (r : slice3) : site :=
  mk_site size (I3 (sl_start (slx r)) (sl_start (sly r)) (sl_start (slz r))) 0.

Definition sl_next (size : idx3) (r : slice3) (s : site) : site :=
  let i := s_idx s in
  if (ix i + 1 =? sl_end (slx r))%Z then
    if (iy i + 1 =? sl_end (sly r))%Z then
      if (iz i + 1 =? sl_end (slz r))%Z then
        mk_site size (I3 (sl_start (slx r)) (sl_start (sly r)) (sl_start (slz r))) (s_sub s + 1)
      else mk_site size (I3 (sl_start (slx r)) (sl_start (sly r)) (iz i + 1)) (s_sub s)
    else mk_site size (I3 (sl_start (slx r)) (iy i + 1) (iz i)) (s_sub s)
  else mk_site size (I3 (ix i + 1) (iy i) (iz i)) (s_sub s).

(** Foundation.hpp:271-277: slice of a foundation, after [normalize] *)
Definition slice_sites (size : idx3) (nsub : nat) (r0 : slice3) : list site :=
  let r := normalize size r0 in
  walk (sl_next size r) (Z.to_nat (slice3_size r * Z.of_nat nsub)) (sl_begin size r).

(** Foundation.hpp:147-157 for_each_neighbor: the in-bounds test, then the list of
    (neighbour, hopping) pairs handed to the callback. [unit_cell[sub_idx]] out of range is UB. *)
Definition in_block (size i : idx3) : bool :=
  negb ((ix i <? 0)%Z || (iy i <? 0)%Z || (iz i <? 0)%Z
        || (ix size <=? ix i)%Z || (iy size <=? iy i)%Z || (iz size <=? iz i)%Z).

Definition neighbors {P} (size : idx3) (uc : list (usite P)) (i : idx3) (sub : Z) : outcome (list (site * hop)) :=
  if (sub <? 0)%Z then UB else
  obind (aget uc (Z.to_nat sub)) (fun u =>
  Ok (map (fun h => (mk_site size (add3 i (h_rel h)) (Z.of_nat (h_to h)), h))
          (filter (fun h => in_block size (add3 i (h_rel h))) (u_hops u)))).

(** Array read at a signed index. *)
Definition agetZ {A} (l : list A) (i : Z) : outcome A :=
  if (i <? 0)%Z then UB else aget l (Z.to_nat i).
Definition asetZ {A} (l : list A) (i : Z) (x : A) : outcome (list A) :=
  obind (agetZ l i) (fun _ => Ok (upd l (Z.to_nat i) x)).

(** Foundation.cpp:50-72 count_neighbors *)
Definition count_one {P} (size : idx3) (uc : list (usite P)) (s : site) : outcome Z :=
  if (s_sub s <? 0)%Z then UB else
  obind (aget uc (Z.to_nat (s_sub s))) (fun u =>
  Ok (fold_left (fun n h => if negb (in_block size (add3 (s_idx s) (h_rel h))) then (n - 1)%Z else n)
                (u_hops u) (Z.of_nat (length (u_hops u))))).

Definition count_neighbors {P} (size : idx3) (uc : list (usite P)) : outcome (list Z) :=
  ofold (fun counts s => obind (count_one size uc s) (fun c => asetZ counts (s_flat s) c))
        (all_sites size (length uc)) (repeat 0%Z (Z.to_nat (f_size size (length uc)))).

(** Foundation.cpp:74-90 clear_neighbors. Fuel bounds the recursion depth; running out of
    fuel is [Throw] and is excluded by theorem.  State: validity flags and counts. *)
Fixpoint clear_neighbors {P} (fuel : nat) (size : idx3) (uc : list (usite P)) (m : Z)
         (s : site) (st : list bool * list Z) : outcome (list bool * list Z) :=
  match fuel with
  | 0 => Throw
  | S fuel' =>
    obind (agetZ (snd st) (s_flat s)) (fun c0 =>
    if (c0 =? 0)%Z then Ok st else
    obind (neighbors size uc (s_idx s) (s_sub s)) (fun nb =>
    obind (ofold (fun st nh =>
             let ns := fst nh in
             obind (agetZ (fst st) (s_flat ns)) (fun v =>
             if negb v then Ok st else
             obind (agetZ (snd st) (s_flat ns)) (fun c =>
             obind (asetZ (snd st) (s_flat ns) (c - 1)%Z) (fun cnt =>
             if (c - 1 <? m)%Z then
               obind (asetZ (fst st) (s_flat ns) false) (fun val =>
               clear_neighbors fuel' size uc m ns (val, cnt))
             else Ok (fst st, cnt))))) nb st) (fun st' =>
    obind (asetZ (snd st') (s_flat s) 0%Z) (fun cnt => Ok (fst st', cnt)))))
  end.

(** Foundation.cpp:94-101 remove_dangling *)
Definition remove_dangling {P} (size : idx3) (uc : list (usite P)) (m : Z) (valid : list bool) : outcome (list bool) :=
  obind (count_neighbors size uc) (fun counts =>
  omap fst
    (ofold (fun st s => obind (agetZ (fst st) (s_flat s)) (fun v =>
              if negb v then clear_neighbors (S (length valid)) size uc m s st else Ok st))
           (all_sites size (length uc)) (valid, counts))).

(** Foundation.cpp:24-48 generate_positions.  Positions live in any type with addition and
    integer scaling; [vec] are the primitive vectors ([lattice.vector(i)] out of range is UB). *)
Section Positions.
  Variable P : Type.
  Variable padd : P -> P -> P.
  Variable pscale : Z -> P -> P.

  Definition step_pos (vecs : list P) (d : nat) (n : Z) (p : P) : outcome P :=
    if (n =? 0)%Z then Ok p
    else obind (aget vecs d) (fun v => Ok (padd p (pscale n v))).

  Definition zrange (n : Z) : list Z := map Z.of_nat (seq 0 (Z.to_nat n)).

  (** The four nested loops append to [positions] in order ([positions[idx++] = pa]). *)
  Definition generate_positions (origin : P) (size : idx3) (vecs : list P) (uc : list (usite P)) : outcome (list P) :=
    ofold (fun acc u =>
      let ps := padd origin (u_pos u) in
      ofold (fun acc c => obind (step_pos vecs 2 c ps) (fun pc =>
        ofold (fun acc b => obind (step_pos vecs 1 b pc) (fun pb =>
          ofold (fun acc a => obind (aget vecs 0) (fun v0 => Ok (acc ++ [padd pb (pscale a v0)])))
                (zrange (ix size)) acc))
              (zrange (iy size)) acc))
            (zrange (iz size)) acc) uc [].
End Positions.

(** Foundation.cpp:127-164 get_finalized_indices: (indices, hopping_counts, total). *)
Definition finalize_block (valid : list bool) (bs n : nat) (st : list Z * nat) : outcome (list Z * nat * nat) :=
  ofold (fun acc i => obind (aget valid i) (fun v =>
           if v then Ok (upd (fst (fst acc)) i (Z.of_nat (snd (fst acc))), S (snd (fst acc)), S (snd acc))
           else Ok acc))
        (seq (n * bs) bs) (st, 0).

Definition finalized_indices {P} (size : idx3) (uc : list (usite P)) (nfam : nat) (valid : list bool)
  : outcome (list Z * list nat * nat) :=
  let bs := Z.to_nat (prod3 size) in
  omap (fun st => (fst (fst st), snd st, snd (fst st)))
    (ofold (fun st nu =>
       obind (finalize_block valid bs (fst nu) (fst st)) (fun r =>
       omap (fun counts => (fst r, counts))
         (ofold (fun counts h => if negb (h_conj h)
                                 then obind (aget counts (h_fam h)) (fun c => Ok (upd counts (h_fam h) (c + snd r)))
                                 else Ok counts)
                (u_hops (snd nu)) (snd st))))
       (combine (seq 0 (length uc)) uc)
       (repeat (-1)%Z (bs * length uc), 0, repeat 0 nfam)).

(** System.cpp:101-126 populate_system: positions, compressed sublattices, hopping blocks.
    [pos] are the foundation positions, [fin] the finalized indices, [total] their count.
    [Throw] is the exception raised by [verify]. *)
Section Populate.
  Context {P : Type}.
  Variable dflt : P.   (* content of the freshly resized positions array *)

  Definition add_neighbor_hops (fin : list Z) (index : Z) (nb : list (site * hop)) (hb : hblocks) : outcome hblocks :=
    ofold (fun hb nh => obind (agetZ fin (s_flat (fst nh))) (fun ni =>
             if (ni <? 0)%Z then Ok hb
             else if negb (h_conj (snd nh))
                  then hb_add hb (h_fam (snd nh)) (Z.to_nat index) (Z.to_nat ni)
                  else Ok hb)) nb hb.

  Definition populate_step (size : idx3) (uc : list (usite P)) (fin : list Z) (fpos : list P)
             (st : list P * rle * hblocks) (s : site) : outcome (list P * rle * hblocks) :=
    obind (agetZ fin (s_flat s)) (fun index =>
    if (index <? 0)%Z then Ok st else
    obind (agetZ fpos (s_flat s)) (fun p =>
    obind (asetZ (fst (fst st)) index p) (fun pos' =>
    obind (agetZ uc (s_sub s)) (fun u =>
    obind (neighbors size uc (s_idx s) (s_sub s)) (fun nb =>
    obind (add_neighbor_hops fin index nb (snd st)) (fun hb' =>
    Ok (pos', rle_add (snd (fst st)) (u_alias u) (u_norb u) 1, hb'))))))).

  Definition populate_system (size : idx3) (uc : list (usite P)) (nfam : nat) (fpos : list P) (valid : list bool)
    : outcome (list P * rle * hblocks) :=
    obind (finalized_indices size uc nfam valid) (fun fi =>
    let fin := fst (fst fi) in
    let total := snd fi in
    obind (ofold (populate_step size uc fin fpos) (all_sites size (length uc))
                 (repeat dflt total, [], hb_new total nfam)) (fun st =>
    if rle_verify (snd (fst st)) total then Ok st else Throw)).
End Populate.
