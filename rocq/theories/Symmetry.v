(* Model of translational symmetry and periodic boundaries.
   cppcore/src/system/Symmetry.cpp, cppcore/src/system/System.cpp (populate_boundaries) *)
From Verif Require Import Base Rle Blocks Foundation.
Local Open Scope Z_scope.

(** Symmetry.cpp:6-7 the constructor: a direction is enabled when its length is not negative.
    Here: per direction [Some n] with [n] the rounded quotient length / |lattice vector|
    (Symmetry.cpp:31, floating point, not modelled) or [None] for a disabled direction.
    Directions at or beyond [ndim] are [None] (the loops of lines 24, 63, 72 and make_masks skip them). *)
Record sym := Sym { sy1 : option Z; sy2 : option Z; sy3 : option Z }.

(** Symmetry.hpp:11-16 SymmetryArea *)
Record area := Area { a_left : idx3; a_right : idx3; a_middle : idx3 }.

(** Symmetry.cpp:30-33 num_sites *)
Definition num_cells (n : Z) : Z := if 0 <? n then n else 1.

(** Symmetry.cpp:13-42 area, one direction: (left, right, middle); C++ division truncates. *)
Definition area1 (size : Z) (p : option Z) : Z * Z * Z :=
  match p with
  | None => (0, size - 1, 0)
  | Some n => let num := num_cells n in
              let left := Z.quot (size - num) 2 in (left, left + num - 1, num)
  end.

Definition area_of (size : idx3) (s : sym) : area :=
  let x := area1 (ix size) (sy1 s) in
  let y := area1 (iy size) (sy2 s) in
  let z := area1 (iz size) (sy3 s) in
  Area (I3 (fst (fst x)) (fst (fst y)) (fst (fst z)))
       (I3 (snd (fst x)) (snd (fst y)) (snd (fst z)))
       (I3 (snd x) (snd y) (snd z)).

(** Symmetry.cpp:9-11 contains *)
Definition contains (a : area) (i : idx3) : bool :=
  (ix (a_left a) <=? ix i) && (iy (a_left a) <=? iy i) && (iz (a_left a) <=? iz i) &&
  ((ix i <=? ix (a_right a)) && (iy i <=? iy (a_right a)) && (iz i <=? iz (a_right a))).

(** Symmetry.cpp:92-98 apply *)
Definition sym_apply (size : idx3) (nsub : nat) (s : sym) (valid : list bool) : outcome (list bool) :=
  ofold (fun v st => obind (agetZ v (s_flat st)) (fun b =>
           asetZ v (s_flat st) (b && contains (area_of size s) (s_idx st))))
        (all_sites size nsub) valid.

(** Symmetry.cpp:102-120 make_masks *)
Definition enabled01 (p : option Z) : Z := match p with Some _ => 1 | None => 0 end.
Definition zupto (n : Z) : list Z := map Z.of_nat (seq 0 (Z.to_nat (n + 1))).
Definition make_masks (s : sym) : list idx3 :=
  flat_map (fun i => flat_map (fun j => map (fun k => I3 i j k) (zupto (enabled01 (sy3 s))))
                              (zupto (enabled01 (sy2 s)))) (zupto (enabled01 (sy1 s))).

(** Symmetry.hpp:18-23 Translation (shift_length is computed from shift_index, see [shift_length]) *)
Record translation := Tr { tr_dir : idx3; tr_slice : slice3; tr_shift : idx3 }.

(** Symmetry.cpp:62-68 boundary_slice, one direction *)
Definition bslice1 (d left right : Z) : slice1 :=
  if 0 <? d then slice_one left else if d <? 0 then slice_one right else slice_all.

(** Symmetry.cpp:49-79 add_translation *)
Definition make_translation (a : area) (d : idx3) : translation :=
  Tr d (Sl3 (bslice1 (ix d) (ix (a_left a)) (ix (a_right a)))
            (bslice1 (iy d) (iy (a_left a)) (iy (a_right a)))
            (bslice1 (iz d) (iz (a_left a)) (iz (a_right a))))
     (mul3 d (a_middle a)).

Definition add_translation (a : area) (ts : list translation) (d : idx3) : list translation :=
  if eqb3 d zero3 then ts
  else if existsb (fun t => eqb3 (tr_dir t) d) ts then ts
  else ts ++ [make_translation a d].

(** Symmetry.cpp:44-90 translations *)
Definition translations {P} (size : idx3) (uc : list (usite P)) (s : sym) : list translation :=
  let a := area_of size s in
  fold_left (fun ts u =>
    fold_left (fun ts h =>
      fold_left (fun ts m => add_translation a ts (mul3 (h_rel h) m)) (make_masks s) ts)
      (u_hops u) ts) uc [].

(** Symmetry.cpp:72-76 shift_length *)
Section ShiftLength.
  Variable P : Type.
  Variable padd : P -> P -> P.
  Variable pscale : Z -> P -> P.
  Variable pzero : P.
  Definition shift_length (vecs : list P) (shift : idx3) : P :=
    fold_left (fun acc nv => padd acc (pscale (fst nv) (snd nv))) (combine [ix shift; iy shift; iz shift] vecs) pzero.
End ShiftLength.

(** System.hpp Boundary: shift (here the index shift) and hopping blocks. *)
Record boundary := Bnd { b_shift : idx3; b_hops : hblocks }.

(** System.cpp:138-151 the loop over the sites of one boundary slice *)
Definition boundary_step {P} (size : idx3) (uc : list (usite P)) (fin : list Z) (shift : idx3)
           (hb : hblocks) (s : site) : outcome hblocks :=
  obind (agetZ fin (s_flat s)) (fun index =>
  if index <? 0 then Ok hb else
  obind (neighbors size uc (add3 (s_idx s) shift) (s_sub s)) (fun nb =>
  add_neighbor_hops fin index nb hb)).

(** System.cpp:128-158 populate_boundaries *)
Definition populate_boundaries {P} (size : idx3) (uc : list (usite P)) (nfam : nat) (s : sym)
           (fin : list Z) (total : nat) : outcome (list boundary) :=
  ofold (fun bs t =>
    omap (fun hb => if (0 <? hb_nnz hb)%nat then bs ++ [Bnd (tr_shift t) hb] else bs)
      (ofold (boundary_step size uc fin (tr_shift t))
             (slice_sites size (length uc) (tr_slice t)) (hb_new total nfam)))
    (translations size uc s) [].

(** Model.cpp:161-165: system and boundaries of one foundation (get_finalized_indices is computed once). *)
Definition boundaries_of {P} (size : idx3) (uc : list (usite P)) (nfam : nat) (s : sym) (valid : list bool)
  : outcome (list boundary) :=
  obind (finalized_indices size uc nfam valid) (fun fi =>
  populate_boundaries size uc nfam s (fst (fst fi)) (snd fi)).
