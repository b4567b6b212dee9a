(* Model of the picture of a periodic structure: pybinding/support/fuzzy_set.py:7-44,
   pybinding/system.py:322-431 (plot_hoppings), 434-491 (_make_shift_set, plot_periodic_boundaries),
   pybinding/leads.py:87-117 (Lead.plot).

   Coordinates are integers: multiples of 1/[u] nanometres for some [u] > 0 (floating point numbers are
   rational, so every structure has such a unit).  Sums are exact: rounding is not modelled. *)
From Coq Require Import List ZArith Lia Bool PeanoNat.
From Verif Require Import Base Foundation.
Import ListNotations.
Open Scope Z_scope.

Definition vec := idx3.
Definition vsub (a b : vec) : vec := add3 a (neg3 b).
Definition vsum (l : list vec) : vec := fold_right add3 zero3 l.

Section Fuzzy.
  Variable u : Z.

  (** numpy.allclose(a, x, rtol=1e-3, atol=1e-5) for one coordinate, and for the three of them *)
  Definition close1 (a x : Z) : bool := 100000 * Z.abs (a - x) <=? u + 100 * Z.abs x.
  Definition close (a x : vec) : bool := close1 (ix a) (ix x) && close1 (iy a) (iy x) && close1 (iz a) (iz x).

  (** fuzzy_set.py:23-24 [__contains__], 42-44 [add], 13-15 [__init__], 26-37 [__iadd__], [__add__].  The
      copy of line 33 is shallow and shares [data] with the left operand; no operand is read again after it. *)
  Definition fs_in (a : vec) (s : list vec) : bool := existsb (close a) s.
  Definition fs_add (s : list vec) (a : vec) : list vec := if fs_in a s then s else s ++ [a].
  Definition fs_union (s t : list vec) : list vec := fold_left fs_add t s.
  Definition fs_of (l : list vec) : list vec := fs_union [] l.

  (** itertools.combinations_with_replacement *)
  Fixpoint combinations (l : list vec) (r : nat) : list (list vec) :=
    match r with
    | O => [[]]
    | S r' =>
        (fix go (l : list vec) : list (list vec) :=
           match l with [] => [] | x :: xs => map (cons x) (combinations l r') ++ go xs end) l
    end.

  (** system.py:439 *)
  Definition base_shifts (shifts : list vec) : list vec := shifts ++ map neg3 shifts.

  (** system.py:434-444 [_make_shift_set]; [lower] holds the sets of the lower levels *)
  Definition shift_set_step (shifts : list vec) (level : nat) (lower : list (list vec)) : list vec :=
    match level with
    | O => fs_of [zero3]
    | S _ =>
        let all_shifts := map vsum (combinations (base_shifts shifts) level) in
        let blacklist := fold_left fs_union lower [] in
        fs_of (filter (fun s => negb (fs_in s blacklist)) all_shifts)
    end.
  Fixpoint lower_sets (shifts : list vec) (level : nat) : list (list vec) :=
    match level with
    | O => []
    | S l => lower_sets shifts l ++ [shift_set_step shifts l (lower_sets shifts l)]
    end.
  Definition make_shift_set (shifts : list vec) (level : nat) : list vec := shift_set_step shifts level (lower_sets shifts level).

  (** A call of [plot_hoppings] for a boundary: the level of repetition (it sets the colour), the offset,
      [true] for the sign 1, and the position of the boundary in the list. *)
  Definition call := (nat * vec * bool * nat)%type.

  Definition signed (s : bool) (v : vec) : vec := if s then v else neg3 v.

  (** system.py:472-477: the offsets of the copies of sites and hoppings *)
  Definition copies (shifts : list vec) (num_periods : nat) : list vec :=
    flat_map (make_shift_set shifts) (seq 1 num_periods).

  (** system.py:479-489: the calls for the boundary hoppings *)
  Definition boundary_calls (shifts : list vec) (num_periods : nat) : list call :=
    flat_map (fun level =>
      let shift_set := make_shift_set shifts level in
      let prev := make_shift_set shifts (level - 1) in
      flat_map (fun off =>
        flat_map (fun s =>
          flat_map (fun k =>
            if fs_in (add3 off (signed s (nth k shifts zero3))) prev then [(level, off, s, k)] else [])
            (seq 0 (length shifts)))
          [true; false])
        (fs_union shift_set prev))
      (seq 1 num_periods).
End Fuzzy.

(** system.py:390-401: the end points of the lines; [hops] are the rows and columns of the sparse matrix.
    The axes are not rotated and all three coordinates are kept. *)
Definition inner_lines (pos : nat -> vec) (hops : list (nat * nat)) (off : vec) : list (vec * vec) :=
  map (fun h => (add3 (pos (fst h)) off, add3 (pos (snd h)) off)) hops.
Definition boundary_lines (pos : nat -> vec) (hops : list (nat * nat)) (off : vec) (s : bool) (shift : vec) : list (vec * vec) :=
  map (fun h => if s then (add3 (add3 (pos (fst h)) off) shift, add3 (pos (snd h)) off)
                else (add3 (pos (fst h)) off, vsub (add3 (pos (snd h)) off) shift)) hops.

(** leads.py:107-112: the copies of the lead and the lines between them; [i] counts the copies *)
Definition times (n : nat) (v : vec) : vec := I3 (Z.of_nat n * ix v) (Z.of_nat n * iy v) (Z.of_nat n * iz v).
Definition lead_offsets (shift : vec) (lead_length : nat) : list vec := map (fun i => times i shift) (seq 0 lead_length).
Definition lead_lines (pos : nat -> vec) (hops : list (nat * nat)) (shift : vec) (i : nat) : list (vec * vec) :=
  boundary_lines pos hops (vsub (times i shift) shift) true shift.

(** system.py:504-525 [plot_hopping_values]: twice the places of the labels of a hopping across the
    boundary *)
Definition label_places (pos : nat -> vec) (shift : vec) (h : nat * nat) : list vec :=
  [add3 (add3 (pos (fst h)) (pos (snd h))) shift; vsub (add3 (pos (fst h)) (pos (snd h))) shift].
