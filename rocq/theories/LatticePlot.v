(* The labels of the neighbouring cells in the picture of a lattice.

   Mirrors pybinding/lattice.py:446-500 (the relative indices, offsets, texts and positions in Lattice.plot) and
   pybinding/pltutils.py:400-433 (align).

   Numbers are real.  Of the axes the picture uses the horizontal and the vertical one.  The terms are those of all hopping
   families in turn.  The alignment given to annotate_box is the one that is used (matplotlib gets a default under the long
   name as well). *)
From Verif Require Import Base.
From Coq Require Import Reals ZArith List.
Local Open Scope R_scope.

Record index := Index { i_1 : Z; i_2 : Z; i_3 : Z }.
Definition opposite (r : index) : index := Index (- i_1 r) (- i_2 r) (- i_3 r).
Record point := Point { p_x : R; p_y : R; p_z : R }.
Definition plus (p q : point) : point := Point (p_x p + p_x q) (p_y p + p_y q) (p_z p + p_z q).
Definition times (a : R) (p : point) : point := Point (a * p_x p) (a * p_y p) (a * p_z p).
Definition origin : point := Point 0 0 0.
Inductive axis := AX | AY | AZ.
Definition coordinate (a : axis) (p : point) : R := match a with AX => p_x p | AY => p_y p | AZ => p_z p end.

(** lattice.py:469 *)
Definition center (positions : list point) : point := times (/ INR (length positions)) (fold_left plus positions origin).
(** lattice.py:480-487 *)
Definition relative_indices (terms : list index) : list index :=
  flat_map (fun t => if (Z.eqb (i_1 t) 0 && Z.eqb (i_2 t) 0)%bool then [] else [t; opposite t]) terms.
(** lattice.py:490: the sum over [zip(ri, self.vectors)] *)
Definition numbers (r : index) : list Z := [i_1 r; i_2 r; i_3 r].
Definition offset (vectors : list point) (r : index) : point :=
  fold_left plus (map (fun nv => times (IZR (fst nv)) (snd nv)) (combine (numbers r) vectors)) origin.

(** pltutils.py:419-433; np.isclose(x, 0) *)
Inductive alignment := Low | Middle | High. (* left or bottom, center, right or top *)
Definition is_zero (x : R) : bool := if Rle_dec (Rabs x) (/ 100000000) then true else false.
Definition align (x : R) : alignment := if is_zero x then Middle else if Rlt_dec 0 x then High else Low.

(** lattice.py:489-500 *)
Record label := Label { l_text : list Z; l_xy : R * R; l_ha : alignment; l_va : alignment }.
Definition annotate (h v : axis) (vectors : list point) (c : point) (r : index) : label :=
  let o := offset vectors r in
  Label (firstn (length vectors) (numbers r))
        ((coordinate h c + coordinate h o) * (105 / 100), (coordinate v c + coordinate v o) * (105 / 100))
        (align (- coordinate h o)) (align (- coordinate v o)).
Definition labels (h v : axis) (vectors : list point) (positions : list point) (terms : list index) : list label :=
  map (annotate h v vectors (center positions)) (relative_indices terms).
