(* Circles of a structure plot.

   Mirrors pybinding/system.py:219-319 (plot_sites), support/collections.py:7-84 (CircleCollection,
   Circle3DCollection), utils/misc.py:134-150 (rotate_axes) and pltutils.py:367-399 (direct_cmap_norm).

   A matplotlib collection draws one circle per offset; values and radii are repeated if there are fewer
   of them.  [BoundaryNorm] gives the number of boundaries up to the value minus one, [ListedColormap]
   takes the first colour below and the last one above its range; at least two boundaries are needed.

   Simplifications: coordinates and values are integers (multiples of a unit; floating point numbers are
   rational), radii rational; line widths, the change of a common radius with the zoom, blending and
   automatic limits are left out.  [sort] stands for argsort, which does not promise the order of equal
   elements; [project] for the projection of 3D axes. *)
From Verif Require Import Base.
From Coq Require Import QArith Permutation Sorted.
Local Open Scope Z_scope.

(** ** rotate_axes: misc.py:144-150; the missing letters come out of a set in any order *)
Inductive axis := AX | AY | AZ.
Definition axis_eqb (a b : axis) : bool := match a, b with AX, AX | AY, AY | AZ, AZ => true | _, _ => false end.
Definition missing (axes : list axis) : list axis := filter (fun a => negb (existsb (axis_eqb a) axes)) [AX; AY; AZ].
Definition rotate_axes {T} (order : list axis -> list axis) (position : axis -> T) (axes : list axis) : outcome (list T) :=
  let axes := axes ++ order (missing axes) in
  if Nat.eqb (length axes) 3 then Ok (map position axes) else Throw.

(** ** Colours *)
Inductive kind := Signed | OtherKind.
Fixpoint insert (v : Z) (l : list Z) : list Z :=
  match l with [] => [v] | x :: r => if v <? x then v :: l else if v =? x then l else x :: insert v r end.
Definition unique (l : list Z) : list Z := fold_right insert [] l.
Definition zmax (l : list Z) : option Z := match l with [] => None | x :: r => Some (fold_left Z.max r x) end.
(** pltutils.py:392-396; the last boundary, infinity, is left out here *)
Definition boundaries (k : kind) (data : list Z) : option (list Z) :=
  match k with
  | Signed => option_map (fun m => map Z.of_nat (seq 0 (Z.to_nat (m + 1)))) (zmax data)
  | OtherKind => Some (unique data)
  end.
(** BoundaryNorm.__call__ with one colour per region *)
Definition region (bs : list Z) (v : Z) : Z := Z.of_nat (length (filter (fun b => b <=? v) bs)) - 1.
(** Colormap.__call__ on a whole number *)
Definition listed {C} (colors : list C) (i : Z) : outcome C :=
  if i <? 0 then aget colors 0 else if Z.of_nat (length colors) <=? i then aget colors (length colors - 1) else aget colors (Z.to_nat i).
Definition colour {C} (k : kind) (data : list Z) (colors : list C) (v : Z) : outcome C :=
  match boundaries k data with
  | None => Throw
  | Some [] => Throw
  | Some bs => listed colors (region bs v)
  end.

(** ** Circles *)
Record site := Site { s_x : Z; s_y : Z; s_z : Z; s_value : Z }.
Inductive radius := Same (r : Q) | Each (rs : list Q).
Record circle := Circle { c_at : Z * Z; c_value : Z; c_radius : Q }.
Fixpoint take {T} (l : list T) (idx : list nat) : outcome (list T) :=
  match idx with [] => Ok [] | i :: r => obind (aget l i) (fun x => omap (cons x) (take l r)) end.
(** system.py:254 *)
Definition all_zero (r : radius) : bool := match r with Same r => Qeq_bool r 0 | Each rs => forallb (fun r => Qeq_bool r 0) rs end.
Definition atleast_1d (r : radius) : list Q := match r with Same r => [r] | Each rs => rs end.
Definition scaled (f : Q -> Q) (r : radius) : radius := match r with Same r => Same (f r) | Each rs => Each (map f rs) end.
(** A collection as it is drawn. *)
Definition cyclic {T} (l : list T) (j : nat) : outcome T := aget l (j mod length l).
Definition draw (points : list (Z * Z)) (values : list Z) (radii : list Q) : outcome (list circle) :=
  (fix go (js : list nat) : outcome (list circle) :=
     match js with
     | [] => Ok []
     | j :: js => obind (aget points j) (fun p => obind (cyclic values j) (fun v => obind (cyclic radii j) (fun r => omap (cons (Circle p v r)) (go js))))
     end) (seq 0 (length points)).

Section Plot.
  Variable sort : list Z -> list nat.
  (** system.py:276-290: flat axes.  [None]: nothing is drawn. *)
  Definition point (offset : Z * Z * Z) (s : site) : Z * Z := (s_x s + fst (fst offset), s_y s + snd (fst offset)).
  Definition plot_sites (sites : list site) (r : radius) (offset : Z * Z * Z) : outcome (option (list circle)) :=
    if all_zero r then Ok None else
    let points := map (point offset) sites in
    let values := map s_value sites in
    let z := map s_z sites in
    if Nat.ltb 1 (length (unique z)) then
      let idx := sort z in
      obind (match r with Same _ => Ok r | Each rs => omap Each (take rs idx) end) (fun r =>
      obind (take points idx) (fun points => obind (take values idx) (fun values =>
      omap Some (draw points values (atleast_1d r)))))
    else omap Some (draw points values (atleast_1d r)).
  (** system.py:307-317 and collections.py:63-74: 3D axes *)
  Variable project : Z * Z * Z -> Z * Z * Z.
  Definition shifted (offset : Z * Z * Z) (s : site) : Z * Z * Z := (s_x s + fst (fst offset), s_y s + snd (fst offset), s_z s + snd offset).
  Definition plot_sites_3d (sites : list site) (r : radius) (offset : Z * Z * Z) : outcome (option (list circle)) :=
    if all_zero r then Ok None else
    let radii := atleast_1d (scaled (fun r => r / 8)%Q r) in
    let v := map (fun s => project (shifted offset s)) sites in
    let idx := rev (sort (map snd v)) in
    obind (take (map fst v) idx) (fun points => obind (take (map s_value sites) idx) (fun values =>
    omap Some (draw points values radii))).
End Plot.

(** ** results.py:443-453: radii from the data, between the smaller and the larger one.  np.allclose to zero
    means up to 1e-8, which is [limit] of the units of the data. *)
Definition zmin (l : list Z) : option Z := match l with [] => None | x :: r => Some (fold_left Z.min r x) end.
Definition to_radii (limit : Z) (r0 r1 : Q) (data : list Z) : outcome radius :=
  match zmin data with
  | None => Throw
  | Some m =>
      let positive := map (fun d => d - m) data in
      match zmax positive with
      | None => Throw
      | Some top => if top <=? limit then Ok (Same r1) else Ok (Each (map (fun p => r0 + (r1 - r0) * inject_Z p / inject_Z top)%Q positive))
      end
  end.
