(* Radius of plotted lattice sites, limits of the axes and palettes.

   Mirrors pybinding/lattice.py:373-444 (_visible_sublattices, site_radius_for_plot), pltutils.py:128-183
   (set_min_axis_length, set_min_axis_ratio, add_margin), 314-346 (get_palette) and system.py:196-206
   (decorate_structure_plot).

   Simplifications: exact real numbers; the third axis of _visible_sublattices is the one which the axes
   leave out ("xy", as site_radius_for_plot asks for); two different limits are kept as they are set, and
   despine, which trims the ticks, leaves them. *)
From Verif Require Import Base.
From Coq Require Import Reals.
Local Open Scope R_scope.

Record p3 := P3 { px : R; py : R; pz : R }.
Definition vsub (a b : p3) : p3 := P3 (px a - px b) (py a - py b) (pz a - pz b).
Definition norm (a : p3) : R := sqrt (px a * px a + py a * py a + pz a * pz a).
Definition cross (a b : p3) : p3 := P3 (py a * pz b - pz a * py b) (pz a * px b - px a * pz b) (px a * py b - py a * px b).
Record lat := Lat { l_vectors : list p3; l_subs : list p3 }.

(** ** lattice.py:378-387 *)
(** sorted(..., reverse=True) keeps the order of equal elements *)
Fixpoint insert_z (p : p3) (l : list p3) : list p3 :=
  match l with [] => [p] | q :: r => if Rlt_dec (pz p) (pz q) then q :: insert_z p r else p :: l end.
Definition by_height (l : list p3) : list p3 := fold_right insert_z [] l.
Definition same_xy (p q : p3) : bool := if Req_EM_T (px p) (px q) then if Req_EM_T (py p) (py q) then true else false else false.
Fixpoint see (seen : list p3) (l : list p3) : list p3 :=
  match l with [] => [] | p :: r => if existsb (same_xy p) seen then see seen r else p :: see (p :: seen) r end.
Definition visible (l : lat) : list p3 := see [] (by_height (l_subs l)).

(** ** lattice.py:407-444 *)
Fixpoint pdist (l : list p3) : list R := match l with [] => [] | p :: r => map (fun q => norm (vsub p q)) r ++ pdist r end.
Definition positives (l : list R) : list R := filter (fun d => if Rlt_dec 0 d then true else false) l.
(** np.min; None: empty *)
Definition rmin (l : list R) : option R := match l with [] => None | x :: r => Some (fold_left Rmin r x) end.
(** scipy's pdist and len(visible) = 0 throw without a sublattice *)
Definition spacing (l : lat) : outcome R :=
  match l_subs l with
  | [] => Throw
  | _ => match rmin (positives (pdist (l_subs l))) with
         | Some d => Ok d
         | None => match rmin (map norm (l_vectors l)) with Some d => Ok d | None => Throw end
         end
  end.
Definition heuristic (l : lat) : outcome R :=
  match l_vectors l with
  | [] => Throw
  | [v] => Ok (12 / 100 * norm v)
  | [v1; v2] =>
      match length (visible l) with
      | O => Throw
      | n => let site_area := norm (cross v1 v2) / INR n in
             let magic := if (2 mod n =? 0)%nat then 35 / 100 else 42 / 100 in
             Ok (magic * sqrt (site_area / PI))
      end
  | vs => Ok (18 / 100 * (fold_right Rplus 0 (map norm vs) / 3))
  end.
Definition site_radius (l : lat) (max_fraction : R) : outcome R :=
  obind (heuristic l) (fun r1 => obind (spacing l) (fun s => Ok (Rmin r1 (max_fraction * s)))).

(** ** Limits of an axis: first and second end *)
Definition limits : Type := R * R.
(** pltutils.py:138-145 *)
Definition min_length (len : R) (a : limits) : limits :=
  let '(lo, hi) := a in
  if Rlt_dec (Rabs (hi - lo)) len then let center := (hi + lo) / 2 in (center - len / 2, center + len / 2) else a.
(** pltutils.py:155-167; with x = y = 0 both quotients are not a number *)
Definition min_ratio (ratio : R) (xa ya : limits) : limits * limits :=
  let x := (snd xa - fst xa) / 2 in
  let y := (snd ya - fst ya) / 2 in
  if (if Req_EM_T y 0 then false else if Rlt_dec (x / y) ratio then true else false)
  then let center := (snd xa + fst xa) / 2 in let lim := ratio * y in ((center - lim, center + lim), ya)
  else if (if Req_EM_T x 0 then false else if Rlt_dec (y / x) ratio then true else false)
  then let center := (snd ya + fst ya) / 2 in let lim := ratio * x in (xa, (center - lim, center + lim))
  else (xa, ya).
(** pltutils.py:180-183 *)
Definition margin (m : R) (a : limits) : limits := min_length (Rabs (snd a - fst a) * (1 + m)) a.
(** system.py:201-205 *)
Definition decorate (xa ya : limits) : limits * limits :=
  let (xa, ya) := min_ratio (4 / 10) (min_length (1 / 2) xa) (min_length (1 / 2) ya) in
  (margin (8 / 100) xa, margin (8 / 100) ya).

(** ** pltutils.py:333-346: one of the listed palettes; [colors] are all its colours *)
Definition get_palette {C} (colors : list C) (num_colors start : nat) : outcome (list C) :=
  let palette := firstn (Nat.min num_colors (length colors)) colors in
  (* islice(cycle(palette), start, start + num_colors): cycling through nothing ends at once *)
  if (length palette =? 0)%nat then Ok [] else
  (fix go (ks : list nat) : outcome (list C) := match ks with [] => Ok [] | k :: ks => obind (aget palette (k mod length palette)) (fun c => omap (cons c) (go ks)) end) (seq start num_colors).
