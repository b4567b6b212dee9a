(* The options of a structure plot on their way from the user to the drawing functions.

   Mirrors pybinding/utils/misc.py:24-39 (with_defaults), pybinding/system.py:159-193 (structure_plot_properties),
   447-490 (the calls of plot_periodic_boundaries) and pybinding/results.py:583-605 (Structure.plot),
   423-471 (StructureMap.plot).

   Dictionaries have strings as keys.  Option values are of any type.  What is drawn for a call is the subject of C96 and
   C112, decorations of the axes are left out. *)
From Verif Require Import Base.
From Coq Require Import String.
Import ListNotations.
Local Open Scope list_scope.

Section Options.
  Variable V : Type.
  (** A dictionary in the order of insertion; [dict(d, **o)] is [update d o]. *)
  Definition dict := list (string * V).
  Fixpoint get (d : dict) (k : string) : option V :=
    match d with [] => None | (x, v) :: r => if String.eqb x k then Some v else get r k end.
  Definition has (d : dict) (k : string) : bool := match get d k with Some _ => true | None => false end.
  (** [d[k] = v] *)
  Fixpoint set (d : dict) (k : string) (v : V) : dict :=
    match d with [] => [(k, v)] | (x, w) :: r => if String.eqb x k then (x, v) :: r else (x, w) :: set r k v end.
  Definition update (d o : dict) : dict := fold_left (fun d kv => set d (fst kv) (snd kv)) o d.
  (** [d.setdefault(k, v)] *)
  Definition setdefault (d : dict) (k : string) (v : V) : dict := if has d k then d else set d k v.

  (** misc.py:24-39; [None]: not given *)
  Definition with_defaults (options defaults_dict : option dict) (defaults_kwargs : dict) : dict :=
    let options := match options with Some o => o | None => [] end in
    let options := match defaults_dict with Some (kv :: d) => update (kv :: d) options | _ => options end in
    update defaults_kwargs options.

  (** The arguments of [structure_plot_properties]; [a_sites] and [a_hoppings] are the plural forms, [Some None] if given as
      [None]; [a_rest]: any other keyword *)
  Record args := Args { a_axes : option V; a_site : option dict; a_hopping : option dict; a_boundary : option dict;
                        a_sites : option (option dict); a_hoppings : option (option dict); a_rest : dict }.
  Record props := Props { p_axes : V; p_margin : V; p_site : dict; p_hopping : dict; p_boundary : dict }.
  (** The values that are written in the program: 'xyz', True, '#f40a0c', '#bbbbbb', 0.5 *)
  Record values := Values { v_xyz : V; v_true : V; v_red : V; v_gray : V; v_half : V }.
  Variable c : values.

  (** system.py:159-193 *)
  Definition properties (a : args) : outcome props :=
    let axes := match a_axes a with Some x => x | None => v_xyz c end in
    let site := match a_sites a with Some s => s | None => a_site a end in
    let hopping := match a_hoppings a with Some h => h | None => a_hopping a end in
    if existsb (fun kv => negb (String.eqb (fst kv) "add_margin")) (a_rest a) then Throw
    else
      let hop := with_defaults hopping None [("axes"%string, axes)] in
      Ok (Props axes (match get (a_rest a) "add_margin" with Some m => m | None => v_true c end)
                (with_defaults site None [("axes"%string, axes)]) hop
                (with_defaults (a_boundary a) (Some hop) [("color"%string, v_red c)])).
  (** The call [f( **props)] *)
  Definition keywords (p : props) : args :=
    Args (Some (p_axes p)) (Some (p_site p)) (Some (p_hopping p)) (Some (p_boundary p)) None None [("add_margin"%string, p_margin p)].

  (** A call of a drawing function.  The first two parameters are given by position, those of [fixed] by name; giving one of
      them again raises a TypeError. *)
  Inductive fn := PlotSites | PlotHoppings.
  Record draw := Draw { d_fn : fn; d_opts : dict }.
  Definition positional (f : fn) : list string :=
    match f with PlotSites => ["positions"; "data"]%string | PlotHoppings => ["positions"; "hoppings"]%string end.
  Definition call (f : fn) (fixed opts : dict) : outcome draw :=
    if existsb (has opts) (positional f ++ map fst fixed) then Throw else Ok (Draw f (fixed ++ opts)).
  (** Calls one after the other *)
  Fixpoint calls (l : list (outcome draw)) : outcome (list draw) :=
    match l with [] => Ok [] | x :: r => obind x (fun d => omap (cons d) (calls r)) end.

  (** One level of repetition: the blend, the shifts of the cells, and for every call for boundary hoppings the shift with
      the value of [boundary].  Which ones they are is the subject of C96. *)
  Record level := Level { l_blend : V; l_shifts : list V; l_bonds : list (V * V) }.
  (** system.py:467-490 *)
  Definition cells (p : props) (l : level) : list (outcome draw) :=
    flat_map (fun s => [call PlotSites [("offset"%string, s)] (update [("blend"%string, l_blend l)] (p_site p));
                        call PlotHoppings [("offset"%string, s)] (update [("blend"%string, l_blend l)] (p_hopping p))]) (l_shifts l).
  Definition bonds (p : props) (l : level) : list (outcome draw) :=
    map (fun sb => call PlotHoppings [("offset"%string, fst sb); ("boundary"%string, snd sb)]
                        (update [("blend"%string, l_blend l)] (p_boundary p))) (l_bonds l).
  Definition periodic (levels : list level) (a : args) : outcome (list draw) :=
    obind (properties a) (fun p => calls (flat_map (cells p) levels ++ flat_map (bonds p) levels)).

  (** results.py:583-605; [radius] is [None] without an attribute [lattice] *)
  Definition plot_structure (radius : option V) (levels : list level) (a : args) : outcome (list draw) :=
    obind (properties a) (fun p =>
    let site := match radius with Some r => setdefault (p_site p) "radius" r | None => p_site p end in
    let p := Props (p_axes p) (p_margin p) site (p_hopping p) (p_boundary p) in
    obind (calls [call PlotHoppings [] (p_hopping p); call PlotSites [] (p_site p)]) (fun home =>
    omap (app home) (periodic levels (keywords p)))).

  (** results.py:423-471 *)
  Definition plot_map (radius cmap : V) (levels : list level) (a : args) : outcome (list draw) :=
    obind (properties a) (fun p =>
    let site := with_defaults (Some (p_site p)) None [("radius"%string, radius); ("cmap"%string, cmap)] in
    let hop := with_defaults (Some (p_hopping p)) None [("color"%string, v_gray c)] in
    obind (calls [call PlotSites [] site; call PlotHoppings [] hop]) (fun home =>
    let p := Props (p_axes p) (p_margin p) (set site "alpha" (v_half c)) (set hop "alpha" (v_half c)) (p_boundary p) in
    omap (app home) (periodic levels (keywords p)))).
End Options.
Arguments get {V}. Arguments has {V}. Arguments set {V}. Arguments update {V}. Arguments setdefault {V}. Arguments with_defaults {V}.
Arguments Args {V}. Arguments a_axes {V}. Arguments a_site {V}. Arguments a_hopping {V}. Arguments a_boundary {V}.
Arguments a_sites {V}. Arguments a_hoppings {V}. Arguments a_rest {V}.
Arguments Props {V}. Arguments p_axes {V}. Arguments p_margin {V}. Arguments p_site {V}. Arguments p_hopping {V}. Arguments p_boundary {V}.
Arguments Values {V}. Arguments v_xyz {V}. Arguments v_true {V}. Arguments v_red {V}. Arguments v_gray {V}. Arguments v_half {V}.
Arguments properties {V}. Arguments keywords {V}. Arguments Draw {V}. Arguments d_fn {V}. Arguments d_opts {V}. Arguments call {V}. Arguments calls {V}.
Arguments Level {V}. Arguments l_blend {V}. Arguments l_shifts {V}. Arguments l_bonds {V}. Arguments cells {V}. Arguments bonds {V}. Arguments periodic {V}.
Arguments plot_structure {V}. Arguments plot_map {V}.
